(** Proofs about slice, view, reshape and split. *)
From Verif Require Import Base DTypeModel ParamModel ParamSpec ParamProofs ParamMore TensorModel TensorSpec TensorProofs.
Local Open Scope Z_scope.

Lemma slice_dim_ok d st p : slice_in_range d p ->
  slice_dim d st p = ROk (slice_lo d p * st, slice_count d p, st * sl_step p).
Proof.
  unfold slice_in_range, slice_count, slice_lo, slice_hi, slice_dim. destruct p as [s e k].
  cbn [sl_start sl_end sl_step]. intros H.
  set (s' := if s =? kAll then 0 else s) in *.
  set (e' := if e =? kAll then d else e) in *.
  set (both := (s' <? 0) && negb (e' =? kAll) && (e' - s' =? 1)) in *.
  set (e2 := if both then e' + d else e') in *.
  set (s2 := if both then s' + d else s') in *.
  set (s3 := if s2 <? 0 then s2 + d else s2) in *.
  set (e3 := if e2 <? 0 then e2 + d else e2) in *.
  cbv beta zeta in *.
  set (lo := if s =? kAll then 0 else if s <? 0 then d + s else s) in *.
  set (hi := if e =? kAll then d else if (s =? -1) && (e =? 0) then d else if e <? 0 then d + e else e) in *.
  assert (E1 : s3 = lo /\ e3 = hi).
  { subst s3 e3 s2 e2 both s' e' lo hi. unfold kAll in *.
    destruct (Z.eqb_spec s 2147483633), (Z.eqb_spec e 2147483633);
    repeat match goal with
           | |- context [if ?b then _ else _] => destruct b eqn:?
           | H : context [if ?b then _ else _] |- _ => destruct b eqn:?
           end; lia. }
  destruct E1 as [-> ->].
  replace (k =? 0) with false by lia.
  destruct (Z.ltb_spec lo hi) as [Hl|Hl].
  - rewrite Z.quot_div_nonneg by lia. reflexivity.
  - replace (hi - lo + k - 1) with (k - 1) by lia. rewrite Z.div_small by lia. reflexivity.
Qed.

Lemma slice_dims_ok shape : forall stride ps, length stride = length shape ->
  Forall2 slice_in_range shape ps ->
  exists off st', slice_dims shape stride ps
    = ROk (off, map (fun x => slice_count (fst x) (snd x)) (combine shape ps), st') /\
    length st' = length shape /\
    (forall idx, length idx = length shape ->
       off + dot idx st' = dot (slice_source shape ps idx) stride).
Proof.
  induction shape as [|d ds IH]; intros [|st sts] ps Hl H; cbn [length] in Hl; try lia.
  - inversion H; subst. exists 0, []. cbn [slice_dims combine map]. repeat split; auto.
    intros [|] Hi; [reflexivity|discriminate].
  - inversion H as [|? p ? ps' Hp Hps]; subst.
    destruct (IH sts ps' ltac:(lia) Hps) as (off & st' & E & Hl' & Hd).
    cbn [slice_dims]. rewrite slice_dim_ok by auto. cbn [rbind]. rewrite E. cbn [rbind fst snd].
    eexists _, _. split; [reflexivity|]. split; [cbn [length]; lia|].
    intros [|i r] Hi; cbn [length] in Hi; try lia. cbn [dot slice_source].
    rewrite <- Hd by lia. ring.
Qed.

Lemma div_ceil_lt i n k : 0 < k -> 0 <= i -> i < (n + k - 1) / k -> i * k < n.
Proof.
  intros Hk Hi H. assert (H2 : (i + 1) * k <= n + k - 1).
  { assert (i + 1 <= (n + k - 1) / k) by lia.
    assert (k * ((n + k - 1) / k) <= n + k - 1) by (apply Z.mul_div_le; lia). nia. }
  lia.
Qed.
Lemma slice_source_ok shape ps : Forall2 slice_in_range shape ps -> forall idx,
  in_shape (map (fun x => slice_count (fst x) (snd x)) (combine shape ps)) idx ->
  in_shape shape (slice_source shape ps idx).
Proof.
  induction 1 as [|d p ds ps' Hp Hps IH]; intros idx Hi; cbn [combine map] in Hi.
  - inversion Hi; constructor.
  - destruct idx as [|i r]; [inversion Hi|]. apply in_shape_cons in Hi as [Hi Hr].
    cbn [slice_source]. apply in_shape_cons. split; [|apply IH; auto].
    cbn [fst snd] in Hi. unfold slice_count in Hi. destruct Hp as (H1 & H2 & H3 & _).
    assert (H5 := div_ceil_lt i (slice_hi d p - slice_lo d p) (sl_step p) ltac:(lia) ltac:(lia) ltac:(lia)).
    nia.
Qed.

Theorem slice_correct {A} (t : tns A) ps :
  tensor_ok t -> Forall2 slice_in_range (x_shape t) ps ->
  exists t', slice t ps = ROk t' /\ tensor_ok t' /\ x_buf t' = x_buf t /\
    x_shape t' = map (fun x => slice_count (fst x) (snd x)) (combine (x_shape t) ps) /\
    forall idx, in_shape (x_shape t') idx ->
      in_shape (x_shape t) (slice_source (x_shape t) ps idx) /\
      address (x_view t') idx = address (x_view t) (slice_source (x_shape t) ps idx) /\
      elem t' idx = elem t (slice_source (x_shape t) ps idx).
Proof.
  intros Hok Hps. destruct Hok as [o1 o2 o3 o4]. unfold x_shape, x_stride in *.
  destruct (slice_dims_ok (v_shape (x_view t)) (v_stride (x_view t)) ps ltac:(auto) Hps)
    as (off & st' & E & Hl' & Hd).
  assert (Hlen : length (v_shape (x_view t)) = length ps) by (clear -Hps; induction Hps; cbn [length]; auto).
  unfold slice, slice_view. unfold zlen. rewrite Hlen, Z.eqb_refl, E. cbn [rbind fst snd].
  unfold create_strided. unfold zlen. rewrite map_length, combine_length, Hl'.
  replace ((Z.of_nat (Nat.min _ (length ps)) <=? 16) && (Z.of_nat (length (v_shape (x_view t))) <=? 16)) with true by lia.
  cbn [rbind]. eexists. split; [reflexivity|]. cbn [x_view x_buf v_shape v_stride v_offset].
  assert (Key : forall idx, in_shape (map (fun x => slice_count (fst x) (snd x)) (combine (v_shape (x_view t)) ps)) idx ->
      in_shape (v_shape (x_view t)) (slice_source (v_shape (x_view t)) ps idx) /\
      address {| v_shape := map (fun x => slice_count (fst x) (snd x)) (combine (v_shape (x_view t)) ps);
                 v_stride := st'; v_offset := v_offset (x_view t) + off |} idx
      = address (x_view t) (slice_source (v_shape (x_view t)) ps idx)).
  { intros idx Hi. split; [apply slice_source_ok; auto|].
    rewrite !address_dot. cbn [v_offset v_stride]. rewrite <- Hd; [lia|].
    apply in_shape_length in Hi. rewrite map_length, combine_length in Hi. lia. }
  split; [|split; [reflexivity|split; [reflexivity|]]].
  - constructor; unfold x_shape, x_stride; cbn [x_view x_buf v_shape v_stride].
    + rewrite map_length, combine_length. lia.
    + rewrite map_length, combine_length. lia.
    + apply Forall_forall. intros x Hx. apply in_map_iff in Hx as ((d, p) & <- & Hx).
      cbn [fst snd]. assert (Hp : slice_in_range d p).
      { clear -Hps Hx. induction Hps; cbn [combine] in Hx; [contradiction|].
        destruct Hx as [E|Hx]; [injection E as <- <-; auto|auto]. }
      destruct Hp as (H1 & H2 & H3 & _). unfold slice_count. apply Z.div_pos; lia.
    + intros idx Hi. destruct (Key idx Hi) as [K1 K2]. rewrite K2. auto.
  - intros idx Hi. destruct (Key idx Hi) as [K1 K2]. split; [auto|]. split; [auto|]. unfold elem. rewrite <- K2. reflexivity.
Qed.

(* ---------------- view ---------------- *)
Lemma view_scan_spec l : forall i inf pr r, 0 <= i -> (inf = -1 \/ 0 <= inf < i) ->
  view_scan i l inf pr = ROk r ->
  Forall (fun d => d = -1 \/ 0 <= d) l /\
  snd r = pr * product (filter (fun d => negb (d =? -1)) l) /\
  ((fst r = inf /\ Forall (fun d => d <> -1) l) \/
   (inf = -1 /\ exists a b, l = a ++ -1 :: b /\ fst r = i + Z.of_nat (length a) /\
      Forall (fun d => d <> -1) a /\ Forall (fun d => d <> -1) b)).
Proof.
  induction l as [|d l IH]; intros i inf pr r Hi Hinf H; cbn [view_scan] in H.
  - apply ROk_inj in H. subst r. cbn [fst snd filter]. split; [constructor|].
    split; [unfold product; cbn; lia|]. left. split; auto.
  - destruct (Z.eqb_spec d (-1)) as [->|Hd].
    + destruct (Z.eqb_spec inf (-1)) as [->|]; [|discriminate].
      destruct (IH (i + 1) i pr r ltac:(lia) ltac:(lia) H) as (I1 & I2 & I3).
      split; [constructor; auto|]. split; [exact I2|].
      right. split; auto. destruct I3 as [[I4 I5]|[I4 _]]; [|lia].
      exists [], l. cbn [app length]. repeat split; auto. lia.
    + destruct (Z.leb_spec 0 d) as [Hp|]; [|discriminate].
      destruct (IH (i + 1) inf (pr * d) r ltac:(lia) ltac:(lia) H) as (I1 & I2 & I3).
      split; [constructor; auto|].
      split. { cbn [filter]. replace (d =? -1) with false by lia. cbn [negb]. rewrite product_cons, I2. ring. }
      destruct I3 as [[I4 I5]|(I4 & a & b & -> & I5 & I6 & I7)]; [left; split; auto|].
      right. split; auto. exists (d :: a), b. cbn [app length]. repeat split; auto; lia.
Qed.
Lemma upd_nth_app {X} (a b : list X) x f : upd_nth (length a) f (a ++ x :: b) = a ++ f x :: b.
Proof. induction a as [|y a IH]; cbn [length app upd_nth]; [reflexivity|]. rewrite IH. reflexivity. Qed.
Lemma filter_ok_id l : Forall (fun d => d <> -1) l -> filter (fun d => negb (d =? -1)) l = l.
Proof. induction 1 as [|d l Hd H IH]; cbn [filter]; auto. replace (d =? -1) with false by lia. cbn [negb]. rewrite IH. reflexivity. Qed.
Lemma filter_none l : Forall (fun d => d <> -1) l -> filter (Z.eqb (-1)) l = [].
Proof. induction 1 as [|d l Hd H IH]; cbn [filter]; auto. replace (-1 =? d) with false by lia. exact IH. Qed.

Lemma actual_shape_spec n wanted shape : 0 <= n ->
  actual_shape n wanted = ROk shape ->
  resolves n wanted shape /\ Forall (fun d => 0 <= d) shape.
Proof.
  intros Hn. unfold actual_shape. destruct (view_scan 0 wanted (-1) 1) as [r| | |] eqn:E; cbn [rbind]; try discriminate.
  destruct (view_scan_spec wanted 0 (-1) 1 r ltac:(lia) ltac:(lia) E) as (I1 & I2 & I3).
  destruct (Z.eqb_spec (fst r) (-1)) as [Hr|Hr].
  - cbn [rbind]. destruct (Z.eqb_spec n (numel wanted)) as [Hw|]; [|discriminate].
    intro H. apply ROk_inj in H. subst shape. rewrite numel_product in Hw.
    destruct I3 as [[_ I4]|(_ & a & b & _ & I5 & _)]; [|lia].
    split; [|rewrite Forall_forall in *; intros d Hd; specialize (I1 d Hd); specialize (I4 d Hd); lia].
    split; [auto|]. split; [auto|].
    split; [clear; induction wanted; constructor; auto|]. rewrite filter_none by auto. cbn; lia.
  - destruct I3 as [[I4 _]|(_ & a & b & -> & I5 & I6 & I7)]; [lia|].
    destruct (Z.eqb_spec (snd r) 0) as [|Hz]; cbn [rbind]; [discriminate|].
    destruct (Z.eqb_spec (n mod snd r) 0) as [Hm|]; cbn [rbind]; [|discriminate].
    unfold vset. unfold zlen. rewrite app_length. cbn [length].
    replace ((0 <=? fst r) && _) with true by lia. cbn [rbind].
    replace (Z.to_nat (fst r)) with (length a) by lia. rewrite upd_nth_app.
    match goal with |- (if n =? numel ?s then _ else _) = _ -> _ => destruct (Z.eqb_spec n (numel s)) as [Hw|] end; [|discriminate].
    intro H. apply ROk_inj in H. subst shape. rewrite numel_product in Hw.
    assert (Hpos : 0 <= snd r).
    { rewrite I2. apply Z.mul_nonneg_nonneg; [lia|]. apply product_nonneg. apply Forall_forall.
      intros d Hd. apply filter_In in Hd as [Hd Hd2]. rewrite Forall_forall in I1. specialize (I1 d Hd). lia. }
    assert (Hq : 0 <= n / snd r) by (apply Z.div_pos; lia).
    apply Forall_app in I1 as [Ia Ib]. inversion Ib as [|? ? _ Ib2]; subst.
    split.
    + split; [rewrite !app_length; reflexivity|]. split; [auto|].
      split. { apply Forall2_app; [clear; induction a; constructor; auto|]. constructor; [auto|]. clear; induction b; constructor; auto. }
      rewrite filter_app, filter_none by auto. cbn [filter app]. rewrite (filter_none b) by auto. cbn. lia.
    + apply Forall_app. split; [|constructor; [auto|]].
      * rewrite Forall_forall in *. intros d Hd. specialize (Ia d Hd). specialize (I6 d Hd). lia.
      * rewrite Forall_forall in *. intros d Hd. specialize (Ib2 d Hd). specialize (I7 d Hd). lia.
Qed.

Theorem to_view_correct {A} (t t' : tns A) wanted :
  tensor_ok t -> to_view t wanted = ROk t' ->
  resolves (product (x_shape t)) wanted (x_shape t') /\
  x_buf t' = x_buf t /\ contents t' = contents t /\
  length (x_stride t') = length (x_shape t') /\
  Forall (fun d => 0 <= d) (x_shape t') /\
  (forall idx, in_shape (x_shape t') idx -> 0 <= address (x_view t') idx < b_len (x_buf t')) /\
  (is_contiguous (x_view t) = true -> contiguous t').
Proof.
  intros [o1 o2 o3 o4]. unfold to_view, view_view.
  destruct (actual_shape (numel (v_shape (x_view t))) wanted) as [shape| | |] eqn:E; cbn [rbind]; try discriminate.
  assert (Hn : 0 <= product (x_shape t)) by (apply product_nonneg; auto).
  rewrite numel_product in E. destruct (actual_shape_spec (product (v_shape (x_view t))) wanted shape Hn E) as [Hr Hd].
  unfold create_strided.
  destruct (list_eq_dec Z.eq_dec (v_shape (x_view t)) shape) as [<-|Hne].
  - destruct ((zlen _ <=? 16) && _); cbn [rbind]; [|discriminate].
    intro H. apply ROk_inj in H. subst t'. unfold x_shape, x_stride; cbn [x_view x_buf v_shape v_stride v_offset].
    split; [auto|]. split; [auto|]. split; [unfold contents, x_shape, elem; reflexivity|].
    split; [auto|]. split; [auto|]. split; [exact o4|]. intro Hc. apply is_contiguous_spec in Hc; auto.
  - rewrite view_contig_scan_eq. destruct (fst (contig_scan (v_shape (x_view t)) (v_stride (x_view t)))) eqn:Ec; [|discriminate].
    destruct ((zlen shape <=? 16) && _); cbn [rbind]; [|discriminate].
    intro H. apply ROk_inj in H. subst t'.
    rewrite view_strides_eq. fold (default_strides shape).
    assert (Hc : contiguous t) by (apply is_contiguous_spec; auto).
    set (t' := mkTns (mkV shape (default_strides shape) (v_offset (x_view t))) (x_buf t)).
    assert (Hc' : contiguous t') by apply default_strides_row_major.
    assert (Hp : product shape = product (x_shape t)) by apply Hr.
    split; [exact Hr|]. split; [reflexivity|].
    split. { rewrite !contents_contiguous by auto. unfold t'. unfold x_shape at 1, x_offset at 1. cbn [x_view x_buf v_shape v_offset]. rewrite Hp. reflexivity. }
    split; [apply default_strides_length|]. split; [exact Hd|]. split; [|auto].
    intros idx Hi. rewrite contiguous_address by (auto; apply in_shape_length; auto).
    assert (B := ravel_bounds _ _ Hi). change (product (x_shape t')) with (product shape) in B. rewrite Hp in B.
    destruct (unravel_spec (x_shape t) (ravel (x_shape t') idx)) as [U1 U2]; [auto|lia|].
    assert (O := o4 _ U1). rewrite contiguous_address in O by (auto; apply in_shape_length; auto).
    rewrite U2 in O. exact O.
Qed.

(** Acceptance: a target shape that resolves is accepted by a contiguous tensor. *)
Lemma view_scan_accepts l : forall i inf pr,
  Forall (fun d => 0 <= d) l -> view_scan i l inf pr = ROk (inf, pr * product l).
Proof.
  induction l as [|d l IH]; intros i inf pr H; cbn [view_scan].
  - f_equal. f_equal. unfold product; cbn; lia.
  - inversion H as [|? ? H1 H2]; subst. replace (d =? -1) with false by lia. replace (0 <=? d) with true by lia.
    rewrite IH by auto. rewrite product_cons. f_equal. f_equal. ring.
Qed.
Theorem to_view_accepts {A} (t : tns A) shape :
  tensor_ok t -> is_contiguous (x_view t) = true -> (length shape <= 16)%nat ->
  Forall (fun d => 0 <= d) shape -> product shape = product (x_shape t) ->
  exists t', to_view t shape = ROk t' /\ x_shape t' = shape.
Proof.
  intros [o1 o2 o3 o4] Hc Hl Hd Hp. unfold to_view, view_view, actual_shape.
  rewrite view_scan_accepts by auto. cbn [rbind fst snd]. replace (-1 =? -1) with true by lia. cbn [rbind].
  rewrite !numel_product. unfold x_shape in *. rewrite Hp, Z.eqb_refl. cbn [rbind].
  unfold create_strided, zlen. unfold x_stride in *.
  destruct (list_eq_dec Z.eq_dec (v_shape (x_view t)) shape) as [E|Hne].
  - replace ((Z.of_nat (length (v_shape (x_view t))) <=? 16) && _) with true by lia. cbn [rbind].
    eexists. split; [reflexivity|]. exact E.
  - rewrite view_contig_scan_eq. unfold is_contiguous in Hc. rewrite Hc.
    rewrite view_strides_eq. fold (default_strides shape). rewrite default_strides_length.
    replace ((Z.of_nat (length shape) <=? 16) && _) with true by lia. cbn [rbind].
    eexists. split; reflexivity.
Qed.
