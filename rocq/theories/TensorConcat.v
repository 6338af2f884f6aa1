(** Proofs about concat, stack and repeat. *)
From Verif Require Import Base DTypeModel ParamModel ParamSpec ParamProofs ParamMore TensorModel TensorSpec TensorProofs TensorViews TensorSplit.
Local Open Scope Z_scope.

Lemma firstn_with_coord d c l : firstn d (with_coord d c l) = firstn d l.
Proof. unfold with_coord. revert d. induction l as [|x l IH]; intros [|d]; cbn [upd_nth firstn]; auto. rewrite IH. auto. Qed.
Lemma skipn_with_coord d c l : skipn (S d) (with_coord d c l) = skipn (S d) l.
Proof.
  unfold with_coord. revert d. induction l as [|x l IH]; intros [|d]; auto.
  change (skipn (S d) (upd_nth d (fun _ => c) l) = skipn (S d) l). apply IH.
Qed.
Lemma agree_shape {A} d shape0 (t : tns A) : (d < length shape0)%nat -> agree_outside d shape0 t ->
  x_shape t = firstn d shape0 ++ nth d (x_shape t) 0 :: skipn (S d) shape0.
Proof.
  intros Hd [Hl Hn]. rewrite (list_at d (x_shape t) 0) at 1 by lia.
  assert (E : with_coord d 0 (x_shape t) = with_coord d 0 shape0).
  { apply (nth_ext _ _ 0 0).
    - rewrite !with_coord_length. auto.
    - intros n Hn2. destruct (Nat.eq_dec n d) as [->|Hne].
      + rewrite !nth_with_coord_eq by lia. reflexivity.
      + rewrite !nth_with_coord_ne by auto. auto. }
  rewrite <- (firstn_with_coord d 0 (x_shape t)), <- (skipn_with_coord d 0 (x_shape t)), E.
  rewrite firstn_with_coord, skipn_with_coord. reflexivity.
Qed.

(** The element of the concatenation at index [idx], [c] being the coordinate along
    d, looked up piece by piece. *)
Fixpoint locate {A} (d : nat) (ts : list (tns A)) (c : Z) (idx : list Z) : option A :=
  match ts with
  | [] => None
  | t :: r => if c <? nth d (x_shape t) 0 then elem t (with_coord d c idx)
              else locate d r (c - nth d (x_shape t) 0) idx
  end.
Lemma locate_at {A} d (before : list (tns A)) t after c idx :
  Forall (fun e => 0 <= e) (extents d before) -> 0 <= c < nth d (x_shape t) 0 ->
  locate d (before ++ t :: after) (total (extents d before) + c) idx = elem t (with_coord d c idx).
Proof.
  intros H Hc. induction before as [|b before IH]; cbn [app locate extents map total fold_right].
  - replace (0 + c <? _) with true by lia. reflexivity.
  - cbn [extents map] in H. inversion H as [|? ? H1 H2]; subst.
    assert (0 <= total (extents d before)) by (apply total_nonneg; auto).
    change (fold_right Z.add 0 _) with (total (extents d before)).
    replace (nth d (x_shape b) 0 + total (extents d before) + c <? nth d (x_shape b) 0) with false by lia.
    rewrite <- IH by auto. f_equal. lia.
Qed.

(** Inputs of concat/repeat that make sense. *)
Definition joinable {A} (d : nat) (shape0 : list Z) (ts : list (tns A)) : Prop :=
  (d < length shape0)%nat /\ Forall (fun t => tensor_ok t /\ agree_outside d shape0 t) ts.

Lemma sum_dims_ok {A} d (ts : list (tns A)) : Forall (fun t => (d < length (x_shape t))%nat) ts -> forall acc,
  sum_dims (Z.of_nat d) ts acc = ROk (acc + total (extents d ts)).
Proof.
  induction 1 as [|t ts Ht H IH]; intro acc; cbn [sum_dims extents map total fold_right].
  - f_equal. lia.
  - rewrite (vget_ok _ _ 0) by (unfold zlen; lia). cbn [rbind]. rewrite IH, Nat2Z.id. f_equal.
    unfold total, extents. lia.
Qed.
Lemma all_dims_ok (ref shape : list Z) d n : (n <= length ref)%nat -> length shape = length ref ->
  (forall i, i <> d -> nth i shape 0 = nth i ref 0) -> all_dims_match n (Z.of_nat d) ref shape = ROk true.
Proof.
  intros Hn Hl H. induction n as [|n IH]; [reflexivity|]. cbn [all_dims_match]. rewrite IH by lia. cbn [rbind negb].
  destruct (Z.eqb_spec (Z.of_nat n) (Z.of_nat d)) as [|Hne]; [reflexivity|].
  rewrite !(vget_ok _ _ 0) by (unfold zlen; lia). cbn [rbind]. rewrite Nat2Z.id, H by lia. rewrite Z.eqb_refl. reflexivity.
Qed.
Lemma all_dims_inv (ref shape : list Z) d n : (n <= length ref)%nat ->
  all_dims_match n (Z.of_nat d) ref shape = ROk true ->
  forall i, (i < n)%nat -> i <> d -> nth i shape 0 = nth i ref 0 /\ (i < length shape)%nat.
Proof.
  intros Hn. induction n as [|n IH]; intros H i Hi Hne; [lia|]. cbn [all_dims_match] in H.
  destruct (all_dims_match n (Z.of_nat d) ref shape) as [[]| | |] eqn:E; cbn [rbind negb] in H; try discriminate.
  destruct (Nat.eq_dec i n) as [->|]; [|apply IH; auto; lia].
  replace (Z.of_nat n =? Z.of_nat d) with false in H by lia.
  destruct (vget ref (Z.of_nat n)) as [x| | |] eqn:E1; cbn [rbind] in H; try discriminate.
  destruct (vget shape (Z.of_nat n)) as [y| | |] eqn:E2; cbn [rbind] in H; try discriminate.
  apply ROk_inj in H. apply vget_inv in E1 as [_ E1]. apply vget_inv in E2 as [B2 E2].
  rewrite Nat2Z.id in *. rewrite E1, E2. unfold zlen in B2. lia.
Qed.
Lemma all_match_ok {A} d (ref : list Z) (ts : list (tns A)) : Forall (agree_outside d ref) ts ->
  all_match (Z.of_nat d) ref ts = ROk true.
Proof.
  induction 1 as [|t ts [H1 H2] H IH]; [reflexivity|]. cbn [all_match].
  rewrite all_dims_ok by auto. cbn [rbind]. exact IH.
Qed.

Section Concat.
Context {A : Type}.
Variables (d : nat) (t0 : tns A) (r : list (tns A)).
Let ts := t0 :: r.
Let shape0 := x_shape t0.
Let pre := firstn d shape0.
Let post := skipn (S d) shape0.
Let T := total (extents d ts).
Let outshape := pre ++ T :: post.
Hypothesis Hd : (d < length shape0)%nat.
Hypothesis Hts : Forall (fun t => tensor_ok t /\ agree_outside d shape0 t) ts.

Let G : Z -> option A := fun pos => let idx := unravel outshape pos in locate d ts (nth d idx 0) idx.

Lemma pre_len : length pre = d.
Proof. unfold pre. rewrite firstn_length. lia. Qed.
Lemma pre_nonneg : Forall (fun x => 0 <= x) pre /\ Forall (fun x => 0 <= x) post.
Proof.
  assert (H0 : tensor_ok t0) by (inversion Hts; tauto). destruct H0 as [_ _ o3 _]. fold shape0 in o3.
  rewrite (list_at d shape0 0) in o3 by auto. apply Forall_app in o3 as [H1 H2]. inversion H2; auto.
Qed.
Lemma ext_nonneg t : In t ts -> 0 <= nth d (x_shape t) 0.
Proof.
  intro Hi. rewrite Forall_forall in Hts. destruct (Hts t Hi) as [[_ _ o3 _] [Hl _]].
  rewrite Forall_forall in o3. apply o3. apply nth_In. lia.
Qed.
Lemma exts_nonneg l : incl l ts -> Forall (fun e => 0 <= e) (extents d l).
Proof.
  intro H. apply Forall_forall. intros e He. apply in_map_iff in He as (t & <- & Ht). apply ext_nonneg. auto.
Qed.
Lemma T_split before t after : ts = before ++ t :: after ->
  T = total (extents d before) + nth d (x_shape t) 0 + total (extents d after) /\
  0 <= total (extents d before) /\ 0 <= total (extents d after) /\ 0 <= nth d (x_shape t) 0.
Proof.
  intro E. unfold T. rewrite E. unfold extents. rewrite map_app, total_app. cbn [map].
  unfold total at 2. cbn [fold_right]. fold (total (map (fun t => nth d (x_shape t) 0) after)).
  fold (extents d before) (extents d after).
  assert (Hin : forall l, incl l ts -> 0 <= total (extents d l)).
  { intros l Hl. apply total_nonneg. apply exts_nonneg. auto. }
  split; [lia|]. split; [apply Hin; rewrite E; apply incl_appl, incl_refl|].
  split; [apply Hin; rewrite E; apply incl_appr, incl_tl, incl_refl|].
  apply ext_nonneg. rewrite E. apply in_or_app. right. left. auto.
Qed.
Lemma shape_of before t after : ts = before ++ t :: after ->
  x_shape t = pre ++ nth d (x_shape t) 0 :: post /\ tensor_ok t.
Proof.
  intro E. rewrite Forall_forall in Hts. destruct (Hts t) as [H1 H2].
  { rewrite E. apply in_or_app. right. left. auto. }
  split; auto. apply agree_shape; auto.
Qed.
(** The value prescribed at the position of an index of piece [t]. *)
Lemma G_at before t after a x b : ts = before ++ t :: after ->
  length a = d -> in_shape pre a -> 0 <= x < nth d (x_shape t) 0 -> in_shape post b ->
  in_shape outshape (a ++ (total (extents d before) + x) :: b) /\
  G (ravel outshape (a ++ (total (extents d before) + x) :: b)) = elem t (a ++ x :: b) /\
  in_shape (x_shape t) (a ++ x :: b).
Proof.
  intros E La Ha Hx Hb. destruct (T_split before t after E) as (H1 & H2 & H3 & H4).
  destruct (shape_of before t after E) as [Hs _].
  assert (Hin : in_shape outshape (a ++ (total (extents d before) + x) :: b)).
  { unfold outshape. apply in_shape_app; [rewrite pre_len; auto|]. split; auto. apply in_shape_cons. split; [lia|auto]. }
  split; [auto|]. split.
  - unfold G. rewrite unravel_ravel by auto. rewrite nth_mid by auto. rewrite E.
    rewrite locate_at; [rewrite with_coord_app by auto; reflexivity| |auto].
    apply exts_nonneg. rewrite E. apply incl_appl, incl_refl.
  - rewrite Hs. apply in_shape_app; [rewrite pre_len; auto|]. split; auto. apply in_shape_cons. auto.
Qed.
Lemma product_out : product outshape = product pre * (T * product post).
Proof. unfold outshape. rewrite product_app, product_cons. reflexivity. Qed.

(** What has been written once the pieces before [before] are done. *)
Definition covered_from (lo hi : Z) (pos : Z) : Prop :=
  0 <= pos < product outshape /\ lo <= nth d (unravel outshape pos) 0 < hi.

Lemma outshape_nonneg : Forall (fun x => 0 <= x) outshape.
Proof.
  unfold outshape. destruct pre_nonneg. apply Forall_app. split; auto. constructor; auto.
  unfold T. apply total_nonneg. apply exts_nonneg. apply incl_refl.
Qed.
Lemma covered_index lo hi pos : covered_from lo hi pos ->
  exists a x b, length a = d /\ in_shape pre a /\ lo <= x < hi /\ 0 <= x < T /\ in_shape post b /\ ravel outshape (a ++ x :: b) = pos.
Proof.
  intros [Hp Hc]. destruct (unravel_spec outshape pos outshape_nonneg Hp) as [U1 U2].
  assert (Hl := in_shape_length _ _ U1).
  assert (Hol : length outshape = length shape0).
  { unfold outshape, pre, post. rewrite app_length. cbn [length]. rewrite firstn_length, skipn_length. lia. }
  set (idx := unravel outshape pos) in *.
  exists (firstn d idx), (nth d idx 0), (skipn (S d) idx).
  assert (La : length (firstn d idx) = d) by (rewrite firstn_length; lia).
  rewrite (list_at d idx 0) in U1 by lia. unfold outshape in U1. apply in_shape_app in U1 as [I1 I2]; [|rewrite pre_len; auto].
  apply in_shape_cons in I2 as [I2 I3]. repeat split; auto; try lia.
  rewrite <- (list_at d idx 0) by lia. auto.
Qed.
Lemma covered_all lo hi : forall m, lo <= m <= hi -> forall pos, covered_from lo hi pos -> covered_from lo m pos \/ covered_from m hi pos.
Proof. intros m Hm pos [H1 H2]. unfold covered_from. destruct (Z_lt_le_dec (nth d (unravel outshape pos) 0) m); [left|right]; split; auto; lia. Qed.

(** Contiguous path: one piece. *)
Lemma concat_piece before t after (o : buf A) : ts = before ++ t :: after -> contiguous t ->
  b_len o = product outshape ->
  exists o', zloop (numel pre) (fun slice o =>
        memcpy (x_buf t) (x_offset t + slice * (nth d (x_shape t) 0 * numel post))
               (slice * (T * numel post) + total (extents d before) * numel post) (nth d (x_shape t) 0 * numel post) o) o = ROk o' /\
    good G (covered_from (total (extents d before)) (total (extents d before) + nth d (x_shape t) 0)) o o'.
Proof.
  intros E Hc Hl. destruct (T_split before t after E) as (H1 & H2 & H3 & H4).
  destruct (shape_of before t after E) as [Hs Hok]. destruct pre_nonneg as [Hpre Hpost].
  rewrite !numel_product. set (P := product pre) in *. set (Q := product post) in *.
  set (tb := total (extents d before)) in *. set (e := nth d (x_shape t) 0) in *.
  assert (HP : 0 <= P) by (apply product_nonneg; auto). assert (HQ : 0 <= Q) by (apply product_nonneg; auto).
  (* a position in the chunk *)
  assert (Hpos : forall slice k, 0 <= slice < P -> 0 <= k < e * Q ->
     exists a x b, length a = d /\ in_shape pre a /\ 0 <= x < e /\ in_shape post b /\
        ravel outshape (a ++ (tb + x) :: b) = slice * (T * Q) + tb * Q + k /\
        address (x_view t) (a ++ x :: b) = x_offset t + slice * (e * Q) + k).
  { intros slice k Hsl Hk. assert (HQ2 : 0 < Q) by nia.
    exists (unravel pre slice), (k / Q), (unravel post (k mod Q)).
    destruct (unravel_spec pre slice Hpre Hsl) as [U1 U2].
    assert (Hm := Z.mod_pos_bound k Q HQ2).
    destruct (unravel_spec post (k mod Q) Hpost Hm) as [V1 V2].
    assert (Hdiv := Z_div_mod_eq_full k Q).
    assert (La : length (unravel pre slice) = length pre) by apply unravel_length.
    split; [rewrite La; apply pre_len|]. split; [auto|].
    split; [split; [apply Z.div_pos; lia|apply Z.div_lt_upper_bound; lia]|].
    split; [auto|]. split.
    - unfold outshape. rewrite ravel_app by auto. cbn [ravel]. rewrite U2, V2. rewrite product_cons. fold Q. nia.
    - rewrite contiguous_address; auto.
      + rewrite Hs. rewrite ravel_app by auto. cbn [ravel]. rewrite U2, V2, product_cons. fold Q. nia.
      + rewrite Hs, !app_length. cbn [length]. rewrite La, unravel_length. reflexivity. }
  destruct (good_loop G P (fun slice pos => slice * (T * Q) + tb * Q <= pos < slice * (T * Q) + tb * Q + e * Q)
     (fun slice o => memcpy (x_buf t) (x_offset t + slice * (e * Q)) (slice * (T * Q) + tb * Q) (e * Q) o) o (product outshape) Hl)
     as (o' & E' & HG).
  { intros slice b Hsl Hb. apply good_memcpy.
    - intro Hpos0. destruct Hok as [_ _ _ o4].
      destruct (Hpos slice 0 Hsl ltac:(lia)) as (a & x & bb & L1 & L2 & L3 & L4 & L5 & L6).
      destruct (Hpos slice (e * Q - 1) Hsl ltac:(lia)) as (a' & x' & bb' & M1 & M2 & M3 & M4 & M5 & M6).
      destruct (G_at before t after a x bb E L1 L2 L3 L4) as (_ & _ & I1).
      destruct (G_at before t after a' x' bb' E M1 M2 M3 M4) as (_ & _ & I2).
      apply o4 in I1, I2. lia.
    - intro Hpos0. rewrite Hb, product_out. fold P Q.
      assert (HT : 0 <= T) by lia.
      assert (F0 : 0 <= T * Q) by (apply Z.mul_nonneg_nonneg; lia).
      assert (F1 : (slice + 1) * (T * Q) <= P * (T * Q)) by (apply Z.mul_le_mono_nonneg_r; lia).
      assert (F2 : (tb + e) * Q <= T * Q) by (apply Z.mul_le_mono_nonneg_r; lia).
      assert (F3 : 0 <= slice * (T * Q)) by (apply Z.mul_nonneg_nonneg; lia).
      assert (F4 : 0 <= tb * Q) by (apply Z.mul_nonneg_nonneg; lia). lia.
    - intros k Hk. destruct (Hpos slice k Hsl Hk) as (a & x & bb & L1 & L2 & L3 & L4 & L5 & L6).
      destruct (G_at before t after a x bb E L1 L2 L3 L4) as (_ & I & _). fold tb in I. rewrite L5 in I. rewrite I.
      unfold elem. rewrite L6. reflexivity. }
  exists o'. split; [exact E'|]. eapply good_weaken; [|exact HG]. cbn beta. intros pos Hcov.
  destruct (covered_index _ _ _ Hcov) as (a & y & bb & L1 & L2 & L3 & L4 & L5 & L6).
  exists (ravel pre a). assert (R1 := ravel_bounds _ _ L2). assert (R2 := ravel_bounds _ _ L5). fold P in R1. fold Q in R2.
  split; [lia|]. rewrite <- L6. unfold outshape. rewrite ravel_app by (rewrite pre_len; auto). cbn [ravel].
  rewrite product_cons. fold Q. nia.
Qed.

Lemma concat_contig_each rest : forall before (o : buf A),
  ts = before ++ rest -> Forall (fun t => contiguous t) ts -> b_len o = product outshape ->
  exists o', each rest (fun t s =>
    do cur <- vget (x_shape t) (Z.of_nat d);
    do o <- zloop (numel pre) (fun slice o =>
        memcpy (x_buf t) (x_offset t + slice * (cur * numel post))
               (slice * (T * numel post) + snd s * numel post) (cur * numel post) o) (fst s);
    ROk (o, snd s + cur)) (o, total (extents d before)) = ROk (o', T) /\
    good G (covered_from (total (extents d before)) T) o o'.
Proof.
  induction rest as [|t after IH]; intros before o E Hc Hl.
  - exists o. rewrite app_nil_r in E. cbn [each]. unfold T. rewrite E. split; [reflexivity|].
    eapply good_weaken; [|apply good_refl]. intros pos [_ H]. lia.
  - destruct (T_split before t after E) as (H1 & H2 & H3 & H4).
    destruct (shape_of before t after E) as [Hs Hok].
    assert (Hct : contiguous t).
    { rewrite Forall_forall in Hc. apply Hc. rewrite E. apply in_or_app. right. left. auto. }
    destruct (concat_piece before t after o E Hct Hl) as (o1 & E1 & G1).
    cbn [each fst snd].
    assert (Hlt : (d < length (x_shape t))%nat).
    { rewrite Hs, app_length, pre_len. cbn [length]. lia. }
    rewrite (vget_ok _ _ 0) by (unfold zlen; lia). cbn [rbind]. rewrite Nat2Z.id. rewrite E1. cbn [rbind].
    destruct (IH (before ++ [t]) o1) as (o2 & E2 & G2).
    { rewrite <- app_assoc. exact E. }
    { exact Hc. }
    { rewrite (g_len _ _ _ _ G1). exact Hl. }
    assert (Ht : total (extents d (before ++ [t])) = total (extents d before) + nth d (x_shape t) 0).
    { unfold extents. rewrite map_app, total_app. cbn [map]. unfold total at 2. cbn [fold_right]. lia. }
    rewrite Ht in E2, G2. exists o2. split; [exact E2|].
    eapply good_weaken; [|eapply good_trans; [exact G1|exact G2]]. cbn beta.
    intros pos Hp. apply covered_all; auto. lia.
Qed.

(** Element-by-element path. *)
Lemma at_store_good (o : tns A) idx x :
  x_view o = mkV outshape (default_strides outshape) 0 -> b_len (x_buf o) = product outshape ->
  in_shape outshape idx -> x = G (ravel outshape idx) ->
  exists o', at_store o idx x = ROk o' /\ x_view o' = x_view o /\ good G (eq (ravel outshape idx)) (x_buf o) (x_buf o').
Proof.
  intros Hv Hl Hi Hx. unfold at_store, offsetted, zlen. rewrite Hv. cbn [v_shape v_offset v_stride].
  rewrite (in_shape_length _ _ Hi), Z.eqb_refl. cbn [rbind]. rewrite dot_ravel by (apply in_shape_length; auto).
  assert (B := ravel_bounds _ _ Hi). replace (0 + ravel outshape idx) with (ravel outshape idx) by lia.
  destruct (good_store G (x_buf o) (ravel outshape idx) x ltac:(lia) Hx) as (b' & E & HG).
  rewrite E. cbn [rbind]. eexists. split; [reflexivity|]. cbn [x_view x_buf]. split; auto.
Qed.
(** Loops over tensors whose view does not change. *)
Definition keeps (o : tns A) : Prop :=
  x_view o = mkV outshape (default_strides outshape) 0 /\ b_len (x_buf o) = product outshape.
Lemma good_tloop n (P : Z -> Z -> Prop) body o :
  keeps o ->
  (forall i o, 0 <= i < n -> keeps o -> exists o', body i o = ROk o' /\ x_view o' = x_view o /\ good G (P i) (x_buf o) (x_buf o')) ->
  exists o', zloop n body o = ROk o' /\ keeps o' /\ good G (fun p => exists i, 0 <= i < n /\ P i p) (x_buf o) (x_buf o').
Proof.
  intros Hk Hb. destruct (Z_le_gt_dec n 0) as [Hn|Hn].
  - rewrite zloop_0 by auto. exists o. split; [auto|]. split; [auto|].
    eapply good_weaken; [|apply good_refl]. intros p (i & Hi & _). lia.
  - destruct (zloop_inv (fun k o' => keeps o' /\ good G (fun p => exists i, 0 <= i < k /\ P i p) (x_buf o) (x_buf o')) n body o)
      as (o' & E & HG); [lia| | |exists o'; tauto].
    + split; auto. eapply good_weaken; [|apply good_refl]. intros p (i & Hi & _). lia.
    + intros i o1 Hi [K1 H1]. destruct (Hb i o1 Hi K1) as (o2 & E2 & V2 & G2).
      exists o2. split; auto. split.
      { destruct K1 as [K1 K2]. split; [congruence|]. rewrite (g_len _ _ _ _ G2). auto. }
      eapply good_weaken; [|eapply good_trans; eauto].
      intros p (j & Hj & Pj). destruct (Z.eq_dec j i) as [->|]; auto.
      left. exists j. split; [lia|auto].
Qed.

Lemma concat_strided_piece before t after (o : tns A) : ts = before ++ t :: after -> keeps o ->
  exists o', zloop (numel (x_shape t)) (fun j o =>
        let idx := unravel (x_shape t) j in
        do c <- vget idx (Z.of_nat d);
        do oidx <- vset idx (Z.of_nat d) (total (extents d before) + c);
        do x <- at_load t idx;
        at_store o oidx x) o = ROk o' /\ keeps o' /\
    good G (covered_from (total (extents d before)) (total (extents d before) + nth d (x_shape t) 0)) (x_buf o) (x_buf o').
Proof.
  intros E Hk. destruct (T_split before t after E) as (H1 & H2 & H3 & H4).
  destruct (shape_of before t after E) as [Hs Hok].
  set (tb := total (extents d before)) in *.
  assert (Hlt : (d < length (x_shape t))%nat).
  { rewrite Hs, app_length, pre_len. cbn [length]. lia. }
  destruct (good_tloop (numel (x_shape t))
    (fun j pos => pos = ravel outshape (with_coord d (tb + nth d (unravel (x_shape t) j) 0) (unravel (x_shape t) j)))
    (fun j o =>
        let idx := unravel (x_shape t) j in
        do c <- vget idx (Z.of_nat d);
        do oidx <- vset idx (Z.of_nat d) (tb + c);
        do x <- at_load t idx;
        at_store o oidx x) o Hk) as (o' & E' & K' & G').
  - intros j o1 Hj K1. cbv zeta. rewrite numel_product in Hj.
    assert (Hnn : Forall (fun x => 0 <= x) (x_shape t)) by apply Hok.
    destruct (unravel_spec (x_shape t) j Hnn Hj) as [U1 U2].
    set (idx := unravel (x_shape t) j) in *.
    assert (Li := in_shape_length _ _ U1).
    rewrite (vget_ok _ _ 0) by (unfold zlen; lia). cbn [rbind].
    rewrite vset_ok by (unfold zlen; lia). cbn [rbind]. rewrite at_load_ok by auto. cbn [rbind]. rewrite Nat2Z.id.
    change (upd_nth d _ idx) with (with_coord d (tb + nth d idx 0) idx).
    assert (La : length (firstn d idx) = d) by (rewrite firstn_length; lia).
    rewrite (list_at d idx 0) in U1 by lia. rewrite Hs in U1.
    apply in_shape_app in U1 as [I1 I2]; [|rewrite pre_len; auto]. apply in_shape_cons in I2 as [I2 I3].
    destruct (G_at before t after _ _ _ E La I1 I2 I3) as (J1 & J2 & J3). fold tb in J1, J2.
    rewrite <- (with_coord_app d (tb + nth d idx 0) _ (nth d idx 0)) in J1, J2 by auto.
    rewrite <- (list_at d idx 0) in J1, J2 by lia.
    destruct K1 as [K1 K2].
    destruct (at_store_good o1 (with_coord d (tb + nth d idx 0) idx) (elem t idx)) as (o2 & E2 & V2 & G2); auto.
    exists o2. split; auto. split; auto. eapply good_weaken; [|exact G2]. cbn beta. auto.
  - exists o'. split; [exact E'|]. split; [auto|]. eapply good_weaken; [|exact G']. cbn beta. intros pos Hcov.
    destruct (covered_index _ _ _ Hcov) as (a & y & bb & L1 & L2 & L3 & L4 & L5 & L6).
    assert (Hin : in_shape (x_shape t) (a ++ (y - tb) :: bb)).
    { rewrite Hs. apply in_shape_app; [rewrite pre_len; auto|]. split; auto. apply in_shape_cons. split; auto. lia. }
    exists (ravel (x_shape t) (a ++ (y - tb) :: bb)).
    assert (B := ravel_bounds _ _ Hin). rewrite numel_product. split; [lia|].
    rewrite unravel_ravel by auto. rewrite nth_mid, with_coord_app by auto. rewrite <- L6. f_equal. f_equal. f_equal. lia.
Qed.
Lemma concat_strided_each rest : forall before (o : tns A),
  ts = before ++ rest -> keeps o ->
  exists o', each rest (fun t s =>
    do cur <- vget (x_shape t) (Z.of_nat d);
    do o <- zloop (numel (x_shape t)) (fun j o =>
        let idx := unravel (x_shape t) j in
        do c <- vget idx (Z.of_nat d);
        do oidx <- vset idx (Z.of_nat d) (snd s + c);
        do x <- at_load t idx;
        at_store o oidx x) (fst s);
    ROk (o, snd s + cur)) (o, total (extents d before)) = ROk (o', T) /\ keeps o' /\
    good G (covered_from (total (extents d before)) T) (x_buf o) (x_buf o').
Proof.
  induction rest as [|t after IH]; intros before o E Hk.
  - exists o. rewrite app_nil_r in E. cbn [each]. unfold T. rewrite E. split; [reflexivity|]. split; auto.
    eapply good_weaken; [|apply good_refl]. intros pos [_ H]. lia.
  - destruct (T_split before t after E) as (H1 & H2 & H3 & H4).
    destruct (shape_of before t after E) as [Hs Hok].
    destruct (concat_strided_piece before t after o E Hk) as (o1 & E1 & K1 & G1).
    cbn [each fst snd].
    assert (Hlt : (d < length (x_shape t))%nat).
    { rewrite Hs, app_length, pre_len. cbn [length]. lia. }
    rewrite (vget_ok _ _ 0) by (unfold zlen; lia). cbn [rbind]. rewrite Nat2Z.id. cbv zeta in E1 |- *. rewrite E1. cbn [rbind].
    destruct (IH (before ++ [t]) o1) as (o2 & E2 & K2 & G2).
    { rewrite <- app_assoc. exact E. }
    { exact K1. }
    assert (Ht : total (extents d (before ++ [t])) = total (extents d before) + nth d (x_shape t) 0).
    { unfold extents. rewrite map_app, total_app. cbn [map]. unfold total at 2. cbn [fold_right]. lia. }
    rewrite Ht in E2, G2. cbv zeta in E2. exists o2. split; [exact E2|]. split; [exact K2|].
    eapply good_weaken; [|eapply good_trans; [exact G1|exact G2]]. cbn beta.
    intros pos Hp. apply covered_all; auto. lia.
Qed.

Lemma concat_shape_ok dim : norm_dim (zlen shape0) dim = Z.of_nat d -> concat_shape ts dim = ROk outshape.
Proof.
  intro Hn. unfold ts, concat_shape. fold shape0. rewrite Hn.
  replace (zlen shape0 <=? Z.of_nat d) with false by (unfold zlen; lia).
  inversion Hts as [|? ? Ht0 Hr]; subst.
  rewrite all_match_ok by (eapply Forall_impl; [|exact Hr]; cbn beta; tauto). cbn [rbind negb].
  fold ts. rewrite sum_dims_ok.
  - cbn [rbind]. rewrite vset_ok by (unfold zlen; lia). rewrite Nat2Z.id. fold T.
    change (upd_nth d _ shape0) with (with_coord d T shape0). rewrite (list_at d shape0 0) by auto.
    rewrite with_coord_app by (rewrite firstn_length; lia). reflexivity.
  - eapply Forall_impl; [|exact Hts]. cbn beta. intros t [_ [Hl _]]. lia.
Qed.

Theorem concat_correct dt dim : has_copy_loop dt = true -> norm_dim (zlen shape0) dim = Z.of_nat d ->
  exists out, concat_op dt ts dim = ROk out /\
    x_shape out = with_coord d T shape0 /\ tensor_ok out /\ owns_storage out /\
    forall before t after, ts = before ++ t :: after -> forall idx, in_shape (x_shape t) idx ->
      in_shape (x_shape out) (with_coord d (total (extents d before) + nth d idx 0) idx) /\
      elem out (with_coord d (total (extents d before) + nth d idx 0) idx) = elem t idx.
Proof.
  intros Hdt Hn. unfold concat_op. rewrite concat_shape_ok by auto. cbn [rbind].
  assert (Hol : length outshape = length shape0).
  { unfold outshape, pre, post. rewrite app_length. cbn [length]. rewrite firstn_length, skipn_length. lia. }
  assert (H0 : tensor_ok t0) by (inversion Hts; tauto).
  assert (Hr : (1 <= length outshape <= 16)%nat).
  { rewrite Hol. apply H0. }
  rewrite fresh_ok by auto. cbn [rbind].
  assert (Hshape : outshape = with_coord d T shape0).
  { rewrite (list_at d shape0 0) at 1 by auto. rewrite with_coord_app by (rewrite firstn_length; lia). reflexivity. }
  (* any final buffer that is good everywhere answers the question *)
  assert (Final : forall b b0 : buf A, b_len b0 = product outshape -> good G (covered_from 0 T) b0 b ->
    let out := mkTns (mkV outshape (default_strides outshape) 0) b in
    x_shape out = with_coord d T shape0 /\ tensor_ok out /\ owns_storage out /\
    forall before t after, ts = before ++ t :: after -> forall idx, in_shape (x_shape t) idx ->
      in_shape (x_shape out) (with_coord d (total (extents d before) + nth d idx 0) idx) /\
      elem out (with_coord d (total (extents d before) + nth d idx 0) idx) = elem t idx).
  { intros b b0 Hb0 HG out. split; [exact Hshape|].
    assert (Hbl : b_len b = product outshape) by (rewrite (g_len _ _ _ _ HG); auto).
    destruct (owner_ok outshape b Hr outshape_nonneg Hbl) as [O1 O2].
    split; [exact O1|]. split; [exact O2|].
    intros before t after E idx Hi.
    destruct (shape_of before t after E) as [Hs Hok].
    destruct (T_split before t after E) as (H1 & H2 & H3 & H4).
    assert (Hi' := Hi). rewrite Hs in Hi'. rewrite <- (with_coord_app d _ pre 0 post pre_len) in Hi'.
    apply in_shape_split in Hi' as (a & x & bb & -> & L1 & L2 & L3 & L4); [|rewrite app_length, pre_len; cbn [length]; lia].
    rewrite firstn_mid in L2 by apply pre_len. rewrite skipn_mid in L4 by apply pre_len.
    rewrite nth_mid, with_coord_app by auto.
    destruct (G_at before t after a x bb E L1 L2 L3 L4) as (J1 & J2 & J3).
    split; [exact J1|]. unfold out. rewrite owner_elem by (apply in_shape_length; auto).
    rewrite (g_set _ _ _ _ HG); [exact J2|]. split; [apply ravel_bounds; auto|].
    rewrite unravel_ravel by auto. rewrite nth_mid by auto. lia. }
  unfold concat_forward. unfold ts at 1. fold shape0. rewrite Hn. fold ts.
  destruct (forallb (fun t => is_contiguous (x_view t)) ts) eqn:Ec.
  - rewrite Hdt. cbn [negb]. rewrite sum_dims_ok by (eapply Forall_impl; [|exact Hts]; cbn beta; intros t [_ [Hl _]]; lia).
    cbn [rbind]. fold T. unfold concat_contig. rewrite Nat2Z.id. fold pre post.
    assert (Hc : Forall (fun t => contiguous t) ts).
    { rewrite forallb_forall in Ec. rewrite Forall_forall in *. intros t Hi. apply is_contiguous_spec; auto. apply Hts; auto. }
    destruct (concat_contig_each ts [] (mkBuf (product outshape) (fun _ => None)) eq_refl Hc eq_refl) as (o' & E' & G').
    change (total (extents d (@nil (tns A)))) with 0 in E', G'. cbn [x_buf].
    change (0 + T) with T. rewrite E'. cbn [rbind fst].
    eexists. split; [reflexivity|]. cbn [x_view]. eapply Final; [|exact G']. reflexivity.
  - rewrite Hdt. cbn [negb]. unfold concat_strided.
    destruct (concat_strided_each ts [] (mkTns (mkV outshape (default_strides outshape) 0) (mkBuf (product outshape) (fun _ => None))) eq_refl) as (o' & E' & [K1 K2] & G').
    { split; reflexivity. }
    change (total (extents d (@nil (tns A)))) with 0 in E', G'. cbv zeta in E' |- *. rewrite E'. cbn [rbind fst].
    exists o'. split; [reflexivity|]. destruct o' as [v b]. cbn [x_view x_buf] in *. subst v.
    eapply Final; [|exact G']. reflexivity.
Qed.
End Concat.
