(** Proofs about the sub-cache and the flash-attention layout. *)
From Verif Require Import Base DTypeModel ParamModel ParamSpec ParamProofs ParamMore TensorModel TensorSpec TensorProofs TensorViews TensorSplit TensorConcat TensorStack TensorPermute TensorContig KVModel KVSpec KVProofs.
Local Open Scope Z_scope.

Lemma ROk3 (a b c a' b' c' : Z) : a = a' -> b = b' -> c = c' -> ROk (a, b, c) = ROk (a', b', c').
Proof. congruence. Qed.
Lemma slice_dim_all d st : 0 <= d < kAll -> slice_dim d st (mkSl kAll kAll 1) = ROk (0, d, st).
Proof.
  intro H. unfold slice_dim. cbn [sl_start sl_end sl_step]. rewrite Z.eqb_refl. change (0 <? 0) with false. cbn [andb].
  replace (d <? 0) with false by lia. rewrite Z.mul_1_r. change (0 <? 0) with false. change (1 =? 0) with false. cbn [andb]. cbv iota.
  destruct (0 <? d) eqn:E; [|apply ROk3; lia]. rewrite Z.quot_1_r. apply ROk3; lia.
Qed.
Lemma slice_dim_upto d st b : 0 <= b < kAll -> slice_dim d st (mkSl kAll b 1) = ROk (0, b, st).
Proof.
  intro H. unfold slice_dim. cbn [sl_start sl_end sl_step]. rewrite Z.eqb_refl. replace (b =? kAll) with false by lia. change (0 <? 0) with false. cbn [andb].
  cbv iota. replace (b <? 0) with false by lia. rewrite Z.mul_1_r. change (0 <? 0) with false. change (1 =? 0) with false. cbv iota.
  destruct (0 <? b) eqn:E; [|apply ROk3; lia]. rewrite Z.quot_1_r. apply ROk3; lia.
Qed.
Lemma slice_dim_range d st a b : 0 <= a -> a <= b < kAll -> slice_dim d st (mkSl a b 1) = ROk (a * st, b - a, st).
Proof.
  intros Ha H. unfold slice_dim. cbn [sl_start sl_end sl_step].
  replace (a =? kAll) with false by lia. replace (b =? kAll) with false by lia. replace (a <? 0) with false by lia. cbn [andb]. cbv iota.
  replace (a <? 0) with false by lia. replace (b <? 0) with false by lia. rewrite Z.mul_1_r. change (0 <? 0) with false. change (1 =? 0) with false. cbv iota.
  destruct (a <? b) eqn:E; [|apply ROk3; lia]. rewrite Z.quot_1_r. apply ROk3; lia.
Qed.
Lemma slice_dim_from d st a : 0 <= a <= d -> d < kAll -> slice_dim d st (mkSl a kAll 1) = ROk (a * st, d - a, st).
Proof.
  intros Ha H. unfold slice_dim. cbn [sl_start sl_end sl_step].
  replace (a =? kAll) with false by lia. rewrite Z.eqb_refl. replace (a <? 0) with false by lia. cbn [andb]. cbv iota.
  replace (a <? 0) with false by lia. replace (d <? 0) with false by lia. rewrite Z.mul_1_r. change (0 <? 0) with false. change (1 =? 0) with false. cbv iota.
  destruct (a <? d) eqn:E; [|apply ROk3; lia]. rewrite Z.quot_1_r. apply ROk3; lia.
Qed.
Lemma slice_view_upto s0 s1 s2 s3 a q M dim off n : 0 <= a < kAll -> 0 <= q < kAll -> 0 <= dim < kAll -> 0 <= n < kAll ->
  slice_view (mkV [a; q; M; dim] [s0; s1; s2; s3] off) (upto n) = ROk (mkV [a; q; n; dim] [s0; s1; s2; s3] off).
Proof.
  intros. unfold slice_view. change (zlen (upto n) =? zlen (v_shape (mkV [a; q; M; dim] [s0; s1; s2; s3] off))) with true. cbv iota.
  unfold upto. cbn [v_shape v_stride v_offset slice_dims]. rewrite !slice_dim_all by auto. rewrite slice_dim_upto by auto. cbn [rbind fst snd].
  unfold create_strided. cbn. rewrite Z.add_0_r. reflexivity.
Qed.
Lemma slice_view_from s0 s1 s2 s3 a q M dim off n : 0 <= a < kAll -> 0 <= q < kAll -> 0 <= dim < kAll -> 0 <= n <= M -> M < kAll ->
  slice_view (mkV [a; q; M; dim] [s0; s1; s2; s3] off) (from_row n) = ROk (mkV [a; q; M - n; dim] [s0; s1; s2; s3] (off + n * s2)).
Proof.
  intros. unfold slice_view. change (zlen (from_row n) =? zlen (v_shape (mkV [a; q; M; dim] [s0; s1; s2; s3] off))) with true. cbv iota.
  unfold from_row. cbn [v_shape v_stride v_offset slice_dims]. rewrite !slice_dim_all by auto. rewrite slice_dim_from by auto. cbn [rbind fst snd].
  unfold create_strided. cbn. rewrite Z.add_0_r. reflexivity.
Qed.
Lemma slice_view_fa2 s0 s1 s2 s3 a kv M dim off n m : 0 <= a < kAll -> 0 <= kv < kAll -> 0 <= dim < kAll -> 0 <= n -> n <= m < kAll ->
  slice_view (mkV [a; M; kv; dim] [s0; s1; s2; s3] off) (fa2_rows n m) = ROk (mkV [a; m - n; kv; dim] [s0; s1; s2; s3] (off + n * s1)).
Proof.
  intros. unfold slice_view. change (zlen (fa2_rows n m) =? zlen (v_shape (mkV [a; M; kv; dim] [s0; s1; s2; s3] off))) with true. cbv iota.
  unfold fa2_rows. cbn [v_shape v_stride v_offset slice_dims]. rewrite !slice_dim_all by auto. rewrite slice_dim_range by auto. cbn [rbind fst snd].
  unfold create_strided. cbn. rewrite !Z.add_0_r. reflexivity.
Qed.
Lemma slice_view_fa2_upto s0 s1 s2 s3 a kv M dim off m : 0 <= a < kAll -> 0 <= kv < kAll -> 0 <= dim < kAll -> 0 <= m < kAll ->
  slice_view (mkV [a; M; kv; dim] [s0; s1; s2; s3] off) (fa2_rows kAll m) = ROk (mkV [a; m; kv; dim] [s0; s1; s2; s3] off).
Proof.
  intros. unfold slice_view. change (zlen (fa2_rows kAll m) =? zlen (v_shape (mkV [a; M; kv; dim] [s0; s1; s2; s3] off))) with true. cbv iota.
  unfold fa2_rows. cbn [v_shape v_stride v_offset slice_dims]. rewrite !slice_dim_all by auto. rewrite slice_dim_upto by auto. cbn [rbind fst snd].
  unfold create_strided. cbn. rewrite !Z.add_0_r. reflexivity.
Qed.

(** A view [1, q, n, dim] with packed rows shows what the buffer holds. *)
Lemma view_shows {A} s0 HS q n dim off M rep (b : buf A) log : 0 < q -> 0 < dim -> 0 <= off -> n = Z.of_nat (length log) -> n <= M -> M * dim <= HS ->
  off + (q - 1) * HS + M * dim <= b_len b -> holds b off HS q rep dim log ->
  shows (mkTns (mkV [1; q; n; dim] [s0; HS; dim; 1] off) b) 1 q rep dim log.
Proof.
  intros Hq Hdim Hoff Hn HM HHS Hlen Hh. subst n.
  assert (Ha : forall i j k l, address (mkV [1; q; Z.of_nat (length log); dim] [s0; HS; dim; 1] off) [i; j; k; l] = off + i * s0 + j * HS + k * dim + l).
  { intros. rewrite address_dot. cbn [v_offset v_stride dot]. ring. }
  split; [reflexivity|]. split.
  - constructor.
    + cbn. lia.
    + reflexivity.
    + change (x_shape (mkTns (mkV [1; q; Z.of_nat (length log); dim] [s0; HS; dim; 1] off) b)) with [1; q; Z.of_nat (length log); dim]. repeat constructor; lia.
    + change (x_shape (mkTns (mkV [1; q; Z.of_nat (length log); dim] [s0; HS; dim; 1] off) b)) with [1; q; Z.of_nat (length log); dim].
      intros idx Hi. apply in_shape4_inv in Hi as (i & j & k & l & -> & I1 & I2 & I3 & I4). cbn [x_view x_buf]. rewrite Ha.
      replace i with 0 by lia. assert (0 <= k * dim + l < M * dim) by nia. assert (0 <= j * HS <= (q - 1) * HS) by nia. lia.
  - intros b0 h p d k i Hb Hh' Hd Hp. unfold elem at 1. cbn [x_view x_buf]. rewrite Ha. replace b0 with 0 by lia.
    rewrite <- (Hh h p d k i) by auto. f_equal. ring.
Qed.

(* ---------------- overwriting rows of a log ---------------- *)
Lemma overwrite_length {X} at_ (new log : list X) : length (overwrite at_ new log) = length log.
Proof. unfold overwrite. rewrite !app_length, !firstn_length, skipn_length. lia. Qed.
Lemma nth_error_firstn {X} n (l : list X) p : nth_error (firstn n l) p = if (p <? n)%nat then nth_error l p else None.
Proof.
  revert n p. induction l as [|x l IH]; intros [|n] [|p]; cbn [firstn nth_error]; auto.
  - destruct (S p <? S n)%nat; auto.
  - rewrite IH. replace (S p <? S n)%nat with (p <? n)%nat by lia. reflexivity.
Qed.
Lemma nth_error_skipn {X} n (l : list X) p : nth_error (skipn n l) p = nth_error l (n + p).
Proof. revert n. induction l as [|x l IH]; intros [|n]; cbn [skipn]; auto. - destruct p, n; auto. - rewrite IH. reflexivity. Qed.
Lemma overwrite_nth {X} at_ (new log : list X) p : nth_error (overwrite at_ new log) p =
  if (p <? length log)%nat then
    if ((at_ <=? p) && (p <? at_ + length new))%nat then nth_error new (p - at_) else nth_error log p
  else None.
Proof.
  destruct (p <? length log)%nat eqn:E.
  2:{ apply nth_error_None. rewrite overwrite_length. lia. }
  unfold overwrite. destruct (Nat.lt_ge_cases p at_) as [H1|H1].
  - rewrite nth_error_app1 by (rewrite firstn_length; lia). rewrite nth_error_firstn. replace (p <? at_)%nat with true by lia.
    replace (at_ <=? p)%nat with false by lia. reflexivity.
  - rewrite nth_error_app2 by (rewrite firstn_length; lia). rewrite firstn_length. replace (Nat.min at_ (length log)) with at_ by lia.
    destruct (Nat.lt_ge_cases p (at_ + length new)) as [H2|H2].
    + rewrite nth_error_app1 by (rewrite firstn_length; lia). rewrite nth_error_firstn. replace (p - at_ <? length log - at_)%nat with true by lia.
      replace ((at_ <=? p) && (p <? at_ + length new))%nat with true by lia. reflexivity.
    + rewrite nth_error_app2 by (rewrite firstn_length; lia). rewrite firstn_length, nth_error_skipn.
      replace ((at_ <=? p) && (p <? at_ + length new))%nat with false by lia. f_equal. lia.
Qed.

Lemma holds_overwrite {A} (b b' : buf A) HS M q rep dim start cnt log (k : tns A) s :
  0 < dim -> M * dim <= HS -> Z.of_nat (length log) <= M -> 0 <= start -> 0 <= cnt -> start + cnt + s <= M -> 0 <= s -> nth 2 (x_shape k) 0 = s ->
  holds b 0 HS q rep dim log ->
  (forall h i d, 0 <= h < q -> 0 <= i < s -> 0 <= d < dim ->
     b_at b' (start * dim + h * HS + (cnt + i) * dim + d) = elem k [0; h / rep; i; d]) ->
  (forall pos, (forall h i d, 0 <= h < q -> 0 <= i < s -> 0 <= d < dim -> pos <> start * dim + h * HS + (cnt + i) * dim + d) ->
     b_at b' pos = b_at b pos) ->
  holds b' 0 HS q rep dim (overwrite (Z.to_nat (start + cnt)) (rows_of k) log).
Proof.
  intros Hdim HHS Hle Hst Hc Hroom Hs Hk Hold Hnew Hrest h p d k0 i Hh Hd Hp.
  rewrite overwrite_nth in Hp. assert (Rk := rows_of_length k s Hk Hs).
  destruct (p <? length log)%nat eqn:E; [|discriminate].
  destruct ((Z.to_nat (start + cnt) <=? p) && (p <? Z.to_nat (start + cnt) + length (rows_of k)))%nat eqn:E2.
  - apply rows_of_nth in Hp as [Hp1 Hp2]. injection Hp1 as -> ->. rewrite Hk in Hp2.
    rewrite <- (Hnew h (Z.of_nat (p - Z.to_nat (start + cnt))) d Hh ltac:(lia) Hd). f_equal. nia.
  - rewrite Hrest; [apply Hold; auto|].
    intros h2 i2 d2 Hh2 Hi2 Hd2 Ex.
    assert (Hy1 : 0 <= Z.of_nat p * dim + d < HS) by nia.
    assert (Hy2 : 0 <= (start + cnt + i2) * dim + d2 < HS) by nia.
    assert (h = h2) by nia. subst h2. assert (Z.of_nat p = start + cnt + i2) by nia. lia.
Qed.

(* ---------------- the sub-cache ---------------- *)
Section Sub.
Context {A : Type}.
Variables (max kv rep dim start len : Z).
Hypothesis Hkv : 0 < kv.
Hypothesis Hrep : 0 < rep.
Hypothesis Hdim : 0 < dim.
Hypothesis Hmax : 0 <= max.
Hypothesis HmaxA : max < kAll.
Hypothesis HqA : kv * rep < kAll.
Hypothesis HdA : dim < kAll.
Hypothesis Hst : 0 <= start <= max.
Hypothesis Hlen : 0 <= len.
Let q := kv * rep.

Record sub_layer_ok (x : layer A * Z) (log : list (row A) * list (row A)) : Prop := {
  sl_cnt : snd x = Z.of_nat (length (fst log));
  sl_cntv : length (snd log) = length (fst log);
  sl_max : start + snd x <= max;
  sl_len : len <= snd x;
  sl_k : holds (l_k (fst x)) (start * dim) (max * dim) q rep dim (fst log);
  sl_v : holds (l_v (fst x)) (start * dim) (max * dim) q rep dim (snd log);
}.
Record sub_ok (s : subcache A) (ls slogs : logs A) : Prop := {
  bo_parent : static_ok max kv rep dim (sb_parent s) ls;
  bo_start : sb_start s = start;
  bo_len : sb_len s = len;
  bo_cnts : length (sb_cnts s) = length (sc_layers (sb_parent s));
  bo_layers : Forall2 sub_layer_ok (combine (sc_layers (sb_parent s)) (sb_cnts s)) slogs;
}.

Lemma sub_view_is (s : subcache A) ls slogs : sub_ok s ls slogs ->
  sub_view s = ROk (mkV [1; q; max - start; dim] [q * (max * dim); max * dim; dim; 1] (start * dim)).
Proof.
  intros [[H1 H2 H3 H4 _] H6 _ _ _]. unfold sub_view, eager_view, eager_shape. rewrite H1, H2, H4, H6. change (kv * rep) with q.
  rewrite !default_strides_cons. replace (product [q; max; dim]) with (q * (max * dim)) by (unfold product; cbn [fold_right]; ring).
  replace (product [max; dim]) with (max * dim) by (unfold product; cbn [fold_right]; ring).
  replace (product [dim]) with dim by (unfold product; cbn [fold_right]; ring).
  change (default_strides []) with (@nil Z). change (product []) with 1.
  assert (Hq : 0 < q < kAll) by (unfold q; nia). assert (1 < kAll) by (unfold kAll; lia).
  rewrite slice_view_from by lia. reflexivity.
Qed.

Lemma Forall2_combine {X Y Z_} (R : X * Y -> Z_ -> Prop) l m n : length l = length m -> Forall2 R (combine l m) n -> length n = length l.
Proof. intros H F. apply Forall2_len in F. rewrite combine_length in F. lia. Qed.
Lemma combine_upd {X Y} n (x : X) (y : Y) : forall l m, combine (upd_nth n (fun _ => x) l) (upd_nth n (fun _ => y) m) = upd_nth n (fun _ => (x, y)) (combine l m).
Proof. induction n as [|n IH]; intros [|a l] [|b m]; cbn [upd_nth combine]; auto. rewrite IH. auto. Qed.
Lemma nth_error_combine {X Y} (l : list X) (m : list Y) n x : nth_error (combine l m) n = Some x -> nth_error l n = Some (fst x) /\ nth_error m n = Some (snd x).
Proof.
  revert m n. induction l as [|a l IH]; intros [|b m] [|n] E; cbn [combine nth_error] in *; try discriminate.
  - injection E as <-. auto.
  - apply IH in E. auto.
Qed.

Lemma sub_update_ok (s : subcache A) ls slogs idx k v n :
  sub_ok s ls slogs -> 0 <= idx < Z.of_nat (length slogs) -> 0 <= n -> kv_input kv dim n k -> kv_input kv dim n v ->
  start + Z.of_nat (length (fst (nth (Z.to_nat idx) slogs ([], [])))) + n <= max ->
  exists s' ks vs, sub_update s idx k v = ROk (s', (ks, vs)) /\
    sub_ok s' (sub_parent_step start ls slogs (KvUpdate idx k v)) (sub_logs_step len slogs (KvUpdate idx k v)) /\
    shows ks 1 q rep dim (fst (nth (Z.to_nat idx) (sub_logs_step len slogs (KvUpdate idx k v)) ([], []))) /\
    shows vs 1 q rep dim (snd (nth (Z.to_nat idx) (sub_logs_step len slogs (KvUpdate idx k v)) ([], []))).
Proof.
  intros H Hidx Hs Hk Hv Hroom. assert (Esv := sub_view_is _ _ _ H). assert (H' := H). destruct H' as [HP B2 B3 B4 B5]. assert (HP' := HP). destruct HP' as [H1 H2 H3 H4 H5].
  set (m := Z.to_nat idx) in *. set (log := nth m slogs ([], [])) in *.
  assert (Lsl : length slogs = length (sc_layers (sb_parent s))) by (apply (Forall2_combine _ _ _ _ (eq_sym B4) B5)).
  assert (Ll : length (sc_layers (sb_parent s)) = length ls) by (apply (Forall2_len _ _ _ H5)).
  assert (Hn : nth_error slogs m = Some log) by (apply nth_error_nth'; lia).
  destruct (Forall2_nth_error_r _ _ _ B5 m log Hn) as ((l & cnt) & Hlc & L). destruct L as [L1 L2 L3 L3b L4 L5]. cbn [fst snd] in *.
  apply nth_error_combine in Hlc as [Hl Hc]. cbn [fst snd] in *.
  set (plog := nth m ls ([], [])).
  assert (Hpn : nth_error ls m = Some plog) by (apply nth_error_nth'; lia).
  destruct (Forall2_nth_error_r _ _ _ H5 m plog Hpn) as (l0 & Hl0 & P). rewrite Hl in Hl0. injection Hl0 as <-. destruct P as [P1 P2 P3 P4 P5 P6 P7].
  unfold sub_update. rewrite (ki_shape _ _ _ _ Hk), (ki_shape _ _ _ _ Hv).
  change (vget [1; kv; n; dim] 1) with (ROk kv). change (vget [1; kv; n; dim] 2) with (ROk n). cbn [rbind].
  rewrite (vget_nth _ idx cnt) by (auto; lia). cbn [rbind]. rewrite H1, B2.
  replace (max - start <? cnt + n) with false by lia.
  rewrite H3, Z.eqb_refl. cbn [negb]. replace (kv =? 0) with false by lia. rewrite H2, (quot_q kv rep Hkv), H4.
  rewrite Esv. cbn [rbind]. rewrite (vget_nth _ idx l) by (auto; lia). cbn [rbind].
  set (sv := mkV [1; q; max - start; dim] [q * (max * dim); max * dim; dim; 1] (start * dim)).
  assert (Hq : 0 < q) by (unfold q; nia).
  assert (Hoff : forall h p, offsetted sv [0; h; p; 0] = ROk (start * dim + h * (max * dim) + p * dim)).
  { intros h p. unfold offsetted, sv. cbn [v_shape v_offset v_stride].
    change (zlen [0; h; p; 0] =? zlen [1; q; max - start; dim]) with true. cbv iota. cbn [dot]. f_equal. ring. }
  destruct (copy_heads_ok sv (start * dim) (max * dim) (max - start) kv rep dim cnt n k (l_k l)) as (kb & Ek & K1 & K2 & K3);
    try lia; auto; try nia; try (rewrite P4; fold q; nia).
  destruct (copy_heads_ok sv (start * dim) (max * dim) (max - start) kv rep dim cnt n v (l_v l)) as (vb & Ev & V1 & V2 & V3);
    try lia; auto; try nia; try (rewrite P5; fold q; nia).
  rewrite Ek. cbn [rbind]. rewrite Ev. cbn [rbind].
  unfold vset, zlen. replace ((0 <=? idx) && (idx <? Z.of_nat (length (sc_layers (sb_parent s))))) with true by lia. cbn [rbind].
  replace ((0 <=? idx) && (idx <? Z.of_nat (length (sb_cnts s)))) with true by lia. cbn [rbind]. fold m.
  assert (Hks : nth 2 (x_shape k) 0 = n) by (rewrite (ki_shape _ _ _ _ Hk); reflexivity).
  assert (Hvs : nth 2 (x_shape v) 0 = n) by (rewrite (ki_shape _ _ _ _ Hv); reflexivity).
  assert (Rk := rows_of_length k n Hks Hs). assert (Rv := rows_of_length v n Hvs Hs).
  assert (HK : holds kb (start * dim) (max * dim) q rep dim (fst log ++ rows_of k)).
  { eapply (holds_append (l_k l) kb _ (max * dim) (max - start) q rep dim (fst log) k n); auto; try lia; try nia; rewrite <- ?L1; auto. }
  assert (HV : holds vb (start * dim) (max * dim) q rep dim (snd log ++ rows_of v)).
  { eapply (holds_append (l_v l) vb _ (max * dim) (max - start) q rep dim (snd log) v n); auto; try lia; try nia; rewrite ?L2, <- ?L1; auto. }
  assert (HKp : holds kb 0 (max * dim) q rep dim (overwrite (Z.to_nat (start + cnt)) (rows_of k) (fst plog))).
  { apply (holds_overwrite (l_k l) kb (max * dim) max q rep dim start cnt (fst plog) k n); auto; try lia. }
  assert (HVp : holds vb 0 (max * dim) q rep dim (overwrite (Z.to_nat (start + cnt)) (rows_of v) (snd plog))).
  { apply (holds_overwrite (l_v l) vb (max * dim) max q rep dim start cnt (snd plog) v n); auto; try lia. }
  assert (Ecnt : cnt + n = Z.of_nat (length (fst log ++ rows_of k))) by (rewrite app_length; lia).
  assert (Ecntv : cnt + n = Z.of_nat (length (snd log ++ rows_of v))) by (rewrite app_length; lia).
  assert (Hnew : sub_ok (mkSub (mkSC max q kv dim (upd_nth m (fun _ => mkLayer kb vb (l_cnt l)) (sc_layers (sb_parent s)))) start (sb_len s) (upd_nth m (fun _ => cnt + n) (sb_cnts s)))
     (sub_parent_step start ls slogs (KvUpdate idx k v)) (sub_logs_step len slogs (KvUpdate idx k v))).
  { constructor; cbn [sb_parent sb_start sb_len sb_cnts sc_layers]; auto.
    - constructor; auto. cbn [sc_layers sub_parent_step]. fold m. apply Forall2_upd; auto.
      intros x y Ex Ey _. rewrite Hpn in Ey. injection Ey as <-. fold log.
      replace (Z.to_nat start + length (fst log))%nat with (Z.to_nat (start + cnt)) by lia.
      constructor; cbn [l_cnt l_k l_v fst snd]; auto; rewrite ?overwrite_length; auto.
      + rewrite K1. auto.
      + rewrite V1. auto.
    - rewrite !length_upd_nth. auto.
    - rewrite combine_upd. cbn [sub_logs_step]. fold m. apply Forall2_upd; auto.
      intros x y Ex Ey _. rewrite Hn in Ey. injection Ey as <-. constructor; cbn [fst snd l_k l_v]; auto; try lia.
      all: rewrite ?app_length; lia. }
  unfold slice. cbn [x_view x_buf]. unfold sv at 1 2. assert (Hq1 : 0 < q < kAll) by (unfold q; nia). assert (1 < kAll) by (unfold kAll; lia). rewrite !slice_view_upto by lia.
  cbn [rbind]. do 3 eexists. split; [reflexivity|]. split; [exact Hnew|].
  cbn [sub_logs_step]. fold m.
  assert (En : nth m (upd_nth m (fun l => (fst l ++ rows_of k, snd l ++ rows_of v)) slogs) ([], []) = (fst log ++ rows_of k, snd log ++ rows_of v)).
  { rewrite nth_upd_nth, Nat.eqb_refl. replace (m <? length slogs)%nat with true by lia. reflexivity. }
  rewrite En. cbn [fst snd]. split.
  - apply (view_shows _ (max * dim) q (cnt + n) dim (start * dim) (max - start)); auto; try lia; try nia; rewrite K1, P4; fold q; nia.
  - apply (view_shows _ (max * dim) q (cnt + n) dim (start * dim) (max - start)); auto; try lia; try nia; rewrite V1, P5; fold q; nia.
Qed.

(** Beyond the capacity the call throws before it touches anything. *)
Lemma sub_update_full (s : subcache A) ls slogs idx k v n :
  sub_ok s ls slogs -> 0 <= idx < Z.of_nat (length slogs) -> vget (x_shape k) 2 = ROk n ->
  max < start + Z.of_nat (length (fst (nth (Z.to_nat idx) slogs ([], [])))) + n ->
  sub_update s idx k v = RAbort.
Proof.
  intros H Hidx Ek Hroom. destruct H as [[H1 H2 H3 H4 H5] B2 B3 B4 B5].
  set (m := Z.to_nat idx) in *. set (log := nth m slogs ([], [])) in *.
  assert (Hn : nth_error slogs m = Some log) by (apply nth_error_nth'; lia).
  destruct (Forall2_nth_error_r _ _ _ B5 m log Hn) as ((l & cnt) & Hlc & L). destruct L as [L1 L2 L3 L3b L4 L5]. cbn [fst snd] in *.
  apply nth_error_combine in Hlc as [Hl Hc]. cbn [fst snd] in *.
  unfold sub_update. rewrite Ek. cbn [rbind]. rewrite (vget_nth _ idx cnt) by (auto; lia). cbn [rbind]. rewrite H1, B2.
  replace (max - start <? cnt + n) with true by lia. reflexivity.
Qed.

Lemma sub_clear_ok (s : subcache A) ls slogs : sub_ok s ls slogs ->
  sub_ok (sub_clear s) ls (sub_logs_step len slogs KvClear).
Proof.
  intros [HP B2 B3 B4 B5]. constructor; cbn [sub_clear sb_parent sb_start sb_len sb_cnts]; auto.
  - rewrite map_length. auto.
  - rewrite B3. cbn [sub_logs_step]. revert B4 B5. generalize (sc_layers (sb_parent s)) (sb_cnts s). intros la.
    revert slogs. induction la as [|l la IH]; intros slogs [|c cs] L F; cbn [length map combine] in *; try discriminate.
    + inversion F. constructor.
    + inversion F as [|? log ? slogs' R F']; subst. cbn [map]. constructor; [|apply IH; auto].
      destruct R as [R1 R2 R3 R4 R5 R6]. cbn [fst snd] in *. constructor; cbn [fst snd].
      * rewrite firstn_length. lia.
      * rewrite !firstn_length. lia.
      * lia.
      * lia.
      * intros h p d k i Hh Hd Hp. rewrite nth_error_firstn in Hp. destruct (p <? Z.to_nat len)%nat; [|discriminate]. apply R5; auto.
      * intros h p d k i Hh Hd Hp. rewrite nth_error_firstn in Hp. destruct (p <? Z.to_nat len)%nat; [|discriminate]. apply R6; auto.
Qed.

Lemma sub_run_ok (ops : list (kv_op A)) : forall s ls slogs, sub_ok s ls slogs ->
  sub_allowed max kv dim start len slogs ops ->
  exists s', sub_run s ops = ROk s' /\
    sub_ok s' (fst (sub_after start len ls slogs ops)) (snd (sub_after start len ls slogs ops)).
Proof.
  induction ops as [|o r IH]; intros s ls slogs H Ho; [exists s; split; auto|].
  cbn [sub_allowed sub_run sub_after] in *. destruct o as [idx k v|n|].
  - destruct Ho as ((Hi & n & Hn & Hk & Hv & Hr) & Hrest).
    destruct (sub_update_ok s ls slogs idx k v n H Hi Hn Hk Hv Hr) as (s1 & ks & vs & E & H1 & _).
    cbn [sub_step]. rewrite E. cbn [rbind fst]. apply IH; auto.
  - cbn [sub_step rbind]. destruct Ho as [_ Hrest]. apply IH; auto.
  - cbn [sub_step rbind]. destruct Ho as [_ Hrest]. apply IH; auto. cbn [sub_parent_step]. apply sub_clear_ok. auto.
Qed.

Lemma sub_init_ok (c : scache A) ls : static_ok max kv rep dim c ls ->
  Forall (fun l => start + len <= Z.of_nat (length (fst l))) ls ->
  sub_ok (sub_init c start len) ls (sub_logs_init start len ls).
Proof.
  intros H Ha. assert (H' := H). destruct H' as [H1 H2 H3 H4 H5]. constructor; cbn [sub_init sb_parent sb_start sb_len sb_cnts]; auto.
  - rewrite map_length. auto.
  - clear H H1 H2 H3 H4. unfold sub_logs_init. induction H5 as [|l log la ls L H5 IH]; [constructor|].
    inversion Ha as [|? ? A1 A2]; subst. cbn [map combine]. constructor; [|auto].
    destruct L as [L1 L2 L3 L4 L5 L6 L7]. constructor; cbn [fst snd].
    + rewrite firstn_length, skipn_length. lia.
    + rewrite !firstn_length, !skipn_length. lia.
    + lia.
    + lia.
    + intros h p d k i Hh Hd Hp. rewrite nth_error_firstn, nth_error_skipn in Hp. destruct (p <? Z.to_nat len)%nat; [|discriminate].
      rewrite <- (L6 h (Z.to_nat start + p)%nat d k i) by auto. f_equal. nia.
    + intros h p d k i Hh Hd Hp. rewrite nth_error_firstn, nth_error_skipn in Hp. destruct (p <? Z.to_nat len)%nat; [|discriminate].
      rewrite <- (L7 h (Z.to_nat start + p)%nat d k i) by auto. f_equal. nia.
Qed.
End Sub.
