(** Proofs about quantization, part 2: blocks. *)
From Coq Require Import Reals Lra.
From Flocq Require Import Core Relative.
From Verif Require Import Base DTypeModel ParamModel TensorModel OpsModel MatModel QuantModel QuantSpec QuantFloat.
Local Open Scope R_scope.

Definition lo : R := bpow radix2 (-100).
Lemma lo_pos : 0 < lo.
Proof. apply bpow_gt_0. Qed.
Lemma tiny_lo : tiny <= eps * eps * lo.
Proof. rewrite eps_val. unfold tiny, lo. rewrite <- !bpow_plus. apply bpow_le. lia. Qed.
Lemma eps2 : 0 < eps * eps <= eps / 16777216.
Proof. unfold eps. lra. Qed.
Lemma lo_small : lo <= / 1048576.
Proof. unfold lo. apply Rle_trans with (bpow radix2 (-20)); [apply bpow_le; lia|simpl; lra]. Qed.
Lemma tiny_tiny : 0 < tiny <= / 1048576 / 1048576 / 1048576.
Proof.
  split; [apply tiny_pos|]. assert (T := tiny_lo). assert (L := lo_small). assert (L0 := lo_pos). assert (E := eps2).
  assert (eps * eps * lo <= (eps / 16777216) * / 1048576) by (apply Rmult_le_compat; lra). unfold eps in *. lra.
Qed.
Lemma bpow_100 : bpow radix2 100 = / lo.
Proof. unfold lo. rewrite <- bpow_opp. reflexivity. Qed.
Lemma big_normal x : 0 < x -> lo / 1024 <= x -> bpow radix2 (-126) <= x.
Proof.
  intros _ H. eapply Rle_trans; [|exact H]. unfold lo. replace (bpow radix2 (-100) / 1024) with (bpow radix2 (-110)).
  - apply bpow_le. lia.
  - change (-110)%Z with (-100 + -10)%Z. rewrite bpow_plus. simpl (bpow radix2 (-10)). lra.
Qed.
Lemma hi_ok x : x <= 1024 / lo -> x <= bpow radix2 127.
Proof.
  intro H. eapply Rle_trans; [exact H|]. unfold Rdiv. rewrite <- bpow_100.
  replace (1024 * bpow radix2 100) with (bpow radix2 110).
  - apply bpow_le. lia.
  - change 110%Z with (10 + 100)%Z. rewrite bpow_plus. reflexivity.
Qed.

(** 1 / d *)
Lemma inv_ok d : lo / 1000 <= Rabs d <= 1000 / lo -> exists id, inv_scale d = Some id /\ Rabs (id * d - 1) <= eps.
Proof.
  intros [H1 H2]. assert (L := lo_pos). assert (D : 0 < Rabs d) by lra.
  assert (N : d <> 0) by (intros ->; rewrite Rabs_R0 in D; lra).
  unfold inv_scale. destruct (Req_EM_T d 0) as [|_]; [contradiction|].
  assert (I : lo / 1000 <= Rabs (1 / d) <= 1000 / lo).
  { unfold Rdiv. rewrite Rmult_1_l, Rabs_inv. split.
    - replace (lo * / 1000) with (/ (1000 / lo)) by (field; lra). apply Rinv_le_contravar; auto.
    - replace (1000 * / lo) with (/ (lo / 1000)) by (field; lra). apply Rinv_le_contravar; lra. }
  destruct (f32_rel (1 / d)) as (id & E & B).
  - split; [apply big_normal; lra|apply hi_ok; eapply Rle_trans; [apply I|]; unfold Rdiv; apply Rmult_le_compat_r; [left; apply Rinv_0_lt_compat; auto|lra]].
  - exists id. split; auto. replace (id * d - 1) with ((id - 1 / d) * d) by (field; auto).
    rewrite Rabs_mult. replace eps with (eps * Rabs (1 / d) * Rabs d).
    + apply Rmult_le_compat_r; [apply Rabs_pos|exact B].
    + rewrite Rmult_assoc, <- Rabs_mult. replace (1 / d * d) with 1 by (field; auto). rewrite Rabs_R1. ring.
Qed.
(** x * id is near x / d. *)
Lemma times_ok d id x : d <> 0 -> Rabs (id * d - 1) <= 3 * eps -> Rabs (x / d) <= 130 ->
  exists x0, f32 (x * id) = Some x0 /\ Rabs (x0 - x / d) <= / 16384.
Proof.
  intros N HI HT. set (t := x / d) in *. assert (P : x * id = t + t * (id * d - 1)) by (unfold t; field; auto).
  assert (T := tiny_tiny).
  assert (B : Rabs (t * (id * d - 1)) <= 130 * (3 * eps)).
  { rewrite Rabs_mult. apply Rmult_le_compat; auto using Rabs_pos. }
  assert (A : Rabs (x * id) <= 131).
  { rewrite P. eapply Rle_trans; [apply Rabs_triang|]. unfold eps in B. lra. }
  destruct (f32_ok (x * id)) as (x0 & E & F).
  { apply Rle_trans with (bpow radix2 8); [simpl; lra|apply bpow_le; lia]. }
  exists x0. split; auto. replace (x0 - t) with ((x0 - x * id) + t * (id * d - 1)) by (rewrite P; ring).
  eapply Rle_trans; [apply Rabs_triang|]. assert (eps * Rabs (x * id) <= eps * 131) by (apply Rmult_le_compat_l; [unfold eps; lra|auto]).
  unfold eps in *. lra.
Qed.
(** Decoding q with the scale h, d rounded to half precision. *)
Lemma decode_ok d h q x c : d <> 0 -> Rabs d <= 65000 -> Rabs (h - d) <= Rabs d / 2048 + / 33554432 ->
  (-128 <= q <= 127)%Z -> Rabs (IZR q - x / d) <= c ->
  exists y, f32 (IZR q * h) = Some y /\
    Rabs (y - x) <= c * Rabs d + (Rabs (IZR q) + / 1024) * (Rabs d / 2048 + / 33554432) + Rabs d / 65536.
Proof.
  intros N D H Hq Hc. assert (T := tiny_tiny). assert (D0 := Rabs_pos d).
  assert (Q : Rabs (IZR q) <= 128) by (rewrite <- abs_IZR; apply IZR_le; lia). assert (Q0 := Rabs_pos (IZR q)).
  set (e := Rabs d / 2048 + / 33554432) in *. assert (E0 : / 33554432 <= e) by (unfold e; lra).
  assert (HH : Rabs h <= Rabs d + e) by (replace h with (d + (h - d)) by ring; eapply Rle_trans; [apply Rabs_triang|lra]).
  assert (P : Rabs (IZR q * h) <= 128 * (Rabs d + e)).
  { rewrite Rabs_mult. apply Rmult_le_compat; auto using Rabs_pos. }
  destruct (f32_ok (IZR q * h)) as (y & Ey & By).
  { apply Rle_trans with (bpow radix2 24); [|apply bpow_le; lia]. simpl. unfold e in P. lra. }
  exists y. split; auto.
  replace (y - x) with ((y - IZR q * h) + IZR q * (h - d) + (IZR q - x / d) * d) by (field; auto).
  eapply Rle_trans; [apply Rabs_triang|]. eapply Rle_trans; [apply Rplus_le_compat_r, Rabs_triang|].
  rewrite !Rabs_mult.
  assert (M1 : Rabs (IZR q) * Rabs (h - d) <= Rabs (IZR q) * e) by (apply Rmult_le_compat_l; auto).
  assert (M2 : Rabs (IZR q - x / d) * Rabs d <= c * Rabs d) by (apply Rmult_le_compat_r; auto).
  assert (M3 : eps * Rabs (IZR q * h) <= eps * (128 * (Rabs d + e))) by (apply Rmult_le_compat_l; [unfold eps; lra|auto]).
  unfold eps in *. lra.
Qed.

(* ---------------- the greatest absolute value ---------------- *)
Lemma amax_fold v : forall m, 0 <= m -> m <= fold_left (fun m x => Rmax m (Rabs x)) v m /\
  (forall x, In x v -> Rabs x <= fold_left (fun m x => Rmax m (Rabs x)) v m) /\
  (fold_left (fun m x => Rmax m (Rabs x)) v m = m \/ exists x, In x v /\ Rabs x = fold_left (fun m x => Rmax m (Rabs x)) v m).
Proof.
  induction v as [|a v IH]; intros m Hm; cbn [fold_left].
  - split; [lra|]. split; [intros x []|auto].
  - assert (M1 := Rmax_l m (Rabs a)). assert (M2 := Rmax_r m (Rabs a)). destruct (IH (Rmax m (Rabs a))) as (I1 & I2 & I3); [lra|].
    split; [lra|]. split.
    + intros x [->|Hx]; [lra|auto].
    + destruct I3 as [I3|(x & Hx & I3)]; [|right; exists x; cbn [In]; auto].
      rewrite I3. destruct (Rle_dec m (Rabs a)) as [L|L]; [right; exists a; split; [left; auto|rewrite Rmax_right; auto]|left; rewrite Rmax_left; lra].
Qed.
Lemma amax_greatest v a : greatest v a -> amax v = a.
Proof.
  intros [G1 G2]. unfold amax. destruct (amax_fold v 0) as (H1 & H2 & H3); [lra|]. apply Rle_antisym.
  - destruct H3 as [->|(x & Hx & <-)]; [|auto]. destruct G2 as [[_ ->]|(x & Hx & <-)]; [lra|apply Rabs_pos].
  - destruct G2 as [[_ ->]|(x & Hx & <-)]; auto.
Qed.
Lemma amax_is_greatest v : greatest v (amax v).
Proof.
  unfold amax. destruct (amax_fold v 0) as (H1 & H2 & H3); [lra|]. split; auto.
  destruct v as [|x v]; [left; cbn; auto|]. right. destruct H3 as [E|(y & Hy & E)]; [|eauto].
  exists x. split; [left; auto|]. assert (A := H2 x (or_introl eq_refl)). assert (P := Rabs_pos x). lra.
Qed.
Lemma max_fold v : forall m, Rabs m <= Rabs (fold_left (fun m x => if Rlt_dec (Rabs m) (Rabs x) then x else m) v m) /\
  (forall x, In x v -> Rabs x <= Rabs (fold_left (fun m x => if Rlt_dec (Rabs m) (Rabs x) then x else m) v m)) /\
  (fold_left (fun m x => if Rlt_dec (Rabs m) (Rabs x) then x else m) v m = m \/ In (fold_left (fun m x => if Rlt_dec (Rabs m) (Rabs x) then x else m) v m) v).
Proof.
  induction v as [|a v IH]; intros m; cbn [fold_left].
  - split; [lra|]. split; [intros x []|auto].
  - destruct (IH (if Rlt_dec (Rabs m) (Rabs a) then a else m)) as (I1 & I2 & I3).
    destruct (Rlt_dec (Rabs m) (Rabs a)) as [L|L].
    + split; [lra|]. split; [intros x [->|Hx]; [lra|auto]|]. right. destruct I3 as [->|I3]; [left|right]; auto.
    + split; [lra|]. split; [intros x [->|Hx]; [lra|auto]|]. destruct I3 as [->|I3]; [left|right; right]; auto.
Qed.
Lemma max_greatest v a : greatest v a -> Rabs (max_abs_elem v) = a /\ (a = 0 \/ In (max_abs_elem v) v).
Proof.
  intros [G1 G2]. unfold max_abs_elem. destruct (max_fold v 0) as (H1 & H2 & H3). split.
  - apply Rle_antisym.
    + destruct H3 as [->|Hx]; [|auto]. rewrite Rabs_R0. destruct G2 as [[_ ->]|(x & Hx & <-)]; [lra|apply Rabs_pos].
    + destruct G2 as [[_ ->]|(x & Hx & <-)]; auto. apply Rabs_pos.
  - destruct H3 as [E|Hx]; auto. left. rewrite E in H2. destruct G2 as [[_ ->]|(x & Hx & <-)]; auto.
    assert (A := H2 x Hx). rewrite Rabs_R0 in A. assert (B := Rabs_pos x). lra.
Qed.

(* ---------------- Q8_0 ---------------- *)
Lemma near_int (z : Z) (x : R) n : Rabs (IZR z - x) <= / 2 -> Rabs x < IZR n + / 2 -> (- n <= z <= n)%Z.
Proof.
  intros H1 H2. apply Rabs_bounds in H1. assert (H3 : - IZR n - / 2 < x < IZR n + / 2) by (apply Rabs_def2 in H2; lra).
  split; [assert (IZR (- n - 1) < IZR z) by (rewrite minus_IZR, opp_IZR; lra)|assert (IZR z < IZR (n + 1)) by (rewrite plus_IZR; lra)];
  match goal with H : IZR _ < IZR _ |- _ => apply lt_IZR in H end; lia.
Qed.
Lemma nearest_half (choice : Z -> bool) x : Rabs (IZR (Znearest choice x) - x) <= / 2.
Proof. rewrite Rabs_minus_sym. apply Znearest_half. Qed.
(** The scale of a block. *)
Lemma scale_ok a : lo <= a <= 8000000 -> exists d, f32 (a / 127) = Some d /\ Rabs (d - a / 127) <= eps * (a / 127).
Proof.
  intros [H1 H2]. assert (L := lo_pos).
  destruct (f32_rel (a / 127)) as (d & E & B).
  - rewrite Rabs_pos_eq by lra. split; [apply big_normal; lra|]. apply Rle_trans with (bpow radix2 20); [simpl; lra|apply bpow_le; lia].
  - exists d. split; auto. rewrite (Rabs_pos_eq (a / 127)) in B by lra. exact B.
Qed.
(** Zeros stay zeros. *)
Definition q8_bound (a x : R) : R := if Req_EM_T x 0 then 0 else a / 225 + / 262144.
(** Every element of a block whose greatest absolute value is not too small. *)
Lemma q8_elem (choice : Z -> bool) a d id x : lo <= a <= 8000000 -> Rabs (d - a / 127) <= eps * (a / 127) -> Rabs (id * d - 1) <= 3 * eps -> Rabs x <= a ->
  exists x0, f32 (x * id) = Some x0 /\ (-127 <= Znearest choice x0 <= 127)%Z /\ (x = 0 -> Znearest choice x0 = 0%Z) /\
    exists h y, f16 d = Some h /\ f32 (IZR (Znearest choice x0) * h) = Some y /\ Rabs (y - x) <= q8_bound a x.
Proof.
  intros Ha Hd Hi Hx. unfold q8_bound. assert (L := lo_pos). apply Rabs_bounds in Hd.
  assert (D : (1 - eps) * (a / 127) <= d <= (1 + eps) * (a / 127)) by (unfold eps in *; lra).
  assert (Dp : 0 < d) by (unfold eps in *; lra). assert (N : d <> 0) by lra.
  assert (T : Rabs (x / d) <= 127.0001).
  { unfold Rdiv. rewrite Rabs_mult, Rabs_inv, (Rabs_pos_eq d) by lra. apply (Rmult_le_reg_r d); auto.
    rewrite Rmult_assoc, Rinv_l by auto. unfold eps in *. lra. }
  destruct (times_ok d id x N Hi) as (x0 & E0 & B0); [lra|].
  exists x0. split; auto. assert (Hn := nearest_half choice x0).
  assert (A0 : Rabs x0 < 127 + / 2) by (replace x0 with ((x0 - x / d) + x / d) by ring; eapply Rle_lt_trans; [apply Rabs_triang|lra]).
  assert (Q := near_int (Znearest choice x0) x0 127 Hn A0). split; auto.
  assert (Z0 : x = 0 -> Znearest choice x0 = 0%Z).
  { intros ->. rewrite Rmult_0_l, f32_0 in E0. injection E0 as <-. apply (Znearest_imp choice 0 0). rewrite Rminus_0_r, Rabs_R0. lra. }
  split; auto.
  destruct (f16_ok d) as (h & Eh & Bh); [rewrite Rabs_pos_eq; unfold eps in *; lra|].
  destruct (decode_ok d h (Znearest choice x0) x (/ 2 + / 16384)) as (y & Ey & By); auto.
  - rewrite Rabs_pos_eq; unfold eps in *; lra.
  - lia.
  - replace (IZR (Znearest choice x0) - x / d) with ((IZR (Znearest choice x0) - x0) + (x0 - x / d)) by ring. eapply Rle_trans; [apply Rabs_triang|]. lra.
  - exists h, y. split; auto. split; auto. destruct (Req_EM_T x 0) as [X0|_].
    { rewrite (Z0 X0), Rmult_0_l, f32_0 in Ey. injection Ey as <-. rewrite X0, Rminus_0_r, Rabs_R0. lra. }
    eapply Rle_trans; [exact By|]. rewrite (Rabs_pos_eq d) by lra.
    assert (QA : Rabs (IZR (Znearest choice x0)) <= 127) by (rewrite <- abs_IZR; apply IZR_le; lia).
    assert (M : (Rabs (IZR (Znearest choice x0)) + / 1024) * (d / 2048 + / 33554432) <= (127 + / 1024) * (d / 2048 + / 33554432)) by (apply Rmult_le_compat_r; lra).
    unfold eps in *. lra.
Qed.

Lemma rmap_ok {A B} (f : A -> res B) (P : A -> B -> Prop) l : (forall x, In x l -> exists y, f x = ROk y /\ P x y) ->
  exists ys, rmap f l = ROk ys /\ Forall2 P l ys.
Proof.
  induction l as [|x l IH]; intro H; [exists []; auto|]. destruct (H x (or_introl eq_refl)) as (y & E & Py).
  destruct IH as (ys & E2 & F); [intros z Hz; apply H; right; auto|]. exists (y :: ys). cbn [rmap]. rewrite E. cbn [rbind]. rewrite E2. cbn [rbind]. split; [reflexivity|constructor; auto].
Qed.
Lemma Forall2_map_r {A B C} (P : A -> C -> Prop) (f : B -> C) l l' : Forall2 (fun x y => P x (f y)) l l' -> Forall2 P l (map f l').
Proof. induction 1; cbn; constructor; auto. Qed.
Lemma Forall2_in {A B} (P : A -> B -> Prop) l (f : A -> B) : (forall x, In x l -> P x (f x)) -> Forall2 P l (map f l).
Proof. induction l as [|x l IH]; intro H; cbn; constructor; [apply H; left; auto|apply IH; intros; apply H; right; auto]. Qed.
Lemma Forall2_weaken {A B} (P Q : A -> B -> Prop) l l' : (forall x y, In x l -> P x y -> Q x y) -> Forall2 P l l' -> Forall2 Q l l'.
Proof. intros H F. induction F; constructor; [apply H; auto; left; auto|apply IHF; intros; apply H; auto; right; auto]. Qed.
Lemma Forall2_right {A B} (P : A -> B -> Prop) (Q : B -> Prop) l l' : Forall2 P l l' -> (forall x y, P x y -> Q y) -> Forall Q l'.
Proof. intros F H. induction F; constructor; eauto. Qed.

Lemma Forall2_len {A B} (P : A -> B -> Prop) l l' : Forall2 P l l' -> length l = length l'.
Proof. induction 1; cbn; auto. Qed.
Lemma pack32_sat i : length i = 32%nat -> pack32 i = map (fun z => sat8 (sat16 z)) i.
Proof.
  intro H. do 32 (destruct i as [|? i]; [discriminate H|]). destruct i; [|discriminate H]. reflexivity.
Qed.
Lemma sat_id z : (-128 <= z <= 127)%Z -> sat8 (sat16 z) = z.
Proof. unfold sat8, sat16. lia. Qed.
Lemma sat_byte z : (-128 <= sat8 z <= 127)%Z.
Proof. unfold sat8. lia. Qed.
Lemma wrap_byte z : (-128 <= wrap8 z <= 127)%Z.
Proof. unfold wrap8. assert (H := Z.mod_pos_bound (z + 128) 256 ltac:(lia)). lia. Qed.
Lemma wrap_id z : (-128 <= z <= 127)%Z -> wrap8 z = z.
Proof. intro H. unfold wrap8. rewrite Z.mod_small; lia. Qed.

Definition good_scale (b : qblock) : Prop := in_bytes (-127) 127 (q_qs b) \/ q_d b = Some 0.
Definition q8_result (v : list R) (a : R) (b : qblock) : Prop :=
  length (q_qs b) = length v /\ in_bytes (-128) 127 (q_qs b) /\ good_scale b /\ decoded_within (q8_bound a) v (dequant_q8_0 b) /\ exists d, q_d b = Some d.

Lemma zero_scale v a qs : (forall x, In x v -> Rabs x <= a) -> a <= / 262144 -> length qs = length v ->
  decoded_within (q8_bound a) v (dequant_q8_0 (mkQ (Some 0) qs)).
Proof.
  intros H Ha HL. unfold decoded_within, dequant_q8_0. cbn [q_d q_qs]. revert qs HL. induction v as [|x v IH]; intros [|q qs] HL; try discriminate; cbn [map]; constructor.
  - exists 0. cbn [scaled]. rewrite Rmult_0_r, f32_0. split; auto. unfold q8_bound. destruct (Req_EM_T x 0) as [->|_]; [rewrite Rminus_0_r, Rabs_R0; lra|].
    assert (B := H x (or_introl eq_refl)). rewrite Rminus_0_l, Rabs_Ropp. assert (P := Rabs_pos x). lra.
  - apply IH; [intros; apply H; right; auto|cbn in HL; lia].
Qed.
Lemma small_scale a : 0 <= a < lo -> exists d, f32 (a / 127) = Some d /\ f16 d = Some 0.
Proof.
  intros [H1 H2]. assert (T := tiny_tiny). assert (L := lo_small). destruct (f32_ok (a / 127)) as (d & E & B).
  - rewrite Rabs_pos_eq by lra. apply Rle_trans with (bpow radix2 0); [simpl; lra|apply bpow_le; lia].
  - exists d. split; auto. apply f16_small. rewrite (Rabs_pos_eq (a / 127)) in B by lra.
    replace d with ((d - a / 127) + a / 127) by ring. eapply Rle_lt_trans; [apply Rabs_triang|]. rewrite (Rabs_pos_eq (a / 127)) by lra.
    assert (L26 : lo <= bpow radix2 (-40)) by (apply bpow_le; lia). assert (T2 : tiny <= bpow radix2 (-40)) by (apply bpow_le; lia).
    assert (B40 : bpow radix2 (-25) = 32768 * bpow radix2 (-40)) by (change (-25)%Z with (15 + -40)%Z; rewrite bpow_plus; reflexivity).
    assert (0 < bpow radix2 (-40)) by apply bpow_gt_0. unfold eps in *. lra.
Qed.
Lemma id_avx a d : lo <= a <= 8000000 -> Rabs (d - a / 127) <= eps * (a / 127) -> exists id, f32 (127 / a) = Some id /\ Rabs (id * d - 1) <= 3 * eps.
Proof.
  intros Ha Hd. assert (L := lo_pos).
  assert (I : 0 < / a <= / lo) by (split; [apply Rinv_0_lt_compat; lra|apply Rinv_le_contravar; lra]).
  assert (I2 : / 8000000 <= / a) by (apply Rinv_le_contravar; lra). assert (LS := lo_small).
  destruct (f32_rel (127 / a)) as (id & E & B).
  - unfold Rdiv. rewrite Rabs_pos_eq by lra. split; [apply big_normal; lra|]. apply hi_ok. unfold Rdiv. lra.
  - exists id. split; auto. unfold Rdiv in B at 2. rewrite (Rabs_pos_eq (127 * / a)) in B by lra.
    replace (id * d - 1) with ((id - 127 / a) * d + (d - a / 127) * (127 / a)) by (field; lra).
    eapply Rle_trans; [apply Rabs_triang|]. rewrite !Rabs_mult, (Rabs_pos_eq (127 / a)) by (unfold Rdiv; lra).
    assert (M1 : Rabs (d - a / 127) * (127 / a) <= eps * (a / 127) * (127 / a)) by (apply Rmult_le_compat_r; [unfold Rdiv; lra|auto]).
    replace (eps * (a / 127) * (127 / a)) with eps in M1 by (field; lra).
    apply Rabs_bounds in Hd. assert (D : Rabs d <= (1 + eps) * (a / 127)) by (apply Rabs_bounds; unfold eps in *; lra).
    assert (M2 : Rabs (id - 127 / a) * Rabs d <= eps * (127 * / a) * ((1 + eps) * (a / 127))) by (apply Rmult_le_compat; auto using Rabs_pos).
    replace (eps * (127 * / a) * ((1 + eps) * (a / 127))) with (eps * (1 + eps)) in M2 by (field; lra). unfold eps in *. lra.
Qed.
Theorem q8_0_ok t v a : length v = 32%nat -> greatest v a -> a <= 8000000 -> (t = Reference -> a = 0 \/ lo <= a) ->
  exists b, q8_0_block t v = ROk b /\ q8_result v a b.
Proof.
  intros HL G Ha HR. assert (A := amax_greatest v a G). destruct G as [G1 G2].
  assert (A0 : 0 <= a) by (destruct G2 as [[_ ->]|(x & _ & <-)]; [lra|apply Rabs_pos]). assert (L := lo_pos). assert (LS := lo_small).
  destruct (Rlt_le_dec a lo) as [S|S].
  - destruct (small_scale a) as (d & E & E16); [auto|]. assert (F : fop (a / 127) = ROk d) by (unfold fop; rewrite E; reflexivity).
    destruct t as [|junk|junk]; cbn [q8_0_block].
    + destruct (HR eq_refl) as [->|]; [|lra]. unfold q8_0_reference. rewrite A, F. cbn [rbind]. cbv zeta.
      assert (d = 0) by (unfold Rdiv in E; rewrite Rmult_0_l, f32_0 in E; injection E as <-; auto). subst d.
      destruct (rmap_ok (fun x => do x0 <- need (times (inv_scale 0) x); to_int8 (roundf x0)) (fun _ y => y = 0%Z) v) as (ys & Ey & Fy).
      { intros x Hx. exists 0%Z. split; auto. unfold inv_scale. destruct (Req_EM_T 0 0) as [_|N]; [|lra]. cbn [times]. rewrite Rmult_0_r, f32_0. cbn [need rbind].
        unfold roundf. rewrite (Znearest_imp _ 0 0); [reflexivity|]. rewrite Rminus_0_r, Rabs_R0. lra. }
      rewrite Ey. cbn [rbind]. rewrite E16. eexists. split; [reflexivity|]. repeat split; cbn [q_qs q_d].
      * symmetry. eapply Forall2_len; eauto.
      * eapply Forall2_right; [exact Fy|]. cbn beta. intros; subst; lia.
      * right. reflexivity.
      * apply zero_scale; auto; [lra|]. symmetry. eapply Forall2_len; eauto.
      * eauto.
    + unfold q8_0_neon. rewrite A, F. cbn [rbind]. cbv zeta. rewrite E16. eexists. split; [reflexivity|]. repeat split; cbn [q_qs q_d].
      * apply map_length.
      * apply Forall_map, Forall_forall. intros; apply wrap_byte.
      * right. reflexivity.
      * apply zero_scale; auto; [lra|]. apply map_length.
      * eauto.
    + unfold q8_0_avx2. cbv zeta. rewrite A, F. cbn [rbind]. rewrite E16. eexists. split; [reflexivity|].
      rewrite pack32_sat by (rewrite map_length; auto). repeat split; cbn [q_qs q_d].
      * rewrite !map_length. auto.
      * apply Forall_map, Forall_forall. intros; apply sat_byte.
      * right. reflexivity.
      * apply zero_scale; auto; [lra|]. rewrite !map_length. auto.
      * eauto.
  - destruct (scale_ok a) as (d & E & Bd); [lra|]. assert (F : fop (a / 127) = ROk d) by (unfold fop; rewrite E; reflexivity).
    assert (Bd' := Bd). apply Rabs_bounds in Bd'.
    destruct (inv_ok d) as (id & Ei & Bi).
    { rewrite Rabs_pos_eq by (unfold eps in *; lra). split; [unfold eps in *; lra|]. apply Rle_trans with 1000000; [unfold eps in *; lra|].
      assert (1048576 <= / lo) by (rewrite <- (Rinv_inv 1048576); apply Rinv_le_contravar; lra). unfold Rdiv. lra. }
    destruct t as [|junk|junk]; cbn [q8_0_block].
    + unfold q8_0_reference. rewrite A, F. cbn [rbind]. cbv zeta. rewrite Ei.
      destruct (rmap_ok (fun x => do x0 <- need (times (Some id) x); to_int8 (roundf x0))
        (fun x q => (-127 <= q <= 127)%Z /\ exists r, scaled (f16 d) q = Some r /\ Rabs (r - x) <= q8_bound a x) v) as (ys & Ey & Fy).
      { intros x Hx. destruct (q8_elem (Z.leb 0) a d id x) as (x0 & E0 & Q0 & _ & h & y & Eh & Ey & B); auto; [unfold eps in *; lra|].
        exists (roundf x0). cbn [times]. rewrite E0. cbn [need rbind]. unfold to_int8, roundf. replace _ with true by lia. split; auto. split; auto.
        exists y. rewrite Eh. cbn [scaled]. auto. }
      rewrite Ey. cbn [rbind]. eexists. split; [reflexivity|]. repeat split; cbn [q_qs q_d].
      * symmetry. eapply Forall2_len; eauto.
      * eapply Forall2_right; [exact Fy|]. cbn beta. intros; lia.
      * left. eapply Forall2_right; [exact Fy|]. cbn beta. intros; lia.
      * unfold decoded_within, dequant_q8_0. cbn [q_d q_qs]. apply Forall2_map_r. eapply Forall2_weaken; [|exact Fy]. cbn beta. tauto.
      * destruct (f16_ok d) as (h & Eh & _); [rewrite Rabs_pos_eq; unfold eps in *; lra|]. eauto.
    + unfold q8_0_neon. rewrite A, F. cbn [rbind]. cbv zeta. rewrite Ei.
      assert (W : forall x, In x v -> (-127 <= wrap8 (convert junk to_int32_arm (Some id) x) <= 127)%Z /\
        exists r, scaled (f16 d) (wrap8 (convert junk to_int32_arm (Some id) x)) = Some r /\ Rabs (r - x) <= q8_bound a x).
      { intros x Hx. destruct (q8_elem (fun z => negb (Z.even z)) a d id x) as (x0 & E0 & Q0 & _ & h & y & Eh & Ey & B); auto; [unfold eps in *; lra|].
        unfold convert. cbn [times]. rewrite E0. replace (to_int32_arm (ZnearestE x0)) with (ZnearestE x0) by (unfold to_int32_arm; lia).
        rewrite wrap_id by lia. split; auto. exists y. rewrite Eh. cbn [scaled]. auto. }
      eexists. split; [reflexivity|]. repeat split; cbn [q_qs q_d].
      * apply map_length.
      * apply Forall_map, Forall_forall. intros x Hx. destruct (W x Hx). lia.
      * left. apply Forall_map, Forall_forall. intros x Hx. destruct (W x Hx). lia.
      * unfold decoded_within, dequant_q8_0. cbn [q_d q_qs]. rewrite map_map. apply Forall2_in. intros x Hx. apply W. auto.
      * destruct (f16_ok d) as (h & Eh & _); [rewrite Rabs_pos_eq; unfold eps in *; lra|]. eauto.
    + unfold q8_0_avx2. cbv zeta. rewrite A, F. cbn [rbind]. destruct (Req_EM_T a 0) as [|_]; [lra|].
      destruct (id_avx a d) as (id' & Ei' & Bi'); auto. rewrite Ei'. rewrite pack32_sat by (rewrite map_length; auto). rewrite map_map.
      assert (W : forall x, In x v -> (-127 <= sat8 (sat16 (convert junk to_int32_x86 (Some id') x)) <= 127)%Z /\
        exists r, scaled (f16 d) (sat8 (sat16 (convert junk to_int32_x86 (Some id') x))) = Some r /\ Rabs (r - x) <= q8_bound a x).
      { intros x Hx. destruct (q8_elem (fun z => negb (Z.even z)) a d id' x) as (x0 & E0 & Q0 & _ & h & y & Eh & Ey & B); auto.
        unfold convert. cbn [times]. rewrite E0. replace (to_int32_x86 (ZnearestE x0)) with (ZnearestE x0) by (unfold to_int32_x86; destruct (_ && _) eqn:Q; lia).
        rewrite sat_id by lia. split; auto. exists y. rewrite Eh. cbn [scaled]. auto. }
      eexists. split; [reflexivity|]. repeat split; cbn [q_qs q_d].
      * rewrite map_length. auto.
      * apply Forall_map, Forall_forall. intros x Hx. destruct (W x Hx). lia.
      * left. apply Forall_map, Forall_forall. intros x Hx. destruct (W x Hx). lia.
      * unfold decoded_within, dequant_q8_0. cbn [q_d q_qs]. rewrite map_map. apply Forall2_in. intros x Hx. apply W. auto.
      * destruct (f16_ok d) as (h & Eh & _); [rewrite Rabs_pos_eq; unfold eps in *; lra|]. eauto.
Qed.
