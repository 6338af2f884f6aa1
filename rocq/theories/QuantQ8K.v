(** Proofs about quantization, part 4: Q8_K blocks and int8 with a given scale. *)
From Coq Require Import Reals Lra.
From Flocq Require Import Core Relative.
From Verif Require Import Base DTypeModel ParamModel TensorModel OpsModel MatModel QuantModel QuantSpec QuantFloat QuantProofs.
Local Open Scope R_scope.

(** Error of x; m is the element of greatest absolute value a. *)
Definition q8K_bound (a m x : R) : R :=
  if Req_EM_T x 0 then 0
  else if Rle_dec (Rabs x) (0.996 * a) then a / 256 + a / 100000
  else if Rle_dec 0 (x * m) then a / 256 + a / 100000
  else a / 128 + a / 100000.

Lemma k_iscale m : lo <= Rabs m <= / lo -> exists i, f32 (-128 / m) = Some i /\ Rabs (i * m + 128) <= 128 * eps /\
  exists d, f32 (1 / i) = Some d /\ Rabs (i * d - 1) <= eps /\ i <> 0 /\ d <> 0.
Proof.
  intros [H1 H2]. assert (L := lo_pos). assert (LS := lo_small). assert (D : 0 < Rabs m) by lra.
  assert (N : m <> 0) by (intros ->; rewrite Rabs_R0 in D; lra).
  assert (IL : 1048576 <= / lo) by (rewrite <- (Rinv_inv 1048576); apply Rinv_le_contravar; lra).
  assert (I : 128 * lo <= Rabs (-128 / m) <= 128 * / lo).
  { unfold Rdiv. rewrite Rabs_mult, Rabs_inv. replace (Rabs (-128)) with 128 by (rewrite Rabs_left; lra). split; apply Rmult_le_compat_l; try lra.
    - rewrite <- (Rinv_inv lo). apply Rinv_le_contravar; lra.
    - apply Rinv_le_contravar; lra. }
  destruct (f32_rel (-128 / m)) as (i & E & B).
  { split; [apply big_normal; lra|apply hi_ok; unfold Rdiv; lra]. }
  exists i. split; auto.
  assert (B2 : Rabs (i * m + 128) <= 128 * eps).
  { replace (i * m + 128) with ((i - -128 / m) * m) by (field; auto). rewrite Rabs_mult.
    replace (128 * eps) with (eps * Rabs (-128 / m) * Rabs m).
    - apply Rmult_le_compat_r; [apply Rabs_pos|exact B].
    - rewrite Rmult_assoc, <- Rabs_mult. replace (-128 / m * m) with (-128) by (field; auto). rewrite Rabs_left by lra. ring. }
  split; auto.
  assert (A : (1 - eps) * Rabs (-128 / m) <= Rabs i <= (1 + eps) * Rabs (-128 / m)).
  { split.
    - assert (T := Rabs_triang i (- (i - -128 / m))). rewrite Rabs_Ropp in T. replace (i + - (i - -128 / m)) with (-128 / m) in T by ring. lra.
    - replace i with (-128 / m + (i - -128 / m)) at 1 by ring. eapply Rle_trans; [apply Rabs_triang|]. lra. }
  assert (Ni : i <> 0) by (intros ->; rewrite Rabs_R0 in A; unfold eps in *; lra).
  destruct (inv_ok i) as (d & Ed & Bd).
  { unfold Rdiv. unfold eps in *. lra. }
  exists d. unfold inv_scale in Ed. destruct (Req_EM_T i 0) as [|_]; [contradiction|]. split; auto. rewrite (Rmult_comm i d). split; auto. split; auto.
  intros ->. rewrite Rmult_0_l, Rminus_0_l, Rabs_Ropp, Rabs_R1 in Bd. unfold eps in Bd. lra.
Qed.

Lemma q8K_elem m i d x : lo <= Rabs m <= / lo -> Rabs (i * m + 128) <= 128 * eps -> Rabs (i * d - 1) <= eps -> d <> 0 -> i <> 0 -> Rabs x <= Rabs m ->
  exists x0, f32 (i * x) = Some x0 /\ Rabs x0 <= 129 /\ let q := Z.min 127 (ZnearestE x0) in (-128 <= q <= 127)%Z /\ (x = 0 -> q = 0%Z) /\
   exists y, f32 (IZR q * d) = Some y /\ Rabs (y - x) <= q8K_bound (Rabs m) m x.
Proof.
  intros Ha Hi Hd N Ni Hx. assert (L := lo_pos). assert (LS := lo_small). assert (TL := tiny_lo). assert (E2 := eps2). set (a := Rabs m) in *.
  assert (Mi : 128 * (1 - eps) <= Rabs i * a <= 128 * (1 + eps)).
  { unfold a. rewrite <- Rabs_mult. apply Rabs_bounds in Hi. replace (Rabs (i * m)) with (- (i * m)) by (rewrite Rabs_left; [auto|unfold eps in *; lra]). unfold eps in *. lra. }
  assert (Di : 1 - eps <= Rabs i * Rabs d <= 1 + eps).
  { rewrite <- Rabs_mult. apply Rabs_bounds in Hd. rewrite (Rabs_pos_eq (i * d)) by (unfold eps in *; lra). lra. }
  assert (Ip : 0 < Rabs i) by (apply Rabs_pos_lt; auto). assert (Dp : 0 < Rabs d) by (apply Rabs_pos_lt; auto). assert (Ap : 0 < a) by lra.
  (* |d| is about a / 128 *)
  assert (DA : (1 - 4 * eps) * (a / 128) <= Rabs d <= (1 + 4 * eps) * (a / 128)).
  { split; apply (Rmult_le_reg_l (Rabs i)); auto.
    - apply Rle_trans with ((1 - 4 * eps) * (Rabs i * a) / 128); [apply Req_le; field|]. unfold eps in *. lra.
    - apply Rle_trans with ((1 + 4 * eps) * (Rabs i * a) / 128); [|apply Req_le; field]. unfold eps in *. lra. }
  set (t := x / d).
  assert (TA : Rabs t * Rabs d = Rabs x) by (unfold t, Rdiv; rewrite Rabs_mult, Rabs_inv; field; lra).
  assert (T : Rabs t <= 128.001).
  { apply (Rmult_le_reg_r (Rabs d)); auto. rewrite TA. unfold eps in *. lra. }
  destruct (times_ok d i x N) as (x0 & E0 & B0); [unfold eps in *; lra|fold t; lra|]. fold t in B0. rewrite Rmult_comm in E0.
  exists x0. split; auto. assert (X129 : Rabs x0 <= 129) by (replace x0 with ((x0 - t) + t) by ring; eapply Rle_trans; [apply Rabs_triang|lra]). split; auto. cbv zeta.
  assert (Hn := nearest_half (fun z => negb (Z.even z)) x0). assert (A0 : Rabs x0 < 128 + / 2) by (replace x0 with ((x0 - t) + t) by ring; eapply Rle_lt_trans; [apply Rabs_triang|lra]).
  assert (Q := near_int (ZnearestE x0) x0 128 Hn A0).
  set (q := Z.min 127 (ZnearestE x0)). assert (Qr : (-128 <= q <= 127)%Z) by (unfold q; lia). split; auto.
  assert (Z0 : x = 0 -> q = 0%Z).
  { intro X0. unfold q. rewrite X0, Rmult_0_r, f32_0 in E0. injection E0 as <-. rewrite (Znearest_imp (fun z => negb (Z.even z)) 0 0); [reflexivity|]. rewrite Rminus_0_r, Rabs_R0. lra. }
  split; auto.
  (* distance to the level, in steps *)
  apply Rabs_bounds in Hn. apply Rabs_bounds in B0. assert (T' := T). apply Rabs_bounds in T'.
  assert (Cgen : Rabs (IZR q - t) <= 1 + / 900).
  { apply Rabs_bounds. unfold q. destruct (Z.min_spec 127 (ZnearestE x0)) as [[Q1 ->]|[Q1 ->]].
    - assert (128 <= IZR (ZnearestE x0)) by (apply IZR_le; lia). lra.
    - lra. }
  assert (Chalf : t <= 127.499 -> Rabs (IZR q - t) <= / 2 + / 16384).
  { intro Ht. apply Rabs_bounds. unfold q. destruct (Z.min_spec 127 (ZnearestE x0)) as [[Q1 ->]|[Q1 ->]].
    - assert (128 <= IZR (ZnearestE x0)) by (apply IZR_le; lia). lra.
    - lra. }
  assert (Q128 : Rabs (IZR q) <= 128) by (rewrite <- abs_IZR; apply IZR_le; lia).
  assert (P : Rabs (IZR q * d) <= 128 * Rabs d) by (rewrite Rabs_mult; apply Rmult_le_compat_r; lra).
  destruct (f32_ok (IZR q * d)) as (y & Ey & By).
  { apply hi_ok. unfold Rdiv. unfold eps in *. lra. }
  exists y. split; auto.
  assert (Dec : forall c, Rabs (IZR q - t) <= c -> Rabs (y - x) <= c * Rabs d + 130 * eps * Rabs d).
  { intros c Hc. replace (y - x) with ((y - IZR q * d) + (IZR q - t) * d) by (unfold t; field; auto). eapply Rle_trans; [apply Rabs_triang|]. rewrite Rabs_mult.
    assert (M2 : Rabs (IZR q - t) * Rabs d <= c * Rabs d) by (apply Rmult_le_compat_r; lra).
    assert (M3 : eps * Rabs (IZR q * d) <= eps * (128 * Rabs d)) by (apply Rmult_le_compat_l; [unfold eps; lra|auto]).
    assert (tiny <= eps * Rabs d).
    { eapply Rle_trans; [exact TL|]. rewrite Rmult_assoc. apply Rmult_le_compat_l; [unfold eps; lra|]. unfold eps in *. lra. }
    unfold eps in *. lra. }
  unfold q8K_bound. destruct (Req_EM_T x 0) as [X0|X0].
  { rewrite (Z0 X0), Rmult_0_l, f32_0 in Ey. injection Ey as <-. rewrite X0, Rminus_0_r, Rabs_R0. lra. }
  assert (Half : t <= 127.499 -> Rabs (y - x) <= a / 256 + a / 100000).
  { intro Ht. eapply Rle_trans; [apply (Dec _ (Chalf Ht))|]. unfold eps in *. lra. }
  destruct (Rle_dec (Rabs x) (0.996 * a)) as [X1|X1].
  { apply Half. assert (Rabs t <= 127.499); [|apply Rabs_bounds in H; lra]. apply (Rmult_le_reg_r (Rabs d)); auto. rewrite TA. unfold eps in *. lra. }
  destruct (Rle_dec 0 (x * m)) as [X2|X2].
  { apply Half. apply Rle_trans with 0; [|lra]. apply Rabs_bounds in Hi. apply Rabs_bounds in Hd.
    assert (Mm : 0 < i * d) by (unfold eps in *; lra). assert (Mi2 : i * m < 0) by (unfold eps in *; lra).
    assert (II : 0 < i * i) by (apply Rlt_0_sqr; auto). assert (DD : 0 < d * d) by (apply Rlt_0_sqr; auto).
    assert (DM : d * m < 0).
    { apply (Rmult_lt_reg_l (i * i)); auto. replace (i * i * (d * m)) with (- ((i * d) * - (i * m))) by ring. rewrite Rmult_0_r.
      assert (0 < (i * d) * - (i * m)) by (apply Rmult_lt_0_compat; lra). lra. }
    assert (Mp : 0 < m * m) by (apply Rlt_0_sqr; intros ->; lra).
    assert (XD : x * d <= 0).
    { apply (Rmult_le_reg_r (m * m)); auto. replace (x * d * (m * m)) with (- ((x * m) * - (d * m))) by ring. rewrite Rmult_0_l.
      assert (0 <= (x * m) * - (d * m)) by (apply Rmult_le_pos; lra). lra. }
    apply (Rmult_le_reg_r (d * d)); [auto|]. replace (t * (d * d)) with (x * d) by (unfold t; field; auto). lra. }
  eapply Rle_trans; [apply (Dec _ Cgen)|]. unfold eps in *. lra.
Qed.

(** The sums of 16 numbers kept with a block. *)
Definition sums16 (qs : list Z) (s : list Z) : Prop :=
  length s = 16%nat /\ forall j, (j < 16)%nat -> nth j s 0%Z = fold_left Z.add (firstn 16 (skipn (16 * j) qs)) 0%Z.
Theorem q8_K_ok v a : length v = 256%nat -> greatest v a -> a = 0 \/ lo <= a <= / lo ->
  exists b m, q8_K_block v = ROk b /\ (a = 0 \/ In m v /\ Rabs m = a) /\ length (k_qs b) = 256%nat /\ in_bytes (-128) 127 (k_qs b) /\
    decoded_within (q8K_bound a m) v (dequant_q8_K b) /\ (0 < a -> exists s, k_bsums b = Some s /\ sums16 (k_qs b) s).
Proof.
  intros HL G HR. destruct (max_greatest v a G) as [A AI]. set (m := max_abs_elem v) in *. destruct G as [G1 _]. assert (L := lo_pos).
  unfold q8_K_block. fold m. cbv zeta. destruct (Req_EM_T m 0) as [M0|M0].
  - assert (a = 0) by (rewrite <- A, M0; apply Rabs_R0). subst a. eexists. exists m. split; [reflexivity|]. split; [auto|]. cbn [k_qs k_d k_bsums]. split; [rewrite map_length; auto|].
    split; [apply Forall_map, Forall_forall; intros; lia|]. split; [|lra]. unfold decoded_within, dequant_q8_K. cbn [k_d k_qs]. rewrite map_map. apply Forall2_in.
    intros x Hx. exists 0. cbn [scaled]. rewrite Rmult_0_r, f32_0. split; auto. assert (B := G1 x Hx).
    assert (x = 0). { destruct (Req_dec x 0) as [|N]; auto. apply Rabs_pos_lt in N. rewrite H in B. lra. } subst x.
    unfold q8K_bound. destruct (Req_EM_T 0 0); [rewrite Rminus_0_r, Rabs_R0; lra|lra].
  - assert (Ap : 0 < a) by (rewrite <- A; apply Rabs_pos_lt; auto). destruct HR as [|HR]; [lra|].
    destruct (k_iscale m) as (i & Ei & Bi & d & Ed & Bd & Ni & Nd); [rewrite A; auto|]. unfold fop at 1. rewrite Ei. cbn [need rbind].
    destruct (rmap_ok (fun x => do x0 <- fop (i * x); do i0 <- nearest_int x0; ROk (wrap8 (Z.min 127 i0)))
      (fun x q => (-128 <= q <= 127)%Z /\ exists r, scaled (Some d) q = Some r /\ Rabs (r - x) <= q8K_bound a m x) v) as (ys & Ey & Fy).
    { intros x Hx. destruct (q8K_elem m i d x) as (x0 & E0 & B0 & Q0 & _ & y & Ey & B); auto; [rewrite A; auto|rewrite A; auto|]. cbv zeta in *.
      unfold fop. rewrite E0. cbn [need rbind]. rewrite nearest_int_ok by lra. cbn [rbind]. eexists. split; [reflexivity|]. rewrite wrap_id by auto.
      split; auto. exists y. rewrite A in B. auto. }
    rewrite Ey. cbn [rbind]. unfold fop. rewrite Ed. cbn [need rbind]. eexists. exists m. split; [reflexivity|]. cbn [k_qs k_d k_bsums].
    split; [tauto|]. assert (LY : length ys = 256%nat) by (apply Forall2_len in Fy; lia). split; auto.
    split; [eapply Forall2_right; [exact Fy|]; cbn beta; tauto|]. split.
    + unfold decoded_within, dequant_q8_K. cbn [k_d k_qs]. apply Forall2_map_r. eapply Forall2_weaken; [|exact Fy]. cbn beta. tauto.
    + intros _. eexists. split; [reflexivity|]. split; [reflexivity|]. intros j Hj.
      do 16 (destruct j as [|j]; [reflexivity|]). lia.
Qed.

(* ---------------- int8 with a given scale ---------------- *)
(** Nearest step for numbers in range, saturation outside. *)
Theorem i8_neon_ok junk scale x : lo <= scale <= / lo -> Rabs x <= 127 * scale ->
  exists y, i8_dequant scale (i8_neon junk scale x) = Some y /\ Rabs (y - x) <= scale / 2 + scale / 10000.
Proof.
  intros Hs Hx. assert (L := lo_pos). assert (LS := lo_small). assert (TL := tiny_lo). assert (E2 := eps2). assert (Sp : 0 < scale) by lra.
  assert (IL : 1048576 <= / lo) by (rewrite <- (Rinv_inv 1048576); apply Rinv_le_contravar; lra).
  destruct (inv_ok scale) as (id & Ei & Bi); [rewrite Rabs_pos_eq by lra; unfold Rdiv; lra|].
  set (t := x / scale). assert (N : scale <> 0) by lra.
  assert (T : Rabs t <= 127). { unfold t, Rdiv. rewrite Rabs_mult, Rabs_inv, (Rabs_pos_eq scale) by lra. apply (Rmult_le_reg_r scale); auto. rewrite Rmult_assoc, Rinv_l; lra. }
  destruct (times_ok scale id x N) as (x0 & E0 & B0); [unfold eps in *; lra|fold t; lra|]. fold t in B0.
  unfold i8_neon, convert. rewrite Ei. cbn [times]. rewrite E0. assert (Hn := nearest_half (fun z => negb (Z.even z)) x0).
  assert (A0 : Rabs x0 < 127 + / 2) by (replace x0 with ((x0 - t) + t) by ring; eapply Rle_lt_trans; [apply Rabs_triang|lra]).
  assert (Q := near_int (ZnearestE x0) x0 127 Hn A0). replace (to_int32_arm (ZnearestE x0)) with (ZnearestE x0) by (unfold to_int32_arm; lia).
  replace (Z.max (-128) (Z.min (ZnearestE x0) 127)) with (ZnearestE x0) by lia. rewrite wrap_id by lia.
  unfold i8_dequant. set (q := ZnearestE x0) in *. assert (Q128 : Rabs (IZR q) <= 128) by (rewrite <- abs_IZR; apply IZR_le; lia).
  assert (P : Rabs (IZR q * scale) <= 128 * scale) by (rewrite Rabs_mult, (Rabs_pos_eq scale) by lra; apply Rmult_le_compat_r; lra).
  destruct (f32_ok (IZR q * scale)) as (y & Ey & By); [apply hi_ok; unfold Rdiv; lra|]. exists y. split; auto.
  replace (y - x) with ((y - IZR q * scale) + (IZR q - x0) * scale + (x0 - t) * scale) by (unfold t; field; auto).
  eapply Rle_trans; [apply Rabs_triang|]. eapply Rle_trans; [apply Rplus_le_compat_r, Rabs_triang|]. rewrite !Rabs_mult, (Rabs_pos_eq scale) by lra.
  assert (M1 : Rabs (IZR q - x0) * scale <= / 2 * scale) by (apply Rmult_le_compat_r; lra).
  assert (M2 : Rabs (x0 - t) * scale <= / 16384 * scale) by (apply Rmult_le_compat_r; lra).
  assert (M3 : eps * Rabs (IZR q * scale) <= eps * (128 * scale)) by (apply Rmult_le_compat_l; [unfold eps; lra|auto]).
  assert (tiny <= eps * scale).
  { eapply Rle_trans; [exact TL|]. rewrite Rmult_assoc. apply Rmult_le_compat_l; [unfold eps; lra|]. unfold eps in *. lra. }
  unfold eps in *. lra.
Qed.
