(** Proofs about quantization, part 3: Q4_0, Q8_K, int8 with a given scale. *)
From Coq Require Import Reals Lra.
From Flocq Require Import Core Relative.
From Verif Require Import Base DTypeModel ParamModel TensorModel OpsModel MatModel QuantModel QuantSpec QuantFloat QuantProofs.
Local Open Scope R_scope.

(** The extreme element is nearly exact, zeros are exact; numbers near the extreme one's opposite
    lose a whole step, all others half a step. *)
Definition q4_bound (a m x : R) : R :=
  if Req_EM_T x 0 then 0
  else if Req_EM_T x m then a / 1024 + / 2097152
  else if Rle_dec (Rabs x) (0.937 * a) then a / 16 + a / 1024 + / 2097152
  else if Rle_dec 0 (x * m) then a / 16 + a / 1024 + / 2097152
  else a / 8 + a / 1024 + / 2097152.

Lemma nibbles_ok n0 n1 : (0 <= n0 <= 15)%Z -> (0 <= n1 <= 15)%Z ->
  let b := (Z.lor n0 (Z.shiftl n1 4) mod 256)%Z in Z.land b 15 = n0 /\ Z.shiftr b 4 = n1 /\ (0 <= b < 256)%Z.
Proof.
  intros H0 H1.
  assert (C : forallb (fun i => forallb (fun j => let b := (Z.lor i (Z.shiftl j 4) mod 256)%Z in
    ((Z.land b 15 =? i) && (Z.shiftr b 4 =? j) && (0 <=? b) && (b <? 256))%Z) (MatSpec.range 16)) (MatSpec.range 16) = true) by (vm_compute; reflexivity).
  rewrite forallb_forall in C.
  assert (R : forall z, (0 <= z <= 15)%Z -> In z (MatSpec.range 16)).
  { intros z Hz. unfold MatSpec.range. apply in_map_iff. exists (Z.to_nat z). split; [lia|]. apply in_seq. lia. }
  specialize (C n0 (R n0 H0)). rewrite forallb_forall in C. specialize (C n1 (R n1 H1)). cbv zeta in *. lia.
Qed.
Lemma floor_pos s : 0 < s -> Ztrunc s = Zfloor s.
Proof. intro H. apply Ztrunc_floor. lra. Qed.

Lemma q4_scale m : lo <= Rabs m <= 400000 -> exists d, f32 (m / -8) = Some d /\ Rabs (d - m / -8) <= eps * (Rabs m / 8).
Proof.
  intros [H1 H2]. assert (L := lo_pos). assert (A : Rabs (m / -8) = Rabs m / 8).
  { unfold Rdiv. rewrite Rabs_mult, Rabs_inv. replace (Rabs (-8)) with 8 by (rewrite Rabs_left; lra). reflexivity. }
  destruct (f32_rel (m / -8)) as (d & E & B).
  - rewrite A. split; [apply big_normal; lra|]. apply Rle_trans with (bpow radix2 20); [simpl; lra|apply bpow_le; lia].
  - exists d. split; auto. rewrite A in B. exact B.
Qed.
Lemma q4_elem m d id x : lo <= Rabs m <= 400000 -> Rabs (d - m / -8) <= eps * (Rabs m / 8) -> Rabs (id * d - 1) <= eps -> Rabs x <= Rabs m ->
  exists n, nibble (Some id) x = ROk n /\ (0 <= n <= 15)%Z /\
    exists h y, f16 d = Some h /\ f32 (IZR (n - 8) * h) = Some y /\ Rabs (y - x) <= q4_bound (Rabs m) m x.
Proof.
  intros Ha Hd Hi Hx. assert (L := lo_pos). set (a := Rabs m) in *. assert (TT := tiny_tiny).
  assert (M8 : Rabs (m / -8) = a / 8).
  { unfold a, Rdiv. rewrite Rabs_mult, Rabs_inv. replace (Rabs (-8)) with 8 by (rewrite Rabs_left; lra). reflexivity. }
  assert (D : (1 - eps) * (a / 8) <= Rabs d <= (1 + eps) * (a / 8)).
  { split.
    - replace (m / -8) with (d + - (d - m / -8)) in M8 by ring. assert (T := Rabs_triang d (- (d - m / -8))). rewrite Rabs_Ropp in T. rewrite M8 in T. lra.
    - replace d with (m / -8 + (d - m / -8)) by ring. eapply Rle_trans; [apply Rabs_triang|]. rewrite M8. lra. }
  assert (Dp : 0 < Rabs d) by (unfold eps in *; lra). assert (N : d <> 0) by (intros ->; rewrite Rabs_R0 in Dp; lra).
  assert (DI : 0 < / Rabs d) by (apply Rinv_0_lt_compat; auto).
  set (t := x / d).
  assert (TA : Rabs t * Rabs d = Rabs x) by (unfold t, Rdiv; rewrite Rabs_mult, Rabs_inv; field; lra).
  assert (T : Rabs t <= 8.0001).
  { apply (Rmult_le_reg_r (Rabs d)); auto. rewrite TA. unfold eps in *. lra. }
  destruct (times_ok d id x N) as (x0 & E0 & B0); [unfold eps in *; lra|fold t; lra|]. fold t in B0.
  assert (T' := T). apply Rabs_bounds in T'. assert (B0' := B0). apply Rabs_bounds in B0'.
  destruct (f32_ok (x0 + 8.5)) as (s & Es & Bs).
  { apply Rle_trans with (bpow radix2 5); [|apply bpow_le; lia]. simpl. apply Rabs_bounds. lra. }
  assert (Bs2 : Rabs (s - (t + 8.5)) <= / 8192).
  { replace (s - (t + 8.5)) with ((s - (x0 + 8.5)) + (x0 - t)) by ring. eapply Rle_trans; [apply Rabs_triang|].
    assert (Rabs (x0 + 8.5) <= 17) by (apply Rabs_bounds; lra). assert (eps * Rabs (x0 + 8.5) <= eps * 17) by (apply Rmult_le_compat_l; [unfold eps; lra|auto]). unfold eps in *. lra. }
  apply Rabs_bounds in Bs2. assert (Sp : 0 < s < 17) by lra.
  assert (FL := Zfloor_lb s). assert (FU := Zfloor_ub s).
  assert (F : (0 <= Zfloor s <= 16)%Z).
  { split; [apply Zfloor_lub; simpl; lra|]. assert (IZR (Zfloor s) < IZR 17) by (simpl; lra). apply lt_IZR in H. lia. }
  set (n := Z.min 15 (Zfloor s)). exists n. split; [|split; [unfold n; lia|]].
  { unfold nibble. cbn [times]. rewrite E0. cbn [need rbind]. unfold fop. rewrite Es. cbn [need rbind]. rewrite floor_pos by lra.
    unfold to_int8. replace _ with true by lia. cbn [rbind]. f_equal. fold n. apply Z.mod_small. unfold n. lia. }
  destruct (f16_ok d) as (h & Eh & Bh); [unfold eps in *; lra|].
  (* distance to the level, in steps *)
  assert (Cgen : Rabs (IZR (n - 8) - t) <= 1 + / 4096).
  { rewrite minus_IZR. apply Rabs_bounds. unfold n. destruct (Z.min_spec 15 (Zfloor s)) as [[Q ->]|[Q ->]].
    - assert (15 <= IZR (Zfloor s) - 1) by (rewrite <- minus_IZR; apply IZR_le; lia). lra.
    - lra. }
  assert (Chalf : t <= 7.4998 -> Rabs (IZR (n - 8) - t) <= / 2 + / 8192).
  { intro Ht. rewrite minus_IZR. apply Rabs_bounds. unfold n. destruct (Z.min_spec 15 (Zfloor s)) as [[Q ->]|[Q ->]].
    - assert (16 <= IZR (Zfloor s)) by (apply IZR_le; lia). lra.
    - lra. }
  (* which case *)
  assert (Dec : forall c, Rabs (IZR (n - 8) - t) <= c -> exists y, f32 (IZR (n - 8) * h) = Some y /\
    Rabs (y - x) <= c * Rabs d + (8 + / 1024) * (Rabs d / 2048 + / 33554432) + Rabs d / 65536).
  { intros c Hc. destruct (decode_ok d h (n - 8) x c) as (y & Ey & By); auto; [unfold eps in *; lra|unfold n; lia|].
    exists y. split; auto. eapply Rle_trans; [exact By|].
    assert (Rabs (IZR (n - 8)) <= 8) by (rewrite <- abs_IZR; apply IZR_le; unfold n; lia).
    assert ((Rabs (IZR (n - 8)) + / 1024) * (Rabs d / 2048 + / 33554432) <= (8 + / 1024) * (Rabs d / 2048 + / 33554432)) by (apply Rmult_le_compat_r; lra). lra. }
  exists h. unfold q4_bound. destruct (Req_EM_T x 0) as [X0|X0].
  { assert (t = 0) by (unfold t; rewrite X0; unfold Rdiv; ring). assert (n = 8%Z).
    { unfold n. replace (Zfloor s) with 8%Z; auto. symmetry. apply Zfloor_imp. simpl. lra. }
    exists 0. rewrite H0. cbn. rewrite Rmult_0_l, f32_0, X0, Rminus_0_r, Rabs_R0. split; auto. split; auto. lra. }
  destruct (Req_EM_T x m) as [Xm|Xm].
  { (* t is about -8 *)
    assert (T8 : Rabs (t + 8) <= / 2048).
    { apply (Rmult_le_reg_r (Rabs d)); auto. rewrite <- Rabs_mult. replace ((t + 8) * d) with (8 * (d - m / -8)) by (unfold t; rewrite Xm; field; auto).
      rewrite Rabs_mult, (Rabs_pos_eq 8) by lra. unfold eps in *. lra. }
    apply Rabs_bounds in T8.
    assert (n = 0%Z). { unfold n. replace (Zfloor s) with 0%Z; auto. symmetry. apply Zfloor_imp. simpl. lra. }
    destruct (Dec (/ 2048)) as (y & Ey & By).
    { rewrite H. cbn. apply Rabs_bounds. lra. }
    exists y. split; auto. split; auto. unfold eps in *. lra. }
  assert (Half : t <= 7.4998 -> exists y, f16 d = Some h /\ f32 (IZR (n - 8) * h) = Some y /\ Rabs (y - x) <= a / 16 + a / 1024 + / 2097152).
  { intro Ht. destruct (Dec _ (Chalf Ht)) as (y & Ey & By). exists y. split; auto. split; auto. unfold eps in *. lra. }
  destruct (Rle_dec (Rabs x) (0.937 * a)) as [X1|X1].
  { apply Half. assert (Rabs t <= 7.4998); [|apply Rabs_bounds in H; lra]. apply (Rmult_le_reg_r (Rabs d)); auto. rewrite TA. unfold eps in *. lra. }
  destruct (Rle_dec 0 (x * m)) as [X2|X2].
  { apply Half. apply Rle_trans with 0; [|lra].
    (* d has the sign opposite to m *)
    assert (DM : d * m <= 0).
    { replace (d * m) with ((d - m / -8) * m + - (m * m) / 8) by field.
      assert (Rabs ((d - m / -8) * m) <= eps * (a / 8) * a) by (rewrite Rabs_mult; apply Rmult_le_compat; auto using Rabs_pos; unfold a; lra).
      apply Rabs_bounds in H. assert (m * m = a * a) by (unfold a; rewrite <- Rabs_mult; symmetry; apply Rabs_pos_eq; apply Rle_0_sqr).
      rewrite H0. assert (0 <= a * a) by (apply Rmult_le_pos; unfold a; apply Rabs_pos). unfold eps in *. lra. }
    assert (XD : x * d <= 0).
    { assert (Mp : 0 < m * m) by (assert (m <> 0) by (intros ->; unfold a in *; rewrite Rabs_R0 in *; lra); nra).
      assert ((x * d) * (m * m) <= 0) by (replace ((x * d) * (m * m)) with ((x * m) * (d * m)) by ring; assert (0 <= (x * m) * - (d * m)) by (apply Rmult_le_pos; lra); lra).
      apply (Rmult_le_reg_r (m * m)); auto. lra. }
    apply (Rmult_le_reg_r (d * d)); [nra|]. replace (t * (d * d)) with (x * d) by (unfold t; field; auto). lra. }
  destruct (Dec _ Cgen) as (y & Ey & By). exists y. split; auto. split; auto. unfold eps in *. lra.
Qed.

Lemma Forall2_combine {A B C} (P : A * B -> C -> Prop) (Q1 : A -> C -> Prop) (Q2 : B -> C -> Prop) :
  (forall a b c, P (a, b) c -> Q1 a c /\ Q2 b c) -> forall la lb lc, length la = length lb -> Forall2 P (combine la lb) lc ->
  Forall2 Q1 la lc /\ Forall2 Q2 lb lc.
Proof.
  intro H. induction la as [|a la IH]; intros [|b lb] lc HL F; try discriminate HL.
  - inversion F; subst. auto.
  - cbn [combine] in F. inversion F as [|? c ? lc' Pc F']; subst. destruct (H a b c Pc). destruct (IH lb lc'); auto.
Qed.
Theorem q4_0_ok v a : length v = 32%nat -> greatest v a -> a <= 400000 -> a = 0 \/ lo <= a ->
  exists b m, q4_0_block v = ROk b /\ (a = 0 \/ In m v /\ Rabs m = a) /\ length (q_qs b) = 16%nat /\ in_bytes 0 255 (q_qs b) /\
    decoded_within (q4_bound a m) v (dequant_q4_0 b) /\ exists d, q_d b = Some d.
Proof.
  intros HL G Ha HR. destruct (max_greatest v a G) as [A AI]. set (m := max_abs_elem v) in *. destruct G as [G1 _].
  assert (K : exists d id, f32 (m / -8) = Some d /\ inv_scale d = Some id /\ (exists h, f16 d = Some h) /\ forall x, In x v -> exists n, nibble (Some id) x = ROk n /\ (0 <= n <= 15)%Z /\
     exists r, scaled (f16 d) (n - 8) = Some r /\ Rabs (r - x) <= q4_bound a m x).
  { destruct HR as [Z|Z].
    - assert (m = 0) by (destruct (Req_dec m 0) as [|N]; auto; apply Rabs_no_R0 in N; lra).
      exists 0, 0. assert (H0 : m / -8 = 0) by (rewrite H; unfold Rdiv; ring). rewrite H0. split; [apply f32_0|].
      split; [unfold inv_scale; destruct (Req_EM_T 0 0); [auto|lra]|].
      assert (F0 : f16 0 = Some 0) by (apply f16_small; rewrite Rabs_R0; apply bpow_gt_0). split; [eauto|]. intros x Hx. exists 8%Z. split.
      + unfold nibble. cbn [times]. rewrite Rmult_0_r, f32_0. cbn [need rbind]. unfold fop. destruct (f32_ok (0 + 8.5)) as (s & Es & Bs).
        { apply Rle_trans with (bpow radix2 5); [|apply bpow_le; lia]. simpl. apply Rabs_bounds. lra. }
        rewrite Es. cbn [need rbind]. assert (T := tiny_tiny). rewrite (Rabs_pos_eq (0 + 8.5)) in Bs by lra. apply Rabs_bounds in Bs. unfold eps in Bs.
        rewrite floor_pos by lra. replace (Zfloor s) with 8%Z; [reflexivity|]. symmetry. apply Zfloor_imp. simpl. lra.
      + split; [lia|]. exists 0. rewrite F0. cbn. rewrite Rmult_0_l, f32_0. split; auto. unfold q4_bound.
        assert (x = 0). { assert (B := G1 x Hx). rewrite Z in B. destruct (Req_dec x 0) as [|N]; auto. apply Rabs_no_R0 in N. assert (P := Rabs_pos x). lra. }
        destruct (Req_EM_T x 0); [|contradiction]. rewrite H1, Rminus_0_r, Rabs_R0. lra.
    - assert (L := lo_pos). assert (LS := lo_small). destruct (q4_scale m) as (d & E & B); [lra|].
      assert (M8 : Rabs (m / -8) = a / 8).
      { rewrite <- A. unfold Rdiv. rewrite Rabs_mult, Rabs_inv. replace (Rabs (-8)) with 8 by (rewrite Rabs_left; lra). reflexivity. }
      assert (D : (1 - eps) * (a / 8) <= Rabs d <= (1 + eps) * (a / 8)).
      { rewrite A in B. split.
        - replace (m / -8) with (d + - (d - m / -8)) in M8 by ring. assert (T := Rabs_triang d (- (d - m / -8))). rewrite Rabs_Ropp in T. rewrite M8 in T. lra.
        - replace d with (m / -8 + (d - m / -8)) by ring. eapply Rle_trans; [apply Rabs_triang|]. rewrite M8. lra. }
      destruct (inv_ok d) as (id & Ei & Bi).
      { split; [unfold eps in *; lra|]. apply Rle_trans with 1000000; [unfold eps in *; lra|].
        assert (1048576 <= / lo) by (rewrite <- (Rinv_inv 1048576); apply Rinv_le_contravar; lra). unfold Rdiv. lra. }
      exists d, id. split; auto. split; auto. split; [destruct (f16_ok d) as (h & Eh & _); [unfold eps in *; lra|eauto]|].
      intros x Hx. destruct (q4_elem m d id x) as (n & En & Rn & h & y & Eh & Ey & By); auto; [lra|rewrite A; auto|].
      exists n. split; auto. split; auto. exists y. rewrite Eh. cbn [scaled]. rewrite A in By. auto. }
  destruct K as (d & id & E & Ei & [h Eh] & K). unfold q4_0_block. fold m. unfold fop. rewrite E. cbn [need rbind]. cbv zeta. rewrite Ei.
  assert (SP : firstn 16 v ++ skipn 16 v = v) by apply firstn_skipn.
  assert (L1 : length (firstn 16 v) = 16%nat) by (rewrite firstn_length; lia). assert (L2 : length (skipn 16 v) = 16%nat) by (rewrite skipn_length; lia).
  assert (I1 : forall x, In x (firstn 16 v) -> In x v) by (intros x Hx; rewrite <- SP; apply in_or_app; auto).
  assert (I2 : forall x, In x (skipn 16 v) -> In x v) by (intros x Hx; rewrite <- SP; apply in_or_app; auto).
  set (Q := fun (x : R) (n : Z) => exists r, scaled (f16 d) (n - 8) = Some r /\ Rabs (r - x) <= q4_bound a m x).
  destruct (rmap_ok (fun p => do xi0 <- nibble (Some id) (fst p); do xi1 <- nibble (Some id) (snd p); ROk (Z.lor xi0 (Z.shiftl xi1 4) mod 256)%Z)
    (fun p b => (0 <= b <= 255)%Z /\ Q (fst p) (Z.land b 15) /\ Q (snd p) (Z.shiftr b 4)) (combine (firstn 16 v) (skipn 16 v))) as (ys & Ey & Fy).
  { intros [x y] Hxy. assert (Hx := in_combine_l _ _ _ _ Hxy). assert (Hy := in_combine_r _ _ _ _ Hxy).
    destruct (K x (I1 x Hx)) as (n0 & En0 & Rn0 & P0). destruct (K y (I2 y Hy)) as (n1 & En1 & Rn1 & P1).
    cbn [fst snd]. rewrite En0. cbn [rbind]. rewrite En1. cbn [rbind]. eexists. split; [reflexivity|].
    destruct (nibbles_ok n0 n1 Rn0 Rn1) as (N0 & N1 & Nb). cbv zeta in *. rewrite N0, N1. split; [lia|]. split; auto. }
  rewrite Ey. cbn [rbind]. eexists. exists m. split; [reflexivity|]. cbn [q_qs q_d].
  split; [tauto|]. assert (LY : length ys = 16%nat) by (apply Forall2_len in Fy; rewrite combine_length, L1, L2 in Fy; auto).
  split; auto. split; [eapply Forall2_right; [exact Fy|]; cbn beta; tauto|]. split; [|eauto].
  unfold decoded_within, dequant_q4_0, unpack_q4_0. cbn [q_d q_qs]. rewrite map_app, !map_map. rewrite <- SP at 1.
  assert (Hl : length (firstn 16 v) = length (skipn 16 v)) by lia.
  destruct (Forall2_combine (fun p b => (0 <= b <= 255)%Z /\ Q (fst p) (Z.land b 15) /\ Q (snd p) (Z.shiftr b 4))
    (fun x b => Q x (Z.land b 15)) (fun x b => Q x (Z.shiftr b 4)) ltac:(cbn; tauto) _ _ ys Hl Fy) as [F1 F2].
  apply Forall2_app; apply Forall2_map_r; auto.
Qed.
