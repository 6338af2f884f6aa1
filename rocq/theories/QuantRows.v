(** Proofs about quantization, part 7: quantizing and dequantizing a row; what goes wrong. *)
From Coq Require Import Reals Lra.
From Flocq Require Import Core Relative.
From Verif Require Import Base DTypeModel ParamModel ParamSpec ParamProofs TensorModel TensorSpec TensorProofs OpsModel OpsSpec MatModel MatSpec MatProofs MatKernel
  AttnSpec AttnProofs QuantModel QuantSpec QuantFloat QuantProofs QuantQ4 QuantQ8K QuantDot QuantLinear.
Local Open Scope Z_scope.

Section Row.
Context {B : Type}.
Variables (lanes : Z) (block : list R -> res B) (dq : B -> list (option R)) (near : list R -> R -> R -> Prop) (dflt : B) (k : Z) (x : buf R) (xo yo zo : Z) (y : buf B) (z : buf R) (X : Z -> R).
Let V (l : Z) : list R := map (fun j => X (lanes * l + j)) (range lanes).
Hypothesis Hl : 0 < lanes.
Hypothesis Hk : 0 <= k.
Hypothesis Hm : k mod lanes = 0.
Hypothesis HX : forall i, 0 <= i < k -> loadv x (xo + i) = ROk (X i).
Hypothesis HV : forall l, 0 <= l < k / lanes -> exists b, block (V l) = ROk b /\ Forall2 (fun x y => exists r, y = Some r /\ near (V l) x r) (V l) (dq b).
Hypothesis Hy : 0 <= yo /\ yo + k / lanes <= b_len y.
Hypothesis Hz : 0 <= zo /\ zo + k <= b_len z.
Lemma row_roundtrip : exists y' z', quantize_row lanes block k x xo yo y = ROk y' /\ b_len y' = b_len y /\ (forall d, ~ (yo <= d < yo + k / lanes) -> b_at y' d = b_at y d) /\
  dequantize_row lanes dq k y' yo zo z = ROk z' /\ b_len z' = b_len z /\ (forall d, ~ (zo <= d < zo + k) -> b_at z' d = b_at z d) /\
  forall i, 0 <= i < k -> exists r, b_at z' (zo + i) = Some r /\ near (V (i / lanes)) (X i) r.
Proof using All.
  set (Bf := fun l => match block (V l) with ROk b => b | _ => dflt end).
  assert (EK : k = k / lanes * lanes) by (assert (D := Z.div_mod k lanes ltac:(lia)); lia). set (n := k / lanes) in *. clearbody n.
  destruct (quantize_row_ok lanes block k x xo yo y V Bf (fun d => Some (Bf (d - yo)))) as (y' & E & C).
  { replace (k / lanes) with n by (rewrite EK; symmetry; apply Z.div_mul; lia). intros i Hi. destruct (HV i Hi) as (b & Eb & _).
    split; [|split; [|split; [lia|]]].
    - unfold V. apply load_vec_map. intros j Hj. rewrite <- (HX (lanes * i + j)) by nia. f_equal. ring.
    - unfold Bf. rewrite Eb. reflexivity.
    - do 2 f_equal. lia. }
  replace (k / lanes) with n in C by (rewrite EK; symmetry; apply Z.div_mul; lia). destruct C as [c1 c2 c3].
  set (F := fun i => match nth_error (dq (Bf (i / lanes))) (Z.to_nat (i mod lanes)) with Some v => v | None => None end).
  assert (HF : forall i j, 0 <= i < n -> 0 <= j < lanes -> nth_error (dq (Bf i)) (Z.to_nat j) = Some (F (i * lanes + j)) /\ exists r, F (i * lanes + j) = Some r /\ near (V i) (X (lanes * i + j)) r).
  { intros i j Hi Hj. destruct (HV i Hi) as (b & Eb & Fb). unfold F, Bf.
    replace ((i * lanes + j) / lanes) with i by (rewrite Z.div_add_l, (Z.div_small j) by lia; lia). replace ((i * lanes + j) mod lanes) with j by (rewrite Z.add_comm, Z.mod_add, Z.mod_small; lia).
    rewrite Eb. destruct (Forall2_nth _ _ _ Fb (Z.to_nat j) (X (lanes * i + j))) as (v & Ev & r & -> & Nr); [unfold V; rewrite nth_range by auto; reflexivity|]. rewrite Ev. eauto. }
  destruct (dequantize_row_ok lanes dq k y' yo zo z Bf F (fun d => F (d - zo))) as (z' & E' & C'); auto.
  { replace (k / lanes) with n by (rewrite EK; symmetry; apply Z.div_mul; lia). intros i Hi. apply loadv_at; [lia|]. rewrite c2 by (unfold segment; lia). do 2 f_equal. lia. }
  { replace (k / lanes) with n by (rewrite EK; symmetry; apply Z.div_mul; lia). intros i j Hi Hj. destruct (HF i j Hi Hj) as [H1 _]. split; auto. split; [nia|]. f_equal. lia. }
  replace (k / lanes) with n in C' by (rewrite EK; symmetry; apply Z.div_mul; lia). rewrite <- EK in C'. destruct C' as [d1 d2 d3].
  exists y', z'. split; auto. split; auto. split; [exact c3|]. split; auto. split; auto. split; [exact d3|].
  intros i Hi. assert (D := Z.div_mod i lanes ltac:(lia)). assert (M := Z.mod_pos_bound i lanes Hl).
  assert (Hn : 0 <= i / lanes < n) by (split; [apply Z.div_pos; lia|apply Z.div_lt_upper_bound; lia]).
  destruct (HF (i / lanes) (i mod lanes) Hn M) as (_ & r & Er & Nr). exists r. rewrite d2 by (unfold segment; lia).
  replace (i / lanes * lanes + i mod lanes) with i in Er by lia. replace (lanes * (i / lanes) + i mod lanes) with i in Nr by lia. rewrite <- Er. split; [f_equal; lia|auto].
Qed.
End Row.

(* ---------------- numbers out of range ---------------- *)
Lemma f32_pow e : -149 <= e <= 127 -> f32 (bpow radix2 e) = Some (bpow radix2 e).
Proof.
  intro H. unfold f32. replace (nearest (-149) 24 (bpow radix2 e)) with (bpow radix2 e).
  - rewrite Rabs_pos_eq by apply bpow_ge_0. destruct (Rlt_dec _ _) as [|N]; auto. exfalso. apply N. apply bpow_lt. lia.
  - symmetry. apply round_generic; [apply valid_rnd_N|]. apply generic_format_bpow. unfold FLT_exp. lia.
Qed.
Lemma f32_big e : 128 <= e -> f32 (bpow radix2 e) = None.
Proof.
  intro H. unfold f32. replace (nearest (-149) 24 (bpow radix2 e)) with (bpow radix2 e).
  - rewrite Rabs_pos_eq by apply bpow_ge_0. destruct (Rlt_dec _ _) as [L|N]; auto. exfalso. apply lt_bpow in L. lia.
  - symmetry. apply round_generic; [apply valid_rnd_N|]. apply generic_format_bpow. unfold FLT_exp. lia.
Qed.
Lemma f16_big : f16 65536 = None.
Proof.
  unfold f16. change 65536%R with (bpow radix2 16). replace (nearest (-24) 11 (bpow radix2 16)) with (bpow radix2 16).
  - rewrite Rabs_pos_eq by apply bpow_ge_0. destruct (Rlt_dec _ _) as [L|N]; auto. exfalso. lra.
  - symmetry. apply round_generic; [apply valid_rnd_N|]. apply generic_format_bpow. unfold FLT_exp. lia.
Qed.
Lemma amax_repeat c n : (0 <= c)%R -> amax (repeat c (S n)) = c.
Proof.
  intro H. apply amax_greatest. split; [intros x Hx; apply repeat_spec in Hx; subst; rewrite Rabs_pos_eq; lra|]. right. exists c. split; [left; reflexivity|apply Rabs_pos_eq; auto].
Qed.
(** A block of very small numbers: 1 / d overflows. *)
Lemma tiny_block : q8_0_reference (repeat (127 * bpow radix2 (-140))%R 32) = RUB.
Proof.
  assert (P := bpow_gt_0 radix2 (-140)). unfold q8_0_reference. rewrite amax_repeat by lra. replace (127 * bpow radix2 (-140) / 127)%R with (bpow radix2 (-140)) by lra.
  unfold fop. rewrite f32_pow by lia. cbn [need rbind]. cbv zeta. unfold inv_scale. destruct (Req_EM_T _ 0) as [Z|_]; [lra|].
  replace (1 / bpow radix2 (-140))%R with (bpow radix2 140) by (unfold Rdiv; rewrite Rmult_1_l, <- bpow_opp; reflexivity). rewrite f32_big by lia. cbn. reflexivity.
Qed.
(** A block with a large number: the scale does not fit binary16. *)
Lemma large_block t : exists b, q8_0_block t (repeat (127 * 65536)%R 32) = ROk b /\ q_d b = None.
Proof.
  assert (F : fop (127 * 65536 / 127) = ROk 65536%R).
  { replace (127 * 65536 / 127)%R with (bpow radix2 16) by (simpl; lra). unfold fop. rewrite f32_pow by lia. reflexivity. }
  destruct t as [|junk|junk]; cbn [q8_0_block]; unfold q8_0_reference, q8_0_neon, q8_0_avx2; cbv zeta; rewrite (amax_repeat _ 31) by lra; rewrite F; cbn [rbind]; rewrite f16_big.
  - destruct (rmap_ok (fun x => do x0 <- need (times (inv_scale 65536) x); to_int8 (roundf x0)) (fun _ _ => True) (repeat (127 * 65536)%R 32)) as (ys & Ey & _).
    { intros x Hx. apply repeat_spec in Hx. subst x. exists 127. split; auto. unfold inv_scale. destruct (Req_EM_T 65536 0) as [Z|_]; [lra|].
      replace (1 / 65536)%R with (bpow radix2 (-16)) by (simpl; lra). rewrite f32_pow by lia. cbn [times]. replace (127 * 65536 * bpow radix2 (-16))%R with 127%R by (simpl; lra).
      replace (f32 127) with (Some 127%R).
      - cbn [need rbind]. unfold roundf. rewrite (Znearest_imp _ 127 127); [reflexivity|]. rewrite Rminus_diag_eq by reflexivity. rewrite Rabs_R0. lra.
      - symmetry. assert (F1 := exact_product 1 127). rewrite Rmult_1_r in F1. apply F1; [|lia]. unfold f16. change 1%R with (bpow radix2 0).
        replace (nearest (-24) 11 (bpow radix2 0)) with (bpow radix2 0) by (symmetry; apply round_generic; [apply valid_rnd_N|apply generic_format_bpow; unfold FLT_exp; lia]).
        rewrite Rabs_pos_eq by apply bpow_ge_0. destruct (Rlt_dec _ _) as [|N]; auto. exfalso. apply N. apply bpow_lt. lia. }
    rewrite Ey. eexists. split; reflexivity.
  - eexists. split; reflexivity.
  - eexists. split; reflexivity.
Qed.
(** The int8 quantizer without vector instructions uses index k in a row of k numbers. *)
Lemma i8_reference_overrun scale id k x y : 1 <= k -> f32 (1 / scale) = Some id -> b_len x = k -> i8_row_reference scale k x y = RUB.
Proof.
  intros Hk E HL. unfold i8_row_reference, fop. rewrite E. cbn [need rbind]. unfold zloop. destruct (Z.to_nat k) as [|n] eqn:Q; [lia|].
  assert (U : forall (i : Z) (y : buf Z), (do v <- loadv x k; do x0 <- need (f32 (v * id)); do q <- to_int8 (roundf x0); store y k (Some q)) = RUB).
  { intros _ y0. unfold loadv, load. rewrite HL. replace ((0 <=? k) && (k <? k)) with false by lia. reflexivity. }
  clear Q. revert y. induction n as [|n IH]; intro y; cbn [loop].
  - apply (U 0 y).
  - cbn [loop] in IH. rewrite IH. reflexivity.
Qed.
(** Saturation of the NEON int8 quantizer. *)
Lemma i8_sat junk scale x : (lo <= scale <= / lo)%R -> (128 <= Rabs (x / scale) <= bpow radix2 60)%R -> (129 <= Rabs (x / scale))%R \/ (0 < x)%R ->
  i8_neon junk scale x = if Rlt_dec 0 x then 127 else -128.
Proof.
  intros Hs Ht Hsg. assert (L := lo_pos). assert (LS := lo_small). assert (TT := tiny_tiny).
  assert (Sp : (0 < scale)%R) by lra. assert (N : (scale <> 0)%R) by lra.
  destruct (inv_ok scale) as (id & Ei & Bi); [rewrite Rabs_pos_eq by lra; unfold Rdiv; split; [lra|]|].
  { assert (0 < / lo)%R by (apply Rinv_0_lt_compat; lra). lra. }
  set (t := (x / scale)%R) in *. assert (Ex : (x = t * scale)%R) by (unfold t; field; auto).
  assert (P : (x * id = t + t * (id * scale - 1))%R) by (rewrite Ex; ring).
  assert (B : (Rabs (t * (id * scale - 1)) <= Rabs t * eps)%R) by (rewrite Rabs_mult; apply Rmult_le_compat_l; [apply Rabs_pos|auto]).
  assert (A : (Rabs (x * id) <= 2 * Rabs t)%R) by (rewrite P; eapply Rle_trans; [apply Rabs_triang|]; unfold eps in B; lra).
  destruct (f32_ok (x * id)) as (x0 & E0 & F0).
  { eapply Rle_trans; [exact A|]. apply Rle_trans with (2 * bpow radix2 60)%R; [lra|]. replace (2 * bpow radix2 60)%R with (bpow radix2 61) by (change 61 with (1 + 60); rewrite bpow_plus; reflexivity).
    apply bpow_le; lia. }
  assert (C : (Rabs (x0 - t) <= Rabs t * (4 * eps) + tiny)%R).
  { replace (x0 - t)%R with ((x0 - x * id) + t * (id * scale - 1))%R by (rewrite P; ring). eapply Rle_trans; [apply Rabs_triang|].
    assert (eps * Rabs (x * id) <= eps * (2 * Rabs t))%R by (apply Rmult_le_compat_l; [unfold eps; lra|exact A]). unfold eps in *. lra. }
  unfold i8_neon, convert. rewrite Ei. cbn [times]. rewrite E0. assert (Hn := nearest_half (fun z => negb (Z.even z)) x0).
  apply Rabs_bounds in Hn. apply Rabs_bounds in C. unfold eps in C.
  destruct (Rlt_dec 0 x) as [Hx|Hx].
  - assert (T : (0 < t)%R) by (unfold t; apply Rdiv_lt_0_compat; lra). rewrite (Rabs_pos_eq t) in C, Ht by lra.
    assert (Q : (126 < IZR (ZnearestE x0))%R) by lra. apply lt_IZR in Q. unfold to_int32_arm.
    replace (Z.max (-128) (Z.min (Z.max (-2147483648) (Z.min 2147483647 (ZnearestE x0))) 127)) with 127 by lia. reflexivity.
  - destruct Hsg as [Hsg|]; [|contradiction].
    assert (T : (t <= 0)%R). { assert (I := Rinv_0_lt_compat scale Sp). replace 0%R with (0 * / scale)%R by ring. unfold t, Rdiv. apply Rmult_le_compat_r; lra. }
    rewrite (Rabs_left1 t) in C, Ht, Hsg by lra.
    assert (Q : (IZR (ZnearestE x0) < -127)%R) by lra. apply lt_IZR in Q. unfold to_int32_arm.
    replace (Z.max (-128) (Z.min (Z.max (-2147483648) (Z.min 2147483647 (ZnearestE x0))) 127)) with (-128) by lia. reflexivity.
Qed.
Lemma i8_row_ok junk scale k (x : buf R) (y : buf Z) (X : Z -> R) : 0 <= k -> (forall i, 0 <= i < k -> loadv x i = ROk (X i)) -> k <= b_len y ->
  exists y', i8_row_neon junk scale k x y = ROk y' /\ b_len y' = b_len y /\
    (forall i, 0 <= i < k / 32 * 32 -> b_at y' i = Some (i8_neon junk scale (X i))) /\ (forall i, ~ (0 <= i < k / 32 * 32) -> b_at y' i = b_at y i).
Proof.
  intros Hk HX Hy. assert (D := Z.div_mod k 32 ltac:(lia)). assert (M := Z.mod_pos_bound k 32 ltac:(lia)). assert (0 <= k / 32) by (apply Z.div_pos; lia).
  unfold i8_row_neon. set (n := k / 32 * 32) in *. assert (Hn : 0 <= n <= k) by lia. clearbody n. clear D M H.
  destruct (zloop_inv (fun j (s : buf Z) => b_len s = b_len y /\ (forall i, 0 <= i < j -> b_at s i = Some (i8_neon junk scale (X i))) /\ (forall i, ~ (0 <= i < j) -> b_at s i = b_at y i))
    n (fun i y => do v <- loadv x i; store y i (Some (i8_neon junk scale v))) y) as (y' & E & I).
  - lia.
  - split; [reflexivity|]. split; [intros; lia|reflexivity].
  - intros i s Hi (I1 & I2 & I3). rewrite (HX i) by lia. cbn [rbind]. unfold store. rewrite I1. replace ((0 <=? i) && (i <? b_len y)) with true by lia.
    eexists. split; [reflexivity|]. cbn [b_len b_at]. split; [auto|]. split.
    + intros j Hj. destruct (Z.eqb_spec j i) as [->|]; [reflexivity|]. apply I2. lia.
    + intros j Hj. destruct (Z.eqb_spec j i) as [->|]; [lia|]. apply I3. lia.
  - exists y'. tauto.
Qed.
