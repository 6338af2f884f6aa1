(** Bounds for the exponential, and accuracy of the fast exponential. *)
From Coq Require Import Reals Lra Lia ZArith.
From Verif Require Import ExpModel.
Local Open Scope R_scope.

(* ---------------- Taylor polynomials ---------------- *)
Fixpoint rfact (n : nat) : R := match n with O => 1 | S m => INR (S m) * rfact m end.
Fixpoint tay (n : nat) (x : R) : R := match n with O => 0 | S m => tay m x + x ^ m / rfact m end.
Lemma tay_0 n : tay (S n) 0 = 1.
Proof. induction n as [|n IH]; [cbn; field|]. change (tay (S (S n)) 0) with (tay (S n) 0 + 0 ^ S n / rfact (S n)). rewrite IH, pow_ne_zero by discriminate. unfold Rdiv. ring. Qed.
Lemma fact_pos n : 0 < rfact n.
Proof. induction n as [|n IH]; cbn [rfact]; [lra|]. apply Rmult_lt_0_compat; auto. apply lt_0_INR. lia. Qed.
Lemma pow_quot_deriv n x : derivable_pt_lim (fun x => x ^ S n / rfact (S n)) x (x ^ n / rfact n).
Proof.
  assert (D := derivable_pt_lim_scal (fun x => x ^ S n) (/ rfact (S n)) x _ (derivable_pt_lim_pow x (S n))).
  replace (x ^ n / rfact n) with (/ rfact (S n) * (INR (S n) * x ^ Init.Nat.pred (S n))).
  - eapply derivable_pt_lim_ext; [|exact D]. intro y. unfold mult_real_fct, Rdiv. ring.
  - cbn [Init.Nat.pred]. change (rfact (S n)) with (INR (S n) * rfact n). assert (F := fact_pos n). assert (0 < INR (S n)) by (apply lt_0_INR; lia). field. split; lra.
Qed.
Lemma tay_deriv n x : derivable_pt_lim (tay (S n)) x (tay n x).
Proof.
  induction n as [|n IH].
  - cbn [tay]. eapply derivable_pt_lim_ext; [|apply (derivable_pt_lim_const (0 + 1 / 1))]. intro y. cbn. unfold fct_cte. lra.
  - change (tay (S n) x) with (tay n x + x ^ n / rfact n).
    eapply derivable_pt_lim_ext; [|apply (derivable_pt_lim_plus (tay (S n)) (fun x => x ^ S n / rfact (S n)) x _ _ IH (pow_quot_deriv n x))]. intro y. reflexivity.
Qed.
Lemma scaled_deriv f f' s x : (forall y, derivable_pt_lim f y (f' y)) -> derivable_pt_lim (fun x => f (s * x)) x (s * f' (s * x)).
Proof.
  intro H. assert (D := derivable_pt_lim_comp (fun x => s * x) f x (s * 1) (f' (s * x)) (derivable_pt_lim_scal id s x 1 (derivable_pt_lim_id x)) (H (s * x))).
  replace (s * f' (s * x)) with (f' (s * x) * (s * 1)) by ring. exact D.
Qed.
Lemma exp_taylor_half s n : s * s = 1 -> forall x, 0 <= x <= 1 -> Rabs (exp (s * x) - tay n (s * x)) <= 3 * (x ^ n / rfact n).
Proof.
  intro Hs. induction n as [|n IH]; intros x Hx.
  - cbn [tay pow rfact]. replace (exp (s * x) - 0) with (exp (s * x)) by ring. rewrite Rabs_right by (apply Rle_ge, Rlt_le, exp_pos).
    assert (s * x <= 1).
    { assert (s = 1 \/ s = -1) as [-> | ->]; [|lra|lra]. assert (E : (s - 1) * (s + 1) = 0) by lra. destruct (Rmult_integral _ _ E); lra. }
    assert (exp (s * x) <= exp 1) by (destruct (Req_dec (s * x) 1) as [->|N]; [lra|apply Rlt_le, exp_increasing; lra]).
    assert (E3 := exp_le_3). lra.
  - assert (G : forall sg, sg * sg = 1 -> 0 <= 3 * (x ^ S n / rfact (S n)) + sg * (exp (s * x) - tay (S n) (s * x))).
    { intros sg Hsg. set (f := fun x => 3 * (x ^ S n / rfact (S n)) + sg * (exp (s * x) - tay (S n) (s * x))).
      set (f' := fun x => 3 * (x ^ n / rfact n) + sg * (s * exp (s * x) - s * tay n (s * x))).
      assert (D : forall c, derivable_pt_lim f c (f' c)).
      { intro c. unfold f, f'. apply derivable_pt_lim_plus with (f1 := fun x => 3 * (x ^ S n / rfact (S n))) (f2 := fun x => sg * (exp (s * x) - tay (S n) (s * x))).
        - apply derivable_pt_lim_scal with (f := fun x => x ^ S n / rfact (S n)). apply pow_quot_deriv.
        - apply derivable_pt_lim_scal with (f := fun x => exp (s * x) - tay (S n) (s * x)).
          apply derivable_pt_lim_minus with (f1 := fun x => exp (s * x)) (f2 := fun x => tay (S n) (s * x)); apply scaled_deriv; [apply derivable_pt_lim_exp|apply tay_deriv]. }
      assert (F0 : f 0 = 0).
      { unfold f. rewrite pow_ne_zero by discriminate. rewrite Rmult_0_r, exp_0, tay_0. unfold Rdiv. ring. }
      change (0 <= f x). destruct (Req_dec x 0) as [->|N]; [lra|].
      destruct (MVT_cor2 f f' 0 x) as (c & E & Hc); [lra|auto|].
      assert (P : 0 <= f' c).
      { unfold f'. assert (I := IH c ltac:(lra)). assert (A : sg * (s * exp (s * c) - s * tay n (s * c)) = (sg * s) * (exp (s * c) - tay n (s * c))) by ring. rewrite A.
        assert (SS : sg * s = 1 \/ sg * s = -1).
        { assert (E2 : (sg * s - 1) * (sg * s + 1) = 0) by (replace ((sg * s - 1) * (sg * s + 1)) with (sg * sg * (s * s) - 1) by ring; rewrite Hs, Hsg; ring). destruct (Rmult_integral _ _ E2); lra. }
        destruct (Rabs_def2 (exp (s * c) - tay n (s * c)) (3 * (c ^ n / rfact n) + 1)); [lra|].
        assert (- (3 * (c ^ n / rfact n)) <= exp (s * c) - tay n (s * c) <= 3 * (c ^ n / rfact n)).
        { split; [|eapply Rle_trans; [apply Rle_abs|exact I]]. apply Ropp_le_cancel. rewrite Ropp_involutive. eapply Rle_trans; [|exact I]. rewrite <- Rabs_Ropp. apply Rle_abs. }
        destruct SS as [-> | ->]; lra. }
      rewrite F0 in E. assert (0 <= f' c * (x - 0)) by (apply Rmult_le_pos; lra). lra. }
    apply Rabs_le. assert (G1 := G 1 ltac:(ring)). assert (G2 := G (-1) ltac:(ring)). lra.
Qed.
Lemma exp_taylor n y : Rabs y <= 1 -> Rabs (exp y - tay n y) <= 3 * (Rabs y ^ n / rfact n).
Proof.
  intro H. destruct (Rcase_abs y) as [Hy|Hy].
  - rewrite Rabs_left in H by auto. rewrite (Rabs_left y) by auto. assert (E := exp_taylor_half (-1) n ltac:(ring) (- y) ltac:(lra)).
    replace (-1 * - y) with y in E by ring. exact E.
  - rewrite Rabs_right in H by auto. rewrite (Rabs_right y) by auto. assert (E := exp_taylor_half 1 n ltac:(ring) y ltac:(lra)).
    rewrite Rmult_1_l in E. exact E.
Qed.


(* ---------------- bounds for ln 2 ---------------- *)
Lemma exp_upper n y : 0 <= y <= 1 -> exp y <= tay n y + 3 * (y ^ n / rfact n).
Proof. intro H. assert (E := exp_taylor n y). rewrite (Rabs_right y) in E by lra. specialize (E ltac:(lra)). assert (A := Rle_abs (exp y - tay n y)). lra. Qed.
Lemma exp_lower n y : 0 <= y <= 1 -> tay n y - 3 * (y ^ n / rfact n) <= exp y.
Proof. intro H. assert (E := exp_taylor n y). rewrite (Rabs_right y) in E by lra. specialize (E ltac:(lra)). assert (A := Rle_abs (- (exp y - tay n y))). rewrite Rabs_Ropp in A. lra. Qed.
Ltac eval_tay := cbn [tay pow rfact]; rewrite ?INR_IZR_INZ; cbn [Z.of_nat Pos.of_succ_nat Pos.succ].
Lemma ln2_upper : ln 2 < 0.6931471806.
Proof.
  assert (L := exp_lower 14 0.6931471806 ltac:(lra)).
  rewrite <- (ln_exp 0.6931471806). apply ln_increasing; [lra|]. eapply Rlt_le_trans; [|exact L]. eval_tay. lra.
Qed.
Lemma ln2_lower : 0.6931471805 < ln 2.
Proof.
  assert (L := exp_upper 14 0.6931471805 ltac:(lra)).
  rewrite <- (ln_exp 0.6931471805). apply ln_increasing; [apply exp_pos|]. eapply Rle_lt_trans; [exact L|]. eval_tay. lra.
Qed.

(* ---------------- the polynomial ---------------- *)
Lemma pow_abs_le r rho n : Rabs r <= rho -> Rabs (r ^ n) <= rho ^ n.
Proof. intro H. rewrite <- RPow_abs. apply pow_incr. split; [apply Rabs_pos|auto]. Qed.
Lemma abs_le_inv x y : Rabs x <= y -> - y <= x <= y.
Proof. intro H. assert (A := Rle_abs x). assert (B := Rle_abs (- x)). rewrite Rabs_Ropp in B. lra. Qed.
Lemma poly_tay r : Rabs r <= 0.375 -> Rabs (cephes_poly r - tay 8 r) <= 6e-8.
Proof.
  intro H. apply Rabs_le.
  assert (E : cephes_poly r - tay 8 r =
    (5.0000001201e-1 - / 2) * r ^ 2 + (1.6666665459e-1 - / 6) * r ^ 3 + (4.1665795894e-2 - / 24) * r ^ 4 +
    (8.3334519073e-3 - / 120) * r ^ 5 + (1.3981999507e-3 - / 720) * r ^ 6 + (1.9875691500e-4 - / 5040) * r ^ 7).
  { unfold cephes_poly. eval_tay. field. }
  rewrite E. clear E.
  assert (B2 := abs_le_inv _ _ (pow_abs_le r _ 2 H)). assert (B3 := abs_le_inv _ _ (pow_abs_le r _ 3 H)).
  assert (B4 := abs_le_inv _ _ (pow_abs_le r _ 4 H)). assert (B5 := abs_le_inv _ _ (pow_abs_le r _ 5 H)).
  assert (B6 := abs_le_inv _ _ (pow_abs_le r _ 6 H)). assert (B7 := abs_le_inv _ _ (pow_abs_le r _ 7 H)).
  set (a2 := r ^ 2) in *. set (a3 := r ^ 3) in *. set (a4 := r ^ 4) in *. set (a5 := r ^ 5) in *. set (a6 := r ^ 6) in *. set (a7 := r ^ 7) in *.
  clearbody a2 a3 a4 a5 a6 a7. cbn [pow] in B2, B3, B4, B5, B6, B7. lra.
Qed.
(** Absolute error of the polynomial on the reduced range. *)
Lemma poly_exp r : Rabs r <= 0.375 -> Rabs (cephes_poly r - exp r) <= 1e-7.
Proof.
  intro H. assert (P := abs_le_inv _ _ (poly_tay r H)). assert (T := abs_le_inv _ _ (exp_taylor 8 r ltac:(lra))).
  assert (W : 3 * (Rabs r ^ 8 / rfact 8) <= 3 * (0.375 ^ 8 / rfact 8)).
  { apply Rmult_le_compat_l; [lra|]. apply Rmult_le_compat_r; [left; apply Rinv_0_lt_compat, fact_pos|]. assert (A := pow_incr (Rabs r) 0.375 8). apply A. split; [apply Rabs_pos|auto]. }
  assert (V : 3 * (0.375 ^ 8 / rfact 8) <= 4e-8) by (eval_tay; lra).
  apply Rabs_le. lra.
Qed.
Lemma exp_lower_1 r : 1 + r <= exp r.
Proof. destruct (Req_dec r 0) as [->|N]; [rewrite exp_0; lra|]. left. apply exp_ineq1. auto. Qed.

Lemma exp_upper_1 r : r < 1 -> exp r <= / (1 - r).
Proof.
  intro H. assert (L := exp_lower_1 (- r)). rewrite exp_Ropp in L. assert (P := exp_pos r).
  assert (I : exp r = / / exp r) by (rewrite Rinv_inv; auto). rewrite I. apply Rinv_le_contravar; lra.
Qed.

(* ---------------- the fast exponential ---------------- *)
Lemma half_range x : let n := Int_part (x * / ln 2 + / 2) in Rabs (x - IZR n * ln 2) <= / 2 * ln 2.
Proof.
  cbv zeta. destruct (base_Int_part (x * / ln 2 + / 2)) as [H1 H2]. assert (L := ln2_lower). set (n := IZR (Int_part (x * / ln 2 + / 2))) in *. clearbody n.
  assert (E : x = x * / ln 2 * ln 2) by (field; lra). rewrite E at 1. set (q := x * / ln 2) in *. clearbody q.
  replace (q * ln 2 - n * ln 2) with ((q - n) * ln 2) by ring. rewrite Rabs_mult. rewrite (Rabs_right (ln 2)) by lra.
  apply Rmult_le_compat_r; [lra|]. apply Rabs_le. lra.
Qed.
Lemma n_bound x : Rabs x <= exp_hi -> let n := Int_part (x * / ln 2 + / 2) in Rabs (IZR n) <= 1.4427 * Rabs x + / 2 /\ Rabs (IZR n) <= 128.
Proof.
  intros H n. assert (R := half_range x). cbv zeta in R. fold n in R. assert (L := ln2_lower). assert (U := ln2_upper). unfold exp_hi in H.
  assert (A : Rabs (IZR n) * ln 2 <= Rabs x + / 2 * ln 2).
  { rewrite <- (Rabs_right (ln 2)) at 1 by lra. rewrite <- Rabs_mult. replace (IZR n * ln 2) with (x + - (x - IZR n * ln 2)) by ring.
    eapply Rle_trans; [apply Rabs_triang|]. rewrite Rabs_Ropp. lra. }
  assert (P := Rabs_pos (IZR n)). assert (Q := Rabs_pos x). split; apply Rmult_le_reg_r with (ln 2); try lra.
  assert (1.4427 * Rabs x * ln 2 >= Rabs x * 1) by (replace (1.4427 * Rabs x * ln 2) with (Rabs x * (1.4427 * ln 2)) by ring; apply Rle_ge, Rmult_le_compat_l; lra). lra.
Qed.
(** fast_exp = exp, up to a factor. *)
Lemma fast_exp_factor C1 x : Rabs x <= exp_hi -> let n := Int_part (x * / ln 2 + / 2) in let t := IZR n * (ln 2 - C1 - cephes_C2) in
  Rabs t <= 0.028 -> exists rho, fast_exp C1 x = exp x * (exp t * rho) /\ Rabs (rho - 1) <= 1.6e-7.
Proof.
  intros H n t Ht. assert (L := ln2_lower). assert (U := ln2_upper).
  assert (CL : Rmin (Rmax x (- exp_hi)) exp_hi = x).
  { destruct (abs_le_inv _ _ H). rewrite Rmax_left by lra. apply Rmin_left. lra. }
  unfold fast_exp. cbv zeta. rewrite CL. fold n. set (r := x - IZR n * C1 - IZR n * cephes_C2).
  assert (RT : r = (x - IZR n * ln 2) + t) by (unfold r, t; ring).
  assert (HR : Rabs r <= 0.375).
  { rewrite RT. eapply Rle_trans; [apply Rabs_triang|]. assert (R := half_range x). cbv zeta in R. fold n in R. lra. }
  assert (P := exp_pos r). exists (cephes_poly r / exp r). split.
  - rewrite powerRZ_Rpower by lra. unfold Rpower. unfold Rdiv. 
    replace (exp x * (exp t * (cephes_poly r * / exp r))) with (cephes_poly r * (exp x * exp t * / exp r)) by ring. f_equal.
    rewrite <- exp_plus. rewrite <- exp_Ropp, <- exp_plus. f_equal. rewrite RT. ring.
  - replace (cephes_poly r / exp r - 1) with ((cephes_poly r - exp r) * / exp r) by (field; lra). rewrite Rabs_mult.
    assert (E := exp_lower_1 r). assert (A := abs_le_inv _ _ HR). rewrite (Rabs_right (/ exp r)) by (apply Rle_ge, Rlt_le, Rinv_0_lt_compat; auto).
    assert (I : / exp r <= 1.6) by (replace 1.6 with (/ 0.625) by lra; apply Rinv_le_contravar; lra).
    assert (Q := poly_exp r HR). assert (0 < / exp r) by (apply Rinv_0_lt_compat; auto). assert (B := Rabs_pos (cephes_poly r - exp r)).
    apply Rle_trans with (1e-7 * 1.6); [|lra]. apply Rmult_le_compat; lra.
Qed.
Lemma factor_error t rho d : Rabs t <= d -> d <= 0.028 -> Rabs (rho - 1) <= 1.6e-7 -> Rabs (exp t * rho - 1) <= 1.03 * d + 1.7e-7.
Proof.
  intros Ht Hd Hr. apply abs_le_inv in Ht, Hr. assert (L := exp_lower_1 t). assert (U := exp_upper_1 t ltac:(lra)). assert (P := exp_pos t).
  assert (U2 : exp t <= 1 + 1.03 * d).
  { eapply Rle_trans; [exact U|]. apply Rmult_le_reg_l with (1 - t); [lra|]. rewrite Rinv_r by lra. nra. }
  apply Rabs_le. split; nra.
Qed.
Theorem fast_exp_arm_error x : Rabs x <= exp_hi -> Rabs (fast_exp_arm x - exp x) <= 2e-7 * exp x.
Proof.
  intro H. destruct (n_bound x H) as [_ N]. cbv zeta in N. set (n := Int_part (x * / ln 2 + / 2)) in *.
  assert (L := ln2_lower). assert (U := ln2_upper).
  assert (K : Rabs (IZR n * (ln 2 - 0.693359375 - cephes_C2)) <= 1.3e-8).
  { rewrite Rabs_mult. apply Rle_trans with (128 * 1e-10); [|lra]. apply Rmult_le_compat; auto using Rabs_pos. unfold cephes_C2. apply Rabs_le. lra. }
  destruct (fast_exp_factor 0.693359375 x H) as (rho & E & R).
  { fold n. lra. }
  fold n in E. unfold fast_exp_arm. rewrite E. assert (F := factor_error _ _ _ K ltac:(lra) R). set (f := exp (IZR n * (ln 2 - 0.693359375 - cephes_C2)) * rho) in *.
  replace (exp x * f - exp x) with (exp x * (f - 1)) by ring. rewrite Rabs_mult. assert (P := exp_pos x). rewrite (Rabs_right (exp x)) by lra. rewrite Rmult_comm. apply Rmult_le_compat_r; lra.
Qed.
Theorem fast_exp_x86_error x : Rabs x <= exp_hi ->
  Rabs (fast_exp_x86 x - exp x) <= 0.029 * exp x /\ Rabs (fast_exp_x86 x - exp x) <= 3.2e-4 * (Rabs x + 1) * exp x.
Proof.
  intro H. destruct (n_bound x H) as [N1 N]. cbv zeta in N1, N. set (n := Int_part (x * / ln 2 + / 2)) in *.
  assert (Q := Rabs_pos x). unfold exp_hi in H.
  assert (KE : Rabs (IZR n * (ln 2 - ln 2 - cephes_C2)) = 2.12194440e-4 * Rabs (IZR n)).
  { rewrite Rabs_mult. replace (ln 2 - ln 2 - cephes_C2) with 2.12194440e-4 by (unfold cephes_C2; lra). rewrite (Rabs_right 2.12194440e-4) by lra. ring. }
  assert (P := exp_pos x).
  destruct (fast_exp_factor (ln 2) x) as (rho & E & R); [unfold exp_hi; lra|fold n; rewrite KE; lra|]. fold n in E. unfold fast_exp_x86. rewrite E.
  set (t := IZR n * (ln 2 - ln 2 - cephes_C2)) in *. set (f := exp t * rho) in *.
  replace (exp x * f - exp x) with (exp x * (f - 1)) by ring. rewrite Rabs_mult. rewrite (Rabs_right (exp x)) by lra. split; rewrite Rmult_comm; apply Rmult_le_compat_r; try lra.
  - assert (F := factor_error t rho 0.02717 ltac:(lra) ltac:(lra) R). fold f in F. lra.
  - assert (F := factor_error t rho (Rabs t) ltac:(lra) ltac:(lra) R). fold f in F. lra.
Qed.
(** The error of the x86 version: the constant C1 already is ln 2, so that C2 shifts the argument. *)
Lemma Int_part_IZR (z : Z) : Int_part (IZR z + / 2) = z.
Proof.
  unfold Int_part. rewrite <- (tech_up (IZR z + / 2) (z + 1)); [lia| |]; rewrite plus_IZR; lra.
Qed.
Theorem fast_exp_x86_wrong : exists x, -70 < x < -69 /\ fast_exp_x86 x < 0.98 * exp x.
Proof.
  assert (L := ln2_lower). assert (U := ln2_upper). exists (-100 * ln 2). split; [lra|].
  assert (NN : Int_part (-100 * ln 2 * / ln 2 + / 2) = (-100)%Z).
  { replace (-100 * ln 2 * / ln 2) with (IZR (-100)) by (field; lra). apply Int_part_IZR. }
  destruct (fast_exp_factor (ln 2) (-100 * ln 2)) as (rho & E & R).
  - unfold exp_hi. rewrite Rabs_left by lra. lra.
  - rewrite NN. unfold cephes_C2. rewrite Rabs_left by lra. lra.
  - rewrite NN in E. unfold fast_exp_x86. rewrite E. apply abs_le_inv in R. set (t := -100 * (ln 2 - ln 2 - cephes_C2)) in *.
    assert (T : t = - 0.0212194440) by (unfold t, cephes_C2; lra).
    assert (X := exp_upper_1 t ltac:(lra)). assert (P := exp_pos t).
    assert (Y : / (1 - t) <= 0.97923) by (rewrite T; apply Rmult_le_reg_l with 1.0212194440; [lra|]; lra).
    rewrite Rmult_comm. apply Rmult_lt_compat_r; [apply exp_pos|]. nra.
Qed.
Lemma fast_exp_pos a x : (a = fast_exp_arm \/ a = fast_exp_x86) -> Rabs x <= exp_hi -> 0 < a x.
Proof.
  intros [-> | ->] H; assert (P := exp_pos x).
  - assert (E := abs_le_inv _ _ (fast_exp_arm_error x H)). lra.
  - destruct (fast_exp_x86_error x H) as [E _]. apply abs_le_inv in E. lra.
Qed.
