(** Proofs about normalisations and activations, part 2: accuracy of softmax. *)
From Coq Require Import Reals Lra Psatz.
From Verif Require Import Base DTypeModel ParamModel ParamSpec ParamProofs TensorModel TensorSpec TensorProofs TensorSplit
  OpsModel OpsSpec OpsProofs OpsIndex OpsSum MatModel MatSpec MatProofs MatKernel MatOps ExpModel ExpProofs
  AttnModel AttnSpec AttnProofs AttnOps NumModel NumSpec NumProofs.
Local Open Scope R_scope.

Lemma delta_range a : 0 < delta a <= 0.029.
Proof. destruct a; cbn; lra. Qed.
Lemma exp_hi_pos : 0 < exp_hi.
Proof. unfold exp_hi. lra. Qed.
Lemma fast_error a v : Rabs v <= exp_hi -> Rabs (fast a v - exp v) <= delta a * exp v.
Proof. intro H. destruct a; cbn [fast delta]; [apply fast_exp_arm_error; auto|apply fast_exp_x86_error; auto]. Qed.
Lemma fast_low a v : v <= - exp_hi -> fast a v = fast a (- exp_hi).
Proof.
  intro H. assert (P := exp_hi_pos).
  assert (E : Rmin (Rmax v (- exp_hi)) exp_hi = Rmin (Rmax (- exp_hi) (- exp_hi)) exp_hi).
  { rewrite (Rmax_right v) by auto. rewrite (Rmax_right (- exp_hi)) by lra. reflexivity. }
  destruct a; cbn [fast]; unfold fast_exp_arm, fast_exp_x86, fast_exp; rewrite E; reflexivity.
Qed.
Lemma fast_positive a v : Rabs v <= exp_hi -> 0 < fast a v.
Proof. intro H. destruct a; cbn [fast]; apply fast_exp_pos; auto. Qed.
Lemma fast_pos_nonpos a v : v <= 0 -> 0 < fast a v.
Proof.
  intro H. assert (P := exp_hi_pos). destruct (Rle_dec (- exp_hi) v) as [L|L].
  - apply fast_positive. rewrite Rabs_left1 by auto. lra.
  - rewrite fast_low by lra. apply fast_positive. rewrite Rabs_left1 by lra. lra.
Qed.
Lemma exp_127 : exp (127 * ln 2) = 2 ^ 127.
Proof.
  replace 127 with (INR 127) by (rewrite INR_IZR_INZ; reflexivity). rewrite <- (exp_ln (2 ^ 127)) by (apply pow_lt; lra).
  f_equal. rewrite ln_pow by lra. reflexivity.
Qed.
Lemma exp_tiny : exp (- exp_hi) <= 6e-39.
Proof.
  apply Rle_trans with (exp (- (127 * ln 2))).
  - assert (L := ln2_upper). assert (- exp_hi <= - (127 * ln 2)) by (unfold exp_hi; lra).
    destruct H as [H|H]; [left; apply exp_increasing; auto|rewrite H; apply Rle_refl].
  - rewrite exp_Ropp, exp_127. apply Rmult_le_reg_r with (2 ^ 127); [apply pow_lt; lra|]. rewrite Rinv_l by (apply pow_nonzero; lra).
    replace (2 ^ 127) with (IZR (2 ^ 127)%Z) by (rewrite <- (Z2Nat.id 127) at 1 by lia; rewrite <- pow_IZR; reflexivity).
    change (2 ^ 127)%Z with 170141183460469231731687303715884105728%Z. lra.
Qed.
(** Below the clamp both values are tiny. *)
Definition tiny : R := 1e-38.
Lemma fast_error_nonpos a v : v <= 0 -> Rabs (fast a v - exp v) <= delta a * exp v + tiny.
Proof.
  intro H. assert (P := exp_hi_pos). assert (D := delta_range a). assert (E := exp_pos v). destruct (Rle_dec (- exp_hi) v) as [L|L].
  - assert (F := fast_error a v). rewrite (Rabs_left1 v) in F by auto. specialize (F ltac:(lra)). unfold tiny. lra.
  - rewrite fast_low by lra. assert (F := fast_error a (- exp_hi)). rewrite (Rabs_left1 (- exp_hi)) in F by lra. specialize (F ltac:(lra)).
    assert (T := exp_tiny). assert (EP := exp_pos (- exp_hi)). assert (EV : exp v < exp (- exp_hi)) by (apply exp_increasing; lra).
    apply abs_le_inv in F. assert (0 <= delta a * exp v) by nra. assert (delta a * exp (- exp_hi) <= 0.029 * 6e-39) by nra. unfold tiny. apply Rabs_le. lra.
Qed.
Lemma fast_zero a : fast a 0 = 1.
Proof.
  assert (P := exp_hi_pos).
  assert (E : Rmin (Rmax 0 (- exp_hi)) exp_hi = 0).
  { rewrite Rmax_left by lra. rewrite Rmin_left by lra. reflexivity. }
  assert (I : Int_part (0 * / ln 2 + / 2) = 0%Z).
  { replace (0 * / ln 2 + / 2) with (IZR 0 + / 2) by ring. apply Int_part_IZR. }
  destruct a; cbn [fast]; unfold fast_exp_arm, fast_exp_x86, fast_exp; cbv zeta; rewrite E, I; unfold cephes_poly; cbv zeta; cbn [powerRZ]; lra.
Qed.

(** A total of approximations. *)
Lemma total_error js (f g h : Z -> R) : (forall j, In j js -> Rabs (f j - g j) <= h j) -> Rabs (total_over js f - total_over js g) <= total_over js h.
Proof.
  induction js as [|j js IH]; intro H; cbn; [rewrite Rminus_0_r, Rabs_R0; lra|].
  assert (P := H j (or_introl eq_refl)). specialize (IH (fun k Hk => H k (or_intror Hk))). unfold total_over in *.
  replace (f j + fold_right Rplus 0 (map f js) - (g j + fold_right Rplus 0 (map g js))) with ((f j - g j) + (fold_right Rplus 0 (map f js) - fold_right Rplus 0 (map g js))) by ring.
  eapply Rle_trans; [apply Rabs_triang|]. lra.
Qed.
Lemma total_plus js f g : total_over js (fun j => f j + g j) = total_over js f + total_over js g.
Proof. induction js as [|j js IH]; cbn; [ring|]. unfold total_over in *. rewrite IH. ring. Qed.
Lemma total_mul js f c : total_over js (fun j => c * f j) = c * total_over js f.
Proof. induction js as [|j js IH]; cbn; [ring|]. unfold total_over in *. rewrite IH. ring. Qed.
Lemma total_const js c : total_over js (fun _ => c) = INR (length js) * c.
Proof. induction js as [|j js IH]; [cbn; ring|]. unfold total_over in *. cbn [map fold_right length]. rewrite IH, S_INR. ring. Qed.
Lemma total_term js f j : (forall k, In k js -> 0 <= f k) -> In j js -> f j <= total_over js f.
Proof.
  induction js as [|k js IH]; intros H [].
  - subst. cbn. assert (0 <= total_over js f); [|unfold total_over in *; lra]. clear IH. induction js as [|k js IH]; cbn; [lra|].
    assert (P := H k (or_intror (or_introl eq_refl))). assert (Q : 0 <= total_over js f) by (apply IH; intros i [->|Hi]; apply H; [left|right; right]; auto).
    unfold total_over in Q. lra.
  - cbn. assert (P := H k (or_introl eq_refl)). specialize (IH (fun i Hi => H i (or_intror Hi)) H0). unfold total_over in *. lra.
Qed.

(** Quotients of approximate terms: a = numerators, b = approximations. *)
Lemma quotient_abs a b A B d t nt : 0 <= a -> a <= A -> 0 <= b -> b <= B -> 1 <= A -> 0 < B -> 0 <= d -> 0 <= t -> 0 <= nt ->
  Rabs (b - a) <= d * a + t -> Rabs (B - A) <= d * A + nt -> Rabs (b / B - a / A) <= 2 * d + t + nt.
Proof.
  intros Ha HA Hb HB A1 B0 D0 T0 N0 H1 H2. apply abs_le_inv in H1. apply abs_le_inv in H2.
  replace (b / B - a / A) with ((b - a) / A + (b / B) * ((A - B) / A)) by (field; lra).
  assert (Q : 0 <= b / B <= 1).
  { split; [apply Rmult_le_pos; auto; left; apply Rinv_0_lt_compat; auto|]. apply Rmult_le_reg_r with B; auto. unfold Rdiv. rewrite Rmult_assoc, Rinv_l by lra. lra. }
  assert (X : Rabs ((b - a) / A) <= d + t).
  { apply Rabs_le. split; (apply Rmult_le_reg_r with A; [lra|]); unfold Rdiv; rewrite Rmult_assoc, Rinv_l by lra; nra. }
  assert (Y : Rabs ((A - B) / A) <= d + nt).
  { apply Rabs_le. split; (apply Rmult_le_reg_r with A; [lra|]); unfold Rdiv; rewrite Rmult_assoc, Rinv_l by lra; nra. }
  eapply Rle_trans; [apply Rabs_triang|]. rewrite Rabs_mult. rewrite (Rabs_pos_eq (b / B)) by lra. assert (Z := Rabs_pos ((A - B) / A)). nra.
Qed.
Lemma quotient_rel a b A B d : 0 < a -> 0 < A -> 0 < B -> 0 <= d <= 0.029 -> Rabs (b - a) <= d * a -> Rabs (B - A) <= d * A ->
  Rabs (b / B - a / A) <= 2.06 * d * (a / A).
Proof.
  intros Ha HA B0 D0 H1 H2. apply abs_le_inv in H1. apply abs_le_inv in H2.
  assert (L : (1 - d) * A <= B) by lra. assert (U : B <= (1 + d) * A) by lra.
  assert (I : 0 < / (A * B)) by (apply Rinv_0_lt_compat; nra).
  replace (b / B - a / A) with ((b * A - a * B) * / (A * B)) by (field; lra).
  replace (2.06 * d * (a / A)) with (2.06 * d * (a * B) * / (A * B)) by (field; lra).
  assert (K1 : b * A - a * B <= 2.06 * d * (a * B)).
  { assert (b * A <= (1 + d) * a * A) by nra. assert ((1 - d) * (a * A) <= a * B) by nra.
    assert ((1 + d) * (a * A) <= (1 + 2.06 * d) * ((1 - d) * (a * A))); [|nra].
    assert (0 <= a * A) by nra. assert (1 + d <= (1 + 2.06 * d) * (1 - d)) by nra. nra. }
  assert (K2 : - (2.06 * d * (a * B)) <= b * A - a * B).
  { assert ((1 - d) * a * A <= b * A) by nra. assert (a * B <= (1 + d) * (a * A)) by nra.
    assert ((1 - 2.06 * d) * ((1 + d) * (a * A)) <= (1 - d) * (a * A)); [|nra].
    assert (0 <= a * A) by nra. assert ((1 - 2.06 * d) * (1 + d) <= 1 - d) by nra. nra. }
  apply Rabs_le. split; [replace (- (2.06 * d * (a * B) * / (A * B))) with (- (2.06 * d * (a * B)) * / (A * B)) by ring|]; apply Rmult_le_compat_r; lra.
Qed.

(** Softmax does not change when the maximum is subtracted. *)
Lemma softmax_shift n f m i : (0 < n)%Z -> softmax n f i = exp (f i - m) / total_over (range n) (fun j => exp (f j - m)).
Proof.
  intro Hn. unfold softmax. assert (P : 0 < total_over (range n) (fun j => exp (f j - m))).
  { apply total_pos; [intros; apply exp_pos|]. unfold range. replace (Z.to_nat n) with (S (Z.to_nat (n - 1))) by lia. discriminate. }
  rewrite (total_ext (range n) (fun j => exp (f j)) (fun j => exp m * exp (f j - m))) by (intros; rewrite <- exp_plus; f_equal; ring).
  rewrite total_mul. replace (exp (f i)) with (exp m * exp (f i - m)) by (rewrite <- exp_plus; f_equal; ring). assert (E := exp_pos m). field. lra.
Qed.
Lemma expo_error a n i v : v <= 0 -> Rabs (expo a n i v - exp v) <= delta a * exp v + tiny /\
  (- exp_hi <= v -> Rabs (expo a n i v - exp v) <= delta a * exp v) /\ 0 < expo a n i v.
Proof.
  intro H. assert (D := delta_range a). assert (E := exp_pos v). assert (Z : Rabs (exp v - exp v) <= 0) by (rewrite Rminus_diag_eq, Rabs_R0 by reflexivity; lra).
  unfold expo. destruct (n <=? 16)%Z; [|destruct (in_register a n i)].
  - split; [unfold tiny; nra|split; [nra|auto]].
  - split; [apply fast_error_nonpos; auto|]. split; [|apply fast_pos_nonpos; auto]. intro L. apply fast_error. rewrite Rabs_left1 by auto. lra.
  - split; [unfold tiny; nra|split; [nra|auto]].
Qed.
Lemma expo_short a n i v : (n <= 16)%Z -> expo a n i v = exp v.
Proof. intro H. unfold expo. replace (n <=? 16)%Z with true by lia. reflexivity. Qed.
(** The row that softmax_row writes. *)
Definition row_value (a : arch) (n : Z) (f : Z -> R) (m : R) (i : Z) : R := expo a n i (f i - m) / total_over (range n) (fun j => expo a n j (f j - m)).
Section RowValue.
Variables (a : arch) (n : Z) (f : Z -> R) (m : R).
Hypothesis Hn : (1 <= n)%Z.
Hypothesis HM : forall i, (0 <= i < n)%Z -> f i <= m.
Hypothesis HE : exists i, (0 <= i < n)%Z /\ f i = m.
Lemma rv_pos i : (0 <= i < n)%Z -> 0 < row_value a n f m i.
Proof using Hn HM.
  intro Hi. unfold row_value. apply Rdiv_lt_0_compat; [apply expo_error; specialize (HM i Hi); lra|].
  apply total_pos; [|unfold range; replace (Z.to_nat n) with (S (Z.to_nat (n - 1))) by lia; discriminate].
  intros j Hj. apply in_range in Hj. apply expo_error. specialize (HM j Hj). lra.
Qed.
Lemma rv_total : total_over (range n) (row_value a n f m) = 1.
Proof using Hn HM.
  unfold row_value. set (T := total_over (range n) (fun j => expo a n j (f j - m))).
  assert (P : 0 < T).
  { apply total_pos; [|unfold range; replace (Z.to_nat n) with (S (Z.to_nat (n - 1))) by lia; discriminate].
    intros j Hj. apply in_range in Hj. apply expo_error. specialize (HM j Hj). lra. }
  rewrite (total_ext _ _ (fun i => / T * expo a n i (f i - m))) by (intros; unfold Rdiv; ring). rewrite total_mul. fold T. field. lra.
Qed.
Lemma rv_exact i : (n <= 16)%Z -> row_value a n f m i = softmax n f i.
Proof using Hn.
  clear HM HE. intro H. rewrite (softmax_shift n f m) by lia. unfold row_value. rewrite expo_short by auto. f_equal. apply total_ext. intros. apply expo_short; auto.
Qed.
Lemma rv_abs i : (0 <= i < n)%Z -> Rabs (row_value a n f m i - softmax n f i) <= 2 * delta a + (IZR n + 1) * tiny.
Proof using Hn HM HE.
  intro Hi. rewrite (softmax_shift n f m) by lia. unfold row_value. assert (D := delta_range a).
  set (B := total_over (range n) (fun j => expo a n j (f j - m))). set (A := total_over (range n) (fun j => exp (f j - m))).
  assert (XP : forall j, (0 <= j < n)%Z -> 0 < expo a n j (f j - m)) by (intros j Hj; apply expo_error; specialize (HM j Hj); lra).
  replace (2 * delta a + (IZR n + 1) * tiny) with (2 * delta a + tiny + IZR n * tiny) by ring.
  assert (TP : 0 <= tiny) by (unfold tiny; lra). assert (NP : 0 <= IZR n) by (apply IZR_le; lia).
  apply quotient_abs; auto; try lra.
  - left. apply exp_pos.
  - apply (total_term (range n) (fun j => exp (f j - m)) i); [intros; left; apply exp_pos|apply in_range; auto].
  - left. auto.
  - apply (total_term (range n) (fun j => expo a n j (f j - m)) i); [intros j Hj; apply in_range in Hj; left; auto|apply in_range; auto].
  - destruct HE as (k & Hk & Ek). replace 1 with (exp (f k - m)) by (rewrite Ek, Rminus_diag_eq, exp_0; reflexivity).
    apply (total_term (range n) (fun j => exp (f j - m)) k); [intros; left; apply exp_pos|apply in_range; auto].
  - apply Rlt_le_trans with (expo a n i (f i - m)); [auto|]. apply (total_term (range n) (fun j => expo a n j (f j - m)) i); [intros j Hj; apply in_range in Hj; left; auto|apply in_range; auto].
  - nra.
  - apply expo_error. specialize (HM i Hi). lra.
  - eapply Rle_trans; [apply (total_error (range n) _ _ (fun j => delta a * exp (f j - m) + tiny))|].
    + intros j Hj. apply in_range in Hj. apply expo_error. specialize (HM j Hj). lra.
    + rewrite total_plus, total_mul, total_const. fold A. rewrite range_length, INR_IZR_INZ, Z2Nat.id by lia. lra.
Qed.
Lemma rv_rel i : (0 <= i < n)%Z -> (forall j, (0 <= j < n)%Z -> m - f j <= exp_hi) -> Rabs (row_value a n f m i - softmax n f i) <= 2.06 * delta a * softmax n f i.
Proof using Hn HM.
  intros Hi HG. rewrite (softmax_shift n f m) by lia. unfold row_value. assert (D := delta_range a).
  apply quotient_rel; try lra.
  - apply exp_pos.
  - apply total_pos; [intros; apply exp_pos|]. unfold range. replace (Z.to_nat n) with (S (Z.to_nat (n - 1))) by lia. discriminate.
  - apply total_pos; [|unfold range; replace (Z.to_nat n) with (S (Z.to_nat (n - 1))) by lia; discriminate].
    intros j Hj. apply in_range in Hj. apply expo_error. specialize (HM j Hj). lra.
  - apply expo_error; [specialize (HM i Hi); lra|]. specialize (HG i Hi). lra.
  - eapply Rle_trans; [apply (total_error (range n) _ _ (fun j => delta a * exp (f j - m)))|].
    + intros j Hj. apply in_range in Hj. apply expo_error; [specialize (HM j Hj); lra|]. specialize (HG j Hj). lra.
    + rewrite total_mul. lra.
Qed.
End RowValue.

Local Open Scope Z_scope.
(** The operator, with the values by position. *)
Theorem softmax_op_rows a order axis t pre n F : match a with X86 L => 0 < L | Arm => True end -> 1 <= n ->
  holds t (pre ++ [n]) F -> axis = -1 \/ axis = zlen pre -> Permutation order (range (product pre)) ->
  exists m : Z -> R, (forall l, 0 <= l < product pre -> (forall i, 0 <= i < n -> (F (unravel (pre ++ [n]) (l * n + i)) <= m l)%R) /\ exists i, 0 <= i < n /\ F (unravel (pre ++ [n]) (l * n + i)) = m l) /\
    returns (softmax_op a order axis t) (pre ++ [n]) (fun idx => let k := ravel (pre ++ [n]) idx in
      row_value a n (fun i => F (unravel (pre ++ [n]) (k / n * n + i))) (m (k / n)) (k mod n)).
Proof.
  intros HA Hn HT HX HO. destruct (holds_dims _ _ _ HT) as [R1 R2]. set (shape := pre ++ [n]) in *.
  assert (PS : product shape = product pre * n) by apply product_snoc.
  assert (PP : 0 <= product pre) by (apply product_nonneg; apply Forall_app in R2; tauto).
  set (X := fun l i => F (unravel shape (l * n + i))).
  assert (HM : forall l, 0 <= l < product pre -> exists m, (forall i, 0 <= i < n -> (X l i <= m)%R) /\ exists i, 0 <= i < n /\ X l i = m).
  { intros l Hl. destruct (max_loop (x_buf t) (x_offset t + l * n) n (X l)) as (m & _ & M); [auto| |exists m; auto].
    intros i Hi. rewrite <- Z.add_assoc. apply holds_flat; auto. nia. }
  assert (exists m : Z -> R, forall l, 0 <= l < product pre -> (forall i, 0 <= i < n -> (X l i <= m l)%R) /\ exists i, 0 <= i < n /\ X l i = m l) as (m & Hm).
  { assert (exists m : list R, length m = Z.to_nat (product pre) /\ forall l, 0 <= l < product pre -> (forall i, 0 <= i < n -> (X l i <= nth (Z.to_nat l) m 0)%R) /\ exists i, 0 <= i < n /\ X l i = nth (Z.to_nat l) m 0%R) as (m & _ & Hm); [|exists (fun l => nth (Z.to_nat l) m 0%R); auto].
    clear -HM PP. rewrite <- (Z2Nat.id (product pre)) in * by lia. rewrite Nat2Z.id. induction (Z.to_nat (product pre)) as [|k IH].
    - exists []. split; [reflexivity|]. intros l Hl. lia.
    - destruct IH as (m & L & H); [lia|intros l Hl; apply HM; lia|]. destruct (HM (Z.of_nat k) ltac:(lia)) as (x & H1 & H2).
      exists (m ++ [x]). split; [rewrite app_length; cbn; lia|]. intros l Hl. destruct (Z.eq_dec l (Z.of_nat k)) as [->|N].
      + rewrite Nat2Z.id. rewrite app_nth2 by lia. rewrite L, Nat.sub_diag. cbn [nth]. auto.
      + rewrite app_nth1 by lia. apply H. lia. }
  exists m. split; [exact Hm|].
  assert (ST : forall l y1, 0 <= l < product pre -> b_len y1 = product shape ->
    exists y2, softmax_row a (x_buf t) (x_offset t + l * n) (0 + l * n) n y1 = ROk y2 /\
      changes (fun d => Some (row_value a n (X (d / n)) (m (d / n)) (d mod n))) (segment (0 + l * n) n) y1 y2).
  { intros l y1 Hl L. destruct (softmax_row_ok a (x_buf t) (x_offset t + l * n) (0 + l * n) n (X l) y1) as (y2 & m' & E & M1 & (k & Hk & M2) & _ & C); auto.
    - rewrite L. nia.
    - intros i Hi. rewrite <- Z.add_assoc. apply holds_flat; auto. nia.
    - intros v Hv. apply fast_pos_nonpos; auto.
    - assert (EM : m' = m l).
      { destruct (Hm l Hl) as [N1 (k' & Hk' & N2)]. apply Rle_antisym; [rewrite <- M2; auto|rewrite <- N2; auto]. }
      exists y2. split; [exact E|]. eapply changes_ext; [|exact C]. intros d Hd. unfold segment in Hd. cbn beta.
      assert (Dq : d / n = l) by (symmetry; apply (Z.div_unique d n l (d - l * n)); lia).
      assert (Dm : d mod n = d - (0 + l * n)) by (rewrite (Z.mod_eq d n) by lia; rewrite Dq; ring).
      unfold row_value. rewrite Dq, Dm. rewrite EM. reflexivity. }
  destruct (rows_any_order (fun d => Some (row_value a n (X (d / n)) (m (d / n)) (d mod n))) order (product pre) n 0
    (fun l y => softmax_row a (x_buf t) (x_offset t + l * n) (0 + l * n) n y) (mkBuf (product shape) (fun _ => None)) ltac:(lia) HO) as (y & E & C).
  { intros l b1 Hl L _. apply ST; auto. }
  rewrite <- PS in C. eapply returns_fresh; [exact R1|exact R2| |exact C|].
  - unfold softmax_op. rewrite (h_shape _ _ _ HT), fresh_ok by auto. cbn [rbind]. cbv zeta.
    assert (Z1 : zlen shape = zlen pre + 1) by (unfold shape, zlen; rewrite app_length; cbn [length]; lia).
    assert (Z0 : 0 <= zlen pre) by (unfold zlen; lia).
    assert (RD : (if axis <? 0 then axis + zlen shape else axis) = zlen shape - 1) by (destruct HX as [-> | ->]; [change (-1 <? 0) with true; cbv iota; lia|replace (zlen pre <? 0) with false by lia; lia]).
    rewrite RD, Z.eqb_refl. unfold shape at 1 2. rewrite vget_last. cbn [rbind].
    exact (f_equal (fun r => rbind r (fun y0 => ROk (mkTns (mkV shape (default_strides shape) 0) y0))) E).
  - intros idx Hi. cbv zeta. reflexivity.
Qed.
