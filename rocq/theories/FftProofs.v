(** Complex sums and roots of unity. *)
From Coq Require Import Reals Lra Ring.
From Verif Require Import Base DTypeModel ParamModel TensorModel TensorSpec TensorProofs OpsModel MatModel MatSpec MatProofs AttnProofs FftModel FftSpec.
Local Open Scope Z_scope.

Definition copp (a : cx) : cx := ((- fst a)%R, (- snd a)%R).
Lemma cx_ring : ring_theory c0 c1 cadd cmul csub copp eq.
Proof.
  constructor; intros; unfold c0, c1, cadd, cmul, csub, copp;
    repeat match goal with x : cx |- _ => destruct x end; cbn [fst snd]; f_equal; ring.
Qed.
Add Ring cx_ring_inst : cx_ring.

Lemma csum_0 f n : n <= 0 -> csum n f = c0.
Proof. intro H. unfold csum, range. replace (Z.to_nat n) with 0%nat by lia. reflexivity. Qed.
Lemma fold_cadd l a : fold_right cadd a l = cadd (fold_right cadd c0 l) a.
Proof. induction l as [|x l IH]; cbn [fold_right]; [ring|]. rewrite IH. ring. Qed.
Lemma csum_succ f n : 0 <= n -> csum (n + 1) f = cadd (csum n f) (f n).
Proof.
  intro H. unfold csum. rewrite range_succ by exact H. rewrite map_app, fold_right_app. cbn [map fold_right].
  rewrite fold_cadd. f_equal. ring.
Qed.
Lemma csum_ind (P : Z -> Prop) : P 0 -> (forall n, 0 <= n -> P n -> P (n + 1)) -> forall n, 0 <= n -> P n.
Proof. intros H0 HS n Hn. revert n Hn. apply natlike_ind; [exact H0|]. intros x Hx HP. apply HS; assumption. Qed.
Lemma csum_ext f g n : (forall i, 0 <= i < n -> f i = g i) -> csum n f = csum n g.
Proof.
  intro H. unfold csum. f_equal. apply map_ext_in. intros i Hi. apply in_range in Hi. apply H, Hi.
Qed.
Lemma csum_pos_case n : {n <= 0} + {0 <= n}.
Proof. destruct (Z_le_gt_dec n 0); [left; assumption|right; lia]. Qed.
Lemma csum_add f g n : csum n (fun i => cadd (f i) (g i)) = cadd (csum n f) (csum n g).
Proof.
  destruct (csum_pos_case n) as [H|H]; [rewrite !csum_0 by exact H; ring|].
  pattern n. revert n H. apply csum_ind; [rewrite !csum_0 by lia; ring|].
  intros n H IH. rewrite !csum_succ by exact H. rewrite IH. ring.
Qed.
Lemma csum_scale c f n : csum n (fun i => cmul c (f i)) = cmul c (csum n f).
Proof.
  destruct (csum_pos_case n) as [H|H]; [rewrite !csum_0 by exact H; ring|].
  pattern n. revert n H. apply csum_ind; [rewrite !csum_0 by lia; ring|].
  intros n H IH. rewrite !csum_succ by exact H. rewrite IH. ring.
Qed.
Lemma csum_scale_r c f n : csum n (fun i => cmul (f i) c) = cmul (csum n f) c.
Proof. rewrite (csum_ext _ (fun i => cmul c (f i))) by (intros; ring). rewrite csum_scale. ring. Qed.
Lemma csum_zero f n : (forall i, 0 <= i < n -> f i = c0) -> csum n f = c0.
Proof.
  intro H. rewrite (csum_ext _ (fun i => cmul c0 (f i))) by (intros i Hi; rewrite (H i Hi); ring).
  rewrite csum_scale. ring.
Qed.
Lemma csum_swap f n m : csum n (fun i => csum m (f i)) = csum m (fun j => csum n (fun i => f i j)).
Proof.
  destruct (csum_pos_case n) as [H|H].
  { rewrite csum_0 by exact H. symmetry. apply csum_zero. intros. apply csum_0; exact H. }
  pattern n. revert n H. apply csum_ind.
  - rewrite csum_0 by lia. symmetry. apply csum_zero. intros. apply csum_0; lia.
  - intros n H IH. rewrite csum_succ by exact H. rewrite IH, <- csum_add. apply csum_ext. intros j Hj.
    rewrite csum_succ by exact H. reflexivity.
Qed.
Lemma csum_app f n m : 0 <= n -> 0 <= m -> csum (n + m) f = cadd (csum n f) (csum m (fun i => f (n + i))).
Proof.
  intros Hn Hm. pattern m. revert m Hm. apply csum_ind.
  - rewrite (csum_0 _ 0) by lia. rewrite Z.add_0_r. ring.
  - intros m Hm IH. rewrite Z.add_assoc, !csum_succ by lia. rewrite IH. ring.
Qed.
Lemma csum_even_odd f n : 0 <= n -> csum (2 * n) f = cadd (csum n (fun i => f (2 * i))) (csum n (fun i => f (2 * i + 1))).
Proof.
  intros Hn. pattern n. revert n Hn. apply csum_ind.
  - rewrite !csum_0 by lia. ring.
  - intros n Hn IH. replace (2 * (n + 1)) with (2 * n + 1 + 1) by ring. rewrite !csum_succ by lia. rewrite IH. ring.
Qed.
Lemma csum_one f n k : 0 <= k < n -> (forall i, 0 <= i < n -> i <> k -> f i = c0) -> csum n f = f k.
Proof.
  intros Hk H. replace n with (k + (1 + (n - k - 1))) by ring. rewrite csum_app by lia.
  rewrite csum_zero by (intros i Hi; apply H; lia).
  rewrite csum_app by lia. rewrite (csum_zero _ (n - k - 1)) by (intros i Hi; apply H; lia).
  replace 1 with (0 + 1) at 1 by ring. rewrite csum_succ by lia. rewrite csum_0 by lia. rewrite Z.add_0_r. ring.
Qed.
Lemma csum_rev f n : 0 <= n -> csum n (fun i => f (n - 1 - i)) = csum n f.
Proof.
  intro Hn. pattern n. revert n Hn. apply csum_ind; [reflexivity|].
  intros n Hn IH. rewrite (csum_succ f) by exact Hn. rewrite <- IH.
  rewrite Z.add_comm at 1. rewrite csum_app by lia. replace 1 with (0 + 1) at 1 by ring. rewrite csum_succ by lia. rewrite csum_0 by lia.
  replace (n + 1 - 1 - 0) with n by ring.
  rewrite (csum_ext (fun i => f (n + 1 - 1 - (1 + i))) (fun i => f (n - 1 - i))); [ring|].
  intros i Hi. f_equal. ring.
Qed.

(** Angles. *)
Lemma cis_0 : cis 0 = c1.
Proof. unfold cis, c1. rewrite cos_0, sin_0. reflexivity. Qed.
Lemma cis_add a b : cis (a + b) = cmul (cis a) (cis b).
Proof. unfold cis, cmul. cbn [fst snd]. rewrite cos_plus, sin_plus. f_equal; ring. Qed.
Lemma cis_opp a : cis (- a) = conj (cis a).
Proof. unfold cis, conj. cbn [fst snd]. rewrite cos_neg, sin_neg. reflexivity. Qed.
Lemma cis_period_nat (q : nat) : cis (2 * PI * INR q) = c1.
Proof.
  induction q as [|q IH]; [cbn [INR]; rewrite Rmult_0_r; apply cis_0|].
  rewrite S_INR, Rmult_plus_distr_l, Rmult_1_r, cis_add, IH. unfold cis. rewrite cos_2PI, sin_2PI. unfold c1, cmul. cbn [fst snd].
  f_equal; ring.
Qed.
Lemma cis_period q : cis (2 * PI * IZR q) = c1.
Proof.
  destruct (Z_le_gt_dec 0 q) as [H|H].
  - rewrite <- (Z2Nat.id q H), <- INR_IZR_INZ. apply cis_period_nat.
  - replace q with (- Z.of_nat (Z.to_nat (- q))) by lia. rewrite opp_IZR, <- INR_IZR_INZ.
    rewrite Ropp_mult_distr_r_reverse, cis_opp, cis_period_nat. unfold conj, c1. cbn [fst snd]. f_equal. ring.
Qed.
Lemma root_0 n : root n 0 = c1.
Proof. unfold root. rewrite Rmult_0_r. unfold Rdiv. rewrite Rmult_0_l. apply cis_0. Qed.
Lemma root_add n a b : root n (a + b) = cmul (root n a) (root n b).
Proof. unfold root. rewrite <- cis_add. f_equal. rewrite plus_IZR. unfold Rdiv. ring. Qed.
Lemma root_opp n a : root n (- a) = conj (root n a).
Proof. unfold root. rewrite <- cis_opp. f_equal. rewrite opp_IZR. unfold Rdiv. ring. Qed.
Lemma root_turns n q : n <> 0 -> root n (n * q) = c1.
Proof.
  intro H. unfold root. rewrite <- (cis_period q). f_equal. rewrite mult_IZR. field. apply not_0_IZR, H.
Qed.
Lemma root_period n a q : n <> 0 -> root n (a + n * q) = root n a.
Proof. intro H. rewrite root_add, root_turns by exact H. ring. Qed.
Lemma root_mod n a b : n <> 0 -> (exists q, a = b + n * q) -> root n a = root n b.
Proof. intros H [q ->]. apply root_period, H. Qed.
Lemma root_scale c n a : c <> 0 -> n <> 0 -> root (c * n) (c * a) = root n a.
Proof.
  intros Hc Hn. unfold root. f_equal. rewrite !mult_IZR. field. split; apply not_0_IZR; assumption.
Qed.
Lemma root_half n : n <> 0 -> root (2 * n) n = copp c1.
Proof.
  intro H. unfold root. replace (2 * PI * IZR n / IZR (2 * n))%R with PI.
  - unfold cis. rewrite cos_PI, sin_PI. unfold copp, c1. cbn [fst snd]. f_equal. ring.
  - rewrite mult_IZR. field. apply not_0_IZR, H.
Qed.
Lemma root_unit n a : cmul (root n a) (root n (- a)) = c1.
Proof. rewrite <- root_add. replace (a + - a) with 0 by ring. apply root_0. Qed.

(** A root that is not 1. *)
Lemma root_not_1 n d : 0 < d < n -> root n d <> c1.
Proof.
  intros Hd E. unfold root, cis, c1 in E. apply (f_equal fst) in E. cbn [fst] in E.
  set (t := (PI * IZR d / IZR n)%R) in *.
  assert (Hn : (0 < IZR n)%R) by (apply IZR_lt; lia).
  assert (Hdp : (0 < IZR d)%R) by (apply IZR_lt; lia).
  assert (Hdn : (IZR d < IZR n)%R) by (apply IZR_lt; lia).
  assert (HPI := PI_RGT_0).
  assert (T0 : (0 < t)%R) by (unfold t; apply Rdiv_lt_0_compat; [apply Rmult_lt_0_compat|]; assumption).
  assert (T1 : (t < PI)%R).
  { unfold t. apply (Rmult_lt_reg_r (IZR n)); [assumption|]. unfold Rdiv. rewrite Rmult_assoc, Rinv_l, Rmult_1_r by lra.
    apply Rmult_lt_compat_l; assumption. }
  assert (S := sin_gt_0 t T0 T1).
  replace (2 * PI * IZR d / IZR n)%R with (2 * t)%R in E by (unfold t; field; lra).
  rewrite cos_2a_sin in E.
  assert (P := Rmult_lt_0_compat _ _ S S). lra.
Qed.

Lemma cnorm_pos (z : cx) : z <> c0 -> (0 < fst z * fst z + snd z * snd z)%R.
Proof.
  destruct z as [a b]. cbn [fst snd]. intro H.
  destruct (Req_dec a 0) as [->|Ha].
  - destruct (Req_dec b 0) as [->|Hb]; [destruct H; reflexivity|].
    assert (0 < Rsqr b)%R by (apply Rsqr_pos_lt; exact Hb). unfold Rsqr in *. lra.
  - assert (0 < Rsqr a)%R by (apply Rsqr_pos_lt; exact Ha). assert (0 <= Rsqr b)%R by apply Rle_0_sqr. unfold Rsqr in *. lra.
Qed.
Lemma cmul_eq_0 z w : cmul z w = c0 -> z <> c0 -> w = c0.
Proof.
  intros E H. apply cnorm_pos in H. destruct z as [a b], w as [c d]. cbn [fst snd] in H. unfold cmul, c0 in E. cbn [fst snd] in E.
  assert (E1 := f_equal fst E). assert (E2 := f_equal snd E). cbn [fst snd] in E1, E2. unfold c0.
  assert (X : ((a * a + b * b) * c = 0)%R).
  { replace ((a * a + b * b) * c)%R with (a * (a * c - b * d) + b * (a * d + b * c))%R by ring. rewrite E1, E2. ring. }
  assert (Y : ((a * a + b * b) * d = 0)%R).
  { replace ((a * a + b * b) * d)%R with (a * (a * d + b * c) - b * (a * c - b * d))%R by ring. rewrite E1, E2. ring. }
  apply Rmult_integral in X. apply Rmult_integral in Y. f_equal; destruct X, Y; lra.
Qed.
Lemma root_geometric n d m : 0 <= m -> cmul (csub (root n d) c1) (csum m (fun k => root n (k * d))) = csub (root n (m * d)) c1.
Proof.
  intro H. pattern m. revert m H. apply csum_ind.
  - rewrite csum_0 by lia. rewrite Z.mul_0_l, root_0. ring.
  - intros m H IH. rewrite csum_succ by exact H.
    transitivity (cadd (cmul (csub (root n d) c1) (csum m (fun k => root n (k * d)))) (cmul (csub (root n d) c1) (root n (m * d)))); [ring|].
    rewrite IH. replace ((m + 1) * d) with (m * d + d) by ring. rewrite root_add. ring.
Qed.
Lemma real_IZR_succ n : real (IZR (n + 1)) = cadd (real (IZR n)) c1.
Proof. unfold real, cadd, c1. cbn [fst snd]. rewrite plus_IZR. f_equal. ring. Qed.
Lemma csum_const n : 0 <= n -> csum n (fun _ => c1) = real (IZR n).
Proof.
  intro H. pattern n. revert n H. apply csum_ind; [rewrite csum_0 by lia; reflexivity|].
  intros n H IH. rewrite csum_succ by exact H. rewrite IH. symmetry. apply real_IZR_succ.
Qed.
Lemma root_orthogonal n d : 0 < n -> csum n (fun k => root n (k * d)) = if d mod n =? 0 then real (IZR n) else c0.
Proof.
  intro Hn. assert (M := Z.mod_pos_bound d n Hn). assert (D := Z.div_mod d n ltac:(lia)).
  destruct (d mod n =? 0) eqn:E.
  - rewrite <- csum_const by lia. apply csum_ext. intros i Hi. rewrite D. replace (d mod n) with 0 by lia.
    replace (i * (n * (d / n) + 0)) with (n * (i * (d / n))) by ring. apply root_turns. lia.
  - assert (R1 : root n d <> c1).
    { rewrite (root_mod n d (d mod n)) by (try lia; exists (d / n); lia). apply root_not_1. lia. }
    assert (G := root_geometric n d n ltac:(lia)). rewrite root_turns in G by lia.
    replace (csub c1 c1) with c0 in G by ring. apply (cmul_eq_0 _ _ G). intro Z0. apply R1.
    transitivity (cadd (csub (root n d) c1) c1); [ring|]. rewrite Z0. ring.
Qed.

(** Division by a number. *)
Lemma cdivr_mul z r : cdivr z r = cmul z (real (/ r)).
Proof. unfold cdivr, cmul, real, Rdiv. cbn [fst snd]. f_equal; ring. Qed.
Lemma real_mul a b : cmul (real a) (real b) = real (a * b).
Proof. unfold cmul, real. cbn [fst snd]. f_equal; ring. Qed.
Lemma real_add a b : cadd (real a) (real b) = real (a + b).
Proof. unfold cadd, real. cbn [fst snd]. f_equal; ring. Qed.
Lemma cdivr_cancel z n : n <> 0 -> cdivr (cmul z (real (IZR n))) (IZR n) = z.
Proof.
  intro H. rewrite cdivr_mul. transitivity (cmul z (cmul (real (IZR n)) (real (/ IZR n)))); [ring|].
  rewrite real_mul, Rinv_r by (apply not_0_IZR, H). change (real 1) with c1. ring.
Qed.

(** The inverse transform undoes the transform. *)
Lemma dft_ext n x y k : (forall j, 0 <= j < n -> x j = y j) -> dft n x k = dft n y k.
Proof. intro H. apply csum_ext. intros j Hj. rewrite (H j Hj). reflexivity. Qed.
Lemma idft_ext n x y k : (forall j, 0 <= j < n -> x j = y j) -> idft n x k = idft n y k.
Proof. intro H. unfold idft. f_equal. apply csum_ext. intros j Hj. rewrite (H j Hj). reflexivity. Qed.
Lemma same_residue n i j : 0 < n -> 0 <= i < n -> 0 <= j < n -> (i - j) mod n = 0 -> i = j.
Proof. intros Hn Hi Hj E. apply Z.mod_divide in E; [|lia]. destruct E as [q E]. assert (q = 0) by nia. lia. Qed.
Theorem idft_dft n x k : 0 < n -> 0 <= k < n -> idft n (dft n x) k = x k.
Proof.
  intros Hn Hk. unfold idft, dft.
  transitivity (cdivr (csum n (fun j => csum n (fun i => cmul (x i) (root n (j * (k - i)))))) (IZR n)).
  { f_equal. apply csum_ext. intros j Hj. rewrite <- csum_scale_r. apply csum_ext. intros i Hi.
    transitivity (cmul (x i) (cmul (root n (- (i * j))) (root n (j * k)))); [ring|]. rewrite <- root_add. do 2 f_equal. ring. }
  rewrite csum_swap. transitivity (cdivr (cmul (x k) (real (IZR n))) (IZR n)); [|apply cdivr_cancel; lia].
  f_equal. rewrite (csum_one _ n k Hk).
  - rewrite csum_scale. rewrite root_orthogonal by exact Hn. rewrite Z.sub_diag, Z.mod_0_l by lia. reflexivity.
  - intros i Hi Hik. rewrite csum_scale, root_orthogonal by exact Hn.
    destruct ((k - i) mod n =? 0) eqn:E; [|ring]. apply Z.eqb_eq in E. apply same_residue in E; lia.
Qed.
Theorem dft_idft n x k : 0 < n -> 0 <= k < n -> dft n (idft n x) k = x k.
Proof.
  intros Hn Hk. unfold idft, dft.
  transitivity (csum n (fun j => csum n (fun i => cmul (cmul (x i) (real (/ IZR n))) (root n (j * (i - k)))))).
  { apply csum_ext. intros j Hj. rewrite cdivr_mul, <- csum_scale_r, <- csum_scale_r. apply csum_ext. intros i Hi.
    transitivity (cmul (cmul (x i) (real (/ IZR n))) (cmul (root n (i * j)) (root n (- (j * k))))); [ring|].
    rewrite <- root_add. do 2 f_equal. ring. }
  rewrite csum_swap. rewrite (csum_one _ n k Hk).
  - rewrite csum_scale, root_orthogonal by exact Hn. rewrite Z.sub_diag, Z.mod_0_l by lia. cbn [Z.eqb].
    transitivity (cmul (x k) (cmul (real (/ IZR n)) (real (IZR n)))); [ring|].
    rewrite real_mul, Rinv_l by (apply not_0_IZR; lia). change (real 1) with c1. ring.
  - intros i Hi Hik. rewrite csum_scale, root_orthogonal by exact Hn.
    destruct ((i - k) mod n =? 0) eqn:E; [|ring]. apply Z.eqb_eq in E. apply same_residue in E; lia.
Qed.
(** A transform has period n. *)
Lemma dft_period n x k q : n <> 0 -> dft n x (k + n * q) = dft n x k.
Proof.
  intro H. apply csum_ext. intros j Hj. f_equal. apply root_mod; [exact H|]. exists (- (j * q)). ring.
Qed.
(** The transform of a real signal is symmetric. *)
Lemma conj_add a b : conj (cadd a b) = cadd (conj a) (conj b).
Proof. unfold conj, cadd. cbn [fst snd]. f_equal. ring. Qed.
Lemma conj_mul a b : conj (cmul a b) = cmul (conj a) (conj b).
Proof. unfold conj, cmul. cbn [fst snd]. f_equal; ring. Qed.
Lemma conj_real r : conj (real r) = real r.
Proof. unfold conj, real. cbn [fst snd]. f_equal. ring. Qed.
Lemma conj_sum n f : conj (csum n f) = csum n (fun i => conj (f i)).
Proof.
  assert (C0 : conj c0 = c0) by (unfold conj, c0; cbn [fst snd]; f_equal; ring).
  destruct (csum_pos_case n) as [H|H]; [rewrite !csum_0 by exact H; exact C0|].
  pattern n. revert n H. apply csum_ind; [rewrite !csum_0 by lia; exact C0|].
  intros n H IH. rewrite !csum_succ by exact H. rewrite conj_add, IH. reflexivity.
Qed.
Lemma dft_real_symmetric n (x : Z -> R) k : n <> 0 -> conj (dft n (fun j => real (x j)) (n - k)) = dft n (fun j => real (x j)) k.
Proof.
  intro H. unfold dft. rewrite conj_sum. apply csum_ext. intros j Hj. rewrite conj_mul, conj_real, <- root_opp. f_equal.
  apply root_mod; [exact H|]. exists j. ring.
Qed.
