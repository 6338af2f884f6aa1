(** Proofs about normalisations and activations, part 5: activation functions. *)
From Coq Require Import Reals Lra Psatz.
From Verif Require Import Base DTypeModel ParamModel ParamSpec ParamProofs TensorModel TensorSpec TensorProofs TensorSplit
  OpsModel OpsSpec OpsProofs OpsIndex OpsSum MatModel MatSpec MatProofs MatKernel MatOps ExpModel ExpProofs
  AttnModel AttnSpec AttnProofs AttnOps NumModel NumSpec NumProofs NumSoftmax NumNorm.
Local Open Scope Z_scope.

(** The value of element i of n. *)
Definition act_value (a : arch) (est : R -> R) (k : activation) (n i : Z) (v : R) : R :=
  if in_register a n i then register_value a est k v else scalar_value k v.
Lemma act_row_ok a est order k inplace n x xo yo f (y : buf R) : match a with X86 L => 0 < L | Arm => True end -> 0 <= n ->
  Permutation order (range (n / block a k)) -> (0 < n -> 0 <= yo /\ yo + n <= b_len y) -> readable inplace x y xo yo n f ->
  exists y', act_row a est order k inplace n x xo yo y = ROk y' /\
    changes (fun d => Some (act_value a est k n (d - yo) (f (d - yo)%Z))) (segment yo n) y y'.
Proof.
  intros HA Hn HO HR HX. unfold act_row. cbv zeta. set (W := block a k) in *.
  assert (HW : 0 < W) by (unfold W, block; destruct a, k; auto; lia). clearbody W.
  set (G := fun d => Some (act_value a est k n (d - yo) (f (d - yo)%Z))).
  assert (DN := Z.div_mod n W ltac:(lia)). assert (MB := Z.mod_pos_bound n W HW). assert (DP : 0 <= n / W) by (apply Z.div_pos; lia).
  assert (ST : forall i b1, 0 <= i < n -> b_len b1 = b_len y -> b_at b1 (yo + i) = b_at y (yo + i) ->
     exists b2, act1 a est k inplace n x xo yo i b1 = ROk b2 /\ changes G (eq (yo + i)) b1 b2).
  { intros i b1 Hi L E. unfold act1. rewrite (readable_later inplace x y xo yo n f b1 i) by auto. cbn [rbind].
    apply changes_store; [rewrite L; lia|]. unfold G. replace (yo + i - yo) with i by ring. reflexivity. }
  destruct (rows_any_order G order (n / W) W yo (fun v => zloop W (fun j => act1 a est k inplace n x xo yo (v * W + j))) y ltac:(lia) HO) as (y1 & E1 & C1).
  { intros l b1 Hl L E. apply (row_loop G W (yo + l * W)). intros j b2 Hj L2 E2.
    destruct (ST (l * W + j) b2) as (b3 & E3 & C3); [nia|lia| |].
    - rewrite Z.add_assoc. rewrite E2. apply E; auto.
    - exists b3. rewrite Z.add_assoc in C3. auto. }
  rewrite E1. cbn [rbind].
  destruct (row_loop G (n - n / W * W) (yo + n / W * W) (fun j => act1 a est k inplace n x xo yo (n / W * W + j)) y1) as (y2 & E2 & C2).
  { intros j b1 Hj L E. assert (LL := c_len _ _ _ _ C1). destruct (ST (n / W * W + j) b1) as (b2 & E3 & C3); [nia|lia| |].
    - rewrite Z.add_assoc, E. apply (c_other _ _ _ _ C1). unfold segment. lia.
    - exists b2. rewrite Z.add_assoc in C3. auto. }
  exists y2. split; [exact E2|]. constructor.
  - rewrite (c_len _ _ _ _ C2). apply (c_len _ _ _ _ C1).
  - intros d Hd. unfold segment in *. destruct (Z_lt_dec d (yo + n / W * W)) as [Q|Q].
    + rewrite (c_other _ _ _ _ C2) by (unfold segment; lia). apply (c_set _ _ _ _ C1). unfold segment. lia.
    + apply (c_set _ _ _ _ C2). unfold segment. lia.
  - intros d Hd. unfold segment in *. rewrite (c_other _ _ _ _ C2), (c_other _ _ _ _ C1); auto; unfold segment; nia.
Qed.

Lemma act_arch a k : computes a k -> match a with X86 L => 0 < L | Arm => True end.
Proof. destruct a; auto. unfold computes. destruct k; auto; contradiction. Qed.
Section Act.
Context (a : arch) (est : R -> R) (order : list Z) (k : activation) (inplace : bool) (t : tns R) (shape : list Z) (F : list Z -> R).
Hypothesis HA : computes a k.
Hypothesis HT : holds t shape F.
Hypothesis HO : Permutation order (range (product shape / block a k)).
Let X i := F (unravel shape i).
Theorem activation_fresh : reuses k inplace = false ->
  returns (activation_op a est order k inplace t) shape (fun idx => act_value a est k (product shape) (ravel shape idx) (F idx)).
Proof using All.
  intro HI. destruct (holds_dims _ _ _ HT) as [R1 R2].
  destruct (act_row_ok a est order k false (product shape) (x_buf t) (x_offset t) 0 X (mkBuf (product shape) (fun _ => None))) as (y & E & C).
  - apply (act_arch a k); auto.
  - apply product_nonneg; auto.
  - exact HO.
  - intros _. cbn [b_len]. lia.
  - split; [discriminate|]. intros i Hi. apply holds_flat; auto.
  - eapply returns_fresh; [exact R1|exact R2| |exact C|].
    + unfold activation_op. fold (reuses k inplace). rewrite HI, (h_shape _ _ _ HT), fresh_ok by auto. cbn [rbind]. cbv zeta.
      rewrite (holds_contiguous _ _ _ HT), numel_product. cbn [negb].
      replace (match k with QuickGELU => false | _ => false end) with false by (destruct k; reflexivity).
      transitivity (rbind (act_row a est order k false (product shape) (x_buf t) (x_offset t) 0 (mkBuf (product shape) (fun _ => None)))
        (fun y => ROk (mkTns (mkV shape (default_strides shape) 0) y))).
      * unfold computes in HA. destruct a, k; try contradiction; reflexivity.
      * rewrite E. reflexivity.
    + intros idx Hi. cbn beta. rewrite !Z.sub_0_r. unfold X. rewrite unravel_ravel by auto. reflexivity.
Qed.
Theorem silu_inplace : k = SiLU -> inplace = true ->
  rewrites (activation_op a est order k inplace t) t (fun idx => act_value a est SiLU (product shape) (ravel shape idx) (F idx)).
Proof using All.
  intros EK EI. destruct (holds_dims _ _ _ HT) as [R1 R2]. assert (PP := product_nonneg _ R2).
  destruct (act_row_ok a est order k true (product shape) (x_buf t) (x_offset t) (x_offset t) X (x_buf t)) as (y & E & C).
  - apply (act_arch a k); auto.
  - exact PP.
  - exact HO.
  - intro Q. destruct (holds_cell t shape F 0 HT) as [B0 _]; [lia|]. destruct (holds_cell t shape F (product shape - 1) HT) as [B1 _]; [lia|]. lia.
  - split; [reflexivity|]. intros i Hi. apply holds_flat; auto.
  - rewrite EK, EI in *. eapply (rewrites_inplace _ t shape F (fun i => act_value a est SiLU (product shape) i (X i))); [exact HT| |exact C|].
    + unfold activation_op. cbn [andb rbind]. cbv zeta. rewrite (h_shape _ _ _ HT), numel_product.
      transitivity (rbind (act_row a est order SiLU true (product shape) (x_buf t) (x_offset t) (x_offset t) (x_buf t)) (fun y => ROk (mkTns (x_view t) y))).
      * destruct a; reflexivity.
      * rewrite E. reflexivity.
    + intros idx Hi. cbn beta. unfold X. rewrite unravel_ravel by auto. reflexivity.
Qed.
End Act.

(* ---------------- accuracy ---------------- *)
Local Open Scope R_scope.
Lemma recip_error est x : estimates est -> 0 < x -> Rabs (recip est x - / x) <= 3e-10 * / x.
Proof.
  intros H Hx. specialize (H x Hx). set (e := 1 - x * est x) in *. assert (Q : recip est x - / x = - (e ^ 4) * / x).
  { unfold recip. cbv zeta. replace (est x) with ((1 - e) / x) by (unfold e; field; lra). field. lra. }
  rewrite Q, Rabs_mult, (Rabs_pos_eq (/ x)) by (left; apply Rinv_0_lt_compat; auto). apply Rmult_le_compat_r; [left; apply Rinv_0_lt_compat; auto|].
  rewrite Rabs_Ropp. eapply Rle_trans; [apply (pow_abs_le e (/ 256) 4 H)|]. lra.
Qed.
(** 1 / (1 + E) when E approximates exp(-x). *)
Lemma inverse_close E e d : 0 < e -> 0 <= d <= 0.029 -> Rabs (E - e) <= d * e -> Rabs (/ (E + 1) - / (e + 1)) <= 1.03 * d * / (e + 1).
Proof.
  intros He D H. apply abs_le_inv in H. assert (P : 0 < E) by nra.
  replace (/ (E + 1) - / (e + 1)) with ((e - E) / (E + 1) * / (e + 1)) by (field; lra).
  rewrite Rabs_mult, (Rabs_pos_eq (/ (e + 1))) by (left; apply Rinv_0_lt_compat; lra). apply Rmult_le_compat_r; [left; apply Rinv_0_lt_compat; lra|].
  apply Rabs_le. split; (apply Rmult_le_reg_r with (E + 1); [lra|]); unfold Rdiv; rewrite Rmult_assoc, Rinv_l by lra; nra.
Qed.
Lemma logistic_alt x : logistic x = / (exp (- x) + 1).
Proof. unfold logistic. rewrite Rplus_comm. unfold Rdiv. ring. Qed.
Lemma logistic_pos x : 0 < logistic x < 1.
Proof.
  rewrite logistic_alt. assert (P := exp_pos (- x)). split; [apply Rinv_0_lt_compat; lra|]. rewrite <- Rinv_1 at 2. apply Rinv_lt_contravar; lra.
Qed.
Lemma near_mul eps x y z : near eps 1 y z -> near eps (1 + Rabs x) (x * y) (x * z).
Proof. unfold near, tiny. intro H. replace (x * y - x * z) with (x * (y - z)) by ring. rewrite !Rabs_mult. assert (P := Rabs_pos x). nra. Qed.
Lemma near_exact eps z x y : 0 <= eps -> 0 <= z -> y = x -> near eps z y x.
Proof. intros H H2 ->. unfold near, tiny. rewrite Rminus_eq_0, Rabs_R0. assert (P := Rabs_pos x). nra. Qed.
Lemma near_weaken eps eps' z z' y x : near eps z y x -> eps <= eps' -> z <= z' -> near eps' z' y x.
Proof. unfold near, tiny. intros H1 H2 H3. assert (P := Rabs_pos x). nra. Qed.
Lemma clamped_high a v : exp_hi <= v -> fast a v = fast a exp_hi.
Proof.
  intro H. assert (P := exp_hi_pos). assert (E : Rmin (Rmax v (- exp_hi)) exp_hi = Rmin (Rmax exp_hi (- exp_hi)) exp_hi).
  { rewrite !Rmax_left by lra. rewrite !Rmin_right by lra. reflexivity. }
  destruct a; cbn [fast]; unfold fast_exp_arm, fast_exp_x86, fast_exp; rewrite E; reflexivity.
Qed.
Lemma fast_pos a v : 0 < fast a v.
Proof.
  assert (P := exp_hi_pos). destruct (Rle_dec v 0) as [L|L]; [apply fast_pos_nonpos; auto|]. destruct (Rle_dec v exp_hi) as [M|M].
  - apply fast_positive. rewrite Rabs_pos_eq; lra.
  - rewrite clamped_high by lra. apply fast_positive. rewrite Rabs_pos_eq; lra.
Qed.
Lemma fast_logistic a x : near (1.03 * delta a) 0.9 (/ (fast a (- x) + 1)) (logistic x).
Proof.
  unfold near. assert (LP := logistic_pos x). rewrite (Rabs_pos_eq (logistic x)) by lra. assert (D := delta_range a). assert (P := exp_hi_pos).
  assert (EP := exp_pos (- x)). assert (FP := fast_pos a (- x)). rewrite logistic_alt in *.
  assert (I1 : 0 < / (exp (- x) + 1)) by (apply Rinv_0_lt_compat; lra). assert (T := exp_tiny).
  assert (TE := fast_error a exp_hi). rewrite Rabs_pos_eq in TE by lra. specialize (TE ltac:(lra)). apply abs_le_inv in TE.
  assert (TI : / exp exp_hi <= 6e-39) by (rewrite <- exp_Ropp; exact T). assert (EH := exp_pos exp_hi).
  destruct (Rle_dec (Rabs x) exp_hi) as [Q|Q].
  - assert (H := fast_error a (- x)). rewrite Rabs_Ropp in H. specialize (H Q). assert (I := inverse_close _ _ (delta a) EP ltac:(lra) H). unfold tiny. lra.
  - destruct (Rle_dec 0 x) as [S|S].
    + rewrite Rabs_pos_eq in Q by auto.
      assert (EX : exp (- x) <= 6e-39) by (apply Rle_trans with (exp (- exp_hi)); [left; apply exp_increasing; lra|exact T]).
      assert (FX : fast a (- x) <= 6.2e-39).
      { rewrite fast_low by lra. assert (TF := fast_error a (- exp_hi)). rewrite Rabs_Ropp, Rabs_pos_eq in TF by lra. specialize (TF ltac:(lra)). apply abs_le_inv in TF.
        assert (EN := exp_pos (- exp_hi)). nra. }
      replace (/ (fast a (- x) + 1) - / (exp (- x) + 1)) with ((exp (- x) - fast a (- x)) * (/ (fast a (- x) + 1) * / (exp (- x) + 1))) by (field; lra).
      assert (I2 : 0 < / (fast a (- x) + 1)) by (apply Rinv_0_lt_compat; lra).
      assert (I3 : / (fast a (- x) + 1) <= 1) by (rewrite <- Rinv_1 at 2; apply Rinv_le_contravar; lra).
      assert (K : 0 <= / (fast a (- x) + 1) * / (exp (- x) + 1) <= 1) by nra.
      set (K' := / (fast a (- x) + 1) * / (exp (- x) + 1)) in *. assert (0 <= 1.03 * delta a * / (exp (- x) + 1)) by nra. unfold tiny. apply Rabs_le. nra.
    + rewrite Rabs_left in Q by lra. rewrite (clamped_high a (- x)) in * by lra.
      assert (EX : exp exp_hi <= exp (- x)) by (left; apply exp_increasing; lra).
      assert (A1 : / (exp (- x) + 1) <= 6e-39) by (apply Rle_trans with (/ exp exp_hi); [apply Rinv_le_contravar; lra|exact TI]).
      assert (A2 : / (fast a exp_hi + 1) <= 6.2e-39).
      { apply Rle_trans with (/ (0.971 * exp exp_hi)); [apply Rinv_le_contravar; nra|]. rewrite Rinv_mult. assert (0 < / exp exp_hi) by (apply Rinv_0_lt_compat; auto). lra. }
      assert (A3 : 0 < / (fast a exp_hi + 1)) by (apply Rinv_0_lt_compat; lra).
      assert (0 <= 1.03 * delta a * / (exp (- x) + 1)) by nra. unfold tiny. apply Rabs_le. lra.
Qed.
Lemma vsigmoid_near est x : estimates est -> near 2.1e-7 1 (vsigmoid est x) (logistic x).
Proof.
  intros HE. assert (H := fast_logistic Arm x). unfold near, vsigmoid in *. cbn [fast delta] in H. assert (LP := logistic_pos x). rewrite (Rabs_pos_eq (logistic x)) in * by lra.
  assert (P := fast_pos Arm (- x)). cbn [fast] in P. assert (J := recip_error est (fast_exp_arm (- x) + 1) HE ltac:(lra)).
  apply abs_le_inv in H. apply abs_le_inv in J. assert (K : 0 < / (fast_exp_arm (- x) + 1)) by (apply Rinv_0_lt_compat; lra). unfold tiny in *. apply Rabs_le. lra.
Qed.

Lemma scalar_meant k x : scalar_value k x = meant k x.
Proof.
  destruct k; cbn [scalar_value meant]; unfold logistic; try reflexivity.
  - field. assert (P := exp_pos (- x)). lra.
  - unfold Rmax. destruct (Rlt_dec 0 x), (Rle_dec x 0); lra.
Qed.
Lemma arm_near est k n i x : estimates est -> near 2.1e-7 (1 + Rabs x) (act_value Arm est k n i x) (meant k x).
Proof.
  intros HE. assert (P := Rabs_pos x). unfold act_value. destruct (in_register Arm n i); [|apply near_exact; [lra|lra|apply scalar_meant]].
  destruct k; cbn [register_value meant].
  - apply near_mul, vsigmoid_near; auto.
  - apply near_weaken with 2.1e-7 1; [apply vsigmoid_near; auto|lra|lra].
  - apply near_exact; lra.
  - rewrite (Rmult_comm x 1.702). apply near_mul, vsigmoid_near; auto.
Qed.
Lemma arm_relu_exact est n i x : act_value Arm est ReLU n i x = Rmax x 0.
Proof. unfold act_value. destruct (in_register Arm n i); [reflexivity|apply (scalar_meant ReLU)]. Qed.
Lemma x86_silu_near est L n i x : near 0.03 (1 + Rabs x) (act_value (X86 L) est SiLU n i x) (meant SiLU x).
Proof.
  assert (P := Rabs_pos x). unfold act_value. destruct (in_register (X86 L) n i); [|apply near_exact; [lra|lra|apply scalar_meant]].
  cbn [register_value meant]. apply near_mul. assert (H := fast_logistic (X86 L) x). cbn [fast delta] in H.
  replace (1 / (1 + fast_exp_x86 (- x))) with (/ (fast_exp_x86 (- x) + 1)) by (unfold Rdiv; rewrite (Rplus_comm 1); ring).
  eapply near_weaken; [exact H|lra|lra].
Qed.
