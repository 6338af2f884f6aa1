(** Property theorems C61 - C64 (softmax, RMS norm, layer norm and activation functions on the CPU, over
    the real numbers). *)
From Coq Require Import Reals Lra Psatz.
From Verif Require Import Base DTypeModel ParamModel ParamSpec ParamProofs TensorModel TensorSpec TensorProofs TensorSplit
  PropertiesTensor OpsModel OpsSpec OpsProofs OpsIndex OpsSum PropertiesOps MatModel MatSpec MatProofs MatKernel MatOps
  ExpModel ExpProofs AttnModel AttnSpec AttnProofs AttnOps PropertiesAttn NumModel NumSpec NumProofs NumSoftmax NumNorm NumNormOps NumAct.
Local Open Scope Z_scope.

Lemma returns_ext {A} (r : res (tns A)) shape F G : returns r shape F -> (forall idx, in_shape shape idx -> F idx = G idx) -> returns r shape G.
Proof. intros (out & E & S & O & W & H) HG. exists out. split; [exact E|]. split; [exact S|]. split; [exact O|]. split; [exact W|]. intros idx Hi. rewrite H, HG by auto. reflexivity. Qed.
Lemma rewrites_ext {A} (r : res (tns A)) t F G : rewrites r t F -> (forall idx, in_shape (x_shape t) idx -> F idx = G idx) -> rewrites r t G.
Proof. intros (out & E & S & L & W & H) HG. exists out. split; [exact E|]. split; [exact S|]. split; [exact L|]. split; [|exact H]. intros idx Hi. rewrite W, HG by auto. reflexivity. Qed.

(* ------------------------------------------------------------------ *)
(** ** C61: softmax *)

(** Along the last axis, for every shape, register width and order of the rows: the output is a function of the
    input alone (not of the order); in each row it is positive, adds up to 1, and is
    the softmax of the row up to an absolute error of 2 delta (4e-7 on ARM, 0.058 on x86, plus (n + 1) * 1e-38); as long as the
    numbers of a row differ by at most 88, the relative error is at most 2.06 delta.  Partial: over the
    real numbers, contiguous inputs. *)
Theorem C61_softmax_partial a axis t pre n F : has_lanes a -> 1 <= n -> holds t (pre ++ [n]) F -> axis = -1 \/ axis = zlen pre ->
  exists G : list Z -> R,
    (forall order, Permutation order (range (product pre)) -> returns (softmax_op a order axis t) (pre ++ [n]) G) /\
    forall p, in_shape pre p ->
      (forall i, 0 <= i < n -> (0 < G (p ++ [i]))%R) /\
      total_over (range n) (fun i => G (p ++ [i])) = 1%R /\
      (forall i, 0 <= i < n -> (Rabs (G (p ++ [i]) - softmax n (fun j => F (p ++ [j])) i) <= 2 * delta a + (IZR n + 1) * 1e-38)%R) /\
      ((forall i j, 0 <= i < n -> 0 <= j < n -> (F (p ++ [i]) - F (p ++ [j]) <= 88)%R) ->
       forall i, 0 <= i < n -> (Rabs (G (p ++ [i]) - softmax n (fun j => F (p ++ [j])) i) <= 2.06 * delta a * softmax n (fun j => F (p ++ [j])) i)%R).
Proof.
  intros HA Hn HT HX. destruct (holds_dims _ _ _ HT) as [_ R2]. apply Forall_app in R2.
  destruct (softmax_op_rows a (range (product pre)) axis t pre n F HA Hn HT HX (Permutation_refl _)) as (m & Hm & _).
  set (shape := pre ++ [n]) in *.
  set (G := fun idx => let k := ravel shape idx in row_value a n (fun i => F (unravel shape (k / n * n + i))) (m (k / n)) (k mod n)).
  exists G. split.
  - intros order HO. destruct (softmax_op_rows a order axis t pre n F HA Hn HT HX HO) as (m' & Hm' & HR). fold shape in HR, Hm'.
    eapply returns_ext; [exact HR|]. intros idx Hi. unfold G. cbv zeta.
    destruct (snoc_shape _ _ _ Hi) as (p & i & -> & Hp & Hin & EK). fold shape in EK. rewrite EK. assert (B := ravel_bounds _ _ Hp).
    assert (Dq : (ravel pre p * n + i) / n = ravel pre p) by (symmetry; apply (Z.div_unique _ n _ i); lia). rewrite Dq.
    replace (m' (ravel pre p)) with (m (ravel pre p)); [reflexivity|]. destruct (Hm _ B) as [A1 (u & U1 & U2)]. destruct (Hm' _ B) as [B1 (v & V1 & V2)].
    apply Rle_antisym; [rewrite <- U2; auto|rewrite <- V2; auto].
  - intros p Hp. assert (B := ravel_bounds _ _ Hp). destruct (Hm _ B) as [A1 (u & U1 & U2)].
    assert (FX : forall i, 0 <= i < n -> F (unravel shape (ravel pre p * n + i)) = F (p ++ [i])).
    { intros i Hi. unfold shape. rewrite (unravel_snoc pre n (ravel pre p) i p) by auto. reflexivity. }
    set (f := fun j => F (p ++ [j])). set (mm := m (ravel pre p)) in *.
    assert (GE : forall i, 0 <= i < n -> G (p ++ [i]) = row_value a n f mm i).
    { intros i Hi. unfold G, shape. cbv zeta. rewrite ravel_app by (apply in_shape_length; auto). rewrite product_cons. change (product []) with 1. cbn [ravel]. rewrite ?product_cons. change (product []) with 1.
      replace (ravel pre p * (n * 1) + (i * 1 + 0)) with (ravel pre p * n + i) by ring.
      assert (Dq : (ravel pre p * n + i) / n = ravel pre p) by (symmetry; apply (Z.div_unique _ n _ i); lia).
      assert (Dm : (ravel pre p * n + i) mod n = i) by (rewrite Z.mod_eq, Dq by lia; ring).
      rewrite Dq, Dm. unfold row_value. fold mm. fold shape. rewrite FX by auto. f_equal. apply total_ext. intros j Hj. apply in_range in Hj. rewrite FX by auto. reflexivity. }
    assert (HM : forall i, 0 <= i < n -> (f i <= mm)%R) by (intros i Hi; unfold f; rewrite <- FX by auto; auto).
    assert (HE : exists i, 0 <= i < n /\ f i = mm) by (exists u; split; auto; unfold f; rewrite <- FX by auto; auto).
    split; [intros i Hi; rewrite GE by auto; apply rv_pos; auto|].
    split; [erewrite total_ext; [apply (rv_total a n f mm Hn HM)|intros i Hi; apply in_range in Hi; apply GE; auto]|].
    split; [intros i Hi; rewrite GE by auto; apply (rv_abs a n f mm Hn HM HE i Hi)|].
    intros HG i Hi. rewrite GE by auto. apply rv_rel; auto. intros j Hj. destruct HE as (v & Hv & <-). specialize (HG v j Hv Hj). unfold f, exp_hi in *. lra.
Qed.

(** Rows of at most 16 numbers: no error at all. *)
Theorem C61_short_rows a axis order t pre n F : has_lanes a -> 1 <= n <= 16 -> holds t (pre ++ [n]) F -> axis = -1 \/ axis = zlen pre ->
  Permutation order (range (product pre)) -> returns (softmax_op a order axis t) (pre ++ [n]) (along_last (softmax n) F).
Proof.
  intros HA Hn HT HX HO. destruct (softmax_op_rows a order axis t pre n F HA ltac:(lia) HT HX HO) as (m & Hm & HR).
  eapply returns_ext; [exact HR|]. intros idx Hi. cbv zeta. destruct (snoc_shape _ _ _ Hi) as (p & i & -> & Hp & Hin & EK). rewrite EK, along_last_row.
  assert (Dq : (ravel pre p * n + i) / n = ravel pre p) by (symmetry; apply (Z.div_unique _ n _ i); lia).
  assert (Dm : (ravel pre p * n + i) mod n = i) by (rewrite Z.mod_eq, Dq by lia; ring). rewrite Dq, Dm.
  assert (B := ravel_bounds _ _ Hp). destruct (Hm _ B) as [A1 (u & U1 & U2)].
  rewrite rv_exact by (auto; try lia). unfold softmax.
  assert (FX : forall i, 0 <= i < n -> F (unravel (pre ++ [n]) (ravel pre p * n + i)) = F (p ++ [i])).
  { intros j Hj. rewrite (unravel_snoc pre n (ravel pre p) j p) by auto. reflexivity. }
  rewrite FX by auto. f_equal. apply total_ext. intros j Hj. apply in_range in Hj. rewrite FX by auto. reflexivity.
Qed.

(** Along any other axis the operator stops the program, although its code has a case for such axes. *)
Theorem C61_other_axis_refuted a order axis t F shape : holds t shape F -> 0 <= axis < zlen shape - 1 -> softmax_op a order axis t = RAbort.
Proof.
  intros H HX. destruct (holds_dims _ _ _ H) as [R1 R2]. unfold softmax_op. rewrite (h_shape _ _ _ H), fresh_ok by auto. cbn [rbind]. cbv zeta.
  replace (axis <? 0) with false by lia. replace (axis =? zlen shape - 1) with false by lia. reflexivity.
Qed.

(** On x86 equal numbers of a row get different probabilities: those in a register lose 2 % against those in
    the remainder. *)
Definition uneven (x : R) : list R := 0%R :: repeat x 16.
Theorem C61_equal_inputs_refuted : exists x G, returns (softmax_op (X86 8) [0] (-1) (reals [1; 17] (uneven x))) [1; 17] G /\
  reals_at [1; 17] (uneven x) [0; 1] = reals_at [1; 17] (uneven x) [0; 16] /\ (G [0; 1]%Z < 0.98 * G [0; 16]%Z)%R.
Proof.
  destruct fast_exp_x86_wrong as (x & Hx & HW).
  assert (HT : holds (reals [1; 17] (uneven x)) ([1] ++ [17]) (reals_at [1; 17] (uneven x))) by (cbn [app]; holds_reals).
  destruct (softmax_op_rows (X86 8) [0] (-1) _ [1] 17 _ eq_refl ltac:(lia) HT (or_introl eq_refl) (Permutation_refl _)) as (m & Hm & HR).
  exists x. eexists. split; [exact HR|]. split; [reflexivity|].
  set (F := reals_at [1; 17] (uneven x)) in *. cbn [app] in *.
  destruct (Hm 0 ltac:(cbn; lia)) as [M1 (u & U1 & U2)].
  assert (F0 : F [0; 0] = 0%R) by reflexivity.
  assert (FI : forall i, 1 <= i < 17 -> F [0; i] = x).
  { intros i Hi. assert (V : i = 1 \/ i = 2 \/ i = 3 \/ i = 4 \/ i = 5 \/ i = 6 \/ i = 7 \/ i = 8 \/ i = 9 \/ i = 10 \/ i = 11 \/ i = 12 \/ i = 13 \/ i = 14 \/ i = 15 \/ i = 16) by lia.
    repeat (destruct V as [-> |V]; [reflexivity|]). subst. reflexivity. }
  assert (UR : forall i, 0 <= i < 17 -> unravel [1; 17] (0 * 17 + i) = [0; i]).
  { intros i Hi. apply (unravel_snoc [1] 17 0 i [0]); auto. repeat constructor; lia. }
  assert (MX : m 0 = 0%R).
  { apply Rle_antisym.
    - rewrite <- U2, UR by auto. destruct (Z.eq_dec u 0) as [->|N]; [lra|]. rewrite FI by lia. lra.
    - specialize (M1 0 ltac:(lia)). rewrite UR, F0 in M1 by lia. exact M1. }
  cbv zeta.
  assert (TP : (0 < total_over (range 17) (fun j => expo (X86 8) 17 j (F (unravel [1; 17] (0 * 17 + j))%Z - m 0%Z)))%R).
  { apply total_pos; [|discriminate]. intros j Hj. apply in_range in Hj. specialize (M1 j Hj). unfold expo. destruct (17 <=? 16); [apply exp_pos|].
    destruct (in_register (X86 8) 17 j); [|apply exp_pos]. apply (fast_pos_nonpos (X86 8)). lra. }
  change (ravel [1; 17] [0; 1]) with 1. change (ravel [1; 17] [0; 16]) with 16. change (1 / 17) with 0. change (16 / 17) with 0. change (1 mod 17) with 1. change (16 mod 17) with 16.
  unfold row_value. set (T := total_over _ _) in *. rewrite !UR, !FI, MX, !Rminus_0_r by lia.
  change (expo (X86 8) 17 1 x) with (fast_exp_x86 x). change (expo (X86 8) 17 16 x) with (exp x).
  unfold Rdiv. rewrite <- Rmult_assoc. apply Rmult_lt_compat_r; [apply Rinv_0_lt_compat; exact TP|exact HW].
Qed.

Example C61_applies : has_lanes (X86 8) /\ holds (reals [2; 3] [1; 2; 3; 4; 5; 6]%R) ([2] ++ [3]) (reals_at [2; 3] [1; 2; 3; 4; 5; 6]%R).
Proof. split; [cbn; lia|cbn [app]; holds_reals]. Qed.
Lemma softmax_two : softmax 2 (fun j => if j =? 0 then 0 else ln 3)%R 1 = 0.75%R.
Proof. unfold softmax, total_over. change (range 2) with [0; 1]. cbn [map fold_right].
  change (1 =? 0) with false. change (0 =? 0) with true. cbv iota. rewrite exp_0, exp_ln by lra. lra. Qed.

(* ------------------------------------------------------------------ *)
(** ** C62: RMS norm *)

(** For every shape and order of the rows: element i of a row f becomes f(i) / sqrt(mean of squares + eps) times the weight (plus one, if that
    option is set).  Needed: mean square + eps is positive, and on x86 rows that are aligned for the
    registers.  Partial: over the real numbers, contiguous inputs. *)
Theorem C62_rmsnorm_partial a order eps unit_offset w t pre n F W : 1 <= n -> holds t (pre ++ [n]) F -> holds w [n] W ->
  Permutation order (range (product pre)) -> aligned_rows a (x_offset t) (product pre) n ->
  (forall p, in_shape pre p -> (0 < mean_square n (fun j => F (p ++ [j])) + eps)%R) ->
  returns (rmsnorm_op a order eps unit_offset false w t) (pre ++ [n])
    (along_last (fun f i => (rms_norm n eps f i * (if unit_offset then W [i] + 1 else W [i]))%R) F).
Proof. intros H1 H2 H3 H4 H5 H6. exact (rmsnorm_fresh a order eps unit_offset w t pre n F W H1 H2 H3 H4 H5 H6). Qed.
(** In place: the same values, in the input's own cells and nowhere else. *)
Theorem C62_inplace_partial a order eps unit_offset w t pre n F W : 1 <= n -> holds t (pre ++ [n]) F -> holds w [n] W ->
  Permutation order (range (product pre)) -> aligned_rows a (x_offset t) (product pre) n ->
  (forall p, in_shape pre p -> (0 < mean_square n (fun j => F (p ++ [j])) + eps)%R) ->
  rewrites (rmsnorm_op a order eps unit_offset true w t) t
    (along_last (fun f i => (rms_norm n eps f i * (if unit_offset then W [i] + 1 else W [i]))%R) F).
Proof. intros H1 H2 H3 H4 H5 H6. exact (rmsnorm_inplace a order eps unit_offset w t pre n F W H1 H2 H3 H4 H5 H6). Qed.
(** A normalised row has mean square 1, up to eps. *)
Theorem C62_mean_square n eps f : (0 < mean_square n f + eps)%R ->
  mean_square n (rms_norm n eps f) = (mean_square n f / (mean_square n f + eps))%R.
Proof.
  intro H. set (q := (mean_square n f + eps)%R) in *. unfold mean_square at 1, mean.
  rewrite (total_ext _ _ (fun j => (/ q * (f j * f j))%R)).
  - rewrite total_mul. unfold mean_square, mean, Rdiv. ring.
  - intros j _. unfold rms_norm. fold q. assert (S := sqrt_sqrt q ltac:(lra)). assert (P := sqrt_lt_R0 q H). replace (/ q)%R with (/ (sqrt q * sqrt q))%R by (rewrite S; reflexivity). field. lra.
Qed.

(** x86 loads rows with aligned loads: a matrix of two rows whose length is not a multiple of the register
    width makes it read through a misaligned pointer. *)
Lemma each_ub {A X} (P : buf A -> Prop) (order : list X) body : (forall l b, In l order -> P b -> body l b = RUB \/ exists b', body l b = ROk b' /\ P b') ->
  (exists l, In l order /\ forall b, P b -> body l b = RUB) -> forall b, P b -> each order body b = RUB.
Proof.
  induction order as [|x order IH]; intros H (l & HI & HL) b HP; [destruct HI|]. cbn [each].
  destruct HI as [->|HI]; [rewrite HL by auto; reflexivity|]. destruct (H x b (or_introl eq_refl) HP) as [E|(b' & E & HP')]; rewrite E; [reflexivity|]. cbn [rbind].
  apply IH; auto; [|exists l; auto]. intros y c Hy. apply H. right; auto.
Qed.
Theorem C62_misaligned_refuted L n order eps uo w t F W : 0 < L <= n -> n mod L <> 0 -> holds t [2; n] F -> x_offset t mod L = 0 -> holds w [n] W ->
  Permutation order (range 2) -> rmsnorm_op (X86 L) order eps uo false w t = RUB.
Proof.
  intros HL HM HT HO HW HP. unfold rmsnorm_op. rewrite (h_shape _ _ _ HT), fresh_ok by (try (cbn; lia); repeat constructor; lia). cbn [rbind].
  change (vget [2; n] (zlen [2; n] - 1)) with (ROk n). cbn [rbind x_buf x_offset x_view].
  match goal with |- rbind (each order ?body ?b) ?k = RUB => assert (E : each order body b = RUB) end; [|rewrite E; reflexivity].
  apply (each_ub (fun b => b_len b = product [2; n])); [| |reflexivity].
  - intros l b Hl Hb. apply (order_in _ _ _ HP) in Hl. assert (l = 0 \/ l = 1) as [-> | ->] by lia.
    + right. destruct (rmsnorm_row_ok (X86 L) eps uo false (x_buf t) (x_offset t + 0 * n) (x_buf w) (x_offset w) (0 + 0 * n) n (fun i => F (unravel [2; n] i)) (fun i => W (unravel [n] i)) b) as (b' & E & C).
      * split; [lia|]. intros _. rewrite Z.mul_0_l, Z.add_0_r. exact HO.
      * lia.
      * intros _. rewrite Hb, !product_cons. change (product []) with 1. lia.
      * split; [discriminate|]. intros i Hi. cbn [source]. rewrite Z.mul_0_l, Z.add_0_r. apply holds_flat; auto. rewrite !product_cons. change (product []) with 1. lia.
      * intros i Hi. apply holds_flat; auto. rewrite !product_cons. change (product []) with 1. lia.
      * exists b'. split; [exact E|]. rewrite (c_len _ _ _ _ C). exact Hb.
    + left. unfold rmsnorm_row, square_sum. replace ((L <=? n) && negb ((x_offset t + 1 * n) mod L =? 0)) with true; [reflexivity|].
      symmetry. apply andb_true_iff. split; [lia|]. apply negb_true_iff, Z.eqb_neq. rewrite Z.add_mod, HO, Z.add_0_l, Z.mod_mod, Z.mul_1_l by lia. exact HM.
  - exists 1. split; [apply (order_in _ _ _ HP); lia|]. intros b Hb. unfold rmsnorm_row, square_sum. replace ((L <=? n) && negb ((x_offset t + 1 * n) mod L =? 0)) with true; [reflexivity|].
    symmetry. apply andb_true_iff. split; [lia|]. apply negb_true_iff, Z.eqb_neq. rewrite Z.add_mod, HO, Z.add_0_l, Z.mod_mod, Z.mul_1_l by lia. exact HM.
Qed.
(** The length of the weight is not compared with the row: a shorter weight is read past its end. *)
Theorem C62_weight_refuted a : a = Arm \/ a = X86 4 ->
  rmsnorm_op a [0] 1 false false (reals [2] [1; 1]%R) (reals [1; 4] [1; 2; 3; 4]%R) = RUB.
Proof. intros [-> | ->]; lazy; reflexivity. Qed.
(** A row of zeros with eps = 0: no numbers come out. *)
Theorem C62_zero_row_refuted : exists out, rmsnorm_op (X86 2) [0] 0 false false (reals [2] [1; 1]%R) (reals [1; 2] [0; 0]%R) = ROk out /\
  elem out [0; 0] = None /\ elem out [0; 1] = None.
Proof.
  unfold rmsnorm_op. set (t := reals [1; 2] [0; 0]%R). set (w := reals [2] [1; 1]%R).
  assert (HT : holds t [1; 2] (reals_at [1; 2] [0; 0]%R)) by holds_reals. assert (HW : holds w [2] (reals_at [2] [1; 1]%R)) by holds_reals.
  rewrite (h_shape _ _ _ HT), fresh_ok by (try (cbn; lia); repeat constructor; lia). cbn [rbind]. change (vget [1; 2] (zlen [1; 2] - 1)) with (ROk 2). cbn [rbind each x_buf x_view x_offset].
  destruct (rmsnorm_row_ok (X86 2) 0 false false (x_buf t) (0 + 0 * 2) (x_buf w) 0 (0 + 0 * 2) 2 (fun i => 0%R) (fun i => 1%R) (mkBuf (product [1; 2]) (fun _ => None))) as (b' & E & C).
  - split; [lia|reflexivity].
  - lia.
  - intros _. cbn. lia.
  - split; [discriminate|]. intros i Hi. assert (i = 0 \/ i = 1) as [-> | ->] by lia; reflexivity.
  - intros i Hi. assert (i = 0 \/ i = 1) as [-> | ->] by lia; reflexivity.
  - eexists. split; [exact (f_equal (fun r => do y <- (do y <- r; ROk y); ROk (mkTns (mkV [1; 2] (default_strides [1; 2]) 0) y)) E)|].
    assert (N : inv_root (mean_square 2 (fun _ => 0) + 0)%R = None).
    { unfold inv_root. destruct (Rlt_dec 0 _) as [Q|Q]; [|reflexivity]. exfalso. unfold mean_square, mean, total_over in Q. change (range 2) with [0; 1] in Q. cbn [map fold_right] in Q. lra. }
    rewrite N in C. assert (S0 : segment (0 + 0 * 2) 2 0) by (unfold segment; lia). assert (S1 : segment (0 + 0 * 2) 2 1) by (unfold segment; lia).
    split; [exact (c_set _ _ _ _ C 0 S0)|exact (c_set _ _ _ _ C 1 S1)].
Qed.

Example C62_applies : holds (reals [2; 2] [3; 4; 1; 0]%R) ([2] ++ [2]) (reals_at [2; 2] [3; 4; 1; 0]%R) /\ holds (reals [2] [1; 2]%R) [2] (reals_at [2] [1; 2]%R) /\
  aligned_rows (X86 2) 0 2 2 /\ mean_square 2 (fun j => reals_at [2; 2] [3; 4; 1; 0]%R [0; j]) = 12.5%R.
Proof.
  split; [cbn [app]; holds_reals|]. split; [holds_reals|]. split; [cbn; split; [lia|intros _; split; [reflexivity|right; reflexivity]]|].
  unfold mean_square, mean, total_over. change (range 2) with [0; 1]. cbn [map fold_right].
  change (reals_at [2; 2] [3; 4; 1; 0]%R [0; 0]) with 3%R. change (reals_at [2; 2] [3; 4; 1; 0]%R [0; 1]) with 4%R. lra.
Qed.

(* ------------------------------------------------------------------ *)
(** ** C63: layer norm *)

(** ARM, for every shape pre ++ ns and normalised shape ns, with or without weight and bias: each block of shape ns becomes
    (x - mean) / sqrt(variance + eps) * weight + bias.  Partial: over the real numbers, ARM only. *)
Theorem C63_layernorm_partial order eps ns gamma beta t pre F G B : 1 <= product ns ->
  holds t (pre ++ ns) F -> opt_holds gamma ns G -> opt_holds beta ns B -> Permutation order (range (product pre)) ->
  (forall p, in_shape pre p -> (0 < variance_over (indices ns) (fun q => F (p ++ q)) + eps)%R) ->
  returns (layernorm_op Arm order eps ns gamma beta t) (pre ++ ns) (fun idx =>
    let p := firstn (length pre) idx in let q := skipn (length pre) idx in
    offset_by B q (gained G q (layer_norm ns eps (fun q => F (p ++ q)) q))).
Proof. apply layernorm_arm. Qed.
(** A normalised block has mean 0 and variance 1, up to eps. *)
Theorem C63_moments ns eps g : Forall (fun d => 0 <= d) ns -> 1 <= product ns -> (0 < variance_over (indices ns) g + eps)%R ->
  mean_over (indices ns) (layer_norm ns eps g) = 0%R /\
  variance_over (indices ns) (layer_norm ns eps g) = (variance_over (indices ns) g / (variance_over (indices ns) g + eps))%R.
Proof.
  intros HD HN HP. set (v := (variance_over (indices ns) g + eps)%R) in *. set (mu := mean_over (indices ns) g).
  assert (LEN : (0 < INR (length (indices ns)))%R).
  { rewrite indices_unravel, map_length, seq_length by auto. apply lt_0_INR. lia. }
  assert (LIN : forall c (h : list Z -> R) b, mean_over (indices ns) (fun q => (c * (h q - b))%R) = (c * (mean_over (indices ns) h - b))%R).
  { intros c h b. unfold mean_over. assert (FR : forall l, fold_right Rplus 0%R (map (fun q : list Z => (c * (h q - b))%R) l) = (c * (fold_right Rplus 0%R (map h l) - INR (length l) * b))%R).
    { induction l as [|x l IH]; [cbn; ring|]. cbn [map fold_right length]. rewrite IH, S_INR. ring. }
    rewrite FR. field. lra. }
  assert (E : forall q, layer_norm ns eps g q = (/ sqrt v * (g q - mu))%R) by (intro q; unfold layer_norm; fold v mu; unfold Rdiv; ring).
  assert (EXT : forall h h', (forall q, h q = h' q) -> mean_over (indices ns) h = mean_over (indices ns) h').
  { intros h h' H. unfold mean_over. f_equal. f_equal. apply map_ext. auto. }
  assert (M0 : mean_over (indices ns) (layer_norm ns eps g) = 0%R).
  { rewrite (EXT _ _ E), LIN. fold mu. ring. }
  split; [exact M0|]. unfold variance_over at 1. rewrite M0.
  assert (S := sqrt_sqrt v ltac:(lra)). assert (P := sqrt_lt_R0 v HP).
  rewrite (EXT _ (fun q => (/ v * (((g q - mu) * (g q - mu)) - 0))%R)).
  - rewrite LIN. unfold variance_over. fold mu. unfold Rdiv. ring.
  - intro q. rewrite E. replace (/ v)%R with (/ (sqrt v * sqrt v))%R by (rewrite S; reflexivity). field. lra.
Qed.
(** On x86 the operator returns a tensor nothing was written into. *)
Theorem C63_x86_refuted L order eps ns gamma beta t shape F : holds t shape F -> 1 <= product ns -> product shape mod product ns = 0 ->
  returns_nothing (layernorm_op (X86 L) order eps ns gamma beta t) shape.
Proof.
  intros H HN HM. destruct (holds_dims _ _ _ H) as [R1 R2]. unfold layernorm_op. rewrite (h_shape _ _ _ H), fresh_ok by auto. cbn [rbind].
  rewrite (holds_contiguous _ _ _ H). cbn [negb]. rewrite !numel_product. replace (0 <? product ns) with true by lia. cbn [negb]. rewrite HM, Z.eqb_refl. cbn [negb x_buf x_view].
  assert (EO : forall (l : list Z) (b : buf R), each l (fun _ z => ROk z) b = ROk b) by (induction l as [|x l IH]; intro b; cbn [each rbind]; auto).
  rewrite EO. cbn [rbind]. eexists. split; [reflexivity|]. split; [reflexivity|]. reflexivity.
Qed.
(** The operator stops if the size of the normalised shape does not divide the size of the input. *)
Theorem C63_refuses a order eps ns gamma beta t shape F : holds t shape F -> product shape mod product ns <> 0 \/ product ns <= 0 ->
  layernorm_op a order eps ns gamma beta t = RAbort.
Proof.
  intros H HN. destruct (holds_dims _ _ _ H) as [R1 R2]. unfold layernorm_op. rewrite (h_shape _ _ _ H), fresh_ok by auto. cbn [rbind].
  rewrite (holds_contiguous _ _ _ H). cbn [negb]. rewrite !numel_product. destruct (0 <? product ns) eqn:Q; [|reflexivity]. cbn [negb].
  destruct HN as [HN|HN]; [|lia]. replace (product shape mod product ns =? 0) with false by lia. reflexivity.
Qed.
(** It does not stop if the normalised shape is no suffix of the input's: a 2 x 6 matrix is normalised in blocks of
    4, across its rows. *)
Theorem C63_shape_refuted order eps t F : holds t [2; 6] F -> Permutation order (range 3) ->
  (forall l, 0 <= l < 3 -> (0 < flat_variance 4 (fun i => F (unravel [2; 6]%Z (l * 4 + i)%Z)) + eps)%R) ->
  returns (layernorm_op Arm order eps [4] None None t) [2; 6] (fun idx =>
    let k := ravel [2; 6] idx in let block i := F (unravel [2; 6]%Z (k / 4 * 4 + i)%Z) in
    ((F idx - mean 4 block) / sqrt (flat_variance 4 block + eps))%R).
Proof.
  intros HT HO HP. destruct (holds_dims _ _ _ HT) as [R1 R2].
  set (V := fun k => let block i := F (unravel [2; 6]%Z (k / 4 * 4 + i)%Z) in ((F (unravel [2; 6]%Z k) - mean 4 block) / sqrt (flat_variance 4 block + eps))%R).
  destruct (rows_any_order (fun d => Some (V d)) order 3 4 0 (fun l z => layernorm_row eps (x_buf t) (x_offset t + l * 4) None None (0 + l * 4) 4 z)
    (mkBuf (product [2; 6]) (fun _ => None)) ltac:(lia) HO) as (y & E & C).
  { intros l b1 Hl L _. cbn [b_len] in L. change (product [2; 6]) with 12 in L.
    destruct (layernorm_row_ok eps (x_buf t) (x_offset t + l * 4) None None (0 + l * 4) 4 (fun i => F (unravel [2; 6]%Z (l * 4 + i)%Z)) None None b1) as (b2 & E2 & C2); [lia|lia| |exact I|exact I|apply HP; auto|].
    - intros i Hi. rewrite <- Z.add_assoc. apply holds_flat; auto. change (product [2; 6]) with 12. lia.
    - exists b2. split; [exact E2|]. eapply changes_ext; [|exact C2]. intros d Hd. unfold segment in Hd. cbn beta. unfold V.
      assert (Dq : d / 4 = l) by (symmetry; apply (Z.div_unique d 4 l (d - l * 4)); lia). rewrite Dq. cbv zeta. cbn [scaled shifted]. replace (l * 4 + (d - (0 + l * 4))) with d by ring. reflexivity. }
  eapply returns_fresh; [exact R1|exact R2| |exact C|].
  - unfold layernorm_op. rewrite (h_shape _ _ _ HT), fresh_ok by auto. cbn [rbind]. rewrite (holds_contiguous _ _ _ HT). cbn [negb].
    change (numel [4]) with 4. change (numel [2; 6]) with 12. cbn [Z.ltb Z.compare negb]. change (12 mod 4 =? 0) with true. cbn [negb].
    exact (f_equal (fun r => rbind r (fun y0 => ROk (mkTns (mkV [2; 6] (default_strides [2; 6]) 0) y0))) E).
  - intros idx Hi. unfold V. cbv zeta. rewrite unravel_ravel by auto. reflexivity.
Qed.
Example C63_applies : holds (reals [2; 2] [3; 5; 1; 0]%R) ([2] ++ [2]) (reals_at [2; 2] [3; 5; 1; 0]%R) /\ opt_holds (Some (reals [2] [1; 2]%R)) [2] (Some (reals_at [2] [1; 2]%R)) /\
  variance_over (indices [2]) (fun q => reals_at [2; 2] [3; 5; 1; 0]%R ([0] ++ q)) = 1%R.
Proof.
  split; [cbn [app]; holds_reals|]. split; [cbn [opt_holds]; holds_reals|]. unfold variance_over, mean_over. change (indices [2]) with [[0]; [1]]. cbn [map fold_right length app].
  change (reals_at [2; 2] [3; 5; 1; 0]%R [0; 0]) with 3%R. change (reals_at [2; 2] [3; 5; 1; 0]%R [0; 1]) with 5%R. change (INR 2) with 2%R. lra.
Qed.

(* ------------------------------------------------------------------ *)
(** ** C64: activation functions *)

(** ARM: SiLU, sigmoid, ReLU and quick GELU of every element of every shape, for every order of the blocks and every reciprocal
    estimate of 8 bits, up to a relative error of 2.1e-7 and an absolute error of 1e-38 (1 + |x|). *)
Theorem C64_arm_partial est order k inplace t shape F : estimates est -> holds t shape F -> Permutation order (range (product shape / block Arm k)) ->
  reuses k inplace = false ->
  exists G, returns (activation_op Arm est order k inplace t) shape G /\
    forall idx, in_shape shape idx -> near 2.1e-7 (1 + Rabs (F idx)) (G idx) (meant k (F idx)).
Proof.
  intros HE HT HO HR. eexists. split; [apply (activation_fresh Arm est order k inplace t shape F I HT HO HR)|]. intros idx Hi. cbn beta. apply arm_near; auto.
Qed.
(** ReLU on ARM is exact. *)
Theorem C64_relu est order inplace t shape F : holds t shape F -> Permutation order (range (product shape / 16)) ->
  returns (activation_op Arm est order ReLU inplace t) shape (fun idx => Rmax (F idx) 0).
Proof.
  intros HT HO. eapply returns_ext; [apply (activation_fresh Arm est order ReLU inplace t shape F I HT HO)|].
  - unfold reuses. apply andb_false_r.
  - intros idx Hi. apply arm_relu_exact.
Qed.
(** SiLU on x86: 3 %; in place, the input's cells and nothing else change. *)
Theorem C64_silu_partial a est order (inplace : bool) t shape F : has_lanes a -> (a = Arm -> estimates est) -> holds t shape F ->
  Permutation order (range (product shape / block a SiLU)) ->
  exists G, (if inplace then rewrites (activation_op a est order SiLU inplace t) t G else returns (activation_op a est order SiLU inplace t) shape G) /\
    forall idx, in_shape shape idx -> near (match a with Arm => 2.1e-7 | X86 _ => 0.03 end) (1 + Rabs (F idx)) (G idx) (meant SiLU (F idx)).
Proof.
  intros HL HE HT HO. exists (fun idx => act_value a est SiLU (product shape) (ravel shape idx) (F idx)). split.
  - assert (HC : computes a SiLU) by (destruct a; auto). destruct inplace.
    + apply (silu_inplace a est order SiLU true t shape F HC HT HO); reflexivity.
    + apply (activation_fresh a est order SiLU false t shape F HC HT HO). reflexivity.
  - intros idx Hi. destruct a; [apply arm_near; auto|apply x86_silu_near].
Qed.
(** On x86 ReLU and quick GELU return a tensor nothing was written into. *)
Theorem C64_x86_nothing_refuted L est order k inplace t shape F : holds t shape F -> k = ReLU \/ k = QuickGELU ->
  returns_nothing (activation_op (X86 L) est order k inplace t) shape.
Proof.
  intros HT HK. destruct (holds_dims _ _ _ HT) as [R1 R2]. unfold activation_op.
  assert (EI : inplace && match k with SiLU | Sigmoid => true | _ => false end = false) by (destruct HK as [-> | ->]; apply andb_false_r). rewrite EI.
  rewrite (h_shape _ _ _ HT), fresh_ok by auto. cbn [rbind]. rewrite (holds_contiguous _ _ _ HT). cbn [negb].
  destruct HK as [-> | ->]; eexists; (split; [reflexivity|]); split; reflexivity.
Qed.
(** An in-place sigmoid loses its input: the operator allocates it anew before reading it. *)
Theorem C64_sigmoid_inplace_refuted a est order t shape F : has_lanes a -> holds t shape F -> 0 < product shape ->
  Permutation order (range (product shape / block a Sigmoid)) -> activation_op a est order Sigmoid true t = RUB.
Proof.
  intros HL HT HN HO. unfold activation_op. cbn [andb rbind]. cbv zeta. rewrite (h_shape _ _ _ HT), numel_product. cbn [x_view x_buf].
  assert (B := holds_cell t shape F 0 HT ltac:(lia)). destruct B as [B _]. rewrite Z.add_0_r in B.
  set (n := product shape) in *. set (e := mkBuf (b_len (x_buf t)) (fun _ : Z => @None R)).
  assert (S0 : forall i, 0 <= i < n -> act1 a est Sigmoid true n (x_buf t) (x_offset t) (x_offset t) i e = RUB).
  { intros i Hi. unfold act1. cbn [source]. unfold loadv, load. cbn [b_len b_at e].
    destruct (holds_cell t shape F i HT Hi) as [Bi _]. replace ((0 <=? x_offset t + i) && (x_offset t + i <? b_len (x_buf t))) with true by lia. reflexivity. }
  assert (LP : forall m (g : Z -> buf R -> res (buf R)), 0 < m -> g 0 e = RUB -> zloop m g e = RUB).
  { intros m g Hm Hg. unfold zloop. assert (LB : forall j, loop (S j) g e = RUB) by (induction j as [|j IH]; [exact Hg|change (loop (S (S j)) g e) with (do s <- loop (S j) g e; g (Z.of_nat (S j)) s); rewrite IH; reflexivity]).
    replace (Z.to_nat m) with (S (Z.to_nat (m - 1))) by lia. apply LB. }
  assert (R : act_row a est order Sigmoid true n (x_buf t) (x_offset t) (x_offset t) e = RUB).
  { unfold act_row. cbv zeta. set (W := block a Sigmoid) in *. assert (HW : 0 < W) by (unfold W, block; destruct a; cbn in HL; lia). clearbody W.
    assert (DN := Z.div_mod n W ltac:(lia)). assert (MB := Z.mod_pos_bound n W HW). assert (DP : 0 <= n / W) by (apply Z.div_pos; lia).
    destruct order as [|l order].
    - apply Permutation_nil in HO. assert (n / W = 0) by (unfold range in HO; destruct (Z.to_nat (n / W)) eqn:EJ; [lia|discriminate]).
      cbn [each rbind]. apply LP; [lia|]. apply S0. lia.
    - cbn [each]. assert (Hl : 0 <= l < n / W) by (apply (order_in _ _ _ HO); left; reflexivity). rewrite LP; [reflexivity|auto|]. apply S0. nia. }
  destruct a; exact (f_equal (fun r => rbind r (fun y => ROk (mkTns (x_view t) y))) R).
Qed.
(** On x86 the sigmoid of a number below -11.5 that falls into a register is constant, 2.9e-5: for -20 it is more than 10000
    times too large. *)
Theorem C64_x86_sigmoid_refuted est : exists G, returns (activation_op (X86 8) est [0] Sigmoid false (reals [8] (repeat (-20)%R 8))) [8] G /\
  (2.9e-5 < G [0]%Z)%R /\ (logistic (-20) < 2.9e-9)%R.
Proof.
  assert (HT : holds (reals [8] (repeat (-20)%R 8)) [8] (reals_at [8] (repeat (-20)%R 8))) by holds_reals.
  eexists. split; [apply (activation_fresh (X86 8) est [0] Sigmoid false _ [8] _ ltac:(cbn; lia) HT (Permutation_refl _) eq_refl)|]. split.
  - change (2.9e-5 < rational_sigmoid (-20))%R. unfold rational_sigmoid. rewrite (Rmax_right (-20)) by lra. rewrite (Rmin_left (-11.5)) by lra. cbv zeta.
    match goal with |- (_ < ?p / ?q)%R => assert (HQ : (0 < q)%R) by lra; assert (HPQ : (2.9e-5 * q < p)%R) by lra; set (P := p) in *; set (Q := q) in *; clearbody P Q end.
    apply Rmult_lt_reg_r with Q; [exact HQ|]. replace (P / Q * Q)%R with P by (field; lra). lra.
  - rewrite logistic_alt. replace (- -20)%R with 20%R by ring.
    assert (E1 : (2.7 <= exp 1)%R) by (assert (H := exp_lower 10 1 ltac:(lra)); unfold tay, rfact in H; cbn in H; lra).
    assert (E20 : exp 20 = (exp 1 ^ 20)%R).
    { replace 20%R with (INR 20) by (rewrite INR_IZR_INZ; reflexivity). generalize 20%nat. intro m. induction m as [|m IH]; [apply exp_0|].
      rewrite S_INR, exp_plus, IH. cbn [pow]. ring. }
    assert (P : (2.7 ^ 20 <= exp 1 ^ 20)%R) by (apply pow_incr; lra). rewrite E20.
    apply Rle_lt_trans with (/ (2.7 ^ 20))%R; [apply Rinv_le_contravar; [apply pow_lt; lra|lra]|].
    apply Rmult_lt_reg_r with (2.7 ^ 20)%R; [apply pow_lt; lra|]. rewrite Rinv_l by (apply pow_nonzero; lra). lra.
Qed.

Example C64_applies : holds (reals [2; 2] [3; -5; 1; 0]%R) [2; 2] (reals_at [2; 2] [3; -5; 1; 0]%R) /\ estimates Rinv /\ Permutation [] (range (product [2; 2] / block Arm SiLU)).
Proof.
  split; [holds_reals|]. split; [|apply Permutation_refl]. intros x Hx. rewrite Rinv_r by lra. rewrite Rminus_eq_0, Rabs_R0. lra.
Qed.
Print Assumptions C61_softmax_partial.
Print Assumptions C61_short_rows.
Print Assumptions C61_other_axis_refuted.
Print Assumptions C61_equal_inputs_refuted.
Print Assumptions C62_rmsnorm_partial.
Print Assumptions C62_inplace_partial.
Print Assumptions C62_mean_square.
Print Assumptions C62_misaligned_refuted.
Print Assumptions C62_weight_refuted.
Print Assumptions C62_zero_row_refuted.
Print Assumptions C63_layernorm_partial.
Print Assumptions C63_moments.
Print Assumptions C63_x86_refuted.
Print Assumptions C63_refuses.
Print Assumptions C63_shape_refuted.
Print Assumptions C64_arm_partial.
Print Assumptions C64_relu.
Print Assumptions C64_silu_partial.
Print Assumptions C64_x86_nothing_refuted.
Print Assumptions C64_sigmoid_inplace_refuted.
Print Assumptions C64_x86_sigmoid_refuted.
