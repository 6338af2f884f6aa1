(** Proofs about normalisations and activations, part 1: rows, softmax. *)
From Coq Require Import Reals Lra Psatz.
From Verif Require Import Base DTypeModel ParamModel ParamSpec ParamProofs TensorModel TensorSpec TensorProofs TensorSplit
  OpsModel OpsSpec OpsProofs OpsIndex OpsSum MatModel MatSpec MatProofs MatKernel MatOps ExpModel ExpProofs
  AttnModel AttnSpec AttnProofs AttnOps NumModel NumSpec.
Local Open Scope Z_scope.

(* ---------------- rows in any order ---------------- *)
Lemma changes_each_from {A X} (G : Z -> option A) (P : X -> Z -> Prop) body (b0 : buf A) (l : list X) : forall b : buf A,
  NoDup l -> (forall x y d, In x l -> In y l -> P x d -> P y d -> x = y) -> b_len b = b_len b0 ->
  (forall x d, In x l -> P x d -> b_at b d = b_at b0 d) ->
  (forall x b1, In x l -> b_len b1 = b_len b0 -> (forall d, P x d -> b_at b1 d = b_at b0 d) -> exists b2, body x b1 = ROk b2 /\ changes G (P x) b1 b2) ->
  exists b', each l body b = ROk b' /\ changes G (fun d => exists x, In x l /\ P x d) b b'.
Proof.
  induction l as [|x l IH]; intros b ND Hdis HL H0 Hb.
  - exists b. split; [reflexivity|]. apply changes_refl. intros d (x & [] & _).
  - inversion ND; subst. cbn [each]. destruct (Hb x b (or_introl eq_refl) HL) as (b1 & E1 & C1); [intros; apply (H0 x); auto; left; auto|].
    rewrite E1. cbn [rbind]. destruct (IH b1) as (b2 & E2 & C2); auto.
    + intros y z d Hy Hz. apply Hdis; right; auto.
    + rewrite (c_len _ _ _ _ C1). auto.
    + intros y d Hy Hd. rewrite (c_other _ _ _ _ C1); [apply (H0 y); auto; right; auto|]. intro Hx.
      assert (x = y) by (apply (Hdis x y d); auto; [left; auto|right; auto]). subst. contradiction.
    + intros y b3 Hy. apply Hb. right; auto.
    + exists b2. split; [exact E2|]. constructor.
      * rewrite (c_len _ _ _ _ C2), (c_len _ _ _ _ C1). reflexivity.
      * intros d (y & [<-|Hy] & Hd); [|apply (c_set _ _ _ _ C2); eauto].
        rewrite (c_other _ _ _ _ C2); [apply (c_set _ _ _ _ C1); auto|].
        intros (z & Hz & Hz2). assert (x = z) by (apply (Hdis x z d); auto; [left; auto|right; auto]). subst. contradiction.
      * intros d Hd. rewrite (c_other _ _ _ _ C2), (c_other _ _ _ _ C1); auto; [intro; apply Hd; exists x; split; auto; left; auto|].
        intros (y & Hy & Hy2). apply Hd. exists y. split; auto. right; auto.
Qed.

(** Rows l of n elements, at oo + l * n, in any order. *)
Lemma rows_any_order (G : Z -> option R) order m n oo body (b : buf R) : 0 <= n -> Permutation order (range m) ->
  (forall l b1, 0 <= l < m -> b_len b1 = b_len b -> (forall i, 0 <= i < n -> b_at b1 (oo + l * n + i) = b_at b (oo + l * n + i)) ->
     exists b2, body l b1 = ROk b2 /\ changes G (segment (oo + l * n) n) b1 b2) ->
  exists b', each order body b = ROk b' /\ changes G (segment oo (m * n)) b b'.
Proof.
  intros Hn HO HB. destruct (changes_each_from G (fun l => segment (oo + l * n) n) body b order b) as (b' & E & C).
  - eapply order_nodup; eauto.
  - intros x y d _ _ H1 H2. unfold segment in *. nia.
  - reflexivity.
  - reflexivity.
  - intros x b1 Hx L Hd. apply HB; auto; [apply (order_in _ _ _ HO); auto|]. intros i Hi. apply Hd. unfold segment. lia.
  - exists b'. split; [exact E|]. eapply changes_iff; [|exact C]. intro d. cbn beta. split.
    + intros (l & Hl & Hd). apply (order_in _ _ _ HO) in Hl. unfold segment in *. nia.
    + intro Hd. unfold segment in Hd. destruct (Z.eq_dec n 0) as [->|N0]; [lia|].
      exists ((d - oo) / n). assert (D := Z.div_mod (d - oo) n ltac:(lia)). assert (B := Z.mod_pos_bound (d - oo) n ltac:(lia)).
      split; [|unfold segment; lia]. apply (order_in _ _ _ HO). split; [apply Z.div_pos; lia|apply Z.div_lt_upper_bound; lia].
Qed.

(** Reading a contiguous tensor by position. *)
Lemma holds_flat {A} (t : tns A) shape F k : holds t shape F -> 0 <= k < product shape ->
  loadv (x_buf t) (x_offset t + k) = ROk (F (unravel shape k)).
Proof.
  intros H Hk. assert (D := ok_dims _ (h_ok _ _ _ H)). rewrite (h_shape _ _ _ H) in D.
  destruct (unravel_spec shape k D Hk) as [U1 U2]. rewrite <- (holds_at t shape F (unravel shape k) H U1), U2. reflexivity.
Qed.
Lemma holds_cell {A} (t : tns A) shape F k : holds t shape F -> 0 <= k < product shape ->
  0 <= x_offset t + k < b_len (x_buf t) /\ b_at (x_buf t) (x_offset t + k) = Some (F (unravel shape k)).
Proof.
  intros H Hk. assert (D := ok_dims _ (h_ok _ _ _ H)). rewrite (h_shape _ _ _ H) in D.
  destruct (unravel_spec shape k D Hk) as [U1 U2]. assert (Ad := contiguous_address t (unravel shape k) (h_contiguous _ _ _ H)).
  rewrite (h_shape _ _ _ H) in Ad. specialize (Ad (in_shape_length _ _ U1)). rewrite U2 in Ad. rewrite <- Ad.
  split; [apply (ok_inside _ (h_ok _ _ _ H)); rewrite (h_shape _ _ _ H); auto|apply (h_elem _ _ _ H); auto].
Qed.
Lemma holds_dims {A} (t : tns A) shape F : holds t shape F -> (1 <= length shape <= 16)%nat /\ Forall (fun d => 0 <= d) shape.
Proof. intros [h1 h2 h3 h4]. rewrite <- h1. split; apply h2. Qed.

(** An operator with a fresh output, given the values by position. *)
Lemma returns_fresh (r : res (tns R)) shape (V : Z -> R) (y : buf R) (F : list Z -> R) :
  (1 <= length shape <= 16)%nat -> Forall (fun d => 0 <= d) shape ->
  r = ROk (mkTns (mkV shape (default_strides shape) 0) y) ->
  changes (fun d => Some (V d)) (segment 0 (product shape)) (mkBuf (product shape) (fun _ => None)) y ->
  (forall idx, in_shape shape idx -> V (ravel shape idx) = F idx) -> returns r shape F.
Proof.
  intros H1 H2 -> C HV. eexists. split; [reflexivity|]. split; [reflexivity|].
  destruct (owner_ok shape y H1 H2 (c_len _ _ _ _ C)) as [O1 O2]. split; [exact O1|]. split; [exact O2|].
  intros idx Hi. rewrite owner_elem by (apply in_shape_length; auto). assert (B := ravel_bounds _ _ Hi).
  rewrite (c_set _ _ _ _ C) by (unfold segment; lia). rewrite HV by auto. reflexivity.
Qed.
Lemma rewrites_inplace (r : res (tns R)) (t : tns R) shape F0 (V : Z -> R) (y : buf R) (F : list Z -> R) :
  holds t shape F0 -> r = ROk (mkTns (x_view t) y) ->
  changes (fun d => Some (V (d - x_offset t))) (segment (x_offset t) (product shape)) (x_buf t) y ->
  (forall idx, in_shape shape idx -> V (ravel shape idx) = F idx) -> rewrites r t F.
Proof.
  intros H -> C HV. destruct (holds_dims _ _ _ H) as [_ HD]. eexists. split; [reflexivity|]. cbn [x_view x_buf]. split; [reflexivity|]. split; [apply (c_len _ _ _ _ C)|].
  rewrite (h_shape _ _ _ H).
  assert (Ad : forall idx, in_shape shape idx -> address (x_view t) idx = x_offset t + ravel shape idx).
  { intros idx Hi. assert (Ad := contiguous_address t idx (h_contiguous _ _ _ H)). rewrite (h_shape _ _ _ H) in Ad. apply Ad. apply in_shape_length; auto. }
  split.
  - intros idx Hi. unfold elem. cbn [x_view x_buf]. rewrite Ad by auto. assert (B := ravel_bounds _ _ Hi).
    rewrite (c_set _ _ _ _ C) by (unfold segment; lia). replace (x_offset t + ravel shape idx - x_offset t) with (ravel shape idx) by ring. rewrite HV by auto. reflexivity.
  - intros d Hd. apply (c_other _ _ _ _ C). intro S. unfold segment in S.
    destruct (unravel_spec shape (d - x_offset t) HD ltac:(lia)) as [U1 U2]. apply (Hd _ U1). rewrite Ad, U2 by auto. ring.
Qed.

(** The last axis. *)
Lemma last_snoc {X} (l : list X) x d : last (l ++ [x]) d = x.
Proof. rewrite last_last. reflexivity. Qed.
Lemma along_last_row op (F : list Z -> R) p i : along_last op F (p ++ [i]) = op (fun j => F (p ++ [j])) i.
Proof. unfold along_last. rewrite removelast_last, last_last. reflexivity. Qed.
Lemma snoc_shape pre n idx : in_shape (pre ++ [n]) idx -> exists p i, idx = p ++ [i] /\ in_shape pre p /\ 0 <= i < n /\
  ravel (pre ++ [n]) idx = ravel pre p * n + i.
Proof.
  intro H. destruct (in_shape_app_inv _ _ _ H) as (A1 & A2 & A3). inversion A2 as [|i d r ds Hi Hr E1 E2]; subst. inversion Hr; subst.
  exists (firstn (length pre) idx), i. rewrite A3 at 1. rewrite <- E1. split; [reflexivity|]. split; [exact A1|]. split; [exact Hi|].
  rewrite A3 at 1. rewrite <- E1. rewrite ravel_app by (apply in_shape_length; auto). rewrite product_cons. change (product []) with 1. cbn [ravel]. rewrite ?product_cons. change (product []) with 1. ring.
Qed.
Lemma unravel_snoc pre n l i p : in_shape pre p -> ravel pre p = l -> 0 <= i < n -> unravel (pre ++ [n]) (l * n + i) = p ++ [i].
Proof.
  intros Hp <- Hi. rewrite <- (unravel_ravel (pre ++ [n]) (p ++ [i])).
  - f_equal. rewrite ravel_app by (apply in_shape_length; auto). rewrite product_cons. change (product []) with 1. cbn [ravel]. rewrite ?product_cons. change (product []) with 1. ring.
  - apply in_shape_app; [apply in_shape_length; auto|]. split; auto. repeat constructor; lia.
Qed.
Lemma product_snoc pre n : product (pre ++ [n]) = product pre * n.
Proof. rewrite product_app, product_cons. change (product []) with 1. ring. Qed.
Lemma vget_last (pre : list Z) n : vget (pre ++ [n]) (zlen (pre ++ [n]) - 1) = ROk n.
Proof.
  unfold vget, zlen. rewrite app_length. cbn [length]. replace (0 <=? Z.of_nat (length pre + 1) - 1) with true by lia.
  replace (Z.to_nat (Z.of_nat (length pre + 1) - 1)) with (length pre) by lia. rewrite nth_error_app2 by lia. rewrite Nat.sub_diag. reflexivity.
Qed.

(* ---------------- loops ---------------- *)
Lemma simd_for_eq {S} a n (body : Z -> S -> res S) s : match a with X86 L => 0 < L | Arm => True end -> 0 <= n -> simd_for a n body s = zloop n body s.
Proof. intros HA Hn. destruct a; cbn [simd_for]; [apply arm_for_eq; auto|apply vec_for_eq; auto]. Qed.
Lemma max_loop x xo n f : 1 <= n -> (forall i, 0 <= i < n -> loadv x (xo + i) = ROk (f i)) ->
  exists m, zloop n (max1 x xo) None = ROk (Some m) /\ (forall i, 0 <= i < n -> (f i <= m)%R) /\ exists i, 0 <= i < n /\ f i = m.
Proof.
  intros Hn HX.
  destruct (zloop_inv (fun j st => j = 0 /\ st = None \/ exists m, st = Some m /\ (forall i, 0 <= i < j -> (f i <= m)%R) /\ exists i, 0 <= i < j /\ f i = m)
    n (max1 x xo) None ltac:(lia)) as (st & E & I).
  - left. auto.
  - intros i st Hi I. unfold max1. rewrite HX by auto. cbn [rbind]. eexists. split; [reflexivity|]. right.
    destruct I as [[-> ->]|(m & -> & I1 & k & Hk & I2)].
    + exists (f 0). split; [reflexivity|]. split; [intros j Hj; replace j with 0 by lia; lra|exists 0; split; [lia|reflexivity]].
    + exists (Rmax m (f i)). split; [reflexivity|]. split.
      * intros j Hj. destruct (Z.eq_dec j i) as [->|]; [apply Rmax_r|]. apply Rle_trans with m; [apply I1; lia|apply Rmax_l].
      * unfold Rmax. destruct (Rle_dec m (f i)); [exists i|exists k]; split; auto; lia.
  - destruct I as [[I _]|(m & -> & I1 & I2)]; [lia|]. exists m. split; [exact E|]. split; auto.
Qed.
Lemma exp_loop e x xo m yo n f (y : buf R) : 0 <= n -> (0 < n -> 0 <= yo /\ yo + n <= b_len y) -> (forall i, 0 <= i < n -> loadv x (xo + i) = ROk (f i)) ->
  exists y', zloop n (exp1 e x xo m yo) (y, 0%R) = ROk (y', total_over (range n) (fun i => e i (f i - m)%R)) /\
    changes (fun d => Some (e (d - yo)%Z (f (d - yo)%Z - m)%R)) (segment yo n) y y'.
Proof.
  intros Hn HR HX.
  destruct (zloop_inv (fun j st => snd st = total_over (range j) (fun i => e i (f i - m)%R) /\
      changes (fun d => Some (e (d - yo)%Z (f (d - yo)%Z - m)%R)) (segment yo j) y (fst st))
    n (exp1 e x xo m yo) (y, 0%R) Hn) as (st & E & I1 & I2).
  - split; [reflexivity|]. apply changes_refl. unfold segment. intros d Hd. cbn in Hd. lia.
  - intros i st Hi [I1 I2]. unfold exp1. rewrite HX by auto. cbn [rbind]. cbv zeta.
    destruct (changes_store (fun d => Some (e (d - yo)%Z (f (d - yo)%Z - m)%R)) (fst st) (yo + i) (Some (e i (f i - m)%R))) as (y2 & E2 & C2).
    + rewrite (c_len _ _ _ _ I2). lia.
    + replace (yo + i - yo) with i by ring. reflexivity.
    + rewrite E2. cbn [rbind]. eexists. split; [reflexivity|]. cbn [fst snd]. split.
      * rewrite range_succ, total_app by lia. rewrite I1. unfold total_over at 3. cbn [map fold_right]. ring.
      * constructor; [rewrite (c_len _ _ _ _ C2); apply (c_len _ _ _ _ I2)| |].
        -- intros d Hd. destruct (Z.eq_dec d (yo + i)) as [->|N]; [apply (c_set _ _ _ _ C2); auto|].
           rewrite (c_other _ _ _ _ C2) by auto. apply (c_set _ _ _ _ I2). unfold segment in *. lia.
        -- intros d Hd. rewrite (c_other _ _ _ _ C2), (c_other _ _ _ _ I2); auto; unfold segment in *; lia.
  - destruct st as [y' s]. cbn [fst snd] in *. subst s. exists y'. split; auto.
Qed.

(** The exponential that element i of a row of n goes through. *)
Definition expo (a : arch) (n i : Z) (v : R) : R := if n <=? 16 then exp v else if in_register a n i then fast a v else exp v.
Lemma softmax_row_ok a x xo yo n f (y : buf R) : match a with X86 L => 0 < L | Arm => True end -> 1 <= n ->
  (0 <= yo /\ yo + n <= b_len y) -> (forall i, 0 <= i < n -> loadv x (xo + i) = ROk (f i)) ->
  (forall v, (v <= 0)%R -> (0 < fast a v)%R) ->
  exists y' m, softmax_row a x xo yo n y = ROk y' /\
    (forall i, 0 <= i < n -> (f i <= m)%R) /\ (exists i, 0 <= i < n /\ f i = m) /\
    let T := total_over (range n) (fun i => expo a n i (f i - m)%R) in
    (0 < T)%R /\ changes (fun d => Some (expo a n (d - yo)%Z (f (d - yo)%Z - m) / T)%R) (segment yo n) y y'.
Proof.
  intros HA Hn HR HX HP. destruct (max_loop x xo n f Hn HX) as (m & E1 & M1 & M2).
  destruct (exp_loop (expo a n) x xo m yo n f y ltac:(lia) ltac:(auto) HX) as (y1 & E2 & C1).
  set (T := total_over (range n) (fun i => expo a n i (f i - m)%R)) in *.
  assert (PE : forall i, 0 <= i < n -> (0 < expo a n i (f i - m))%R).
  { intros i Hi. unfold expo. destruct (n <=? 16); [apply exp_pos|]. destruct (in_register a n i); [|apply exp_pos]. apply HP. specialize (M1 i Hi). lra. }
  assert (PT : (0 < T)%R).
  { apply total_pos; [intros j Hj; apply in_range in Hj; apply PE; auto|]. unfold range. replace (Z.to_nat n) with (S (Z.to_nat (n - 1))) by lia. discriminate. }
  destruct (scale_row_gen (inverse T) yo n y1 (fun i => expo a n i (f i - m)%R)) as (y2 & E3 & C2).
  - intros _. rewrite (c_len _ _ _ _ C1). lia.
  - intros i Hi. rewrite (cell_of _ _ _ _ _ i C1 Hi). replace (yo + i - yo) with i by ring. reflexivity.
  - exists y2, m. split; [|split; [exact M1|split; [exact M2|]]].
    + unfold softmax_row. destruct (n <=? 16) eqn:Q.
      * rewrite E1. cbn [rbind]. replace (zloop n (exp1 (fun (i : Z) (v : R) => exp v) x xo m yo) (y, 0%R)) with (zloop n (exp1 (expo a n) x xo m yo) (y, 0%R)).
        -- rewrite E2. cbn [rbind fst snd]. exact E3.
        -- apply zloop_ext. intros i s Hi. unfold exp1, expo. rewrite Q. reflexivity.
      * rewrite simd_for_eq by (auto; lia). rewrite E1. cbn [rbind]. rewrite simd_for_eq by (auto; lia).
        replace (zloop n (exp1 (fun (i : Z) (v : R) => if in_register a n i then fast a v else exp v) x xo m yo) (y, 0%R)) with (zloop n (exp1 (expo a n) x xo m yo) (y, 0%R)).
        -- rewrite E2. cbn [rbind fst snd]. rewrite simd_for_eq by (auto; lia). exact E3.
        -- apply zloop_ext. intros i s Hi. unfold exp1, expo. rewrite Q. reflexivity.
    + cbv zeta. split; [exact PT|]. eapply changes_again; [exact C1|]. eapply changes_ext; [|exact C2].
      intros d Hd. cbn beta. unfold inverse. destruct (Req_EM_T T 0) as [Z|_]; [lra|]. reflexivity.
Qed.
