(** Proofs about normalisations and activations, part 4: the RMS norm and layer norm operators. *)
From Coq Require Import Reals Lra Psatz.
From Verif Require Import Base DTypeModel ParamModel ParamSpec ParamProofs TensorModel TensorSpec TensorProofs TensorSplit
  OpsModel OpsSpec OpsProofs OpsIndex OpsSum MatModel MatSpec MatProofs MatKernel MatOps ExpModel ExpProofs
  AttnModel AttnSpec AttnProofs AttnOps NumModel NumSpec NumProofs NumNorm.
Local Open Scope Z_scope.

Lemma aligned_row a offset rows n l : aligned_rows a offset rows n -> 0 <= l < rows ->
  match a with X86 L => 0 < L /\ (L <= n -> (offset + l * n) mod L = 0) | Arm => True end.
Proof.
  intros H Hl. destruct a as [|L]; auto. destruct H as [H1 H2]. split; auto. intro Q. destruct (H2 Q) as [H3 [H4|H4]].
  - replace l with 0 by lia. rewrite Z.mul_0_l, Z.add_0_r. exact H3.
  - apply Z.mod_divide in H3, H4; try lia. apply Z.mod_divide; [lia|]. apply Z.divide_add_r; [exact H3|]. apply Z.divide_mul_r. exact H4.
Qed.

Lemma mean_square_ext n f g : (forall i, 0 <= i < n -> f i = g i) -> mean_square n f = mean_square n g.
Proof. intro H. unfold mean_square, mean. f_equal. apply total_ext. intros i Hi. apply in_range in Hi. rewrite H by auto. reflexivity. Qed.

(** The value at position k. *)
Definition rms_value (eps : R) (uo : bool) (X : Z -> R) (W : Z -> R) (n k : Z) : R :=
  (rms_norm n eps (fun i => X (k / n * n + i)%Z) (k mod n) * unit_weight uo (W (k mod n)))%R.
Lemma rms_rows a order eps uo inplace x xo w wo yo m n X W (y0 : buf R) :
  aligned_rows a xo m n -> 1 <= n -> 0 <= m -> Permutation order (range m) -> (0 < m -> 0 <= yo /\ yo + m * n <= b_len y0) ->
  (inplace = true -> xo = yo) -> (forall k, 0 <= k < m * n -> loadv (source inplace x y0) (xo + k) = ROk (X k)) ->
  (forall i, 0 <= i < n -> loadv w (wo + i) = ROk (W i)) ->
  (forall l, 0 <= l < m -> (0 < mean_square n (fun i => X (l * n + i)%Z) + eps)%R) ->
  exists y, each order (fun l y => rmsnorm_row a eps uo inplace x (xo + l * n) w wo (yo + l * n) n y) y0 = ROk y /\
    changes (fun d => Some (rms_value eps uo X W n (d - yo))) (segment yo (m * n)) y0 y.
Proof.
  intros HA Hn Hm HO HR HI HX HW HP. apply rows_any_order; [lia|exact HO|]. intros l b1 Hl L E.
  destruct (rmsnorm_row_ok a eps uo inplace x (xo + l * n) w wo (yo + l * n) n (fun i => X (l * n + i)%Z) W b1) as (b2 & E2 & C2).
  - apply (aligned_row a xo m n l); auto.
  - lia.
  - intros _. rewrite L. nia.
  - split; [intro Q; rewrite (HI Q); reflexivity|]. intros i Hi. rewrite <- Z.add_assoc.
    assert (HK := HX (l * n + i) ltac:(nia)). unfold source in *. destruct inplace; [|exact HK].
    rewrite (HI eq_refl) in *. unfold loadv, load in *. rewrite L. replace (yo + (l * n + i)) with (yo + l * n + i) in * by ring. rewrite E by auto. exact HK.
  - exact HW.
  - exists b2. split; [exact E2|]. eapply changes_ext; [|exact C2]. intros d Hd. unfold segment in Hd. cbn beta.
    assert (Dq : (d - yo) / n = l) by (symmetry; apply (Z.div_unique (d - yo) n l (d - yo - l * n)); lia).
    assert (Dm : (d - yo) mod n = d - (yo + l * n)) by (rewrite (Z.mod_eq (d - yo) n) by lia; rewrite Dq; ring).
    unfold rms_value. rewrite Dq, Dm. unfold inv_root. destruct (Rlt_dec 0 _) as [P|P]; [|destruct (P (HP l Hl))].
    cbn [times]. f_equal. unfold rms_norm, Rdiv. ring.
Qed.
Lemma rms_value_at eps uo pre n F W idx : 1 <= n -> in_shape (pre ++ [n]) idx ->
  rms_value eps uo (fun k => F (unravel (pre ++ [n]) k)) W n (ravel (pre ++ [n]) idx) =
  along_last (fun f i => (rms_norm n eps f i * unit_weight uo (W i))%R) F idx.
Proof.
  intros Hn Hi. destruct (snoc_shape _ _ _ Hi) as (p & i & -> & Hp & Hin & ->). rewrite along_last_row.
  assert (Dq : (ravel pre p * n + i) / n = ravel pre p) by (symmetry; apply (Z.div_unique _ n _ i); lia).
  assert (Dm : (ravel pre p * n + i) mod n = i) by (rewrite Z.mod_eq, Dq by lia; ring).
  unfold rms_value. rewrite Dq, Dm. unfold rms_norm.
  rewrite (unravel_snoc pre n (ravel pre p) i p) by auto.
  rewrite (mean_square_ext n (fun j => F (unravel (pre ++ [n]) (ravel pre p * n + j))) (fun j => F (p ++ [j]))); [reflexivity|].
  intros j Hj. rewrite (unravel_snoc pre n (ravel pre p) j p) by auto. reflexivity.
Qed.

Section RmsOp.
Context (a : arch) (order : list Z) (eps : R) (uo : bool) (w t : tns R) (pre : list Z) (n : Z) (F : list Z -> R) (W : list Z -> R).
Hypothesis Hn : 1 <= n.
Hypothesis HT : holds t (pre ++ [n]) F.
Hypothesis HW : holds w [n] W.
Hypothesis HO : Permutation order (range (product pre)).
Hypothesis HA : aligned_rows a (x_offset t) (product pre) n.
Hypothesis HP : forall p, in_shape pre p -> (0 < mean_square n (fun j => F (p ++ [j])) + eps)%R.

Let shape := pre ++ [n].
Let X k := F (unravel shape k).
Lemma rms_pre : 0 <= product pre.
Proof using HT. apply product_nonneg. destruct (holds_dims _ _ _ HT) as [_ R2]. apply Forall_app in R2. tauto. Qed.
Lemma rms_weight i : 0 <= i < n -> loadv (x_buf w) (x_offset w + i) = ROk (W [i]).
Proof using HW.
  clear HP X shape. intro Hi. rewrite (holds_flat w [n] W i HW) by (rewrite product_cons; change (product []) with 1; lia). do 2 f_equal.
  change [n] with ([] ++ [n]). replace i with (0 * n + i) at 1 by ring. apply (unravel_snoc [] n 0 i []); auto. constructor.
Qed.
Lemma rms_pos l : 0 <= l < product pre -> (0 < mean_square n (fun i => X (l * n + i)%Z) + eps)%R.
Proof using HT HP Hn.
  intro Hl. destruct (holds_dims _ _ _ HT) as [_ R2]. apply Forall_app in R2.
  destruct (unravel_spec pre l (proj1 R2) Hl) as [U1 U2]. rewrite (mean_square_ext n _ (fun j => F (unravel pre l ++ [j]))); [apply HP; exact U1|].
  intros i Hi. unfold X, shape. rewrite (unravel_snoc pre n l i (unravel pre l)) by auto. reflexivity.
Qed.
Theorem rmsnorm_fresh : returns (rmsnorm_op a order eps uo false w t) shape
  (along_last (fun f i => (rms_norm n eps f i * unit_weight uo (W [i]))%R) F).
Proof using All.
  destruct (holds_dims _ _ _ HT) as [R1 R2]. assert (PS : product shape = product pre * n) by apply product_snoc. assert (PP := rms_pre).
  destruct (rms_rows a order eps uo false (x_buf t) (x_offset t) (x_buf w) (x_offset w) 0 (product pre) n X (fun i => W [i]) (mkBuf (product shape) (fun _ => None))) as (y & E & C); auto.
  - intros _. cbn [b_len]. lia.
  - discriminate.
  - intros k Hk. cbn [source]. apply holds_flat; auto. fold shape. lia.
  - apply rms_weight.
  - apply rms_pos.
  - rewrite <- PS in C. eapply returns_fresh; [exact R1|exact R2| |exact C|].
    + unfold rmsnorm_op. rewrite (h_shape _ _ _ HT), fresh_ok by auto. cbn [rbind]. rewrite vget_last. cbn [rbind].
      exact (f_equal (fun r => rbind r (fun y0 => ROk (mkTns (mkV shape (default_strides shape) 0) y0))) E).
    + intros idx Hi. cbn beta. rewrite Z.sub_0_r. unfold X, shape. rewrite (rms_value_at eps uo pre n F (fun i => W [i])) by auto. reflexivity.
Qed.
Theorem rmsnorm_inplace : rewrites (rmsnorm_op a order eps uo true w t) t
  (along_last (fun f i => (rms_norm n eps f i * unit_weight uo (W [i]))%R) F).
Proof using All.
  destruct (holds_dims _ _ _ HT) as [R1 R2]. assert (PS : product shape = product pre * n) by apply product_snoc. assert (PP := rms_pre).
  destruct (rms_rows a order eps uo true (x_buf t) (x_offset t) (x_buf w) (x_offset w) (x_offset t) (product pre) n X (fun i => W [i]) (x_buf t)) as (y & E & C); auto.
  - intro Q. destruct (holds_cell t shape F 0 HT) as [B0 _]; [fold shape; nia|]. destruct (holds_cell t shape F (product shape - 1) HT) as [B1 _]; [fold shape; nia|]. lia.
  - intros k Hk. cbn [source]. apply holds_flat; auto. fold shape. lia.
  - apply rms_weight.
  - apply rms_pos.
  - rewrite <- PS in C. eapply rewrites_inplace; [exact HT| |exact C|].
    + unfold rmsnorm_op. cbn [rbind]. rewrite (h_shape _ _ _ HT), vget_last. cbn [rbind]. rewrite E. reflexivity.
    + intros idx Hi. unfold X, shape. rewrite (rms_value_at eps uo pre n F (fun i => W [i])) by auto. reflexivity.
Qed.
End RmsOp.

(* ---------------- layer norm ---------------- *)
Lemma opt_param p ns G : opt_holds p ns G -> param_row (option_map (fun g : tns R => (x_buf g, x_offset g)) p) (product ns) (option_map (fun G k => G (unravel ns k)) G).
Proof.
  unfold opt_holds, param_row. destruct p as [p|], G as [G|]; try contradiction; [|auto]. intros H. cbn [option_map fst snd]. intros i Hi. apply holds_flat; auto.
Qed.
Lemma unravel_app pre ns l i p q : in_shape pre p -> ravel pre p = l -> in_shape ns q -> ravel ns q = i -> unravel (pre ++ ns) (l * product ns + i) = p ++ q.
Proof.
  intros Hp <- Hq <-. rewrite <- (unravel_ravel (pre ++ ns) (p ++ q)).
  - f_equal. rewrite ravel_app by (apply in_shape_length; auto). reflexivity.
  - apply in_shape_app; [apply in_shape_length; auto|]. auto.
Qed.
Lemma variance_flat ns g : Forall (fun d => 0 <= d) ns -> variance_over (indices ns) g = flat_variance (product ns) (fun j => g (unravel ns j)).
Proof. intro H. unfold variance_over, flat_variance. rewrite !mean_over_flat by auto. reflexivity. Qed.

Theorem layernorm_arm order eps ns gamma beta t pre F G B : 1 <= product ns ->
  holds t (pre ++ ns) F -> opt_holds gamma ns G -> opt_holds beta ns B -> Permutation order (range (product pre)) ->
  (forall p, in_shape pre p -> (0 < variance_over (indices ns) (fun q => F (p ++ q)) + eps)%R) ->
  returns (layernorm_op Arm order eps ns gamma beta t) (pre ++ ns) (fun idx =>
    let p := firstn (length pre) idx in let q := skipn (length pre) idx in
    offset_by B q (gained G q (layer_norm ns eps (fun q => F (p ++ q)) q))).
Proof.
  intros Hn HT HG HB HO HP. destruct (holds_dims _ _ _ HT) as [R1 R2]. assert (R3 := R2). apply Forall_app in R3. destruct R3 as [Rp Rn].
  set (shape := pre ++ ns) in *. set (n := product ns) in *.
  assert (PS : product shape = product pre * n) by apply product_app. assert (PP : 0 <= product pre) by (apply product_nonneg; auto).
  set (f := fun l i => F (unravel shape (l * n + i))).
  set (V := fun k => offset_by B (unravel ns (k mod n)) (gained G (unravel ns (k mod n)) (layer_norm ns eps (fun q => F (unravel pre (k / n) ++ q)) (unravel ns (k mod n))))).
  destruct (rows_any_order (fun d => Some (V d)) order (product pre) n 0
    (fun l z => layernorm_row eps (x_buf t) (x_offset t + l * n) (option_map (fun g : tns R => (x_buf g, x_offset g)) gamma) (option_map (fun g : tns R => (x_buf g, x_offset g)) beta) (0 + l * n) n z)
    (mkBuf (product shape) (fun _ => None)) ltac:(lia) HO) as (y & E & C).
  { intros l b1 Hl L _. cbn [b_len] in L. destruct (unravel_spec pre l Rp Hl) as [U1 U2].
    assert (FX : forall i, 0 <= i < n -> f l i = F (unravel pre l ++ unravel ns i)).
    { intros i Hi. destruct (unravel_spec ns i Rn Hi) as [V1 V2]. unfold f, shape, n. rewrite (unravel_app pre ns l i (unravel pre l) (unravel ns i)) by auto. reflexivity. }
    assert (ME : mean n (f l) = mean n (fun j => F (unravel pre l ++ unravel ns j))).
    { unfold mean. f_equal. apply total_ext. intros i Hi. apply in_range in Hi. apply FX; auto. }
    assert (FV : flat_variance n (f l) = variance_over (indices ns) (fun q => F (unravel pre l ++ q))).
    { rewrite variance_flat by auto. unfold flat_variance. rewrite ME. fold n. set (mu := mean n (fun j => F (unravel pre l ++ unravel ns j))). clearbody mu. unfold mean. f_equal. apply total_ext. intros i Hi. apply in_range in Hi. rewrite FX by auto. reflexivity. }
    destruct (layernorm_row_ok eps (x_buf t) (x_offset t + l * n) (option_map (fun g : tns R => (x_buf g, x_offset g)) gamma) (option_map (fun g : tns R => (x_buf g, x_offset g)) beta)
      (0 + l * n) n (f l) (option_map (fun G k => G (unravel ns k)) G) (option_map (fun G k => G (unravel ns k)) B) b1) as (b2 & E2 & C2).
    - lia.
    - rewrite L. nia.
    - intros i Hi. rewrite <- Z.add_assoc. apply holds_flat; auto. fold shape. nia.
    - apply opt_param; auto.
    - apply opt_param; auto.
    - rewrite FV. apply HP; auto.
    - exists b2. split; [exact E2|]. eapply changes_ext; [|exact C2]. intros d Hd. unfold segment in Hd. cbn beta.
      assert (Dq : d / n = l) by (symmetry; apply (Z.div_unique d n l (d - l * n)); lia).
      assert (Dm : d mod n = d - (0 + l * n)) by (rewrite (Z.mod_eq d n) by lia; rewrite Dq; ring).
      unfold V. rewrite Dq, Dm. set (i := d - (0 + l * n)) in *. assert (Hi : 0 <= i < n) by (unfold i; lia). destruct (unravel_spec ns i Rn Hi) as [V1 V2].
      cbv zeta. f_equal. rewrite layer_norm_flat by auto. rewrite V2. fold n. rewrite FX, ME, FV, variance_flat by auto. fold n.
      destruct G, B; reflexivity. }
  rewrite <- PS in C. eapply returns_fresh; [exact R1|exact R2| |exact C|].
  - unfold layernorm_op. rewrite (h_shape _ _ _ HT), fresh_ok by auto. cbn [rbind]. rewrite (holds_contiguous _ _ _ HT). cbn [negb].
    rewrite !numel_product. fold n. replace (0 <? n) with true by lia. cbn [negb].
    replace (product shape mod n) with 0 by (rewrite PS; symmetry; apply Z.mod_mul; lia). rewrite Z.eqb_refl. cbn [negb].
    exact (f_equal (fun r => rbind r (fun y0 => ROk (mkTns (mkV shape (default_strides shape) 0) y0))) E).
  - intros idx Hi. destruct (in_shape_app_inv _ _ _ Hi) as (A1 & A2 & A3). set (p := firstn (length pre) idx) in *. set (q := skipn (length pre) idx) in *.
    unfold V, shape. rewrite A3. rewrite ravel_app by (apply in_shape_length; auto). fold n.
    assert (Bq := ravel_bounds _ _ A2). fold n in Bq.
    assert (Dq : (ravel pre p * n + ravel ns q) / n = ravel pre p) by (symmetry; apply (Z.div_unique _ n _ (ravel ns q)); lia).
    assert (Dm : (ravel pre p * n + ravel ns q) mod n = ravel ns q) by (rewrite Z.mod_eq, Dq by lia; ring).
    rewrite Dq, Dm, !unravel_ravel by auto. reflexivity.
Qed.
