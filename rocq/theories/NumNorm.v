(** Proofs about normalisations and activations, part 3: RMS norm, layer norm. *)
From Coq Require Import Reals Lra Psatz.
From Verif Require Import Base DTypeModel ParamModel ParamSpec ParamProofs TensorModel TensorSpec TensorProofs TensorSplit
  OpsModel OpsSpec OpsProofs OpsIndex OpsSum MatModel MatSpec MatProofs MatKernel MatOps ExpModel ExpProofs
  AttnModel AttnSpec AttnProofs AttnOps NumModel NumSpec NumProofs.
Local Open Scope Z_scope.

(** A loop that writes a row element by element; the input may be the row itself. *)
Lemma write_row (G : Z -> option R) n yo body (y : buf R) :
  (forall i y1, 0 <= i < n -> b_len y1 = b_len y -> b_at y1 (yo + i) = b_at y (yo + i) ->
     exists y2, body i y1 = ROk y2 /\ changes G (eq (yo + i)) y1 y2) ->
  exists y', zloop n body y = ROk y' /\ changes G (segment yo n) y y'.
Proof. apply row_loop. Qed.

(** The buffer that is read, and where. *)
Definition readable (inplace : bool) (x y : buf R) (xo yo n : Z) (f : Z -> R) : Prop :=
  (inplace = true -> xo = yo) /\ forall i, 0 <= i < n -> loadv (source inplace x y) (xo + i) = ROk (f i).
Lemma readable_later inplace x y xo yo n f y1 i : readable inplace x y xo yo n f -> 0 <= i < n -> b_len y1 = b_len y -> b_at y1 (yo + i) = b_at y (yo + i) ->
  loadv (source inplace x y1) (xo + i) = ROk (f i).
Proof.
  intros [H1 H2] Hi L E. specialize (H2 i Hi). unfold source in *. destruct inplace; auto.
  rewrite (H1 eq_refl) in *. unfold loadv, load in *. rewrite L, E. exact H2.
Qed.

Lemma square_sum_ok a x xo n f : match a with X86 L => 0 < L /\ (L <= n -> xo mod L = 0) | Arm => True end -> 0 <= n ->
  (forall i, 0 <= i < n -> loadv x (xo + i) = ROk (f i)) -> square_sum a x xo n = ROk (total_over (range n) (fun i => (f i * f i)%R)).
Proof.
  intros HA Hn HX. destruct a as [|L]; cbn [square_sum].
  - rewrite (dot_kernel_inner 4 x xo x xo n f f) by (auto; lia). reflexivity.
  - destruct HA as [HL HM]. replace ((L <=? n) && negb (xo mod L =? 0)) with false.
    + rewrite (dot_kernel_inner L x xo x xo n f f) by auto. reflexivity.
    + destruct (Z.leb_spec L n) as [Q|Q]; [|reflexivity]. rewrite (HM Q). reflexivity.
Qed.

(** The overlapping registers of the ARM kernel: writing an element again changes nothing. *)
Lemma overlap_loop (G : Z -> option R) n yo body (y : buf R) : 0 <= n ->
  (forall i y1, 0 <= i < n -> b_len y1 = b_len y -> exists y2, body i y1 = ROk y2 /\ changes G (eq (yo + i)) y1 y2) ->
  exists y', (do y <- zloop (n - 3) (fun d y => zloop 4 (fun j => body (d + j)) y) y;
      let d := Z.max 0 (n - 3) in zloop (n - d) (fun j => body (d + j)) y) = ROk y' /\ changes G (segment yo n) y y'.
Proof.
  intros Hn HB.
  assert (K : forall i y1 k, 0 <= i < n -> changes G (segment yo k) y y1 -> 0 <= i <= k -> exists y2, body i y1 = ROk y2 /\ changes G (segment yo (Z.max k (i + 1))) y y2).
  { intros i y1 k Hi C Hk. destruct (HB i y1 Hi (c_len _ _ _ _ C)) as (y2 & E & C2). exists y2. split; auto. constructor.
    - rewrite (c_len _ _ _ _ C2). apply (c_len _ _ _ _ C).
    - intros d Hd. destruct (Z.eq_dec d (yo + i)) as [->|N]; [apply (c_set _ _ _ _ C2); auto|].
      rewrite (c_other _ _ _ _ C2) by auto. apply (c_set _ _ _ _ C). unfold segment in *. lia.
    - intros d Hd. unfold segment in *. rewrite (c_other _ _ _ _ C2), (c_other _ _ _ _ C); auto; unfold segment; lia. }
  assert (INIT : changes G (segment yo 0) y y) by (apply changes_refl; unfold segment; intros d Hd; lia).
  destruct (Z_le_gt_dec n 3) as [Q|Q].
  - rewrite (zloop_0 (n - 3)) by lia. cbn [rbind]. cbv zeta. rewrite (Z.max_l 0) by lia.
    destruct (zloop_inv (fun j y1 => changes G (segment yo j) y y1) (n - 0) (fun j => body (0 + j)) y ltac:(lia)) as (y1 & E1 & C1); [exact INIT| |exists y1; split; auto; rewrite Z.sub_0_r in C1; exact C1].
    intros j y1 Hj C. destruct (K (0 + j) y1 j) as (y2 & E2 & C2); auto; try lia. exists y2. split; auto. rewrite Z.add_0_l, Z.max_r in C2 by lia. exact C2.
  - destruct (zloop_inv (fun d y1 => changes G (segment yo (if d =? 0 then 0 else d + 3)) y y1) (n - 3) (fun d y => zloop 4 (fun j => body (d + j)) y) y ltac:(lia)) as (y1 & E1 & C1); [exact INIT| |].
    + intros d y1 Hd C.
      destruct (zloop_inv (fun j y1 => changes G (segment yo (Z.max (if d =? 0 then 0 else d + 3) (d + j))) y y1) 4 (fun j => body (d + j)) y1 ltac:(lia)) as (y2 & E2 & C2).
      * rewrite Z.max_l; [exact C|]. destruct (d =? 0) eqn:Z0; lia.
      * intros j y2 Hj C2. destruct (K (d + j) y2 (Z.max (if d =? 0 then 0 else d + 3) (d + j))) as (y3 & E3 & C3); auto; try lia.
        exists y3. split; auto. replace (Z.max (if d =? 0 then 0 else d + 3) (d + (j + 1))) with (Z.max (Z.max (if d =? 0 then 0 else d + 3) (d + j)) (d + j + 1)) by lia. exact C3.
      * exists y2. split; auto. replace (if d + 1 =? 0 then 0 else d + 1 + 3) with (Z.max (if d =? 0 then 0 else d + 3) (d + 4)); [exact C2|].
        destruct (d =? 0) eqn:Z0; destruct (d + 1 =? 0) eqn:Z1; lia.
    + rewrite E1. cbn [rbind]. cbv zeta. rewrite (Z.max_r 0) by lia. replace (n - 3 =? 0) with false in C1 by lia.
      destruct (zloop_inv (fun j y2 => changes G (segment yo n) y y2) (n - (n - 3)) (fun j => body (n - 3 + j)) y1 ltac:(lia)) as (y2 & E2 & C2).
      * replace n with (n - 3 + 3) by ring. exact C1.
      * intros j y2 Hj C2. destruct (K (n - 3 + j) y2 n) as (y3 & E3 & C3); auto; try lia. exists y3. split; auto. rewrite Z.max_l in C3 by lia. exact C3.
      * exists y2. split; auto.
Qed.

Lemma rmsnorm_row_ok a eps uo inplace x xo w wo yo n f g (y : buf R) :
  match a with X86 L => 0 < L /\ (L <= n -> xo mod L = 0) | Arm => True end -> 0 <= n ->
  (0 < n -> 0 <= yo /\ yo + n <= b_len y) -> readable inplace x y xo yo n f -> (forall i, 0 <= i < n -> loadv w (wo + i) = ROk (g i)) ->
  exists y', rmsnorm_row a eps uo inplace x xo w wo yo n y = ROk y' /\
    changes (fun d => times (inv_root (mean_square n f + eps)) (f (d - yo)%Z * unit_weight uo (g (d - yo)%Z))%R) (segment yo n) y y'.
Proof.
  intros HA Hn HR HX HW. unfold rmsnorm_row. rewrite (square_sum_ok a (source inplace x y) xo n f HA Hn (proj2 HX)). cbn [rbind]. cbv zeta.
  change (total_over (range n) (fun i => (f i * f i)%R) / IZR n)%R with (mean_square n f). set (r := inv_root (mean_square n f + eps)).
  set (G := fun d => times r (f (d - yo)%Z * unit_weight uo (g (d - yo)%Z))%R).
  assert (ST : forall i y1, 0 <= i < n -> b_len y1 = b_len y -> loadv (source inplace x y1) (xo + i) = ROk (f i) ->
    exists y2, norm1 r uo inplace x xo w wo yo i y1 = ROk y2 /\ changes G (eq (yo + i)) y1 y2).
  { intros i y1 Hi L E. unfold norm1. rewrite E, HW by auto. cbn [rbind]. apply changes_store; [rewrite L; lia|].
    unfold G. replace (yo + i - yo) with i by ring. reflexivity. }
  destruct a as [|L].
  - destruct inplace.
    + assert (EX := proj1 HX eq_refl). subst yo. cbn [source] in *.
      rewrite vec_for_eq by lia.
      destruct (row_loop (fun d => times r (f (d - xo)%Z)) n xo (fun i y0 => do v <- loadv y0 (xo + i); store y0 (xo + i) (times r v)) y) as (y1 & E1 & C1).
      { intros j b1 Hj L E. assert (RL := readable_later true x y xo xo n f b1 j HX Hj L E). cbn [source] in RL. rewrite RL. cbn [rbind].
        apply changes_store; [rewrite L; lia|]. replace (xo + j - xo) with j by ring. reflexivity. }
      rewrite E1. cbn [rbind]. rewrite vec_for_eq by lia.
      destruct (row_loop G n xo (fun i y0 => do v <- load y0 (xo + i); do u <- loadv w (wo + i); store y0 (xo + i) (times v (unit_weight uo u))) y1) as (y2 & E2 & C2).
      { intros j b1 Hj L E. unfold load. assert (LL := c_len _ _ _ _ C1). replace ((0 <=? xo + j) && (xo + j <? b_len b1)) with true by lia. cbn [rbind].
        rewrite HW by auto. cbn [rbind]. apply changes_store; [lia|]. rewrite E, (cell_of _ _ _ _ _ j C1 Hj). unfold G. replace (xo + j - xo) with j by ring.
        destruct r; cbn [times]; [f_equal; ring|reflexivity]. }
      exists y2. split; [exact E2|]. eapply changes_again; eauto.
    + apply (overlap_loop G n yo (norm1 r uo false x xo w wo yo) y Hn). intros i y1 Hi L. apply ST; auto. apply (proj2 HX i Hi).
  - destruct HA as [HL _]. rewrite vec_for_eq by auto. apply row_loop. intros j b1 Hj LL E. apply ST; auto. eapply readable_later; eauto.
Qed.

(* ---------------- layer norm ---------------- *)
Lemma sum_loop x xo n f (h : R -> R) : 0 <= n -> (forall i, 0 <= i < n -> loadv x (xo + i) = ROk (f i)) ->
  vec_for 4 n (fun i s => do v <- loadv x (xo + i); ROk (s + h v)%R) 0%R = ROk (total_over (range n) (fun i => h (f i))).
Proof.
  intros Hn HX. rewrite vec_for_eq by lia.
  destruct (zloop_inv (fun j s => s = total_over (range j) (fun i => h (f i))) n (fun i s => do v <- loadv x (xo + i); ROk (s + h v)%R) 0%R Hn eq_refl) as (s & E & ->); [|exact E].
  intros i s Hi ->. rewrite HX by auto. cbn [rbind]. eexists. split; [reflexivity|]. rewrite range_succ, total_app by lia. f_equal. unfold total_over. cbn. ring.
Qed.
(** An optional parameter row. *)
Definition param_row (p : option (buf R * Z)) (n : Z) (g : option (Z -> R)) : Prop :=
  match p, g with
  | None, None => True
  | Some b, Some g => forall i, 0 <= i < n -> loadv (fst b) (snd b + i) = ROk (g i)
  | _, _ => False
  end.
Definition scaled (g : option (Z -> R)) (i : Z) (v : R) : R := match g with None => v | Some g => (v * g i)%R end.
Definition shifted (g : option (Z -> R)) (i : Z) (v : R) : R := match g with None => v | Some g => (v + g i)%R end.
Lemma layernorm_row_ok eps x xo gamma beta zo n f g b (z : buf R) : 1 <= n -> (0 <= zo /\ zo + n <= b_len z) ->
  (forall i, 0 <= i < n -> loadv x (xo + i) = ROk (f i)) -> param_row gamma n g -> param_row beta n b -> (0 < flat_variance n f + eps)%R ->
  exists z', layernorm_row eps x xo gamma beta zo n z = ROk z' /\
    changes (fun d => let i := (d - zo)%Z in Some (shifted b i (scaled g i ((f i - mean n f) / sqrt (flat_variance n f + eps))))%R) (segment zo n) z z'.
Proof.
  intros Hn HR HX HG HB HP. unfold layernorm_row. replace (n =? 0) with false by lia.
  rewrite (sum_loop x xo n f (fun v => v)) by (auto; lia). cbn [rbind]. cbv zeta.
  change (total_over (range n) (fun i => f i) / IZR n)%R with (mean n f).
  rewrite (sum_loop x xo n f (fun v => (v - mean n f) * (v - mean n f))%R) by (auto; lia). cbn [rbind].
  change (total_over (range n) (fun i => ((f i - mean n f) * (f i - mean n f))%R) / IZR n)%R with (flat_variance n f).
  unfold inv_root. destruct (Rlt_dec 0 (flat_variance n f + eps)) as [_|N]; [|contradiction].
  rewrite vec_for_eq by lia. apply row_loop. intros j b1 Hj L _. unfold affine1. rewrite HX by auto. cbn [rbind times].
  set (v := (/ sqrt (flat_variance n f + eps) * (f j - mean n f))%R).
  assert (E1 : match gamma with None => ROk (Some v) | Some g0 => do w <- loadv (fst g0) (snd g0 + j); ROk (Some (v * w)%R) end = ROk (Some (scaled g j v))).
  { unfold param_row in HG. destruct gamma as [p|], g as [g|]; try contradiction; [rewrite HG by auto|]; reflexivity. }
  rewrite E1. cbn [rbind].
  assert (E2 : match beta with None => ROk (Some (scaled g j v)) | Some b0 => do w <- loadv (fst b0) (snd b0 + j); ROk (Some (scaled g j v + w)%R) end = ROk (Some (shifted b j (scaled g j v)))).
  { unfold param_row in HB. destruct beta as [p|], b as [b|]; try contradiction; [rewrite HB by auto|]; reflexivity. }
  rewrite E2. cbn [rbind]. apply changes_store; [rewrite L; lia|]. cbv zeta. replace (zo + j - zo) with j by ring. do 3 f_equal. unfold v, Rdiv. ring.
Qed.
(** Averages over the multi-indices of a block. *)
Lemma mean_over_flat ns (g : list Z -> R) : Forall (fun d => 0 <= d) ns -> mean_over (indices ns) g = mean (product ns) (fun j => g (unravel ns j)).
Proof.
  intro H. unfold mean_over, mean. rewrite indices_unravel by auto. rewrite map_map, map_length, seq_length. unfold total_over, range. rewrite map_map.
  rewrite INR_IZR_INZ, Z2Nat.id by (apply product_nonneg; auto). reflexivity.
Qed.
Lemma layer_norm_flat ns eps (g : list Z -> R) q : Forall (fun d => 0 <= d) ns -> in_shape ns q ->
  layer_norm ns eps g q = ((g (unravel ns (ravel ns q)) - mean (product ns) (fun j => g (unravel ns j))) / sqrt (flat_variance (product ns) (fun j => g (unravel ns j)) + eps))%R.
Proof.
  intros H Hq. unfold layer_norm, variance_over, flat_variance. rewrite !mean_over_flat by auto. rewrite unravel_ravel by auto. reflexivity.
Qed.
