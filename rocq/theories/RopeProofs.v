(** Proofs about rotary position embeddings. *)
From Coq Require Import Reals Lra Psatz.
From Verif Require Import Base DTypeModel ParamModel ParamSpec ParamProofs TensorModel TensorSpec TensorProofs TensorSplit
  OpsModel OpsSpec OpsProofs OpsIndex OpsSum MatModel MatSpec MatProofs MatKernel MatOps ExpModel ExpProofs
  AttnModel AttnSpec AttnProofs AttnOps NumModel NumSpec NumProofs NumNorm RopeModel RopeSpec.
Local Open Scope Z_scope.

(* ---------------- nested loops ---------------- *)
Lemma each_app {X S} (l1 l2 : list X) (body : X -> S -> res S) s : each (l1 ++ l2) body s = (do s' <- each l1 body s; each l2 body s').
Proof.
  revert s. induction l1 as [|x l1 IH]; intro s; [reflexivity|]. cbn [app each]. destruct (body x s); cbn [rbind]; auto.
Qed.
Lemma zloop_each {S} n (body : Z -> S -> res S) s : zloop n body s = each (range n) body s.
Proof.
  unfold zloop, range. induction (Z.to_nat n) as [|m IH]; [reflexivity|]. cbn [loop]. rewrite seq_S, map_app, each_app, <- IH. cbn [plus map each].
  destruct (loop m body s); cbn [rbind]; auto. rewrite Nat.add_0_l. destruct (body (Z.of_nat m) a); reflexivity.
Qed.
Lemma each_ext {X S} (l : list X) (f g : X -> S -> res S) s : (forall x s, In x l -> f x s = g x s) -> each l f s = each l g s.
Proof. revert s. induction l as [|x l IH]; intros s H; [reflexivity|]. cbn [each]. rewrite (H x s (or_introl eq_refl)). destruct (g x s); cbn [rbind]; auto. apply IH. intros; apply H; right; auto. Qed.
Lemma each_map {X Y S} (h : X -> Y) l (body : Y -> S -> res S) s : each (map h l) body s = each l (fun x => body (h x)) s.
Proof. revert s. induction l as [|x l IH]; intro s; [reflexivity|]. cbn [map each]. destruct (body (h x) s); cbn [rbind]; auto. Qed.
Lemma each_prod {X Y S} (l1 : list X) (l2 : list Y) (body : X -> Y -> S -> res S) s :
  each l1 (fun x => each l2 (body x)) s = each (list_prod l1 l2) (fun p => body (fst p) (snd p)) s.
Proof.
  revert s. induction l1 as [|x l1 IH]; intro s; [reflexivity|]. cbn [list_prod each]. rewrite each_app, each_map. cbn [fst snd].
  destruct (each l2 (body x) s); cbn [rbind]; auto.
Qed.
Lemma zloop3 {S} n0 n1 n2 (body : Z -> Z -> Z -> S -> res S) s :
  zloop n0 (fun i => zloop n1 (fun j => zloop n2 (body i j))) s =
  each (list_prod (range n0) (list_prod (range n1) (range n2))) (fun p => body (fst p) (fst (snd p)) (snd (snd p))) s.
Proof.
  rewrite zloop_each. rewrite <- (each_prod (range n0) (list_prod (range n1) (range n2)) (fun i p => body i (fst p) (snd p))).
  apply each_ext. intros i s1 _. rewrite zloop_each. rewrite <- (each_prod (range n1) (range n2) (body i)). apply each_ext. intros j s2 _. apply zloop_each.
Qed.
Lemma nodup_range n : NoDup (range n).
Proof. unfold range. apply FinFun.Injective_map_NoDup; [intros x y H; lia|apply seq_NoDup]. Qed.
Lemma nodup_prod {X Y} (l1 : list X) (l2 : list Y) : NoDup l1 -> NoDup l2 -> NoDup (list_prod l1 l2).
Proof.
  intros H1 H2. induction l1 as [|x l1 IH]; [constructor|]. inversion H1; subst. cbn [list_prod].
  assert (N : forall l1 l2 : list (X * Y), NoDup l1 -> NoDup l2 -> (forall p, In p l1 -> ~ In p l2) -> NoDup (l1 ++ l2)).
  { clear. induction l1 as [|p l1 IH]; intros l2 A B C; [exact B|]. inversion A; subst. cbn. constructor.
    - rewrite in_app_iff. intros [I|I]; [contradiction|apply (C p); auto; left; auto].
    - apply IH; auto. intros q Hq. apply C. right; auto. }
  apply N; auto.
  - apply FinFun.Injective_map_NoDup; [intros a b E; inversion E; auto|auto].
  - intros [p q] I J. apply in_map_iff in I. destruct I as (z & E & _). inversion E; subst. apply in_prod_iff in J. tauto.
Qed.
Lemma loop3_changes (G : Z -> option R) n0 n1 n2 (P : Z -> Z -> Z -> Z -> Prop) body (b : buf R) :
  (forall i j k i' j' k' d, 0 <= i < n0 -> 0 <= j < n1 -> 0 <= k < n2 -> 0 <= i' < n0 -> 0 <= j' < n1 -> 0 <= k' < n2 -> P i j k d -> P i' j' k' d -> i = i' /\ j = j' /\ k = k') ->
  (forall i j k b1, 0 <= i < n0 -> 0 <= j < n1 -> 0 <= k < n2 -> b_len b1 = b_len b -> (forall d, P i j k d -> b_at b1 d = b_at b d) ->
     exists b2, body i j k b1 = ROk b2 /\ changes G (P i j k) b1 b2) ->
  exists b', zloop n0 (fun i => zloop n1 (fun j => zloop n2 (body i j))) b = ROk b' /\
    changes G (fun d => exists i j k, 0 <= i < n0 /\ 0 <= j < n1 /\ 0 <= k < n2 /\ P i j k d) b b'.
Proof.
  intros HD HB. rewrite zloop3.
  assert (HI : forall p, In p (list_prod (range n0) (list_prod (range n1) (range n2))) <-> 0 <= fst p < n0 /\ 0 <= fst (snd p) < n1 /\ 0 <= snd (snd p) < n2).
  { intros (i & j & k). cbn [fst snd]. rewrite !in_prod_iff, !in_range. tauto. }
  destruct (changes_each_from G (fun p => P (fst p) (fst (snd p)) (snd (snd p))) (fun p => body (fst p) (fst (snd p)) (snd (snd p))) b
    (list_prod (range n0) (list_prod (range n1) (range n2))) b) as (b' & E & C).
  - repeat apply nodup_prod; apply nodup_range.
  - intros (i & j & k) (i' & j' & k') d H1 H2 P1 P2. apply HI in H1, H2. cbn [fst snd] in *. destruct (HD i j k i' j' k' d) as (-> & -> & ->); tauto.
  - reflexivity.
  - reflexivity.
  - intros (i & j & k) b1 H1 L HP. apply HI in H1. cbn [fst snd] in *. apply HB; tauto.
  - exists b'. split; [exact E|]. eapply changes_iff; [|exact C]. intro d. cbn beta. split.
    + intros ((i & j & k) & Hp & Hd). apply HI in Hp. cbn [fst snd] in *. exists i, j, k. tauto.
    + intros (i & j & k & H1 & H2 & H3 & Hd). exists (i, (j, k)). rewrite HI. cbn [fst snd]. tauto.
Qed.

(* ---------------- rows ---------------- *)
Lemma rotate_row_ok a inplace x ao oo half sb so cb co f s c (y : buf R) : 0 <= half -> (0 < half -> 0 <= oo /\ oo + 2 * half <= b_len y) ->
  readable inplace x y ao oo (2 * half) f -> (forall d, 0 <= d < half -> loadv sb (so + d) = ROk (s d)) -> (forall d, 0 <= d < half -> loadv cb (co + d) = ROk (c d)) ->
  exists y', rotate_row a inplace x ao oo half sb so cb co y = ROk y' /\
    changes (fun k => Some (rotated half s c f (k - oo))) (segment oo (2 * half)) y y'.
Proof.
  intros Hh HR HX HS HC. set (G := fun k => Some (rotated half s c f (k - oo))).
  assert (K : exists y', zloop half (rotate1 inplace x ao oo half sb so cb co) y = ROk y' /\ changes G (segment oo (2 * half)) y y').
  { destruct (zloop_inv (fun d y1 => changes G (fun k => oo <= k < oo + d \/ oo + half <= k < oo + half + d) y y1) half (rotate1 inplace x ao oo half sb so cb co) y Hh) as (y' & E & C).
    - apply changes_refl. intros k Hk. lia.
    - intros d y1 Hd C. unfold rotate1. assert (LL := c_len _ _ _ _ C).
      rewrite (readable_later inplace x y ao oo (2 * half) f y1 d HX) by (try lia; apply (c_other _ _ _ _ C); lia). cbn [rbind].
      replace (ao + d + half) with (ao + (d + half)) by ring.
      rewrite (readable_later inplace x y ao oo (2 * half) f y1 (d + half) HX) by (try lia; apply (c_other _ _ _ _ C); lia). cbn [rbind].
      rewrite HS, HC by auto. cbn [rbind].
      destruct (changes_store G y1 (oo + d) (Some (f d * c d - f (d + half)%Z * s d)%R)) as (y2 & E2 & C2).
      { rewrite LL. lia. }
      { unfold G, rotated. replace (oo + d - oo) with d by ring. replace (d <? half) with true by lia. reflexivity. }
      rewrite E2. cbn [rbind].
      destruct (changes_store G y2 (oo + d + half) (Some (f d * s d + f (d + half)%Z * c d)%R)) as (y3 & E3 & C3).
      { rewrite (c_len _ _ _ _ C2), LL. lia. }
      { unfold G, rotated. replace (oo + d + half - oo) with (d + half) by ring. replace (d + half <? half) with false by lia. replace (d + half <? 2 * half) with true by lia.
        replace (d + half - half) with d by ring. reflexivity. }
      exists y3. split; [exact E3|]. constructor.
      + rewrite (c_len _ _ _ _ C3), (c_len _ _ _ _ C2). exact LL.
      + intros k Hk. destruct (Z.eq_dec k (oo + d + half)) as [->|N1]; [apply (c_set _ _ _ _ C3); reflexivity|]. rewrite (c_other _ _ _ _ C3) by auto.
        destruct (Z.eq_dec k (oo + d)) as [->|N2]; [apply (c_set _ _ _ _ C2); reflexivity|]. rewrite (c_other _ _ _ _ C2) by auto. apply (c_set _ _ _ _ C). lia.
      + intros k Hk. rewrite (c_other _ _ _ _ C3), (c_other _ _ _ _ C2), (c_other _ _ _ _ C) by lia. reflexivity.
    - exists y'. split; [exact E|]. eapply changes_iff; [|exact C]. intro k. unfold segment. lia. }
  destruct K as (y' & E & C). exists y'. split; [|exact C]. destruct a; cbn [rotate_row]; [rewrite vec_for_eq by lia|]; exact E.
Qed.
Lemma tail_row_ok a inplace x ao oo start D f (y : buf R) : 0 <= start <= D -> (start < D -> 0 <= oo + start /\ oo + D <= b_len y) ->
  (inplace = true -> ao = oo) -> (forall d, start <= d < D -> loadv (source inplace x y) (ao + d) = ROk (f d)) ->
  exists y', tail_row a inplace x ao oo start D y = ROk y' /\ changes (fun k => Some (f (k - oo)%Z)) (segment (oo + start) (D - start)) y y'.
Proof.
  intros Hs HR HI HX.
  assert (RD : readable inplace x y (ao + start) (oo + start) (D - start) (fun j => f (start + j))).
  { split; [intro Q; rewrite (HI Q); reflexivity|]. intros j Hj. rewrite <- Z.add_assoc. apply HX. lia. }
  destruct (row_loop (fun k => Some (f (k - oo)%Z)) (D - start) (oo + start) (fun j => tail1 inplace x ao oo (start + j)) y) as (y' & E & C).
  { intros j b1 Hj L EQ. unfold tail1. assert (RL := readable_later inplace x y _ _ _ _ b1 j RD Hj L EQ). rewrite <- Z.add_assoc in RL. rewrite RL. cbn [rbind].
    rewrite (Z.add_assoc oo start j). apply changes_store; [rewrite L; lia|]. replace (oo + start + j - oo) with (start + j) by ring. reflexivity. }
  exists y'. split; [|exact C]. destruct a; cbn [tail_row]; [|exact E]. replace (start <=? D) with true by lia. rewrite vec_for_eq by lia. exact E.
Qed.

(* ---------------- addresses ---------------- *)
Lemma dot_address v idx : v_offset v + dot idx (v_stride v) = address v idx.
Proof.
  unfold address. f_equal. generalize (v_stride v). induction idx as [|i idx IH]; intros [|s st]; try reflexivity. cbn. rewrite <- IH. reflexivity.
Qed.
Lemma offsetted_address v idx : length idx = length (v_shape v) -> offsetted v idx = ROk (address v idx).
Proof. intro H. unfold offsetted, zlen. rewrite H, Z.eqb_refl, dot_address. reflexivity. Qed.
Lemma address_row v p d : length (v_stride v) = S (length p) -> last (v_stride v) 0 = 1 -> address v (p ++ [d]) = address v (p ++ [0]) + d.
Proof.
  unfold address. intros L U. rewrite <- Z.add_assoc. f_equal. revert U L. generalize (v_stride v). induction p as [|i p IH]; intros st U L.
  - destruct st as [|s [|? ?]]; try discriminate. cbn in U. subst. cbn [app combine map fold_right fst snd]. ring.
  - destruct st as [|s st]; [discriminate|]. cbn [app combine map fold_right fst snd]. rewrite IH; [ring| |cbn in L; lia].
    destruct st as [|s2 st]; [destruct p; discriminate|exact U].
Qed.

(* ---------------- the operator ---------------- *)
(** The value meant for a cell. *)
Definition cell_value (v : view) (V : list Z -> R) (d : Z) : option R :=
  match find (fun idx => address v idx =? d) (indices (v_shape v)) with Some idx => Some (V idx) | None => None end.
Lemma cell_value_at v V idx : Forall (fun d => 0 <= d) (v_shape v) -> in_shape (v_shape v) idx ->
  (forall i, in_shape (v_shape v) i -> address v i = address v idx -> i = idx) -> cell_value v V (address v idx) = Some (V idx).
Proof.
  intros HD Hi HU. unfold cell_value. destruct (find _ _) as [j|] eqn:E.
  - apply find_some in E. destruct E as [E1 E2]. apply in_indices in E1. apply Z.eqb_eq in E2. rewrite (HU j E1 E2). reflexivity.
  - exfalso. assert (N := find_none _ _ E idx (proj2 (in_indices _ _) Hi)). cbn beta in N. rewrite Z.eqb_refl in N. discriminate N.
Qed.

Lemma tab_load (T : tns R) TB TS TD V p q d : dense_rows T [TB; TS; TD] V -> 0 <= p < TB -> 0 <= q < TS -> 0 <= d < TD ->
  loadv (x_buf T) (address (x_view T) [p; q; 0] + d) = ROk (V [p; q; d]).
Proof.
  intros H0 Hp Hq Hd. assert (E0 := ok_stride _ (dr_ok _ _ _ H0)). rewrite (dr_shape _ _ _ H0) in E0.
  change [p; q; 0] with ([p; q] ++ [0]). rewrite <- (address_row (x_view T) [p; q] d); [|exact E0|apply H0]. cbn [app].
  assert (I : in_shape [TB; TS; TD] [p; q; d]) by (repeat constructor; lia).
  assert (E := dr_elem _ _ _ H0 _ I). assert (Bd := ok_inside _ (dr_ok _ _ _ H0) [p; q; d]). rewrite (dr_shape _ _ _ H0) in Bd. specialize (Bd I).
  unfold loadv, load. replace ((0 <=? address (x_view T) [p; q; d]) && (address (x_view T) [p; q; d] <? b_len (x_buf T))) with true by lia.
  unfold elem in E. rewrite E. reflexivity.
Qed.
Section Rope.
Context (a : arch) (lay : layout) (half : Z) (inplace : bool) (t sn cs : tns R) (B H S D TB TS TD : Z) (F Sn Cs : list Z -> R).
Let shape := activation_shape lay B H S D.
Hypothesis HT : dense_rows t shape F.
Hypothesis HS : dense_rows sn [TB; TS; TD] Sn.
Hypothesis HC : dense_rows cs [TB; TS; TD] Cs.
Hypothesis Hhalf : 0 <= half /\ 2 * half <= D.
Hypothesis HTab : B <= TB /\ S <= TS /\ half <= TD.
(** The output: the input itself, or another tensor. *)
Context (ov : view) (o0 : buf R).
Hypothesis HV1 : v_shape ov = shape.
Hypothesis HV2 : length (v_stride ov) = 4%nat.
Hypothesis HV3 : last (v_stride ov) 0 = 1.
Hypothesis HV4 : forall idx, in_shape shape idx -> 0 <= address ov idx < b_len o0.
Hypothesis HV5 : forall i j, in_shape shape i -> in_shape shape j -> address ov i = address ov j -> i = j.
Hypothesis HI : inplace = true -> ov = x_view t /\ o0 = x_buf t.

Let n1 := match lay with BHSD => H | BSHD => S end.
Let n2 := match lay with BHSD => S | BSHD => H end.
Lemma shape_eq : shape = [B; n1; n2; D].
Proof using All. unfold shape, n1, n2. destruct lay; reflexivity. Qed.
Let tok i j k : list Z := match lay with BHSD => [i; k] | BSHD => [i; j] end.
Let arow i j k := address (x_view t) [i; j; k; 0].
Let orow i j k := address ov [i; j; k; 0].
Let G := cell_value ov (rope lay half Sn Cs F).
Let srow i j k := address (x_view sn) (tok i j k ++ [0]).
Let crow i j k := address (x_view cs) (tok i j k ++ [0]).
Let inr i j k := 0 <= i < B /\ 0 <= j < n1 /\ 0 <= k < n2.

Lemma row_in i j k d : inr i j k -> 0 <= d < D -> in_shape shape [i; j; k; d].
Proof using All. intros (Hi & Hj & Hk) Hd. rewrite shape_eq. repeat constructor; lia. Qed.
Lemma t_addr i j k d : address (x_view t) [i; j; k; d] = arow i j k + d.
Proof using All. apply (address_row (x_view t) [i; j; k] d); [|apply HT]. assert (E := ok_stride _ (dr_ok _ _ _ HT)). rewrite (dr_shape _ _ _ HT), shape_eq in E. exact E. Qed.
Lemma o_addr i j k d : address ov [i; j; k; d] = orow i j k + d.
Proof using All. apply (address_row ov [i; j; k] d); auto. Qed.
Lemma t_load i j k d : inr i j k -> 0 <= d < D -> loadv (x_buf t) (arow i j k + d) = ROk (F [i; j; k; d]).
Proof using All.
  intros Hr Hd. rewrite <- t_addr. assert (I := row_in i j k d Hr Hd). assert (E := dr_elem _ _ _ HT _ I).
  assert (Bd := ok_inside _ (dr_ok _ _ _ HT) [i; j; k; d]). rewrite (dr_shape _ _ _ HT) in Bd. specialize (Bd I).
  unfold loadv, load. replace ((0 <=? address (x_view t) [i; j; k; d]) && (address (x_view t) [i; j; k; d] <? b_len (x_buf t))) with true by lia.
  unfold elem in E. rewrite E. reflexivity.
Qed.
Lemma tok_load (T : tns R) V i j k d : dense_rows T [TB; TS; TD] V -> inr i j k -> 0 <= d < half ->
  loadv (x_buf T) (address (x_view T) (tok i j k ++ [0]) + d) = ROk (V (tok i j k ++ [d])).
Proof using All.
  intros H0 (Hi & Hj & Hk) Hd. unfold tok, n1, n2 in *. destruct lay; cbn [app]; apply (tab_load T TB TS TD); auto; lia.
Qed.
Lemma dims_ok : Forall (fun d => 0 <= d) shape.
Proof using All. assert (E := ok_dims _ (dr_ok _ _ _ HT)). rewrite (dr_shape _ _ _ HT) in E. exact E. Qed.
Lemma G_at i j k d : inr i j k -> 0 <= d < D ->
  G (orow i j k + d) = Some (rotated half (fun d => Sn (tok i j k ++ [d])) (fun d => Cs (tok i j k ++ [d])) (fun d => F [i; j; k; d]) d).
Proof using All.
  intros Hr Hd. rewrite <- o_addr. assert (I := row_in i j k d Hr Hd). unfold G. rewrite cell_value_at; [|rewrite HV1; apply dims_ok|rewrite HV1; exact I|].
  - unfold rope, token, tok. destruct lay; reflexivity.
  - rewrite HV1. intros q Hq E. apply HV5; auto.
Qed.
Lemma rows_apart lo n i j k i' j' k' d : 0 <= lo -> lo + n <= D -> inr i j k -> inr i' j' k' ->
  segment (orow i j k + lo) n d -> segment (orow i' j' k' + lo) n d -> i = i' /\ j = j' /\ k = k'.
Proof using All.
  intros Hlo Hn H1 H2 S1 S2. unfold segment in *. set (u := d - orow i j k). set (v := d - orow i' j' k').
  assert (E : [i; j; k; u] = [i'; j'; k'; v]).
  { apply HV5; [apply row_in; auto; unfold u; lia|apply row_in; auto; unfold v; lia|]. rewrite !o_addr. unfold u, v. ring. }
  inversion E. auto.
Qed.
Lemma row_room i j k lo n : inr i j k -> 0 <= lo -> 0 < n -> lo + n <= D -> forall o : buf R, b_len o = b_len o0 -> 0 <= orow i j k + lo /\ orow i j k + lo + n <= b_len o.
Proof using All.
  intros Hr Hlo Hn HD o L. assert (A := HV4 _ (row_in i j k lo Hr ltac:(lia))). assert (A2 := HV4 _ (row_in i j k (lo + n - 1) Hr ltac:(lia))). rewrite o_addr in A, A2. lia.
Qed.
Lemma same_row i j k : inplace = true -> arow i j k = orow i j k.
Proof using All. intro Q. unfold arow, orow. rewrite (proj1 (HI Q)). reflexivity. Qed.

Lemma pass1 : exists o, zloop B (fun i => zloop n1 (fun j => zloop n2 (fun k o => rotate_row a inplace (x_buf t) (arow i j k) (orow i j k) half (x_buf sn) (srow i j k) (x_buf cs) (crow i j k) o))) o0 = ROk o /\
  changes G (fun d => exists i j k, 0 <= i < B /\ 0 <= j < n1 /\ 0 <= k < n2 /\ segment (orow i j k) (2 * half) d) o0 o.
Proof using All.
  apply loop3_changes.
  - intros i j k i' j' k' d A1 A2 A3 A4 A5 A6 S1 S2. apply (rows_apart 0 (2 * half) i j k i' j' k' d); try lia; try (unfold inr; tauto); rewrite Z.add_0_r; auto.
  - intros i j k b1 Hi Hj Hk L E. assert (Hr : inr i j k) by (unfold inr; tauto).
    destruct (rotate_row_ok a inplace (x_buf t) (arow i j k) (orow i j k) half (x_buf sn) (srow i j k) (x_buf cs) (crow i j k) (fun d => F [i; j; k; d])
      (fun d => Sn (tok i j k ++ [d])) (fun d => Cs (tok i j k ++ [d])) b1) as (b2 & E2 & C2).
    + lia.
    + intro Q. assert (R := row_room i j k 0 (2 * half) Hr ltac:(lia) ltac:(lia) ltac:(lia) b1 L). lia.
    + split; [apply same_row|]. intros d Hd. assert (TL := t_load i j k d Hr ltac:(lia)). unfold source. destruct (Bool.bool_dec inplace true) as [IP|IP]; [rewrite IP|apply not_true_is_false in IP; rewrite IP; exact TL].
      destruct (HI IP) as [_ EB]. rewrite <- EB in TL. unfold loadv, load in *. rewrite L. rewrite (same_row i j k IP) in *. rewrite E by (unfold segment; lia). exact TL.
    + intros d Hd. apply tok_load; auto.
    + intros d Hd. apply tok_load; auto.
    + exists b2. split; [exact E2|]. eapply changes_ext; [|exact C2]. intros d Hd. unfold segment in Hd. cbn beta.
      rewrite <- (G_at i j k (d - orow i j k) Hr) by lia. f_equal. ring.
Qed.
Lemma pass2 o1 : b_len o1 = b_len o0 -> (forall i j k d, inr i j k -> 2 * half <= d < D -> b_at o1 (orow i j k + d) = b_at o0 (orow i j k + d)) ->
  exists o, zloop B (fun i => zloop n1 (fun j => zloop n2 (fun k o => tail_row a inplace (x_buf t) (arow i j k) (orow i j k) (half * 2) D o))) o1 = ROk o /\
  changes G (fun d => exists i j k, 0 <= i < B /\ 0 <= j < n1 /\ 0 <= k < n2 /\ segment (orow i j k + 2 * half) (D - 2 * half) d) o1 o.
Proof using All.
  intros L1 E1. apply loop3_changes.
  - intros i j k i' j' k' d A1 A2 A3 A4 A5 A6 S1 S2. apply (rows_apart (2 * half) (D - 2 * half) i j k i' j' k' d); try lia; try (unfold inr; tauto); auto.
  - intros i j k b1 Hi Hj Hk L E. assert (Hr : inr i j k) by (unfold inr; tauto).
    destruct (tail_row_ok a inplace (x_buf t) (arow i j k) (orow i j k) (half * 2) D (fun d => F [i; j; k; d]) b1) as (b2 & E2 & C2).
    + lia.
    + intro Q. assert (R := row_room i j k (2 * half) (D - 2 * half) Hr ltac:(lia) ltac:(lia) ltac:(lia) b1 ltac:(lia)). lia.
    + apply same_row.
    + intros d Hd. assert (TL := t_load i j k d Hr ltac:(lia)). unfold source. destruct (Bool.bool_dec inplace true) as [IP|IP]; [rewrite IP|apply not_true_is_false in IP; rewrite IP; exact TL].
      destruct (HI IP) as [_ EB]. rewrite <- EB in TL. unfold loadv, load in *. rewrite L, L1. rewrite (same_row i j k IP) in *. rewrite E by (unfold segment; lia). rewrite E1 by (auto; lia). exact TL.
    + exists b2. split; [exact E2|]. replace (half * 2) with (2 * half) in C2 by ring. eapply changes_ext; [|exact C2]. intros d Hd. unfold segment in Hd. cbn beta.
      replace d with (orow i j k + (d - orow i j k)) at 2 by ring. rewrite G_at by (auto; lia). unfold rotated.
      replace (d - orow i j k <? half) with false by lia. replace (d - orow i j k <? 2 * half) with false by lia. reflexivity.
Qed.
Lemma rope_core : exists o1 o, zloop B (fun i => zloop n1 (fun j => zloop n2 (fun k o => rotate_row a inplace (x_buf t) (arow i j k) (orow i j k) half (x_buf sn) (srow i j k) (x_buf cs) (crow i j k) o))) o0 = ROk o1 /\
  zloop B (fun i => zloop n1 (fun j => zloop n2 (fun k o => tail_row a inplace (x_buf t) (arow i j k) (orow i j k) (half * 2) D o))) o1 = ROk o /\
  b_len o = b_len o0 /\ (forall idx, in_shape shape idx -> b_at o (address ov idx) = Some (rope lay half Sn Cs F idx)) /\
  (forall d, (forall idx, in_shape shape idx -> address ov idx <> d) -> b_at o d = b_at o0 d).
Proof using All.
  destruct pass1 as (o1 & E1 & C1). destruct (pass2 o1) as (o & E2 & C2).
  - apply (c_len _ _ _ _ C1).
  - intros i j k d Hr Hd. apply (c_other _ _ _ _ C1). intros (i' & j' & k' & A1 & A2 & A3 & Sg). unfold segment in Sg.
    assert (Hr' : inr i' j' k') by (unfold inr; tauto).
    assert (E : [i; j; k; d] = [i'; j'; k'; orow i j k + d - orow i' j' k']).
    { apply HV5; [apply row_in; auto; lia|apply row_in; auto; lia|]. rewrite !o_addr. ring. }
    assert (EI : i = i') by congruence. assert (EJ : j = j') by congruence. assert (EK : k = k') by congruence. rewrite EI, EJ, EK in Sg. lia.
  - exists o1, o. split; [exact E1|]. split; [exact E2|]. split; [rewrite (c_len _ _ _ _ C2); apply (c_len _ _ _ _ C1)|].
    assert (TOT : forall idx, in_shape shape idx -> exists i j k d, idx = [i; j; k; d] /\ inr i j k /\ 0 <= d < D).
    { intros idx Hi. rewrite shape_eq in Hi. inversion Hi as [|i d0 r ds Hii Hr Q1 Q2]; subst. inversion Hr as [|j d1 r1 ds1 Hj Hr1 Q1 Q2]; subst.
      inversion Hr1 as [|k d2 r2 ds2 Hk Hr2 Q1 Q2]; subst. inversion Hr2 as [|c d3 r3 ds3 Hc Hr3 Q1 Q2]; subst. inversion Hr3; subst. exists i, j, k, c. unfold inr. auto. }
    split.
    + intros idx Hi. assert (GV : G (address ov idx) = Some (rope lay half Sn Cs F idx)).
      { unfold G. apply cell_value_at; rewrite HV1; [apply dims_ok|exact Hi|]. intros q Hq E. apply HV5; auto. }
      destruct (TOT idx Hi) as (i & j & k & d & Eidx & Hr & Hd). rewrite <- GV. rewrite Eidx, o_addr. destruct Hr as (R1 & R2 & R3).
      destruct (Z_lt_dec d (2 * half)) as [Q|Q].
      * rewrite (c_other _ _ _ _ C2); [apply (c_set _ _ _ _ C1); exists i, j, k; unfold segment; repeat split; auto; lia|].
        intros (i' & j' & k' & A1 & A2 & A3 & Sg). unfold segment in Sg.
        assert (E : [i; j; k; d] = [i'; j'; k'; orow i j k + d - orow i' j' k']).
        { apply HV5; [apply row_in; unfold inr; auto; lia|apply row_in; unfold inr; auto; lia|]. rewrite !o_addr. ring. }
        assert (EI : i = i') by congruence. assert (EJ : j = j') by congruence. assert (EK : k = k') by congruence. rewrite EI, EJ, EK in Sg. lia.
      * apply (c_set _ _ _ _ C2). exists i, j, k. unfold segment. repeat split; auto; lia.
    + intros d Hd. rewrite (c_other _ _ _ _ C2), (c_other _ _ _ _ C1); auto.
      * intros (i & j & k & A1 & A2 & A3 & Sg). unfold segment in Sg. apply (Hd [i; j; k; d - orow i j k]); [apply row_in; unfold inr; auto; lia|]. rewrite o_addr. ring.
      * intros (i & j & k & A1 & A2 & A3 & Sg). unfold segment in Sg. apply (Hd [i; j; k; d - orow i j k]); [apply row_in; unfold inr; auto; lia|]. rewrite o_addr. ring.
Qed.
End Rope.
