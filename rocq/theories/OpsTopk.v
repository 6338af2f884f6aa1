(** Proofs about the CPU operators, part 5: top-k. *)
From Verif Require Import Base DTypeModel ParamModel ParamSpec ParamProofs TensorModel TensorSpec TensorProofs TensorSplit
  OpsModel OpsSpec OpsProofs OpsIndex OpsMask OpsSort.
Local Open Scope Z_scope.

Section Select.
Context {A : Type}.
Variable before : A -> A -> bool.
Variable push : A * Z -> list (A * Z) -> list (A * Z).
Variable pop : list (A * Z) -> option ((A * Z) * list (A * Z)).
Hypothesis SW : strict_weak before.
Hypothesis HQ : is_queue (by_value before) push pop.

Lemma before_asym a b : before a b = true -> before b a = false.
Proof using SW. intro H. destruct (before b a) eqn:Q; auto. assert (X := sw_trans _ SW _ _ _ H Q). rewrite (sw_irrefl _ SW) in X. discriminate. Qed.

(** The heap holds the k best items seen: none of the others comes before one of them. *)
Definition keeps (k : Z) (seen heap : list (A * Z)) : Prop :=
  exists rest, Permutation seen (heap ++ rest) /\ zlen heap <= k /\ (zlen heap < k -> rest = []) /\
    forall r y, In r rest -> In y heap -> before (fst r) (fst y) = false.

Lemma scan_keeps k : 1 <= k -> forall items seen heap, keeps k seen heap ->
  exists heap', topk_scan before push pop k items heap = ROk heap' /\ keeps k (items ++ seen) heap'.
Proof using SW HQ.
  intros Hk. destruct HQ as [Hpush Hpop]. induction items as [|x items IH]; intros seen heap K; cbn [topk_scan app].
  - exists heap. auto.
  - destruct K as (rest & P & L & E & B).
    assert (PP : forall h', keeps k (x :: seen) h' -> exists heap', topk_scan before push pop k items h' = ROk heap' /\ keeps k (x :: items ++ seen) heap').
    { intros h' K'. destruct (IH _ _ K') as (h2 & E2 & (r2 & Q1 & Q2)). exists h2. split; auto. exists r2. split; auto.
      rewrite <- Q1. apply Permutation_middle. }
    destruct (zlen heap <? k) eqn:Q.
    + apply PP. exists []. assert (Px := Hpush x heap).
      assert (LP : zlen (push x heap) = zlen heap + 1) by (unfold zlen; rewrite <- (Permutation_length Px); cbn [length]; lia).
      split; [|split; [lia|split; [auto|intros r y []]]].
      rewrite app_nil_r, <- Px, P, E by lia. rewrite app_nil_r. reflexivity.
    + specialize (Hpop heap). destruct (pop heap) as [[top r']|].
      2:{ subst heap. unfold zlen in Q. cbn in Q. lia. }
      destruct Hpop as [Pt Ft]. rewrite Forall_forall in Ft. unfold by_value in Ft.
      assert (Htop : In top heap) by (eapply Permutation_in; [symmetry; exact Pt|left; auto]).
      destruct (before (fst x) (fst top)) eqn:Bx; apply PP.
      * exists (top :: rest). assert (Px := Hpush x r').
        assert (LP : zlen (push x r') = zlen heap) by (unfold zlen; rewrite <- (Permutation_length Px), (Permutation_length Pt); reflexivity).
        split; [|split; [lia|split; [lia|]]].
        { rewrite <- Px, P, Pt. cbn [app]. apply perm_skip. apply Permutation_middle. }
        intros r y Hr Hy. apply (Permutation_in _ (Permutation_sym Px)) in Hy.
        assert (Btx := before_asym _ _ Bx).
        destruct Hr as [<-|Hr]; destruct Hy as [<-|Hy]; auto.
        -- apply Ft. eapply Permutation_in; [symmetry; exact Pt|right; auto].
        -- eapply (sw_incomp _ SW); [apply B; [exact Hr|exact Htop]|exact Btx].
        -- apply B; auto. eapply Permutation_in; [symmetry; exact Pt|right; auto].
      * exists (x :: rest). split; [|split; [lia|split; [lia|]]].
        { rewrite P. apply Permutation_middle. }
        intros r y [<-|Hr] Hy; auto. eapply (sw_incomp _ SW); [exact Bx|]. apply Ft. auto.
Qed.

Lemma drain_perm : forall fuel heap, length heap = fuel -> Permutation (topk_drain pop fuel heap) heap.
Proof using HQ.
  destruct HQ as [_ Hpop]. induction fuel as [|f IH]; intros heap L; cbn [topk_drain].
  - destruct heap; [constructor|discriminate].
  - specialize (Hpop heap). destruct (pop heap) as [[top r']|].
    + destruct Hpop as [P _]. rewrite IH; [symmetry; exact P|]. apply Permutation_length in P. cbn [length] in P. lia.
    + subst heap. discriminate.
Qed.

(** What one lane yields. *)
Definition best (k : Z) (items chosen : list (A * Z)) : Prop :=
  exists rest, Permutation items (chosen ++ rest) /\ zlen chosen = k /\
    forall r y, In r rest -> In y chosen -> before (fst r) (fst y) = false.

Lemma topk_lane_spec sort (vals : list A) k : (forall l, Permutation l (sort l)) -> 1 <= k <= zlen vals ->
  exists chosen l, topk_lane before push pop sort k vals = ROk chosen /\ chosen = sort l /\
    best k (combine vals (positions (length vals))) chosen.
Proof using SW HQ.
  intros Hs Hk. unfold topk_lane. set (items := combine vals (positions (length vals))).
  destruct (scan_keeps k ltac:(lia) items [] []) as (heap & E & (rest & P & L & Er & B)).
  { exists []. split; [constructor|]. split; [unfold zlen; cbn; lia|]. split; auto. intros r y []. }
  rewrite E. cbn [rbind]. set (l := topk_drain pop (length heap) heap).
  assert (Pl : Permutation l heap) by (apply drain_perm; auto).
  exists (sort l), l. split; [reflexivity|]. split; [reflexivity|]. exists rest.
  assert (Ps : Permutation (sort l) heap) by (rewrite <- Hs; auto).
  rewrite app_nil_r in P. split; [rewrite Ps; exact P|]. split.
  - assert (LI : zlen items = zlen vals) by (unfold items, zlen; rewrite combine_length, positions_length; lia).
    assert (LS : zlen (sort l) = zlen heap) by (unfold zlen; rewrite (Permutation_length Ps); reflexivity).
    assert (LP : zlen items = zlen heap + zlen rest) by (unfold zlen; rewrite (Permutation_length P), app_length; lia).
    destruct (Z_lt_le_dec (zlen heap) k) as [Hlt|Hge]; [|lia].
    rewrite (Er Hlt) in LP. unfold zlen at 3 in LP. cbn in LP. lia.
  - intros r y Hr Hy. apply B; auto. eapply Permutation_in; eauto.
Qed.
End Select.

Lemma good_loop2 {A B} (G1 : Z -> option A) (G2 : Z -> option B) n (P : Z -> Z -> Prop) body (s : buf A * buf B) L :
  b_len (fst s) = L -> b_len (snd s) = L ->
  (forall i s, 0 <= i < n -> b_len (fst s) = L -> b_len (snd s) = L ->
     exists s', body i s = ROk s' /\ good G1 (P i) (fst s) (fst s') /\ good G2 (P i) (snd s) (snd s')) ->
  exists s', zloop n body s = ROk s' /\ good G1 (fun d => exists i, 0 <= i < n /\ P i d) (fst s) (fst s') /\
    good G2 (fun d => exists i, 0 <= i < n /\ P i d) (snd s) (snd s').
Proof.
  intros H1 H2 Hb. destruct (Z_lt_le_dec n 0) as [Hn|Hn].
  { rewrite zloop_0 by lia. exists s. split; auto. split; (eapply good_weaken; [|apply good_refl]; intros d (i & Hi & _); lia). }
  destruct (zloop_inv (fun i s' => good G1 (fun d => exists j, 0 <= j < i /\ P j d) (fst s) (fst s') /\
     good G2 (fun d => exists j, 0 <= j < i /\ P j d) (snd s) (snd s')) n body s Hn) as (s' & E & Q); [| |eauto].
  - split; (eapply good_weaken; [|apply good_refl]; intros d (i & Hi & _); lia).
  - intros i s' Hi [Q1 Q2].
    destruct (Hb i s' Hi) as (s2 & E2 & R1 & R2); [rewrite (g_len _ _ _ _ Q1); auto|rewrite (g_len _ _ _ _ Q2); auto|].
    exists s2. split; auto. split; (eapply good_weaken; [|eapply good_trans; eauto]); intros d (j & Hj & Pj);
      (destruct (Z.eq_dec j i) as [->|N]; [right; auto|left; exists j; split; auto; lia]).
Qed.

Lemma nodup_app_left {X} (a b : list X) : NoDup (a ++ b) -> NoDup a.
Proof.
  induction a as [|x a IH]; intro H; [constructor|]. inversion H as [|? ? H1 H2]; subst. constructor; auto.
  intro Hin. apply H1. apply in_or_app; auto.
Qed.
Lemma combine_nodup {A} (vals : list A) : NoDup (map snd (combine vals (positions (length vals)))).
Proof.
  rewrite map_snd_combine. unfold positions. apply FinFun.Injective_map_NoDup; [intros a b; lia|apply seq_NoDup].
Qed.

Theorem topk_correct {A} (before : A -> A -> bool) push pop sort (x : tns A) k dim d :
  tensor_ok x -> contiguous x -> names_dim (length (x_shape x)) dim d ->
  (forall idx, in_shape (x_shape x) idx -> elem x idx <> None) ->
  strict_weak before -> is_queue (by_value before) push pop -> (forall l, Permutation l (sort l)) ->
  1 <= k <= nth d (x_shape x) 0 ->
  let oshape := with_coord d k (x_shape x) in
  exists values indices, topk_op before push pop sort x k dim = ROk (values, indices) /\
    (x_shape values = oshape /\ tensor_ok values /\ owns_storage values) /\
    (x_shape indices = oshape /\ tensor_ok indices /\ owns_storage indices) /\
    forall idx, in_shape oshape idx ->
      exists chosen,
        along values d idx = map (fun p => Some (fst p)) chosen /\
        along indices d idx = map (fun p => Some (snd p)) chosen /\
        (exists l, chosen = sort l) /\
        NoDup (map snd chosen) /\
        (forall w p, In (w, p) chosen -> 0 <= p < nth d (x_shape x) 0 /\ elem x (with_coord d p idx) = Some w) /\
        (forall q w v p, 0 <= q < nth d (x_shape x) 0 -> ~ In q (map snd chosen) ->
           elem x (with_coord d q idx) = Some w -> In (v, p) chosen -> before w v = false).
Proof.
  intros Ox Cx [Hd Hdim] Hw SW HQ Hsort Hk oshape. unfold topk_op.
  set (sh := x_shape x) in *. set (n := nth d sh 0) in *. set (pre := firstn d sh). set (post := skipn (S d) sh).
  assert (EN : norm_dim (zlen sh) dim = Z.of_nat d) by (unfold norm_dim, zlen; destruct (dim <? 0) eqn:Q; lia).
  assert (Esh : sh = pre ++ n :: post) by (apply ln_shape; auto).
  assert (Lp : length pre = d) by (apply ln_len; auto).
  destruct (ln_dims x d Ox Hd) as (D1 & Hn & D2). fold sh in D1, Hn, D2. fold pre in D1. fold n in Hn. fold post in D2.
  assert (Eos : oshape = pre ++ k :: post) by (unfold oshape; rewrite Esh; apply with_coord_app; auto).
  assert (Ros : (1 <= length oshape <= 16)%nat) by (unfold oshape; rewrite with_coord_length; apply Ox).
  assert (Hos : Forall (fun d => 0 <= d) oshape) by (rewrite Eos; apply Forall_app; split; auto; constructor; auto; lia).
  cbv zeta. rewrite EN. unfold vset. replace ((0 <=? Z.of_nat d) && (Z.of_nat d <? zlen sh)) with true by (unfold zlen; lia).
  rewrite Nat2Z.id. cbn [rbind]. fold (with_coord d k sh). fold oshape. rewrite !fresh_ok by auto. cbn [rbind x_buf x_view].
  rewrite (vget_nth sh _ 0) by (unfold zlen; lia). rewrite Nat2Z.id. fold n pre post. cbn [rbind].
  rewrite !numel_product. set (O := product pre). set (I := product post).
  set (cell := fun u v i => match lane (x_buf x) (x_offset x + u * n * I + v) I n with
     | ROk vals => match topk_lane before push pop sort k vals with ROk c => nth_error c (Z.to_nat i) | _ => None end
     | _ => None end).
  set (f1 := fun u v i => option_map fst (cell u v i)). set (f2 := fun u v i => option_map snd (cell u v i)).
  set (F1 := by_lane d pre post f1). set (F2 := by_lane d pre post f2).
  assert (LN : forall p q, in_shape pre p -> in_shape post q -> exists vals, zlen vals = n /\
    (forall i, 0 <= i < n -> elem x (p ++ i :: q) = nth_error vals (Z.to_nat i)) /\
    lane (x_buf x) (x_offset x + ravel pre p * n * I + ravel post q) I n = ROk vals).
  { intros p q Hp Hq. destruct (ln_lane x d Ox Cx Hd p q Hp Hq Hw) as (vals & V1 & V2 & V3 & V4). exists vals. split; auto. split; auto.
    apply lane_list; auto. }
  assert (EP : product oshape = O * (k * I)) by (rewrite Eos, product_app, product_cons; reflexivity).
  set (body := fun u v (s : buf A * buf Z) =>
    do vals <- lane (x_buf x) (x_offset x + u * n * I + v) I n;
    do chosen <- topk_lane before push pop sort k vals;
    zloop k (fun i s =>
      do p <- vget chosen i;
      do bv <- store (fst s) (u * k * I + i * I + v) (Some (fst p));
      do bi <- store (snd s) (u * k * I + i * I + v) (Some (snd p));
      ROk (bv, bi)) s).
  destruct (good_loop2 (at_pos oshape F1) (at_pos oshape F2) O (fun u p => exists v i, 0 <= v < I /\ 0 <= i < k /\ p = u * k * I + i * I + v)
    (fun u s => zloop I (body u) s) (mkBuf (product oshape) (fun _ => None), mkBuf (product oshape) (fun _ => None)) (product oshape) eq_refl eq_refl) as (o & E & G1 & G2).
  { intros u b Hu Hb1 Hb2.
    destruct (good_loop2 (at_pos oshape F1) (at_pos oshape F2) I (fun v p => exists i, 0 <= i < k /\ p = u * k * I + i * I + v) (body u) b (product oshape) Hb1 Hb2) as (b1 & E1 & Q1 & Q2).
    { intros v b1 Hv Hc1 Hc2. unfold body.
      destruct (unravel_spec pre u D1 Hu) as [A1 A2]. destruct (unravel_spec post v D2 Hv) as [B1 B2].
      destruct (LN _ _ A1 B1) as (vals & V2 & V3 & V4). rewrite A2, B2 in V4. rewrite V4. cbn [rbind].
      destruct (topk_lane_spec before push pop SW HQ sort vals k Hsort ltac:(lia)) as (chosen & l & C1 & _ & (rest & _ & C2 & _)).
      rewrite C1. cbn [rbind].
      destruct (good_loop2 (at_pos oshape F1) (at_pos oshape F2) k (fun i => eq (u * k * I + i * I + v))
        (fun i s => do p <- vget chosen i;
           do bv <- store (fst s) (u * k * I + i * I + v) (Some (fst p));
           do bi <- store (snd s) (u * k * I + i * I + v) (Some (snd p));
           ROk (bv, bi)) b1 (product oshape) Hc1 Hc2) as (b2 & E2 & R1 & R2).
      { intros i b2 Hi Hd1 Hd2. destruct (nth_error chosen (Z.to_nat i)) as [pr|] eqn:Epr; [|apply nth_error_None in Epr; unfold zlen in C2; lia].
        rewrite (vget_error _ _ pr) by (auto; lia). cbn [rbind].
        assert (BD := lane_cells u k I v i ltac:(lia) Hv Hi O ltac:(lia)).
        assert (CE : cell u v i = Some pr) by (unfold cell; rewrite V4, C1, Epr; reflexivity).
        destruct (good_store (at_pos oshape F1) (fst b2) (u * k * I + i * I + v) (Some (fst pr))) as (w1 & W1 & W2); [lia| |].
        { rewrite Eos. unfold F1. rewrite <- Lp at 1. rewrite wl_G by (auto; lia). unfold f1. rewrite CE. reflexivity. }
        destruct (good_store (at_pos oshape F2) (snd b2) (u * k * I + i * I + v) (Some (snd pr))) as (w3 & W3 & W4); [lia| |].
        { rewrite Eos. unfold F2. rewrite <- Lp at 1. rewrite wl_G by (auto; lia). unfold f2. rewrite CE. reflexivity. }
        rewrite W1. cbn [rbind]. rewrite W3. cbn [rbind]. eexists. split; [reflexivity|]. cbn [fst snd]. auto. }
      exists b2. split; auto. split; (eapply good_weaken; [|eassumption]); intros p (i & Hi & ->); exists i; auto. }
    exists b1. split; auto. split; (eapply good_weaken; [|eassumption]); intros p (v & i & Hv & Hi & ->); exists v; split; auto; exists i; auto. }
  unfold body in E. cbv zeta in E. rewrite E. cbn [rbind fst snd]. cbn [fst snd] in G1, G2.
  assert (CV : forall p, 0 <= p < product oshape -> exists u, 0 <= u < O /\ exists v i, 0 <= v < I /\ 0 <= i < k /\ p = u * k * I + i * I + v).
  { intros p Hp. rewrite Eos in Hp. destruct (wl_cover pre post k p D1 D2 ltac:(lia) Hp) as (u & v & i & Hu & Hv & Hi & ->).
    exists u. split; auto. exists v, i. auto. }
  destruct (produces_good oshape F1 _ (fst o) Ros Hos G1 CV) as (P1 & P2 & P3 & P4).
  destruct (produces_good oshape F2 _ (snd o) Ros Hos G2 CV) as (Q1 & Q2 & Q3 & Q4).
  do 2 eexists. split; [reflexivity|]. split; [auto|]. split; [auto|].
  intros idx Hidx. rewrite Eos in Hidx. destruct (in_shape_app_inv _ _ _ Hidx) as (I1 & I2 & EI).
  remember (firstn (length pre) idx) as p. remember (skipn (length pre) idx) as cq. clear Heqp Heqcq.
  destruct cq as [|c q]; [inversion I2|]. apply in_shape_cons in I2 as [Hc I2].
  assert (Lpp : length p = d) by (rewrite (in_shape_length _ _ I1); auto).
  destruct (LN _ _ I1 I2) as (vals & V2 & V3 & V4).
  destruct (topk_lane_spec before push pop SW HQ sort vals k Hsort ltac:(lia)) as (chosen & l & C1 & C1' & (rest & C3 & C2 & C4)).
  exists chosen.
  assert (EW : forall i, with_coord d i idx = p ++ i :: q) by (intro i; rewrite EI; apply with_coord_app; auto).
  assert (EN2 : nth d oshape 0 = k) by (rewrite Eos; apply nth_mid; auto).
  assert (CE : forall i, cell (ravel pre p) (ravel post q) i = nth_error chosen (Z.to_nat i)) by (intro i; unfold cell; rewrite V4, C1; reflexivity).
  assert (AL : forall {T} (t : tns T) (g : A * Z -> T), x_shape t = oshape ->
     (forall i, in_shape oshape (p ++ i :: q) -> elem t (p ++ i :: q) = option_map g (nth_error chosen (Z.to_nat i))) ->
     along t d idx = map (fun pr => Some (g pr)) chosen).
  { intros T t g Et Eg. unfold along. rewrite Et, EN2. apply nth_error_ext. intro j. rewrite !nth_error_map.
    destruct (Nat.lt_ge_cases j (Z.to_nat k)) as [Hj|Hj].
    - rewrite (nth_error_nth' _ 0%nat) by (rewrite seq_length; auto). rewrite seq_nth by auto. cbn [option_map Nat.add]. rewrite EW.
      rewrite Eg by (rewrite Eos; apply in_shape_app; [lia|]; split; auto; apply in_shape_cons; split; auto; lia).
      rewrite Nat2Z.id. destruct (nth_error chosen j) eqn:Epr; [reflexivity|]. apply nth_error_None in Epr. unfold zlen in C2. lia.
    - rewrite (proj2 (nth_error_None _ _)) by (rewrite seq_length; auto).
      rewrite (proj2 (nth_error_None chosen _)) by (unfold zlen in C2; lia). reflexivity. }
  split. { apply (AL _ _ fst P1). intros i Hi. rewrite P4 by auto. unfold F1, by_lane. rewrite nth_mid, firstn_mid, skipn_mid by auto. unfold f1. rewrite CE. reflexivity. }
  split. { apply (AL _ _ snd Q1). intros i Hi. rewrite Q4 by auto. unfold F2, by_lane. rewrite nth_mid, firstn_mid, skipn_mid by auto. unfold f2. rewrite CE. reflexivity. }
  split; [exists l; auto|].
  assert (ND : NoDup (map snd (chosen ++ rest))).
  { eapply Permutation_NoDup; [apply Permutation_map; exact C3|]. apply combine_nodup. }
  split. { rewrite map_app in ND. exact (nodup_app_left _ _ ND). }
  split.
  { intros w j Hin. rewrite EW. assert (Hin2 : In (w, j) (combine vals (positions (length vals)))) by (eapply Permutation_in; [symmetry; exact C3|apply in_or_app; auto]).
    destruct (combine_positions _ _ _ Hin2) as [R1 R2]. rewrite V3 by lia. split; [lia|exact R2]. }
  intros j w v i Hj Hnin Ew Hin. rewrite EW, V3 in Ew by auto.
  assert (Hr : In (w, j) rest).
  { assert (Hin2 : In (w, j) (combine vals (positions (length vals)))).
    { apply (nth_error_In _ (Z.to_nat j)). rewrite (nth_error_nth' _ (w, j)) by (rewrite combine_length, positions_length; unfold zlen in V2; lia).
      rewrite combine_nth by (rewrite positions_length; reflexivity). f_equal. f_equal.
      - rewrite (nth_error_nth _ _ _ Ew). reflexivity.
      - unfold positions. rewrite nth_map_seq by (unfold zlen in V2; lia). lia. }
    apply (Permutation_in _ C3) in Hin2. apply in_app_or in Hin2 as [H|H]; auto. destruct Hnin. apply (in_map snd) in H. exact H. }
  exact (C4 _ _ Hr Hin).
Qed.
