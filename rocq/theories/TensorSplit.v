(** Proofs about split, concat, stack and repeat. *)
From Verif Require Import Base DTypeModel ParamModel ParamSpec ParamProofs ParamMore TensorModel TensorSpec TensorProofs TensorViews.
Local Open Scope Z_scope.

(* ---------------- decomposing along a dimension ---------------- *)
Lemma list_at {X} (d : nat) (l : list X) x : (d < length l)%nat -> l = firstn d l ++ nth d l x :: skipn (S d) l.
Proof.
  revert d. induction l as [|y l IH]; intros [|d] H; cbn [length] in H; try lia; cbn [firstn nth skipn app]; auto.
  f_equal. apply IH. lia.
Qed.
Lemma with_coord_app d c a x b : length a = d -> with_coord d c (a ++ x :: b) = a ++ c :: b.
Proof. intros <-. unfold with_coord. apply upd_nth_app. Qed.
Lemma nth_mid {X} (a b : list X) x d y : length a = d -> nth d (a ++ x :: b) y = x.
Proof. intros <-. rewrite app_nth2 by lia. rewrite Nat.sub_diag. reflexivity. Qed.
Lemma firstn_mid {X} (a b : list X) d : length a = d -> firstn d (a ++ b) = a.
Proof. intros <-. rewrite firstn_app, Nat.sub_diag, firstn_all. cbn [firstn]. apply app_nil_r. Qed.
Lemma skipn_mid {X} (a b : list X) x d : length a = d -> skipn (S d) (a ++ x :: b) = b.
Proof.
  intros <-. rewrite skipn_app, skipn_all2 by lia.
  replace (S (length a) - length a)%nat with 1%nat by lia. reflexivity.
Qed.
Lemma skipn_mid0 {X} (a b : list X) d : length a = d -> skipn d (a ++ b) = b.
Proof. intros <-. rewrite skipn_app, skipn_all, Nat.sub_diag. reflexivity. Qed.

Lemma vget_ok {X} (l : list X) i x : 0 <= i < zlen l -> vget l i = ROk (nth (Z.to_nat i) l x).
Proof.
  intro H. unfold vget, zlen in *. replace (0 <=? i) with true by lia.
  destruct (nth_error l (Z.to_nat i)) eqn:E.
  - rewrite (nth_error_nth _ _ x E). reflexivity.
  - apply nth_error_None in E. lia.
Qed.
Lemma vset_ok {X} (l : list X) i x : 0 <= i < zlen l -> vset l i x = ROk (upd_nth (Z.to_nat i) (fun _ => x) l).
Proof. intro H. unfold vset. replace ((0 <=? i) && (i <? zlen l)) with true by lia. reflexivity. Qed.
Lemma vget_inv {X} (l : list X) i x : vget l i = ROk x -> 0 <= i < zlen l /\ forall y, nth (Z.to_nat i) l y = x.
Proof.
  unfold vget, zlen. destruct (Z.leb_spec 0 i); [|discriminate].
  destruct (nth_error l (Z.to_nat i)) eqn:E; [|discriminate]. intro Hx. apply ROk_inj in Hx. subst.
  assert (Z.to_nat i < length l)%nat by (apply nth_error_Some; congruence).
  split; [lia|]. intro y. apply nth_error_nth. auto.
Qed.

(* ---------------- split ---------------- *)
Lemma split_views_ok (v : view) d st : (d < length (v_shape v))%nat -> (length (v_shape v) <= 16)%nat ->
  length (v_stride v) = length (v_shape v) -> nth d (v_stride v) 0 = st -> forall sections sum,
  split_views v (Z.of_nat d) st sum sections =
  ROk (map (fun p => mkV (with_coord d (snd p) (v_shape v)) (v_stride v) (v_offset v + fst p * st))
         ((fix go sum l := match l with [] => [] | s :: r => (sum, s) :: go (sum + s) r end) sum sections)).
Proof.
  intros Hd Hl Hst Hs. induction sections as [|s r IH]; intro sum; [reflexivity|].
  cbn [split_views]. rewrite vset_ok by (unfold zlen; lia). cbn [rbind].
  unfold create_strided, zlen. rewrite length_upd_nth, Hst.
  replace ((Z.of_nat (length (v_shape v)) <=? 16) && _) with true by lia. cbn [rbind].
  rewrite IH. cbn [rbind map fst snd]. unfold with_coord. rewrite Nat2Z.id. reflexivity.
Qed.

(** The pieces: piece k is described by the split sections = before ++ s :: after. *)
Definition piece {A} (t : tns A) (d : nat) (p : Z * Z) : tns A :=
  mkTns (mkV (with_coord d (snd p) (x_shape t)) (x_stride t) (x_offset t + fst p * nth d (x_stride t) 0)) (x_buf t).
Fixpoint starts (sum : Z) (l : list Z) : list (Z * Z) :=
  match l with [] => [] | s :: r => (sum, s) :: starts (sum + s) r end.
Lemma starts_length l : forall sum, length (starts sum l) = length l.
Proof. induction l as [|s r IH]; intro sum; cbn [starts length]; auto. Qed.
Lemma starts_nth l : forall sum k, (k < length l)%nat ->
  nth k (starts sum l) (0, 0) = (sum + total (firstn k l), nth k l 0).
Proof.
  induction l as [|s r IH]; intros sum [|k] H; cbn [length] in H; try lia; cbn [starts nth firstn].
  - unfold total; cbn [fold_right]. f_equal. lia.
  - rewrite IH by lia. f_equal. unfold total. cbn [fold_right]. lia.
Qed.

Lemma split_sections_inv extent spec sections :
  0 <= extent -> Forall (fun s => 0 < s) spec -> split_sections extent spec = ROk sections ->
  total sections = extent /\ Forall (fun s => 0 < s) sections /\
  (forall s, spec = [s] -> Forall (eq s) sections) /\ (length spec <> 1%nat -> sections = spec).
Proof.
  intros He Hp H. unfold split_sections in H.
  assert (General : (if fold_left Z.add spec 0 =? extent then ROk spec else RAbort) = ROk sections ->
     total sections = extent /\ sections = spec).
  { destruct (Z.eqb_spec (fold_left Z.add spec 0) extent) as [E|]; [|discriminate].
    intro H1. apply ROk_inj in H1. subst sections. split; auto. rewrite <- E. clear.
    unfold total. rewrite fold_symmetric by (intros; lia). reflexivity. }
  destruct spec as [|s [|s2 r]].
  - destruct (General H) as [G1 ->]. repeat split; auto.
  - inversion Hp as [|? ? Hs _]; subst. replace (s =? 0) with false in H by lia.
    destruct (Z.eqb_spec (Z.rem extent s) 0) as [Hr|]; [|discriminate].
    apply ROk_inj in H. subst sections. rewrite Z.rem_mod_nonneg in Hr by lia. rewrite Z.quot_div_nonneg by lia.
    assert (Hq : 0 <= extent / s) by (apply Z.div_pos; lia).
    repeat split.
    + assert (E : forall n, total (repeat s n) = Z.of_nat n * s).
      { induction n as [|n IH]; [unfold total; cbn; lia|]. cbn [repeat]. unfold total in *. cbn [fold_right]. lia. }
      rewrite E, Z2Nat.id by lia. rewrite (Z_div_mod_eq_full extent s) at 2. lia.
    + apply Forall_forall. intros x Hx. apply repeat_spec in Hx. lia.
    + intros s' Es. injection Es as <-. apply Forall_forall. intros x Hx. apply repeat_spec in Hx. auto.
    + cbn [length]; lia.
  - destruct (General H) as [G1 ->]. repeat split; auto. discriminate.
Qed.

Lemma In_firstn_ {X} n (l : list X) x : In x (firstn n l) -> In x l.
Proof. revert n. induction l as [|y l IH]; intros [|n] H; cbn [firstn] in H; try contradiction. destruct H as [->|H]; [left; auto|right; eauto]. Qed.
Lemma In_skipn_ {X} n (l : list X) x : In x (skipn n l) -> In x l.
Proof. revert n. induction l as [|y l IH]; intros [|n] H; cbn [skipn] in H; try contradiction; auto. right; eauto. Qed.
Lemma in_shape_split d shape c idx : (d < length shape)%nat ->
  in_shape (with_coord d c shape) idx <->
  exists a x b, idx = a ++ x :: b /\ length a = d /\ in_shape (firstn d shape) a /\ 0 <= x < c /\ in_shape (skipn (S d) shape) b.
Proof.
  intros Hd. assert (Hf : length (firstn d shape) = d) by (rewrite firstn_length; lia).
  rewrite (list_at d shape 0) at 1 by auto. rewrite with_coord_app by auto. split.
  - intro H. assert (Hl := in_shape_length _ _ H). rewrite app_length in Hl. cbn [length] in Hl.
    exists (firstn d idx), (nth d idx 0), (skipn (S d) idx).
    assert (Hfi : length (firstn d idx) = d) by (rewrite firstn_length; lia).
    rewrite (list_at d idx 0) in H by lia. apply in_shape_app in H as [H1 H2]; [|lia].
    apply in_shape_cons in H2 as [H2 H3]. repeat split; auto; try lia. apply list_at. lia.
  - intros (a & x & b & -> & Ha & H1 & H2 & H3). apply in_shape_app; [lia|].
    split; auto. apply in_shape_cons; auto.
Qed.
Lemma with_coord_id d shape : (d < length shape)%nat -> with_coord d (nth d shape 0) shape = shape.
Proof.
  intro H. rewrite (list_at d shape 0) at 2 by auto. rewrite with_coord_app by (rewrite firstn_length; lia).
  symmetry. apply list_at; auto.
Qed.
Lemma with_coord_length d c l : length (with_coord d c l) = length l.
Proof. apply length_upd_nth. Qed.
Lemma with_coord_twice d c c' l : with_coord d c (with_coord d c' l) = with_coord d c l.
Proof.
  unfold with_coord. revert d. induction l as [|x l IH]; intros [|d]; cbn [upd_nth]; auto. f_equal. apply IH.
Qed.
Lemma nth_with_coord_eq d c l y : (d < length l)%nat -> nth d (with_coord d c l) y = c.
Proof.
  intro H. unfold with_coord. rewrite nth_upd_nth. rewrite Nat.eqb_refl. replace (d <? length l)%nat with true by lia. reflexivity.
Qed.
Lemma nth_with_coord_ne d c l k y : k <> d -> nth k (with_coord d c l) y = nth k l y.
Proof.
  intro H. unfold with_coord. rewrite nth_upd_nth. replace (Nat.eqb d k) with false by lia. reflexivity.
Qed.

Lemma piece_elem {A} (t : tns A) d p idx : (d < length idx)%nat -> (d < length (x_stride t))%nat ->
  address (x_view (piece t d p)) idx = address (x_view t) (with_coord d (nth d idx 0 + fst p) idx).
Proof.
  intros Hd Hs. rewrite !address_dot. unfold piece. cbn [x_view v_offset v_stride].
  unfold x_offset, x_stride in *. set (st := v_stride (x_view t)) in *.
  assert (Hf : length (firstn d idx) = d) by (rewrite firstn_length; lia).
  assert (Hf2 : length (firstn d st) = d) by (rewrite firstn_length; lia).
  rewrite (list_at d idx 0) by auto. rewrite with_coord_app by auto. rewrite (list_at d st 0) at 2 3 by auto.
  rewrite !dot_app by lia. cbn [dot]. rewrite nth_mid by auto. lia.
Qed.

Lemma total_app a b : total (a ++ b) = total a + total b.
Proof. unfold total. induction a as [|x a IH]; cbn [app fold_right]; [lia|]. rewrite IH. lia. Qed.
Lemma total_nonneg l : Forall (fun s => 0 <= s) l -> 0 <= total l.
Proof. unfold total. induction 1; cbn [fold_right]; lia. Qed.

Theorem split_correct {A} (t : tns A) dim spec ts :
  tensor_ok t -> Forall (fun s => 0 < s) spec -> split t dim spec = ROk ts ->
  exists d sections, norm_dim (zlen (x_shape t)) dim = Z.of_nat d /\ (d < length (x_shape t))%nat /\
    total sections = nth d (x_shape t) 0 /\ Forall (fun s => 0 < s) sections /\
    (length spec <> 1%nat -> sections = spec) /\ (forall s, spec = [s] -> Forall (eq s) sections) /\
    ts = map (piece t d) (starts 0 sections) /\
    forall before s after, sections = before ++ s :: after ->
      exists p, nth_error ts (length before) = Some p /\ tensor_ok p /\ x_buf p = x_buf t /\
        x_shape p = with_coord d s (x_shape t) /\
        forall idx, in_shape (x_shape p) idx ->
          in_shape (x_shape t) (with_coord d (nth d idx 0 + total before) idx) /\
          elem p idx = elem t (with_coord d (nth d idx 0 + total before) idx).
Proof.
  intros Hok Hspec H. destruct Hok as [o1 o2 o3 o4]. unfold split in H.
  set (dd := norm_dim (zlen (x_shape t)) dim) in *.
  destruct (vget (x_shape t) dd) as [extent| | |] eqn:Ev; cbn [rbind] in H; try discriminate.
  apply vget_inv in Ev as [Hdd Hext]. specialize (Hext 0).
  destruct (split_sections extent spec) as [sections| | |] eqn:Es; cbn [rbind] in H; try discriminate.
  set (d := Z.to_nat dd) in *. assert (Hd : dd = Z.of_nat d) by lia.
  assert (Hdl : (d < length (x_shape t))%nat) by (unfold zlen in Hdd; lia).
  assert (Hpos : 0 <= extent).
  { rewrite <- Hext. rewrite Forall_forall in o3. apply o3. apply nth_In. auto. }
  destruct (split_sections_inv extent spec sections Hpos Hspec Es) as (S1 & S2 & S3 & S4).
  rewrite (vget_ok (x_stride t) dd 0) in H by (unfold zlen in *; lia). cbn [rbind] in H.
  fold d in H. rewrite Hd in H. unfold x_shape, x_stride in *.
  rewrite (split_views_ok (x_view t) d (nth d (v_stride (x_view t)) 0)) in H by (auto; lia).
  cbn [rbind] in H. apply ROk_inj in H. fold starts in H.
  assert (Hts : ts = map (piece t d) (starts 0 sections)).
  { rewrite <- H. rewrite map_map. reflexivity. }
  exists d, sections. repeat split; auto; [congruence|].
  intros before s after ->. exists (piece t d (total before, s)).
  assert (Hsp : 0 < s). { apply Forall_app in S2 as [_ S2]. inversion S2; auto. }
  assert (Hb : 0 <= total before).
  { apply total_nonneg. apply Forall_app in S2 as [S2 _]. eapply Forall_impl; [|exact S2]. cbn beta. lia. }
  assert (Ha : 0 <= total after).
  { apply total_nonneg. apply Forall_app in S2 as [_ S2]. inversion S2 as [|? ? _ S2']; subst. eapply Forall_impl; [|exact S2']. cbn beta. lia. }
  assert (Hsum : total before + s + total after = nth d (v_shape (x_view t)) 0).
  { rewrite Hext, <- S1. rewrite total_app. unfold total at 4. cbn [fold_right]. fold (total after). lia. }
  assert (Hin : forall idx, in_shape (with_coord d s (v_shape (x_view t))) idx ->
     in_shape (v_shape (x_view t)) (with_coord d (nth d idx 0 + total before) idx)).
  { intros idx Hi. apply in_shape_split in Hi as (a & x & b & -> & La & I1 & I2 & I3); auto.
    rewrite nth_mid, with_coord_app by auto.
    rewrite <- (with_coord_id d (v_shape (x_view t))) by auto. apply in_shape_split; auto.
    exists a, (x + total before), b. repeat split; auto; lia. }
  split.
  { rewrite Hts. rewrite nth_error_map.
    rewrite (nth_error_nth' _ (0, 0)) by (rewrite starts_length, app_length; cbn [length]; lia).
    rewrite starts_nth by (rewrite app_length; cbn [length]; lia).
    rewrite firstn_mid, nth_mid by auto. reflexivity. }
  assert (Hlen : forall idx, in_shape (with_coord d s (v_shape (x_view t))) idx -> (d < length idx)%nat).
  { intros idx Hi. apply in_shape_length in Hi. rewrite with_coord_length in Hi. lia. }
  split; [|split; [reflexivity|split; [reflexivity|]]].
  - constructor; unfold piece, x_shape, x_stride; cbn [x_view x_buf v_shape v_stride].
    + rewrite with_coord_length. auto.
    + rewrite with_coord_length. auto.
    + rewrite Forall_forall. intros x Hx.
      rewrite (list_at d (v_shape (x_view t)) 0) in Hx by auto.
      rewrite (with_coord_app d s) in Hx by (rewrite firstn_length; lia).
      apply in_app_or in Hx as [Hx|[<-|Hx]]; [|lia|].
      * rewrite Forall_forall in o3. apply o3. eapply (In_firstn_); eauto.
      * rewrite Forall_forall in o3. apply o3. eapply (In_skipn_); eauto.
    + intros idx Hi. fold (piece t d (total before, s)).
      change (mkV _ _ _) with (x_view (piece t d (total before, s))).
      rewrite piece_elem by (auto; unfold x_stride; rewrite ?o2; auto). cbn [fst]. apply o4. apply Hin; auto.
  - intros idx Hi. split; [apply Hin; auto|]. unfold elem. rewrite piece_elem by (auto; unfold x_stride; rewrite ?o2; auto).
    reflexivity.
Qed.
