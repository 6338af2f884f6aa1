(** Proofs about rotary position embeddings, part 4: rotations. *)
From Coq Require Import Reals Lra Psatz.
From Verif Require Import Base DTypeModel ParamModel ParamSpec ParamProofs TensorModel TensorSpec TensorProofs TensorSplit
  OpsModel OpsSpec OpsProofs OpsIndex OpsSum MatModel MatSpec MatProofs MatKernel MatOps ExpModel ExpProofs
  AttnModel AttnSpec AttnProofs AttnOps NumModel NumSpec NumProofs NumNorm RopeModel RopeSpec RopeProofs RopeOps RopeTables.
Local Open Scope Z_scope.

Lemma total_shift n f k : 0 <= k -> 0 <= n -> total_over (range (n + k)) f = (total_over (range n) f + total_over (range k) (fun d => f (n + d)%Z))%R.
Proof.
  intros Hk Hn. pattern k. apply natlike_ind; [| |auto].
  - rewrite Z.add_0_r. change (range 0) with (@nil Z). unfold total_over at 3. cbn. ring.
  - intros x Hx IH. rewrite <- !Z.add_1_r. rewrite Z.add_assoc, !range_succ by lia. rewrite !total_app, IH. unfold total_over. cbn [map fold_right]. ring.
Qed.
Lemma total_add js f g : total_over js (fun d => f d + g d)%R = (total_over js f + total_over js g)%R.
Proof. unfold total_over. induction js as [|j js IH]; cbn [map fold_right]; [ring|]. rewrite IH. ring. Qed.
(** A sum over a row, pair by pair. *)
Lemma total_pairs half D f : 0 <= half -> 2 * half <= D ->
  total_over (range D) f = (total_over (range half) (fun d => f d + f (half + d)%Z) + total_over (range (D - 2 * half)) (fun d => f (2 * half + d)%Z))%R.
Proof.
  intros H1 H2. replace D with (half + half + (D - 2 * half)) at 1 by ring. rewrite total_shift by lia. rewrite total_shift by lia. rewrite total_add.
  f_equal. apply total_ext. intros j _. f_equal. ring.
Qed.
Lemma rotated_first half s c x d : 0 <= d < half -> rotated half s c x d = (x d * c d - x (d + half)%Z * s d)%R.
Proof. intro H. unfold rotated. replace (d <? half) with true by lia. reflexivity. Qed.
Lemma rotated_second half s c x d : 0 <= d < half -> rotated half s c x (half + d) = (x d * s d + x (d + half)%Z * c d)%R.
Proof. intro H. unfold rotated. replace (half + d <? half) with false by lia. replace (half + d <? 2 * half) with true by lia. replace (half + d - half) with d by ring. rewrite (Z.add_comm half d). reflexivity. Qed.
Lemma rotated_rest half s c x d : 0 <= d -> 0 <= half -> rotated half s c x (2 * half + d) = x (2 * half + d).
Proof. intros H1 H2. unfold rotated. replace (2 * half + d <? half) with false by lia. replace (2 * half + d <? 2 * half) with false by lia. reflexivity. Qed.

(** The inner product of two rotated rows, in terms of the difference of their positions. *)
Lemma turned_inner half W D p p' x y : 0 <= half -> 2 * half <= D ->
  inner D (turned half W p x) (turned half W p' y) = inner D (turned half W (p - p') x) y.
Proof.
  intros H1 H2. unfold inner. rewrite !(total_pairs half D) by auto. f_equal.
  - apply total_ext. intros d Hd. apply in_range in Hd. unfold turned. repeat (rewrite (rotated_second half _ _ _ d) by auto). repeat (rewrite (rotated_first half _ _ _ d) by auto).
    replace ((p - p') * W d)%R with (p * W d - p' * W d)%R by ring. rewrite sin_minus, cos_minus. rewrite !(Z.add_comm half d).  ring.
  - apply total_ext. intros d Hd. apply in_range in Hd. unfold turned. repeat (rewrite rotated_rest by lia). reflexivity.
Qed.
Lemma turned_zero half W x d : turned half W 0 x d = x d.
Proof.
  unfold turned, rotated. destruct (d <? half) eqn:Q; [rewrite Rmult_0_l, sin_0, cos_0; ring|].
  destruct (d <? 2 * half); [|reflexivity]. rewrite Rmult_0_l, sin_0, cos_0. ring.
Qed.
Lemma rotated_ext half s c x s' c' x' d : (forall j, 0 <= j < half -> s j = s' j /\ c j = c' j) -> (forall j, x j = x' j) -> 0 <= d ->
  rotated half s c x d = rotated half s' c' x' d.
Proof.
  intros H1 H2 H0. unfold rotated. destruct (d <? half) eqn:Q.
  - destruct (H1 d ltac:(lia)) as [-> ->]. rewrite !H2. reflexivity.
  - destruct (d <? 2 * half) eqn:Q2; [|apply H2]. destruct (H1 (d - half) ltac:(lia)) as [-> ->]. rewrite !H2. reflexivity.
Qed.

(** The tables of frequencies. *)
Theorem inv_freq_ok dim theta : 0 <= dim -> exists t, inv_freq dim theta = ROk t /\ owns_storage t /\ holds t [dim / 2] (fun idx => 1 / Rpower theta (2 * IZR (last idx 0%Z) / IZR dim))%R.
Proof.
  intro H. unfold inv_freq. rewrite Z.quot_div_nonneg by lia. assert (H2 : 0 <= dim / 2) by (apply Z.div_pos; lia). set (m := dim / 2) in *. clearbody m.
  assert (Pm : product [m] = m) by (rewrite product_cons; change (product []) with 1; ring).
  rewrite fresh_ok by (try (repeat constructor; lia); cbn; lia). cbn [rbind x_view x_buf].
  destruct (changes_loop (fun k => Some (1 / Rpower theta (2 * IZR k / IZR dim))%R) m (fun i k => k = i) (fun i o => store o i (Some (1 / Rpower theta (2 * IZR i / IZR dim))%R)) (mkBuf (product [m]) (fun _ => None))) as (o & E & C).
  - intros; congruence.
  - intros i b1 Hi L _. cbn [b_len] in L. destruct (changes_store (fun k => Some (1 / Rpower theta (2 * IZR k / IZR dim))%R) b1 i (Some (1 / Rpower theta (2 * IZR i / IZR dim))%R)) as (b2 & E2 & C2); [lia|reflexivity|].
    exists b2. split; auto. eapply changes_iff; [|exact C2]. intro k. split; auto.
  - rewrite E. cbn [rbind]. eexists. split; [reflexivity|]. destruct (owner_ok [m] o) as [O1 O2]; [cbn; lia|repeat constructor; lia|apply C|].
    split; [exact O2|]. constructor; [reflexivity|exact O1|apply default_strides_row_major|]. intros idx Hi. unfold elem. cbn [x_view x_buf]. rewrite default_address by (apply in_shape_length; auto).
    destruct idx as [|i [|? ?]]; try (apply in_shape_length in Hi; discriminate Hi). apply in_shape_cons in Hi. destruct Hi as [Hi _].
    cbn [ravel last]. replace (i * product [] + 0) with i by (change (product []) with 1; ring). rewrite (c_set _ _ _ _ C); [reflexivity|]. exists i. auto.
Qed.
