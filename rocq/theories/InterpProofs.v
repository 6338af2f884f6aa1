(** Proofs about resampling: the loops. *)
From Coq Require Import Reals Lra Psatz.
From Flocq Require Import Core.
From Verif Require Import Base DTypeModel ParamModel ParamSpec ParamProofs TensorModel TensorSpec TensorProofs TensorSplit
  OpsModel OpsSpec OpsProofs MatModel MatSpec MatProofs MatKernel AttnModel AttnSpec NumModel NumSpec RopeProofs RopeOps QuantModel InterpModel InterpSpec.
Local Open Scope Z_scope.

(** A loop whose rounds fill consecutive segments fills their union. *)
Lemma seg_loop (G : Z -> option R) n K base body b : 0 <= n -> 0 <= K ->
  (forall i b1, 0 <= i < n -> b_len b1 = b_len b -> exists b2, body i b1 = ROk b2 /\ changes G (segment (base + i * K) K) b1 b2) ->
  exists b', zloop n body b = ROk b' /\ changes G (segment base (n * K)) b b'.
Proof.
  intros Hn HK HB. destruct (changes_loop G n (fun i d => segment (base + i * K) K d) body b) as (b' & E & C).
  - intros i j d Hi Hj. unfold segment. clear. intros. nia.
  - intros i b1 Hi HL _. apply HB; auto.
  - exists b'. split; [exact E|]. eapply changes_iff; [|exact C]. intro d. unfold segment. clear - Hn HK. split.
    + intros (i & Hi & Hd). nia.
    + intros Hd. exists ((d - base) / K). assert (0 < K) by nia. assert (M := Z.div_mod (d - base) K ltac:(lia)). assert (N := Z.mod_pos_bound (d - base) K ltac:(lia)). nia.
Qed.
Lemma fill4 (G : Z -> option R) N C H W base body b : 0 <= N -> 0 <= C -> 0 <= H -> 0 <= W ->
  (forall n c h w b1, 0 <= n < N -> 0 <= c < C -> 0 <= h < H -> 0 <= w < W -> b_len b1 = b_len b ->
     exists b2, body n c h w b1 = ROk b2 /\ changes G (eq (base + (((n * C + c) * H + h) * W + w))) b1 b2) ->
  exists b', zloop N (fun n => zloop C (fun c => zloop H (fun h => zloop W (body n c h)))) b = ROk b' /\ changes G (segment base (N * C * H * W)) b b'.
Proof.
  intros PN PC PH PW HB.
  destruct (seg_loop G N (C * H * W) base (fun n => zloop C (fun c => zloop H (fun h => zloop W (body n c h)))) b) as (b' & E & Ch).
  - exact PN.
  - apply Z.mul_nonneg_nonneg; [apply Z.mul_nonneg_nonneg|]; assumption.
  - intros n b1 Hn L1. destruct (seg_loop G C (H * W) (base + n * (C * H * W)) (fun c => zloop H (fun h => zloop W (body n c h))) b1) as (b2 & E2 & C2).
    + exact PC.
    + apply Z.mul_nonneg_nonneg; assumption.
    + intros c b3 Hc L3. destruct (seg_loop G H W (base + n * (C * H * W) + c * (H * W)) (fun h => zloop W (body n c h)) b3) as (b4 & E4 & C4); [assumption|assumption| |].
      * intros h b5 Hh L5. destruct (seg_loop G W 1 (base + n * (C * H * W) + c * (H * W) + h * W) (body n c h) b5) as (b6 & E6 & C6); [assumption|lia| |].
        -- intros w b7 Hw L7. destruct (HB n c h w b7 Hn Hc Hh Hw ltac:(congruence)) as (b8 & E8 & C8). exists b8. split; [exact E8|].
           eapply changes_iff; [|exact C8]. intro d. unfold segment.
           replace (base + (((n * C + c) * H + h) * W + w)) with (base + n * (C * H * W) + c * (H * W) + h * W + w * 1) by ring. clear. lia.
        -- exists b6. split; [exact E6|]. rewrite Z.mul_1_r in C6. exact C6.
      * exists b4. split; [exact E4|exact C4].
    + exists b2. split; [exact E2|]. replace (C * H * W) with (C * (H * W)) at 2 by ring. exact C2.
  - exists b'. split; [exact E|]. replace (N * C * H * W) with (N * (C * H * W)) by ring. exact Ch.
Qed.
Lemma fill3 (G : Z -> option R) N C W base body b : 0 <= N -> 0 <= C -> 0 <= W ->
  (forall n c w b1, 0 <= n < N -> 0 <= c < C -> 0 <= w < W -> b_len b1 = b_len b ->
     exists b2, body n c w b1 = ROk b2 /\ changes G (eq (base + ((n * C + c) * W + w))) b1 b2) ->
  exists b', zloop N (fun n => zloop C (fun c => zloop W (body n c))) b = ROk b' /\ changes G (segment base (N * C * W)) b b'.
Proof.
  intros PN PC PW HB.
  destruct (seg_loop G N (C * W) base (fun n => zloop C (fun c => zloop W (body n c))) b) as (b' & E & Ch).
  - exact PN.
  - apply Z.mul_nonneg_nonneg; assumption.
  - intros n b1 Hn L1. destruct (seg_loop G C W (base + n * (C * W)) (fun c => zloop W (body n c)) b1) as (b2 & E2 & C2); [assumption|assumption| |].
    + intros c b3 Hc L3. destruct (seg_loop G W 1 (base + n * (C * W) + c * W) (body n c) b3) as (b6 & E6 & C6); [assumption|lia| |].
        -- intros w b7 Hw L7. destruct (HB n c w b7 Hn Hc Hw ltac:(congruence)) as (b8 & E8 & C8). exists b8. split; [exact E8|].
           eapply changes_iff; [|exact C8]. intro d. unfold segment.
           replace (base + ((n * C + c) * W + w)) with (base + n * (C * W) + c * W + w * 1) by ring. clear. lia.
        -- exists b6. split; [exact E6|]. rewrite Z.mul_1_r in C6. exact C6.
    + exists b2. split; [exact E2|exact C2].
  - exists b'. split; [exact E|]. replace (N * C * W) with (N * (C * W)) by ring. exact Ch.
Qed.
Lemma fill5 (G : Z -> option R) N C D H W base body b : 0 <= N -> 0 <= C -> 0 <= D -> 0 <= H -> 0 <= W ->
  (forall n c d h w b1, 0 <= n < N -> 0 <= c < C -> 0 <= d < D -> 0 <= h < H -> 0 <= w < W -> b_len b1 = b_len b ->
     exists b2, body n c d h w b1 = ROk b2 /\ changes G (eq (base + ((((n * C + c) * D + d) * H + h) * W + w))) b1 b2) ->
  exists b', zloop N (fun n => zloop C (fun c => zloop D (fun d => zloop H (fun h => zloop W (body n c d h))))) b = ROk b'
    /\ changes G (segment base (N * C * D * H * W)) b b'.
Proof.
  intros PN PC PD PH PW HB.
  destruct (seg_loop G N (C * D * H * W) base (fun n => zloop C (fun c => zloop D (fun d => zloop H (fun h => zloop W (body n c d h))))) b) as (b' & E & Ch).
  - exact PN.
  - repeat (apply Z.mul_nonneg_nonneg; [|assumption]); assumption.
  - intros n b1 Hn L1. destruct (fill4 G C D H W (base + n * (C * D * H * W)) (body n) b1 PC PD PH PW) as (b2 & E2 & C2).
    + intros c d h w b3 Hc Hd Hh Hw L3. destruct (HB n c d h w b3 Hn Hc Hd Hh Hw ltac:(congruence)) as (b4 & E4 & C4). exists b4. split; [exact E4|].
      replace (base + n * (C * D * H * W) + (((c * D + d) * H + h) * W + w)) with (base + ((((n * C + c) * D + d) * H + h) * W + w)) by ring. exact C4.
    + exists b2. split; [exact E2|exact C2].
  - exists b'. split; [exact E|]. replace (N * C * D * H * W) with (N * (C * D * H * W)) by ring. exact Ch.
Qed.

(** The cells of a fresh output. *)
Definition out_view (shape : list Z) : view := mkV shape (default_strides shape) 0.
Lemma out_cell shape V idx : Forall (fun d => 0 <= d) shape -> in_shape shape idx -> cell_value (out_view shape) V (ravel shape idx) = Some (V idx).
Proof.
  intros HD Hi. rewrite <- (default_address shape idx) by (apply in_shape_length; auto). apply cell_value_at; [exact HD|exact Hi|].
  intros j Hj. rewrite !default_address by (apply in_shape_length; auto). apply ravel_inj; auto.
Qed.
Lemma out_store shape V idx b d v : Forall (fun d => 0 <= d) shape -> in_shape shape idx -> b_len b = product shape -> d = ravel shape idx -> v = V idx ->
  exists b', store b d (Some v) = ROk b' /\ changes (cell_value (out_view shape) V) (eq d) b b'.
Proof.
  intros HD Hi HL -> ->. apply changes_store.
  - rewrite HL. apply ravel_bounds; auto.
  - symmetry. apply out_cell; auto.
Qed.
Lemma out_returns shape V (b : buf R) : (1 <= length shape <= 16)%nat -> Forall (fun d => 0 <= d) shape ->
  changes (cell_value (out_view shape) V) (segment 0 (product shape)) (mkBuf (product shape) (fun _ => None)) b ->
  returns (ROk (mkTns (out_view shape) b)) shape V.
Proof.
  intros R1 R2 C. eexists. split; [reflexivity|]. split; [reflexivity|].
  assert (LB : b_len b = product shape) by (rewrite (c_len _ _ _ _ C); reflexivity).
  destruct (owner_ok shape b R1 R2 LB) as [O1 O2]. split; [exact O1|]. split; [exact O2|].
  intros idx Hi. unfold elem. cbn [x_view x_buf]. unfold out_view at 1. rewrite (default_address shape idx) by (apply in_shape_length; auto).
  rewrite (c_set _ _ _ _ C).
  - apply out_cell; auto.
  - assert (B := ravel_bounds shape idx Hi). unfold segment. lia.
Qed.

(** Reading the input. *)
Lemma load_ravel (t : tns R) shape F idx a : holds t shape F -> in_shape shape idx -> a = x_offset t + ravel shape idx -> loadv (x_buf t) a = ROk (F idx).
Proof.
  intros [h1 h2 h3 h4] Hi ->. rewrite <- h1. assert (LI := in_shape_length _ _ Hi). rewrite <- contiguous_address; [|exact h3|congruence].
  assert (Bd := ok_inside _ h2 idx). rewrite h1 in Bd. specialize (Bd Hi). assert (V := h4 _ Hi). unfold elem in V.
  unfold loadv, load. replace ((0 <=? address (x_view t) idx) && (address (x_view t) idx <? b_len (x_buf t))) with true by lia. rewrite V. reflexivity.
Qed.
Lemma clampi_in i n : 0 < n -> 0 <= clampi i n < n.
Proof. unfold clampi. lia. Qed.
Lemma clampi_edge n f i : 0 < n -> f (clampi i n) = edge n f i.
Proof. intro Hn. unfold edge, clampi. f_equal. destruct (i <? 0) eqn:A; [lia|]. destruct (n - 1 <? i) eqn:B; lia. Qed.
(** The code's positions are right, or there is only one input. *)
Lemma pos_ok align inp out o : fair align inp out -> 0 <= o < out -> source_pos align (scale_of align inp out) o = position align inp out o \/ inp = 1.
Proof.
  intros (A & B & D) Ho. unfold source_pos, scale_of, position. destruct align.
  - left. destruct (out =? 1); [ring|]. unfold Rdiv. ring.
  - destruct (out =? 1) eqn:Q.
    + right. apply Z.eqb_eq in Q. destruct (D Q) as [X|X]; [discriminate|exact X].
    + left. unfold Rdiv. ring.
Qed.
Lemma edge1 f i : edge 1 f i = f 0.
Proof. unfold edge. f_equal. destruct (i <? 0) eqn:A; [lia|]. destruct (1 - 1 <? i) eqn:B; lia. Qed.
Lemma linear1 f p : linear_at 1 f p = f 0.
Proof. unfold linear_at. cbv zeta. rewrite !edge1. ring. Qed.
Lemma cubic1 f p : cubic_at 1 f p = f 0.
Proof. unfold cubic_at, slope. cbv zeta. rewrite !edge1. field. Qed.
Lemma linear_src align inp out o f : fair align inp out -> 0 <= o < out ->
  linear_at inp f (source_pos align (scale_of align inp out) o) = linear_at inp f (position align inp out o).
Proof. intros A B. destruct (pos_ok align inp out o A B) as [->| ->]; [reflexivity|rewrite !linear1; reflexivity]. Qed.
Lemma cubic_src align inp out o f : fair align inp out -> 0 <= o < out ->
  cubic_at inp f (source_pos align (scale_of align inp out) o) = cubic_at inp f (position align inp out o).
Proof. intros A B. destruct (pos_ok align inp out o A B) as [->| ->]; [reflexivity|rewrite !cubic1; reflexivity]. Qed.
Lemma closest1 p : closest 1 p 0.
Proof. split; [lia|]. intros j Hj. replace j with 0 by lia. lra. Qed.
Lemma roundf_half p : (Rabs (IZR (roundf p) - p) <= 1 / 2)%R.
Proof. unfold roundf. rewrite Rabs_minus_sym. assert (H := Znearest_half (Z.leb 0) p). lra. Qed.
Lemma round_closest n p : 0 < n -> closest n p (Z.max 0 (Z.min (roundf p) (n - 1))).
Proof.
  intro Hn. split; [lia|]. intros j Hj. assert (E := roundf_half p). apply Rabs_le_inv in E.
  destruct (Z_lt_le_dec (roundf p) 0) as [A|A].
  - replace (Z.max 0 (Z.min (roundf p) (n - 1))) with 0 by lia. assert (IZR (roundf p) <= -1)%R by (apply IZR_le; lia). assert (0 <= IZR j)%R by (apply IZR_le; lia).
    rewrite !Rabs_right by lra. lra.
  - destruct (Z_lt_le_dec (n - 1) (roundf p)) as [B|B].
    + replace (Z.max 0 (Z.min (roundf p) (n - 1))) with (n - 1) by lia. assert (IZR (n - 1) + 1 <= IZR (roundf p))%R by (rewrite <- plus_IZR; apply IZR_le; lia).
      assert (IZR j <= IZR (n - 1))%R by (apply IZR_le; lia). rewrite !Rabs_left1 by lra. lra.
    + replace (Z.max 0 (Z.min (roundf p) (n - 1))) with (roundf p) by lia. destruct (Z.lt_trichotomy j (roundf p)) as [Q|[Q|Q]].
      * assert (IZR j + 1 <= IZR (roundf p))%R by (rewrite <- plus_IZR; apply IZR_le; lia). rewrite (Rabs_left1 (IZR j - p)) by lra. apply Rabs_le. lra.
      * subst j. lra.
      * assert (IZR (roundf p) + 1 <= IZR j)%R by (rewrite <- plus_IZR; apply IZR_le; lia). rewrite (Rabs_right (IZR j - p)) by lra. apply Rabs_le. lra.
Qed.
Definition pick (align : bool) (inp out o : Z) : Z := Z.max 0 (Z.min (roundf (source_pos align (scale_of align inp out) o)) (inp - 1)).
Lemma pick_closest align inp out o : fair align inp out -> 0 <= o < out -> closest inp (position align inp out o) (pick align inp out o).
Proof.
  intros A B. unfold pick. destruct (pos_ok align inp out o A B) as [->|E].
  - apply round_closest. apply A.
  - subst inp. replace (Z.max 0 (Z.min (roundf (source_pos align (scale_of align 1 out) o)) (1 - 1))) with 0 by lia. apply closest1.
Qed.
