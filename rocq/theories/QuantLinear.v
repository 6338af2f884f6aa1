(** Proofs about quantization, part 6: rows, the matrix product with a quantized weight, the linear layer. *)
From Coq Require Import Reals Lra.
From Flocq Require Import Core Relative.
From Verif Require Import Base DTypeModel ParamModel ParamSpec ParamProofs TensorModel TensorSpec TensorProofs TensorSplit OpsModel OpsSpec OpsProofs OpsIndex OpsSum MatModel MatSpec MatProofs MatKernel MatBlas MatGguf MatOps
  AttnSpec AttnProofs QuantModel QuantSpec QuantFloat QuantProofs QuantQ4 QuantDot.
Local Open Scope Z_scope.

(* ---------------- rows ---------------- *)
Lemma quantize_row_ok {B} lanes (block : list R -> res B) k x xo yo (y : buf B) (V : Z -> list R) (Bf : Z -> B) (G : Z -> option B) :
  (forall i, 0 <= i < k / lanes -> load_vec x (xo + i * lanes) lanes = ROk (V i) /\ block (V i) = ROk (Bf i) /\ 0 <= yo + i < b_len y /\ G (yo + i) = Some (Bf i)) ->
  exists y', quantize_row lanes block k x xo yo y = ROk y' /\ changes G (segment yo (k / lanes)) y y'.
Proof.
  intro H. unfold quantize_row.
  destruct (changes_loop G (k / lanes) (fun i d => yo + i = d) (fun i y => do v <- load_vec x (xo + i * lanes) lanes; do b <- block v; store y (yo + i) (Some b)) y) as (y' & E & C).
  - intros; lia.
  - intros i y1 Hi L _. destruct (H i Hi) as (H1 & H2 & H3 & H4). rewrite H1. cbn [rbind]. rewrite H2. cbn [rbind].
    apply changes_store; [lia|auto].
  - exists y'. split; auto. destruct C as [c1 c2 c3]. constructor; auto.
    + intros d Hd. unfold segment in Hd. apply c2. exists (d - yo). lia.
    + intros d Hd. apply c3. intros (i & Hi & <-). apply Hd. unfold segment. lia.
Qed.
Lemma dequantize_row_ok {B} lanes (dq : B -> list (option R)) k (x : buf B) xo yo y (Bf : Z -> B) (F : Z -> option R) (G : Z -> option R) : 0 < lanes ->
  (forall i, 0 <= i < k / lanes -> loadv x (xo + i) = ROk (Bf i)) ->
  (forall i j, 0 <= i < k / lanes -> 0 <= j < lanes -> nth_error (dq (Bf i)) (Z.to_nat j) = Some (F (i * lanes + j)) /\ 0 <= yo + (i * lanes + j) < b_len y /\ G (yo + (i * lanes + j)) = F (i * lanes + j)) ->
  exists y', dequantize_row lanes dq k x xo yo y = ROk y' /\ changes G (segment yo (k / lanes * lanes)) y y'.
Proof.
  intros Hl HB H. unfold dequantize_row.
  match goal with |- exists _, zloop _ ?body y = _ /\ _ => destruct (changes_loop G (k / lanes) (fun i => segment (yo + i * lanes) lanes) body y) as (y' & E & C) end.
  - unfold segment. intros i j d Hi Hj Hi2 Hj2. assert (i * lanes < (j + 1) * lanes) by lia. assert (j * lanes < (i + 1) * lanes) by lia. nia.
  - intros i y1 Hi L _. rewrite HB by auto. cbn [rbind].
    match goal with |- exists _, zloop _ ?body y1 = _ /\ _ => destruct (changes_loop G lanes (fun j d => yo + (i * lanes + j) = d) body y1) as (y2 & E & C) end.
    + intros; lia.
    + intros j y2 Hj L2 _. destruct (H i j Hi Hj) as (H1 & H2 & H3). rewrite H1, <- Z.add_assoc. apply changes_store; [lia|auto].
    + exists y2. split; auto. destruct C as [c1 c2 c3]. constructor; auto.
      * intros d Hd. unfold segment in Hd. apply c2. exists (d - yo - i * lanes). lia.
      * intros d Hd. apply c3. intros (j & Hj & <-). apply Hd. unfold segment. lia.
  - exists y'. split; auto. destruct C as [c1 c2 c3]. constructor; auto.
    + intros d Hd. unfold segment in *. apply c2. exists ((d - yo) / lanes). assert (D := Z.div_mod (d - yo) lanes ltac:(lia)). assert (M := Z.mod_pos_bound (d - yo) lanes Hl).
      split; [|lia]. split; [apply Z.div_pos; lia|]. apply Z.div_lt_upper_bound; lia.
    + intros d Hd. apply c3. intros (i & Hi & Hs). apply Hd. unfold segment in *. nia.
Qed.

(* ---------------- quantized inputs ---------------- *)
Lemma q8_scale qt v b : q8_0_block qt v = ROk b -> exists d, q_d b = f16 d.
Proof.
  destruct qt; cbn [q8_0_block]; unfold q8_0_reference, q8_0_neon, q8_0_avx2; cbv zeta.
  - destruct (fop (amax v / 127)) as [d| | |]; cbn [rbind]; try discriminate. destruct (rmap _ v); cbn [rbind]; try discriminate. intro E. injection E as <-. eexists. reflexivity.
  - destruct (fop (amax v / 127)) as [d| | |]; cbn [rbind]; try discriminate. intro E. injection E as <-. eexists. reflexivity.
  - destruct (fop (amax v / 127)) as [d| | |]; cbn [rbind]; try discriminate. intro E. injection E as <-. eexists. reflexivity.
Qed.
(** The numbers a vector quantizer of 32 floats accepts. *)
Definition quantizable (qt : quantizer) (x : R) : Prop := (Rabs x <= 8000000 /\ (qt = Reference -> x = 0 \/ bpow radix2 (-100) <= Rabs x))%R.
Definition enc (qt : quantizer) (v : list R) : qblock := match q8_0_block qt v with ROk b => b | _ => mkQ None [] end.
Lemma Forall2_nth {A B} (P : A -> B -> Prop) l l' : Forall2 P l l' -> forall i x, nth_error l i = Some x -> exists y, nth_error l' i = Some y /\ P x y.
Proof. induction 1; intros [|i] a Ha; cbn in *; try discriminate; [injection Ha as <-; eauto|eauto]. Qed.
Lemma enc_ok qt v : length v = 32%nat -> (forall x, In x v -> quantizable qt x) ->
  q8_0_block qt v = ROk (enc qt v) /\ stored Q8_0 (enc qt v) /\ (in_bytes (-127) 127 (q_qs (enc qt v)) \/ q_d (enc qt v) = Some 0%R) /\
  forall j x, nth_error v j = Some x -> exists r, nth_error (dequant_q8_0 (enc qt v)) j = Some (Some r) /\ (Rabs (r - x) <= q8_bound (amax v) x)%R.
Proof.
  intros HL HQ. assert (G := amax_is_greatest v). destruct (q8_0_ok qt v (amax v) HL G) as (b & E & L1 & B1 & GS & D & d & Ed).
  - destruct G as [_ [[-> _]|(x & Hx & <-)]]; [discriminate HL|]. apply HQ; auto.
  - intro Hr. destruct G as [_ [[-> _]|(x & Hx & <-)]]; [discriminate HL|]. destruct (proj2 (HQ x Hx) Hr) as [->|H]; [left; apply Rabs_R0|right; exact H].
  - unfold enc. rewrite E. split; auto. split; [|split; [exact GS|]].
    + split; [|rewrite L1; auto]. destruct (q8_scale qt v b E) as (d' & Ed'). exists d. split; auto. apply (f16_again d'). congruence.
    + intros j x Hx. destruct (Forall2_nth _ _ _ D j x Hx) as (y & Ey & r & -> & Hr). eauto.
Qed.
Lemma nth_range (f : Z -> R) n j : 0 <= j < n -> nth_error (map f (range n)) (Z.to_nat j) = Some (f j).
Proof.
  intro H. rewrite nth_error_map. unfold range. rewrite nth_error_map. rewrite (nth_error_nth' _ 0%nat) by (rewrite seq_length; lia). rewrite seq_nth by lia. cbn. f_equal. f_equal. lia.
Qed.
Lemma range_len n : length (range n) = Z.to_nat n.
Proof. unfold range. rewrite map_length, seq_length. reflexivity. Qed.

Lemma tile_q_ok p : tile_ok (pack_tile_q p).
Proof.
  intros dm dn. destruct p as [|wide]; cbn [pack_tile_q]; cbv zeta.
  - destruct ((Z.min dm 3 <=? 0) || (Z.min dn 3 <=? 0)) eqn:Q; lia.
  - destruct ((Z.min dm 4 <=? 0) || (Z.min dn 4 <=? 0)) eqn:Q; [lia|]. destruct wide; [lia|].
    destruct ((Z.min dm 4 =? 4) && (2 <=? Z.min dn 4)) eqn:Q1; [lia|]. destruct (((Z.min dm 4 =? 3) || (Z.min dm 4 =? 2)) && (Z.min dn 4 =? 4)) eqn:Q2; [lia|].
    destruct ((Z.min dm 4 =? 3) && (Z.min dn 4 =? 3)) eqn:Q3; lia.
Qed.

Notation plus_bias := (plus_bias Rplus).
Section One.
Variables (isa : dot_isa) (p : packing) (t : wtype) (M KB N : Z) (w : buf qblock) (wo : Z) (q : buf qblock) (qo co threads : Z) (W X : Z -> Z -> R)
  (bias : option (buf R * Z)) (bv : option (Z -> R)) (G : Z -> option R) (c : buf R).
Hypothesis HM : 0 <= M.
Hypothesis HN : 0 <= N.
Hypothesis HK : 0 <= KB.
Hypothesis HT : 1 <= threads.
Hypothesis HB : bias_ok bias bv N.
Hypothesis HW : forall n, 0 <= n < N -> row_holds t w (wo + n * KB) KB (W n).
Hypothesis HX : forall m, 0 <= m < M -> row_holds Q8_0 q (qo + m * KB) KB (X m) /\ no_minus_128 q (qo + m * KB) KB.
Hypothesis HC : forall m n, 0 <= m < M -> 0 <= n < N -> 0 <= co + (m * N + n) < b_len c.
Hypothesis HG : forall m n, 0 <= m < M -> 0 <= n < N -> G (co + (m * N + n)) = Some (plus_bias bv n (inner (32 * KB) (W n) (X m))).
Lemma llamafile_q_spec :
  exists c', llamafile_q isa p t N M KB w wo KB q qo KB co N bias threads c = ROk c' /\ good G (cells co N M N) c c'.
Proof using HM HN HK HT HB HW HX HC HG.
  unfold llamafile_q. cbv zeta.
  match goal with |- exists _, zloop _ (fun id c => mnpack _ _ ?v _ _ _ _ _ _ _ _ c) c = _ /\ _ => 
    destruct (pack_all (pack_tile_q p) (tile_q_ok p) v (fun i j => plus_bias bv i (inner (32 * KB) (W i) (X j))) co N threads G HT N M c) as (c' & E & C); auto end.
  - intros i j [Hi Hj]. split; [|split].
    + destruct (HX j Hj) as [HX1 HX2]. rewrite (blocks_dot_ok isa t KB w (wo + KB * i) q (qo + KB * j) (W i) (X j)); auto; rewrite ?(Z.mul_comm KB); auto.
      cbn [rbind]. destruct bias as [[b o]|], bv as [f|]; cbn in HB |- *; try contradiction; auto. rewrite HB by auto. reflexivity.
    + rewrite (Z.mul_comm N j). apply HC; auto.
    + rewrite (Z.mul_comm N j). apply HG; auto.
  - exists c'. split; [exact E|]. eapply good_weaken; [|exact C]. intros d (m & Hm & Hd). unfold segment in Hd.
    exists (d - co - m * N), m. split; [split; lia|]. lia.
Qed.
End One.

(** The vector of block l of row (i, m), and the number its quantized form decodes to at position k. *)
Definition block_of (row : Z -> R) (l : Z) : list R := map (fun j => row (32 * l + j)) (range 32).
Definition requantized (qt : quantizer) (row : Z -> R) (k : Z) : R :=
  match nth_error (dequant_q8_0 (enc qt (block_of row (k / 32)))) (Z.to_nat (k mod 32)) with Some (Some r) => r | _ => 0%R end.
Lemma block_of_quantizable qt KB row l : (forall k, 0 <= k < 32 * KB -> quantizable qt (row k)) -> 0 <= l < KB -> forall y, In y (block_of row l) -> quantizable qt y.
Proof. intros H Hl y Hy. unfold block_of in Hy. apply in_map_iff in Hy as (j & <- & Hj). apply in_range in Hj. apply H. lia. Qed.
Lemma requantized_near qt KB row : (forall k, 0 <= k < 32 * KB -> quantizable qt (row k)) -> forall k, 0 <= k < 32 * KB ->
  nth_error (dequant_q8_0 (enc qt (block_of row (k / 32)))) (Z.to_nat (k mod 32)) = Some (Some (requantized qt row k)) /\
  (Rabs (requantized qt row k - row k) <= q8_bound (amax (block_of row (k / 32))) (row k))%R.
Proof.
  intros H k Hk. assert (D := Z.div_mod k 32 ltac:(lia)). assert (B := Z.mod_pos_bound k 32 ltac:(lia)).
  assert (Hl : 0 <= k / 32 < KB) by (split; [apply Z.div_pos; lia|apply Z.div_lt_upper_bound; lia]).
  destruct (enc_ok qt (block_of row (k / 32))) as (_ & _ & _ & F); [unfold block_of; rewrite map_length, range_len; reflexivity|apply (block_of_quantizable qt KB); auto|].
  destruct (F (Z.to_nat (k mod 32)) (row k)) as (r & E & Hr).
  { unfold block_of. rewrite nth_range by auto. do 2 f_equal. lia. }
  unfold requantized. rewrite E. auto.
Qed.
Section Batch.
Variables (qt : quantizer) (isa : dot_isa) (p : packing) (t : wtype) (batch M KB N sa rs0 sc : Z) (x : buf R) (xo : Z) (w : buf qblock) (wo co threads : Z) (W : Z -> Z -> R) (X : Z -> Z -> Z -> R)
  (bias : option (buf R * Z)) (bv : option (Z -> R)) (G : Z -> option R) (c : buf R).
Hypothesis HB0 : 0 <= batch.
Hypothesis HM : 0 <= M.
Hypothesis HN : 0 <= N.
Hypothesis HK : 0 <= KB.
Hypothesis HT : 1 <= threads.
Hypothesis HBs : bias_ok bias bv N.
Hypothesis HW : forall n, 0 <= n < N -> row_holds t w (wo + n * KB) KB (W n).
Hypothesis HX : forall i m k, 0 <= i < batch -> 0 <= m < M -> 0 <= k < 32 * KB -> loadv x (xo + i * sa + (m * rs0 + k)) = ROk (X i m k) /\ quantizable qt (X i m k).
Hypothesis HC : forall i m n, 0 <= i < batch -> 0 <= m < M -> 0 <= n < N -> 0 <= co + i * sc + (m * N + n) < b_len c.
Hypothesis HG : forall i m n, 0 <= i < batch -> 0 <= m < M -> 0 <= n < N -> G (co + i * sc + (m * N + n)) = Some (plus_bias bv n (inner (32 * KB) (W n) (requantized qt (X i m)))).
Lemma mat_mul_q_spec :
  exists c', mat_mul_q qt isa p t batch M (32 * KB) N sa rs0 sc x xo w wo co bias threads c = ROk c' /\
    good G (fun d => exists i, 0 <= i < batch /\ cells (co + i * sc) N M N d) c c'.
Proof using HB0 HM HN HK HT HBs HW HX HC HG.
  unfold mat_mul_q. cbv zeta. rewrite numel_product. unfold product. cbn [fold_right].
  replace (batch * (M * (32 * KB * 1)) / 32) with (batch * M * KB) by (replace (batch * (M * (32 * KB * 1))) with (batch * M * KB * 32) by ring; symmetry; apply Z.div_mul; lia).
  replace (32 * KB / 32) with KB by (rewrite (Z.mul_comm 32 KB); symmetry; apply Z.div_mul; lia).
  set (Q := fun d => Some (enc qt (block_of (X (d / KB / M) (d / KB mod M)) (d mod KB)))).
  match goal with |- exists _, (do q <- zloop _ ?body ?q0; _) = _ /\ _ => destruct (changes_loop Q (batch * M) (fun r => segment (r * KB) KB) body q0) as (q & E & CQ) end.
  { unfold segment. intros i j d Hi Hj H1 H2. nia. }
  { intros r q1 Hr L _. cbn [b_len] in L. assert (HR1 : r + 1 <= batch * M) by lia. assert (HR2 : (r + 1) * KB <= batch * M * KB) by (apply Z.mul_le_mono_nonneg_r; auto). destruct (Z.eq_dec M 0) as [->|NM]; [lia|]. destruct (job_split r M batch Hr ltac:(lia)) as [J1 J2].
    assert (DR := Z.div_mod r M NM). set (bi := r / M) in *. set (s := r mod M) in *.
    replace ((if 0 <? bi then sa * bi else 0) + s * rs0) with (bi * sa + s * rs0) by (destruct (0 <? bi) eqn:Qb; [ring|replace bi with 0 by lia; ring]).
    replace (((if 0 <? bi then M * (32 * KB) * bi else 0) + s * (32 * KB)) / 32) with (r * KB).
    2:{ replace ((if 0 <? bi then M * (32 * KB) * bi else 0) + s * (32 * KB)) with (r * KB * 32); [symmetry; apply Z.div_mul; lia|].
        rewrite DR. destruct (0 <? bi) eqn:Qb; [ring|replace bi with 0 by lia; ring]. }
    destruct (quantize_row_ok 32 (q8_0_block qt) (32 * KB) x (xo + (bi * sa + s * rs0)) (r * KB) q1 (fun l => block_of (X bi s) l) (fun l => enc qt (block_of (X bi s) l)) Q) as (q2 & E2 & C2).
    - replace (32 * KB / 32) with KB by (rewrite (Z.mul_comm 32 KB); symmetry; apply Z.div_mul; lia).
      intros l Hl. split; [|split; [|split]].
      + unfold block_of. apply load_vec_map. intros j Hj. destruct (HX bi s (32 * l + j)) as [H1 _]; try lia. rewrite <- H1. f_equal. ring.
      + apply enc_ok; [unfold block_of; rewrite map_length, range_len; reflexivity|]. apply (block_of_quantizable qt KB); auto. intros k Hk. apply (HX bi s k); lia.
      + rewrite L. split; [nia|]. assert (r * KB + l < (r + 1) * KB) by lia. lia.
      + unfold Q. rewrite Z.div_add_l, (Z.div_small l KB), Z.add_0_r by lia. replace ((r * KB + l) mod KB) with l by (rewrite Z.add_comm, Z.mod_add, Z.mod_small; lia). reflexivity.
    - replace (32 * KB / 32) with KB in C2 by (rewrite (Z.mul_comm 32 KB); symmetry; apply Z.div_mul; lia). exists q2. split; auto. }
  rewrite E. cbn [rbind].
  assert (QX : forall i m, 0 <= i < batch -> 0 <= m < M -> row_holds Q8_0 q (i * (M * KB) + m * KB) KB (requantized qt (X i m)) /\ no_minus_128 q (i * (M * KB) + m * KB) KB).
  { intros i m Hi Hm. assert (QX : forall k, 0 <= k < 32 * KB -> quantizable qt (X i m k)) by (intros k Hk; apply (HX i m k); auto).
    assert (R : forall l, 0 <= l < KB -> 0 <= i * (M * KB) + m * KB + l < batch * M * KB /\ b_at q (i * (M * KB) + m * KB + l) = Some (enc qt (block_of (X i m) l))).
    { intros l Hl. assert (J := job_bound i m M batch ltac:(lia) ltac:(lia)). assert (J3 := job_bound (i * M + m) l KB (batch * M) ltac:(lia) ltac:(lia)).
      replace (i * (M * KB) + m * KB + l) with ((i * M + m) * KB + l) by ring. split; [lia|].
      rewrite (c_set _ _ _ _ CQ). 2:{ exists (i * M + m). split; [lia|]. unfold segment. lia. }
      unfold Q. rewrite Z.div_add_l, (Z.div_small l KB), Z.add_0_r by lia. replace (((i * M + m) * KB + l) mod KB) with l by (rewrite Z.add_comm, Z.mod_add, Z.mod_small; lia).
      rewrite Z.div_add_l, (Z.div_small m M), Z.add_0_r by lia. replace ((i * M + m) mod M) with m by (rewrite Z.add_comm, Z.mod_add, Z.mod_small; lia). reflexivity. }
    assert (EN : forall l, 0 <= l < KB -> length (block_of (X i m) l) = 32%nat /\ forall y, In y (block_of (X i m) l) -> quantizable qt y).
    { intros l Hl. split; [unfold block_of; rewrite map_length, range_len; reflexivity|apply (block_of_quantizable qt KB); auto]. }
    split.
    - intros l Hl. destruct (R l Hl) as [R1 R2]. rewrite (c_len _ _ _ _ CQ). cbn [b_len]. split; [lia|]. eexists. split; [exact R2|]. destruct (EN l Hl) as [N1 N2]. destruct (enc_ok qt _ N1 N2) as (_ & S & _ & _).
      split; [exact S|]. intros j Hj. cbn [dequant]. assert (RN := proj1 (requantized_near qt KB (X i m) QX (32 * l + j) ltac:(lia))).
      replace ((32 * l + j) / 32) with l in RN by (rewrite (Z.mul_comm 32 l), Z.div_add_l, (Z.div_small j) by lia; lia).
      replace ((32 * l + j) mod 32) with j in RN by (rewrite (Z.mul_comm 32 l), Z.add_comm, Z.mod_add, Z.mod_small; lia). exact RN.
    - intros l blk Hl Hb. destruct (R l Hl) as [_ R2]. rewrite R2 in Hb. injection Hb as <-. destruct (EN l Hl) as [N1 N2]. apply (enc_ok qt _ N1 N2). }
  clear E CQ. destruct (batch =? 1) eqn:Q1.
  - destruct (llamafile_q_spec isa p t M KB N w wo q 0 co threads W (fun m => requantized qt (X 0 m)) bias bv G c) as (c' & E & C); auto.
    + intros m Hm. destruct (QX 0 m ltac:(lia) Hm). auto.
    + intros m n Hm Hn. specialize (HC 0 m n). lia.
    + intros m n Hm Hn. rewrite <- (HG 0 m n) by lia. f_equal. lia.
    + exists c'. split; [exact E|]. eapply good_weaken; [|exact C]. intros d (i & Hi & Hd). assert (i = 0) by lia. subst i. rewrite Z.mul_0_l, Z.add_0_r in Hd. exact Hd.
  - apply (good_loop G batch (fun i => cells (co + i * sc) N M N)) with (L := b_len c); auto.
    intros i c1 Hi L. replace (i * (M * (32 * KB)) / 32) with (i * (M * KB)) by (replace (i * (M * (32 * KB))) with (i * (M * KB) * 32) by ring; symmetry; apply Z.div_mul; lia).
    apply (llamafile_q_spec isa p t M KB N w wo q (i * (M * KB)) (co + i * sc) threads W (fun m => requantized qt (X i m)) bias bv G c1); auto.
    intros m n Hm Hn. rewrite L. auto.
Qed.
End Batch.

(* ---------------- the linear layer ---------------- *)
Theorem linear_q_correct qt isa pk t threads (x : tns R) weight bias pre M K N FX (W : Z -> Z -> R) fb :
  1 <= threads -> 0 <= N -> K mod 32 = 0 ->
  holds x (pre ++ [M; K]) FX -> (forall n, 0 <= n < N -> row_holds t weight (n * (K / 32)) (K / 32) (W n)) -> bias_holds bias fb N ->
  (forall idx, in_shape (pre ++ [M; K]) idx -> quantizable qt (FX idx)) ->
  exists out, linear_q qt isa pk t threads K N weight bias x = ROk out /\
    x_shape out = pre ++ [M; N] /\ tensor_ok out /\ owns_storage out /\
    forall p m n, in_shape pre p -> 0 <= m < M -> 0 <= n < N ->
      elem out (p ++ [m; n]) = Some (with_bias Rplus fb n (inner K (W n) (requantized qt (fun k => FX (p ++ [m; k]))))).
Proof.
  intros HT HN HK32 HA HW Hbias HQ. unfold linear_q. cbv zeta.
  assert (EA := h_shape _ _ _ HA). assert (OA := h_ok _ _ _ HA).
  assert (DA := ok_dims _ OA). rewrite EA in DA. apply Forall_app in DA as [Dp DA].
  assert (HM : 0 <= M) by (inversion DA; auto).
  assert (HK : 0 <= K) by (inversion DA as [|? ? ? DB]; inversion DB; auto).
  assert (EK : K = 32 * (K / 32)) by (assert (D := Z.div_mod K 32 ltac:(lia)); lia). set (KB := K / 32) in *. assert (HKB : 0 <= KB) by (unfold KB; apply Z.div_pos; lia). clearbody KB.
  assert (Rk : (length pre <= 14)%nat). { assert (R := ok_rank _ OA). rewrite EA, app_length in R. cbn [length] in R. lia. }
  assert (RA : nth (length (x_shape x) - 2) (x_stride x) 0 = K) by (apply (row_stride x pre M K); auto; apply (h_contiguous _ _ _ HA)).
  assert (SA : pre <> [] -> nth (length (x_shape x) - 3) (x_stride x) 0 = M * K) by (apply batch_stride; auto; apply (h_contiguous _ _ _ HA)).
  rewrite RA. rewrite EA in *. destruct (nth_two pre M K) as [N1 N2].
  replace (length (pre ++ [M; K]) <? 1)%nat with false by (rewrite app_length; cbn [length]; lia).
  replace (length (pre ++ [M; K]) <? 2)%nat with false by (rewrite app_length; cbn [length]; lia).
  rewrite N1, N2. rewrite Z.eqb_refl. cbn [negb]. rewrite firstn_two.
  replace (firstn (length (pre ++ [M; K]) - 1) (pre ++ [M; K]) ++ [N]) with (pre ++ [M; N]).
  2:{ rewrite app_length. cbn [length]. replace (length pre + 2 - 1)%nat with (length pre + 1)%nat by lia. rewrite firstn_app, firstn_all2 by lia.
      replace (length pre + 1 - length pre)%nat with 1%nat by lia. cbn [firstn]. rewrite <- app_assoc. reflexivity. }
  set (os := pre ++ [M; N]). assert (Ros : (1 <= length os <= 16)%nat) by (unfold os; rewrite app_length; cbn [length]; lia).
  rewrite fresh_ok by auto. cbn [rbind]. rewrite numel_product.
  assert (SO : pre <> [] -> nth (length os - 3) (default_strides os) 0 = M * N).
  { intro Hne. apply (batch_stride (mkTns (mkV os (default_strides os) 0) (mkBuf (product os) (fun _ => @None R))) pre M N); auto. apply default_strides_row_major. }
  set (ot := mkTns (mkV os (default_strides os) 0) (mkBuf (product os) (fun _ => @None R))).
  assert (EO : x_shape ot = os) by reflexivity.
  set (X := fun i m k => FX (unravel pre i ++ [m; k])).
  assert (LX : forall i m k, 0 <= i < product pre -> 0 <= m < M -> 0 <= k < K -> loadv (x_buf x) (x_offset x + i * (M * K) + (m * K + k)) = ROk (X i m k) /\ quantizable qt (X i m k)).
  { intros i m k Hi Hm Hk. destruct (unravel_spec pre i Dp Hi) as [U1 U2]. split; [rewrite <- U2 at 1; apply (holds_load x pre M K FX); auto|]. apply HQ.
    apply in_shape_app; [apply in_shape_length; auto|]. split; [auto|]. repeat constructor; lia. }
  match goal with |- exists out, (do o <- ?e; _) = ROk out /\ _ =>
    let e' := eval pattern (x_buf ot) in e in match e' with ?f _ => set (run := f); change e with (run (mkBuf (product os) (fun _ => @None R))) end end.
  destruct (filled pre M N (fun p m n => with_bias Rplus fb n (inner K (W n) (requantized qt (fun k => FX (p ++ [m; k]))))) Rk Dp HM HN run) as (o & E & O1 & O2 & O3).
  2:{ change (x_buf ot) with (mkBuf (product (pre ++ [M; N])) (fun _ => @None R)). rewrite E. cbn [rbind]. eexists. split; [reflexivity|]. split; [reflexivity|]. auto. }
  intros G c Lc HC HG.
  assert (P1 : pre = [] -> product pre = 1) by (intros ->; reflexivity).
  assert (PN : pre = [] \/ pre <> []) by (destruct pre; [left; reflexivity|right; discriminate]).
  unfold run. change (x_offset ot) with 0. rewrite EO. change (x_stride ot) with (default_strides os).
  set (sa := nth (length (pre ++ [M; K]) - 3) (x_stride x) 0) in *.
  set (sc := if (2 <? length (pre ++ [M; K]))%nat then nth (length os - 3) (default_strides os) 0 else 0).
  assert (EQ : forall i, 0 <= i < product pre -> i * sa = i * (M * K) /\ i * sc = i * (M * N)).
  { intros i Hi. destruct PN as [Pe|Pn].
    - specialize (P1 Pe). assert (i = 0) by lia. subst i. split; ring.
    - rewrite (SA Pn). split; [reflexivity|]. unfold sc. rewrite (SO Pn). replace (2 <? length (pre ++ [M; K]))%nat with true; [reflexivity|].
      rewrite app_length. cbn [length]. destruct pre; [contradiction|cbn [length]; lia]. }
  clearbody sa sc.
  destruct (mat_mul_q_spec qt isa pk t (product pre) M KB N sa K sc (x_buf x) (x_offset x) weight 0 0 threads W X
     (option_map (fun t => (x_buf t, x_offset t)) bias) (option_map (fun f n => f [n]) fb) G c) as (c' & E & C); auto.
  - apply product_nonneg; auto.
  - destruct bias as [t0|], fb as [f|]; cbn in Hbias |- *; auto. intros n Hn. destruct Hbias as [b1 b2 b3 b4].
    assert (I : in_shape [N] [n]) by (repeat constructor; lia).
    assert (Ad := contiguous_address t0 [n] b3). rewrite b1 in Ad. specialize (Ad eq_refl). cbn [ravel] in Ad. change (product []) with 1 in Ad.
    replace (x_offset t0 + n) with (address (x_view t0) [n]) by lia. apply loadv_at; [apply (ok_inside _ b2); rewrite b1; auto|exact (b4 _ I)].
  - intros i m k Hi Hm Hk. destruct (EQ i Hi) as [-> _]. apply LX; auto. lia.
  - intros i m n Hi Hm Hn. destruct (EQ i Hi) as [_ ->]. apply HC; auto.
  - intros i m n Hi Hm Hn. destruct (EQ i Hi) as [_ ->]. rewrite Z.add_0_l, HG by auto. f_equal. rewrite <- EK. unfold X.
    destruct fb as [f|]; cbn [with_bias MatKernel.plus_bias option_map]; [apply Rplus_comm|reflexivity].
  - rewrite <- EK in E. exists c'. split; [exact E|]. eapply good_weaken; [|exact C]. intros d (i & Hi & Hd). exists i. split; auto. destruct (EQ i Hi) as [_ ->]. exact Hd.
Qed.

(** The error caused by quantizing the input. *)
Lemma total_abs js f : (Rabs (total_over js f) <= total_over js (fun j => Rabs (f j)))%R.
Proof. induction js as [|j js IH]; unfold total_over in *; cbn; [rewrite Rabs_R0; lra|]. eapply Rle_trans; [apply Rabs_triang|]. lra. Qed.
Lemma total_le js f g : (forall j, In j js -> (f j <= g j)%R) -> (total_over js f <= total_over js g)%R.
Proof. induction js as [|j js IH]; intro H; unfold total_over in *; cbn; [lra|]. apply Rplus_le_compat; [apply H; left; auto|apply IH; intros; apply H; right; auto]. Qed.
Lemma total_minus js f g : (total_over js f - total_over js g)%R = total_over js (fun j => (f j - g j)%R).
Proof. induction js as [|j js IH]; unfold total_over in *; cbn; [lra|]. rewrite <- IH. lra. Qed.
Lemma inner_error K w x y e : (forall k, 0 <= k < K -> (Rabs (y k - x k) <= e k)%R) -> (Rabs (inner K w y - inner K w x) <= total_over (range K) (fun k => Rabs (w k) * e k))%R.
Proof.
  intro H. unfold inner. rewrite total_minus. eapply Rle_trans; [apply total_abs|]. apply total_le. intros k Hk. apply in_range in Hk.
  replace (w k * y k - w k * x k)%R with (w k * (y k - x k))%R by ring. rewrite Rabs_mult. apply Rmult_le_compat_l; [apply Rabs_pos|auto].
Qed.
(** Every number differs from what it is replaced by by a 225th of the greatest in its block of 32, and 2^-18; zeros stay. *)
Lemma requantized_error qt K row a k : K mod 32 = 0 -> (forall k, 0 <= k < K -> quantizable qt (row k)) -> 0 <= k < K ->
  (forall j, 32 * (k / 32) <= j < 32 * (k / 32) + 32 -> (Rabs (row j) <= a)%R) ->
  (Rabs (requantized qt row k - row k) <= a / 225 + / 262144)%R /\ (row k = 0%R -> requantized qt row k = 0%R).
Proof.
  intros HK HQ Hk Ha. assert (EK : K = 32 * (K / 32)) by (assert (D := Z.div_mod K 32 ltac:(lia)); lia). rewrite EK in HQ, Hk.
  destruct (requantized_near qt (K / 32) row HQ k Hk) as [_ B]. assert (G := amax_is_greatest (block_of row (k / 32))).
  assert (A : (amax (block_of row (k / 32)) <= a)%R).
  { destruct G as [_ [[E _]|(x & Hx & <-)]].
    - exfalso. assert (L : length (block_of row (k / 32)) = 32%nat) by (unfold block_of; rewrite map_length, range_len; reflexivity). rewrite E in L. discriminate L.
    - unfold block_of in Hx. apply in_map_iff in Hx as (j & <- & Hj). apply in_range in Hj. apply Ha. lia. }
  assert (A0 : (0 <= a)%R) by (eapply Rle_trans; [apply (Rabs_pos (row (32 * (k / 32))))|apply Ha; lia]).
  unfold q8_bound in B. destruct (Req_EM_T (row k) 0) as [Z|Z].
  - split; [lra|]. intros _. rewrite Z, Rminus_0_r in B. assert (P := Rabs_pos (requantized qt row k)). assert (Q : Rabs (requantized qt row k) = 0%R) by lra.
    destruct (Req_dec (requantized qt row k) 0) as [|N]; auto. apply Rabs_no_R0 in N. contradiction.
  - split; [lra|contradiction].
Qed.

(* ---------------- embeddings ---------------- *)
Theorem embedding_q4_0_ok hidden weight token yo y (W : Z -> R) : 0 <= token -> hidden mod 32 = 0 -> 0 <= hidden ->
  row_holds Q4_0 weight (token * (hidden / 32)) (hidden / 32) W -> 0 <= yo -> yo + hidden <= b_len y ->
  exists y', embedding_q4_0 hidden weight token yo y = ROk y' /\ b_len y' = b_len y /\
    (forall k, 0 <= k < hidden -> b_at y' (yo + k) = Some (W k)) /\ (forall d, ~ (yo <= d < yo + hidden) -> b_at y' d = b_at y d).
Proof.
  intros Ht H32 Hh HW Hyo Hlen. unfold embedding_q4_0. replace (0 <=? token) with true by lia.
  assert (EH : hidden = hidden / 32 * 32) by (assert (D := Z.div_mod hidden 32 ltac:(lia)); lia). set (HB := hidden / 32) in *.
  replace (token * hidden / 32) with (token * HB) by (rewrite EH at 1; rewrite Z.mul_assoc; symmetry; apply Z.div_mul; lia).
  set (Bf := fun i => match b_at weight (token * HB + i) with Some b => b | None => mkQ None [] end).
  destruct (dequantize_row_ok 32 dequant_q4_0 hidden weight (token * HB) yo y Bf (fun k => Some (W k)) (fun d => Some (W (d - yo)))) as (y' & E & C); [lia| | |].
  - fold HB. intros i Hi. destruct (HW i Hi) as (Bd & blk & Eb & _ & _). unfold loadv, load. replace ((0 <=? token * HB + i) && (token * HB + i <? b_len weight)) with true by lia. cbn [rbind]. unfold Bf. rewrite Eb. reflexivity.
  - fold HB. intros i j Hi Hj. destruct (HW i Hi) as (Bd & blk & Eb & _ & Hd). unfold Bf. rewrite Eb. cbn [dequant] in Hd. rewrite (Hd j Hj). split; [do 3 f_equal; ring|]. split; [nia|]. do 2 f_equal. ring.
  - fold HB in C. rewrite <- EH in C. exists y'. split; auto. destruct C as [c1 c2 c3]. split; auto. split.
    + intros k Hk. rewrite c2 by (unfold segment; lia). do 2 f_equal. ring.
    + intros d Hd. apply c3. exact Hd.
Qed.
