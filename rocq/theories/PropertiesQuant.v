(** C66-C68: block quantization. *)
From Coq Require Import Reals Lra.
From Flocq Require Import Core.
From Verif Require Import Base DTypeModel ParamModel ParamSpec ParamProofs TensorModel TensorSpec TensorProofs OpsModel OpsSpec MatModel MatSpec MatProofs MatKernel MatOps
  AttnSpec AttnProofs QuantModel QuantSpec QuantFloat QuantProofs QuantQ4 QuantQ8K QuantDot QuantLinear QuantRows.
Local Open Scope Z_scope.

(** A buffer of floats holds X(0), ..., X(k-1) from position o on. *)
Definition floats_at (b : buf R) (o k : Z) (X : Z -> R) : Prop := forall i, 0 <= i < k -> 0 <= o + i < b_len b /\ b_at b (o + i) = Some (X i).
(** Positions o, ..., o+n-1 exist. *)
Definition room {A} (b : buf A) (o n : Z) : Prop := 0 <= o /\ o + n <= b_len b.
(** Only positions o, ..., o+n-1 differ. *)
Definition only {A} (o n : Z) (b b' : buf A) : Prop := b_len b' = b_len b /\ forall d, ~ (o <= d < o + n) -> b_at b' d = b_at b d.
(** a bounds the numbers in the block of [lanes] numbers that position i belongs to. *)
Definition block_bound (lanes : Z) (X : Z -> R) (i : Z) (a : R) : Prop := forall j, j / lanes = i / lanes -> (Rabs (X j) <= a)%R.

Lemma floats_load b o k X : floats_at b o k X -> forall i, 0 <= i < k -> loadv b (o + i) = ROk (X i).
Proof. intros H i Hi. destruct (H i Hi). apply loadv_at; auto. Qed.
Lemma bound_amax lanes X i a : 0 < lanes -> block_bound lanes X i a -> (amax (map (fun j => X (lanes * (i / lanes) + j)%Z) (range lanes)) <= a)%R.
Proof.
  intros Hl H. destruct (amax_is_greatest (map (fun j => X (lanes * (i / lanes) + j)) (range lanes))) as [_ [[E _]|(x & Hx & <-)]].
  - exfalso. assert (L : length (map (fun j => X (lanes * (i / lanes) + j)) (range lanes)) = Z.to_nat lanes) by (rewrite map_length, range_len; reflexivity). rewrite E in L. cbn in L. lia.
  - apply in_map_iff in Hx as (j & <- & Hj). apply in_range in Hj. apply H. rewrite (Z.mul_comm lanes), Z.div_add_l, (Z.div_small j) by lia. lia.
Qed.
Lemma in_block lanes n (X : Z -> R) (P : R -> Prop) l k : 0 < lanes -> 0 <= l < n -> k = n * lanes -> (forall i, 0 <= i < k -> P (X i)) -> forall x, In x (map (fun j => X (lanes * l + j)) (range lanes)) -> P x.
Proof. intros Hl Hn -> H x Hx. apply in_map_iff in Hx as (j & <- & Hj). apply in_range in Hj. apply H. nia. Qed.

(** ** C66: quantizing loses a bounded amount *)

(** Q8_0, by every implementation: a row quantized and dequantized differs from the original by at most a 225th of the greatest
    number in the block of 32, plus 2^-18 (the scale is kept in half precision); zeros stay zeros; nothing else is written. *)
Theorem C66_q8_0_roundtrip_partial : forall qt k (x : buf R) xo yo zo (y : buf qblock) (z : buf R) X,
  0 <= k -> k mod 32 = 0 -> floats_at x xo k X ->
  (forall i, 0 <= i < k -> (Rabs (X i) <= 8000000)%R /\ (qt = Reference -> X i = 0%R \/ (bpow radix2 (-100) <= Rabs (X i))%R)) ->
  room y yo (k / 32) -> room z zo k ->
  exists y' z', quantize_row 32 (q8_0_block qt) k x xo yo y = ROk y' /\ only yo (k / 32) y y' /\
    dequantize_row 32 dequant_q8_0 k y' yo zo z = ROk z' /\ only zo k z z' /\
    forall i, 0 <= i < k -> exists r, b_at z' (zo + i) = Some r /\ (X i = 0%R -> r = 0%R) /\
      forall a, block_bound 32 X i a -> (Rabs (r - X i) <= a / 225 + / 262144)%R.
Proof.
  intros qt k x xo yo zo y z X Hk Hm HX HQ [Hy1 Hy2] [Hz1 Hz2].
  destruct (row_roundtrip 32 (q8_0_block qt) dequant_q8_0 (fun v x r => (Rabs (r - x) <= q8_bound (amax v) x)%R) (mkQ None []) k x xo yo zo y z X) as (y' & z' & E1 & L1 & O1 & E2 & L2 & O2 & F); auto; [lia|apply floats_load; auto| |].
  - intros l Hl. assert (EK : k = k / 32 * 32) by (assert (D := Z.div_mod k 32 ltac:(lia)); lia).
    assert (Q := in_block 32 (k / 32) X (quantizable qt) l k ltac:(lia) Hl EK HQ).
    set (v := map (fun j => X (32 * l + j)) (range 32)) in *. assert (LV : length v = 32%nat) by (unfold v; rewrite map_length, range_len; reflexivity).
    assert (G := amax_is_greatest v). destruct (q8_0_ok qt v (amax v) LV G) as (b & E & _ & _ & _ & D & _).
    + destruct G as [_ [[-> _]|(w & Hw & <-)]]; [discriminate LV|]. apply (Q w Hw).
    + intro Hr. destruct G as [_ [[-> _]|(w & Hw & <-)]]; [discriminate LV|]. destruct (proj2 (Q w Hw) Hr) as [->|H]; [left; apply Rabs_R0|right; exact H].
    + exists b. split; auto.
  - exists y', z'. split; auto. split; [split; auto|]. split; auto. split; [split; auto|]. intros i Hi. destruct (F i Hi) as (r & Er & B). exists r. split; auto.
    unfold q8_bound in B. split.
    + intro Z0. destruct (Req_EM_T (X i) 0) as [_|N]; [|contradiction]. rewrite Z0, Rminus_0_r in B. assert (P := Rabs_pos r). destruct (Req_dec r 0) as [|N]; auto. apply Rabs_pos_lt in N. lra.
    + intros a Ha. assert (A := bound_amax 32 X i a ltac:(lia) Ha). assert (0 <= a)%R by (eapply Rle_trans; [apply (Rabs_pos (X i))|apply Ha; reflexivity]).
      eapply Rle_trans; [exact B|]. destruct (Req_EM_T (X i) 0); lra.
Qed.
(** Q4_0 blocks: m is the element of greatest absolute value, of value a; it is kept to within a/1024; the other numbers of
    the block to within half a step (a/16), or one step (a/8) if they are nearly as large as m and of opposite sign. *)
Theorem C66_q4_0_block_partial : forall v a, length v = 32%nat -> greatest v a -> (a <= 400000)%R -> a = 0%R \/ (bpow radix2 (-100) <= a)%R ->
  exists b m, q4_0_block v = ROk b /\ (a = 0%R \/ In m v /\ Rabs m = a) /\ length (q_qs b) = 16%nat /\ in_bytes 0 255 (q_qs b) /\
    decoded_within (fun x => if Req_EM_T x 0 then 0 else if Req_EM_T x m then a / 1024 + / 2097152
                             else if Rle_dec (Rabs x) (0.937 * a) then a / 16 + a / 1024 + / 2097152
                             else if Rle_dec 0 (x * m) then a / 16 + a / 1024 + / 2097152 else a / 8 + a / 1024 + / 2097152)%R
      v (dequant_q4_0 b).
Proof. intros v a HL G Ha HR. destruct (q4_0_ok v a HL G Ha HR) as (b & m & H1 & H2 & H3 & H4 & H5 & _). exists b, m. auto. Qed.
(** Q8_K blocks of 256, with the sums of groups of 16 kept beside the numbers. *)
Theorem C66_q8_K_block_partial : forall v a, length v = 256%nat -> greatest v a -> a = 0%R \/ (bpow radix2 (-100) <= a <= / bpow radix2 (-100))%R ->
  exists b m, q8_K_block v = ROk b /\ (a = 0%R \/ In m v /\ Rabs m = a) /\ length (k_qs b) = 256%nat /\ in_bytes (-128) 127 (k_qs b) /\
    decoded_within (fun x => if Req_EM_T x 0 then 0 else if Rle_dec (Rabs x) (0.996 * a) then a / 256 + a / 100000
                             else if Rle_dec 0 (x * m) then a / 256 + a / 100000 else a / 128 + a / 100000)%R v (dequant_q8_K b) /\
    ((0 < a)%R -> exists s, k_bsums b = Some s /\ length s = 16%nat /\ forall j, (j < 16)%nat -> nth j s 0 = fold_left Z.add (firstn 16 (skipn (16 * j) (k_qs b))) 0).
Proof. intros v a HL G HR. destruct (q8_K_ok v a HL G HR) as (b & m & H). exists b, m. exact H. Qed.
(** int8 with a given scale (NEON): half a step. *)
Theorem C66_i8_partial : forall junk scale x, (bpow radix2 (-100) <= scale <= / bpow radix2 (-100))%R -> (Rabs x <= 127 * scale)%R ->
  exists y, i8_dequant scale (i8_neon junk scale x) = Some y /\ (Rabs (y - x) <= scale / 2 + scale / 10000)%R.
Proof. intros. apply i8_neon_ok; auto. Qed.
(** Numbers out of range saturate; a row is quantized number by number. *)
Theorem C66_i8_saturates_partial : forall junk scale x, (bpow radix2 (-100) <= scale <= / bpow radix2 (-100))%R ->
  ((128 <= x / scale <= bpow radix2 60)%R -> i8_neon junk scale x = 127) /\ ((- bpow radix2 60 <= x / scale <= -129)%R -> i8_neon junk scale x = -128).
Proof.
  intros junk scale x Hs. assert (L := bpow_gt_0 radix2 (-100)). assert (Sp : (0 < scale)%R) by lra. assert (Ex : (x = x / scale * scale)%R) by (field; lra). split; intro H.
  - assert (X : (0 < x)%R) by (rewrite Ex; apply Rmult_lt_0_compat; lra). rewrite (i8_sat junk scale x Hs); [|rewrite Rabs_pos_eq by lra; exact H|right; exact X].
    destruct (Rlt_dec 0 x); [reflexivity|contradiction].
  - assert (X : ~ (0 < x)%R). { intro P. assert (I := Rinv_0_lt_compat scale Sp). assert (0 < x / scale)%R by (apply Rmult_lt_0_compat; lra). lra. }
    rewrite (i8_sat junk scale x Hs); [|rewrite Rabs_left1 by lra; lra|left; rewrite Rabs_left1 by lra; lra].
    destruct (Rlt_dec 0 x); [contradiction|reflexivity].
Qed.
Theorem C66_i8_row_partial : forall junk scale k (x : buf R) (y : buf Z) (X : Z -> R), 0 <= k -> k mod 32 = 0 -> floats_at x 0 k X -> k <= b_len y ->
  exists y', i8_row_neon junk scale k x y = ROk y' /\ b_len y' = b_len y /\
    (forall i, 0 <= i < k -> b_at y' i = Some (i8_neon junk scale (X i))) /\ (forall i, ~ (0 <= i < k) -> b_at y' i = b_at y i).
Proof.
  intros junk scale k x y X Hk Hm HX Hy. destruct (i8_row_ok junk scale k x y X Hk) as (y' & E & H1 & H2 & H3); [|exact Hy|].
  { intros i Hi. destruct (HX i Hi) as [A B]. apply loadv_at; [lia|]. exact B. }
  assert (D := Z.div_mod k 32 ltac:(lia)). replace (k / 32 * 32) with k in H2, H3 by lia. exists y'. auto.
Qed.
(** The portable Q8_0 quantizer on a block of very small numbers converts an infinity to int8_t. *)
Theorem C66_tiny_block_refuted : q8_0_block Reference (repeat (127 * bpow radix2 (-140))%R 32) = RUB.
Proof. exact tiny_block. Qed.
(** A number of 8.3 million or more: the scale overflows half precision, no implementation keeps a number. *)
Theorem C66_large_block_refuted : forall qt, exists b, q8_0_block qt (repeat (127 * 65536)%R 32) = ROk b /\ q_d b = None.
Proof. exact large_block. Qed.
(** The portable int8 quantizer accesses element k of a row of k numbers. *)
Theorem C66_i8_reference_refuted : forall scale id k x y, 1 <= k -> f32 (1 / scale) = Some id -> b_len x = k -> i8_row_reference scale k x y = RUB.
Proof. exact i8_reference_overrun. Qed.

(** The numbers -16, ..., 15 meet the conditions; the block is decoded to within 0.0712. *)
Definition sample : buf R := mkBuf 32 (fun i => Some (IZR (i - 16))).
Lemma sample_ok : floats_at sample 0 32 (fun i => IZR (i - 16)).
Proof. intros i Hi. cbn [sample b_len b_at]. split; [lia|reflexivity]. Qed.
Lemma sample_quantizable qt i : 0 <= i < 32 -> quantizable qt (IZR (i - 16)).
Proof.
  intro Hi. assert (A : (Rabs (IZR (i - 16)) <= 16)%R) by (rewrite <- abs_IZR; apply IZR_le; lia). split; [lra|]. intros _.
  destruct (Z.eq_dec i 16) as [->|N]; [left; reflexivity|]. right. apply Rle_trans with 1%R; [change 1%R with (bpow radix2 0); apply bpow_le; lia|]. rewrite <- abs_IZR. apply IZR_le. lia.
Qed.
Example C66_example : forall qt, exists y' z', quantize_row 32 (q8_0_block qt) 32 sample 0 0 (mkBuf 1 (fun _ => None)) = ROk y' /\
  dequantize_row 32 dequant_q8_0 32 y' 0 0 (mkBuf 32 (fun _ => None)) = ROk z' /\ exists r, b_at z' 17 = Some r /\ (0.9 <= r <= 1.1)%R.
Proof.
  intro qt. destruct (C66_q8_0_roundtrip_partial qt 32 sample 0 0 0 (mkBuf 1 (fun _ => None)) (mkBuf 32 (fun _ => None)) (fun i => if (0 <=? i) && (i <? 32) then IZR (i - 16) else 0%R)) as (y' & z' & E1 & _ & E2 & _ & F); try (unfold room; cbn; lia); auto.
  - intros i Hi. replace ((0 <=? i) && (i <? 32)) with true by lia. apply (sample_ok i Hi).
  - intros i Hi. replace ((0 <=? i) && (i <? 32)) with true by lia. apply sample_quantizable; auto.
  - exists y', z'. split; auto. split; auto. destruct (F 17 ltac:(lia)) as (r & Er & _ & B). exists r. split; [exact Er|].
    assert (H := B 16%R). cbn [Z.leb Z.ltb Z.compare andb Pos.compare Pos.compare_cont] in H. change (IZR (17 - 16)) with 1%R in H.
    assert (A : (Rabs (r - 1) <= 16 / 225 + / 262144)%R).
    { apply H. intros j _. destruct ((0 <=? j) && (j <? 32)) eqn:Q; [|rewrite Rabs_R0; lra]. rewrite <- abs_IZR. apply IZR_le. lia. }
    apply Rabs_bounds in A. lra.
Qed.

(** ** C67: products of quantized rows *)

(** Every instruction set computes the exact integer product of 32 pairs of bytes, if the second operand does not contain -128. *)
Theorem C67_integer_product : forall isa a b, length a = 32%nat -> length b = 32%nat -> in_bytes (-128) 127 a -> in_bytes (-127) 127 b ->
  fold_right Z.add 0 (lanes_dot isa a b) = inner_ints a b.
Proof. exact lanes_dot_ok. Qed.
(** The product of two rows of blocks is the inner product of the numbers the dequantizer decodes from them. *)
Theorem C67_row_product_partial : forall isa t n a ao b bo X Y, 0 <= n -> row_holds t a ao n X -> row_holds Q8_0 b bo n Y -> no_minus_128 b bo n ->
  blocks_dot isa t n a ao b bo = ROk (inner (32 * n) X Y).
Proof. exact blocks_dot_ok. Qed.
(** The ARM kernels for one pair of rows: the same for an even number of blocks... *)
Theorem C67_arm_even_partial : forall isa t n a ao b bo X Y, isa = Vdot \/ isa = Vmull -> 0 <= n -> n mod 64 = 0 ->
  row_holds t a ao (n / 32) X -> row_holds Q8_0 b bo (n / 32) Y -> no_minus_128 b bo (n / 32) -> vec_dot_arm isa t n a ao b bo = ROk (inner n X Y).
Proof. intros isa t n a ao b bo X Y HI. intros. apply vec_dot_arm_even; auto. destruct HI as [->| ->]; reflexivity. Qed.
(** ... but with an odd number of blocks they read the block after the row. *)
Theorem C67_arm_odd_refuted : forall isa t nb a ao b bo X Y, isa = Vdot \/ isa = Vmull -> 0 <= nb -> nb mod 2 = 1 ->
  row_holds t a ao nb X -> row_holds Q8_0 b bo nb Y -> no_minus_128 b bo nb -> b_len a = ao + nb \/ b_len b = bo + nb ->
  vec_dot_arm isa t (32 * nb) a ao b bo = RUB.
Proof. intros isa t nb a ao b bo X Y HI. intros. eapply vec_dot_arm_odd; eauto. destruct HI as [->| ->]; reflexivity. Qed.
(** The ARM int8 matrix-multiply kernel stores two floats for one product. *)
Theorem C67_mmla_refuted : forall n a ao b bo s so X Y, 0 <= n -> row_holds Q4_0 a ao (n / 32) X -> row_holds Q8_0 b bo (n / 32) Y -> no_minus_128 b bo (n / 32) ->
  b_len s = so + 1 -> 0 <= so -> vec_dot_mmla n a ao b bo s so = RUB.
Proof. exact vec_dot_mmla_overrun. Qed.
(** With the byte -128 in the second operand the x86 kernels return the wrong sign. *)
Theorem C67_minus_128_refuted : forall isa, isa = Maddubs \/ isa = Vnni ->
  fold_right Z.add 0 (lanes_dot isa (repeat (-1) 32) (repeat (-128) 32)) = -4096 /\ inner_ints (repeat (-1) 32) (repeat (-128) 32) = 4096.
Proof. exact minus_128_wrong. Qed.

(** Two rows of one block: scale 1/2, numbers 1..32 and 3, 3, ... *)
Lemma f16_half : f16 (/ 2) = Some (/ 2)%R.
Proof.
  unfold f16. replace (/ 2)%R with (bpow radix2 (-1)) by (simpl; lra). replace (nearest (-24) 11 (bpow radix2 (-1))) with (bpow radix2 (-1)) by (symmetry; apply round_generic; [apply valid_rnd_N|apply generic_format_bpow; unfold FLT_exp; lia]).
  rewrite Rabs_pos_eq by apply bpow_ge_0. destruct (Rlt_dec _ _) as [|N]; auto. exfalso. apply N. apply bpow_lt. lia.
Qed.
Definition one_block (qs : list Z) : buf qblock := mkBuf 1 (fun _ => Some (mkQ (Some (/ 2)%R) qs)).
Lemma one_block_holds qs : length qs = 32%nat -> in_bytes (-128) 127 qs -> row_holds Q8_0 (one_block qs) 0 1 (fun k => (IZR (nth (Z.to_nat k) qs 0%Z) * / 2)%R).
Proof.
  intros HL HB l Hl. replace l with 0 by lia. cbn [one_block b_len b_at]. split; [lia|]. eexists. split; [reflexivity|].
  assert (S : stored Q8_0 (mkQ (Some (/ 2)%R) qs)) by (split; [exists (/ 2)%R; split; [reflexivity|apply f16_half]|auto]). split; auto.
  intros j Hj. destruct (stored_ints Q8_0 _ S) as (_ & _ & d & Ed & _ & ->). cbn in Ed. injection Ed as <-. cbn [block_ints q_qs]. rewrite nth_error_map, (nth_error_nth' qs 0) by lia. reflexivity.
Qed.
Example C67_example : forall isa, blocks_dot isa Q8_0 1 (one_block (map (fun i => i + 1) (range 32))) 0 (one_block (repeat 3 32)) 0 = ROk 396%R.
Proof.
  intro isa. rewrite (C67_row_product_partial isa Q8_0 1 (one_block (map (fun i => i + 1) (range 32))) 0 (one_block (repeat 3 32)) 0
    (fun k => (IZR (nth (Z.to_nat k) (map (fun i => (i + 1)%Z) (range 32)) 0%Z) * / 2)%R) (fun k => (IZR (nth (Z.to_nat k) (repeat 3%Z 32) 0%Z) * / 2)%R)).
  - f_equal. cbv -[IZR Rplus Rmult Rinv]. lra.
  - lia.
  - apply one_block_holds; [reflexivity|]. unfold in_bytes. apply Forall_forall. intros z Hz. apply in_map_iff in Hz as (i & <- & Hi). apply in_range in Hi. lia.
  - apply one_block_holds; [reflexivity|]. unfold in_bytes. apply Forall_forall. intros z Hz. apply repeat_spec in Hz. lia.
  - intros l blk Hl Hb. left. cbn in Hb. injection Hb as <-. unfold in_bytes. apply Forall_forall. intros z Hz. apply (repeat_spec 32 3) in Hz. lia.
Qed.

(** ** C68: the linear layer with a quantized weight *)

(** The input is quantized to X', near X; then output (p, m, n) is row n of the decoded weight times X'(p, m, .), plus the bias. *)
Theorem C68_linear_quantized_partial : forall qt isa pk t threads (x : tns R) weight bias pre M K N FX (W : Z -> Z -> R) fb,
  1 <= threads -> 0 <= N -> K mod 32 = 0 ->
  holds x (pre ++ [M; K]) FX -> (forall n, 0 <= n < N -> row_holds t weight (n * (K / 32)) (K / 32) (W n)) -> bias_holds bias fb N ->
  (forall idx, in_shape (pre ++ [M; K]) idx -> (Rabs (FX idx) <= 8000000)%R /\ (qt = Reference -> FX idx = 0%R \/ (bpow radix2 (-100) <= Rabs (FX idx))%R)) ->
  exists out X', linear_q qt isa pk t threads K N weight bias x = ROk out /\
    x_shape out = pre ++ [M; N] /\ tensor_ok out /\ owns_storage out /\
    forall p m, in_shape pre p -> 0 <= m < M ->
      (forall n, 0 <= n < N -> elem out (p ++ [m; n]) = Some (with_bias Rplus fb n (inner K (W n) (X' p m)))) /\
      (forall k a, 0 <= k < K -> (forall j, 0 <= j < K -> j / 32 = k / 32 -> (Rabs (FX (p ++ [m; j])) <= a)%R) ->
         (Rabs (X' p m k - FX (p ++ [m; k])) <= a / 225 + / 262144)%R /\ (FX (p ++ [m; k]) = 0%R -> X' p m k = 0%R)).
Proof.
  intros qt isa pk t threads x weight bias pre M K N FX W fb HT HN HK HX HW HB HQ.
  destruct (linear_q_correct qt isa pk t threads x weight bias pre M K N FX W fb HT HN HK HX HW HB HQ) as (out & E & S & O & Ow & F).
  exists out, (fun p m => requantized qt (fun k => FX (p ++ [m; k]))). repeat (split; auto).
  - apply (requantized_error qt K (fun k => FX (p ++ [m; k])) a k); auto.
    + intros j Hj. apply HQ. apply in_shape_app; [apply in_shape_length; auto|]. split; auto. repeat constructor; lia.
    + intros j Hj. apply H2.
      * assert (D := Z.div_mod K 32 ltac:(lia)). assert (k / 32 < K / 32) by (apply Z.div_lt_upper_bound; lia). assert (0 <= k / 32) by (apply Z.div_pos; lia). lia.
      * symmetry. apply (Z.div_unique_pos j 32 (k / 32) (j - 32 * (k / 32))); lia.
  - apply (requantized_error qt K (fun k => FX (p ++ [m; k])) a k); auto.
    + intros j Hj. apply HQ. apply in_shape_app; [apply in_shape_length; auto|]. split; auto. repeat constructor; lia.
    + intros j Hj. apply H2.
      * assert (D := Z.div_mod K 32 ltac:(lia)). assert (k / 32 < K / 32) by (apply Z.div_lt_upper_bound; lia). assert (0 <= k / 32) by (apply Z.div_pos; lia). lia.
      * symmetry. apply (Z.div_unique_pos j 32 (k / 32) (j - 32 * (k / 32))); lia.
Qed.
(** So the output differs from the product with the unquantized input by at most the sum of |weight| times these errors. *)
Theorem C68_input_error : forall K w x y e, (forall k, 0 <= k < K -> (Rabs (y k - x k) <= e k)%R) ->
  (Rabs (inner K w y - inner K w x) <= total_over (range K) (fun k => Rabs (w k) * e k))%R.
Proof. exact inner_error. Qed.
(** Embedding with a Q4_0 table: the row of the token, decoded. *)
Theorem C68_embedding_q4_0_partial : forall hidden weight token yo y (W : Z -> R), 0 <= token -> hidden mod 32 = 0 -> 0 <= hidden ->
  row_holds Q4_0 weight (token * (hidden / 32)) (hidden / 32) W -> room y yo hidden ->
  exists y', embedding_q4_0 hidden weight token yo y = ROk y' /\ only yo hidden y y' /\ floats_at y' yo hidden W.
Proof.
  intros hidden weight token yo y W Ht Hm Hh HW [R1 R2]. destruct (embedding_q4_0_ok hidden weight token yo y W Ht Hm Hh HW R1 R2) as (y' & E & L & F & O).
  exists y'. split; auto. split; [split; auto|]. intros k Hk. rewrite L. split; [lia|]. apply F. auto.
Qed.
(** A negative token leaves the row of the output as it was allocated. *)
Theorem C68_embedding_negative_refuted : forall hidden weight token yo y, token < 0 -> embedding_q4_0 hidden weight token yo y = ROk y.
Proof. intros hidden weight token yo y H. unfold embedding_q4_0. replace (0 <=? token) with false by lia. reflexivity. Qed.

Example C68_example : forall qt isa pk, exists out r, linear_q qt isa pk Q8_0 4 32 1 (one_block (repeat 2 32)) None (mkTns (mkV [1; 32] [32; 1] 0) sample) = ROk out /\
  elem out [0; 0] = Some r /\ (-18.4 <= r <= -13.6)%R.
Proof.
  intros qt isa pk.
  destruct (C68_linear_quantized_partial qt isa pk Q8_0 4 (mkTns (mkV [1; 32] [32; 1] 0) sample) (one_block (repeat 2 32)) None [] 1 32 1 (fun idx => IZR (nth 1 idx 0 - 16)) (fun _ k => (IZR (nth (Z.to_nat k) (repeat 2%Z 32) 0%Z) * / 2)%R) None)
    as (out & X' & E & _ & _ & _ & F); try lia; auto.
  - assert (I : forall idx, in_shape [1; 32] idx -> exists k, idx = [0; k] /\ 0 <= k < 32).
    { intros idx H. destruct idx as [|a [|b [|c r]]]; try (apply in_shape_length in H; discriminate H). apply in_shape_cons in H as [Ha H]. apply in_shape_cons in H as [Hb _]. exists b. split; [f_equal; lia|auto]. }
    assert (OB := owner_ok [1; 32] sample ltac:(cbn; lia) ltac:(repeat constructor; lia) eq_refl). cbn in OB. constructor; auto.
    + apply OB.
    + apply (default_strides_row_major [1; 32]).
    + intros idx H. destruct (I idx H) as (k & -> & Hk). unfold elem, address. cbn. f_equal. f_equal. lia.
  - intros n Hn. replace n with 0 by lia. apply one_block_holds; [reflexivity|]. unfold in_bytes. apply Forall_forall. intros z Hz. apply repeat_spec in Hz. lia.
  - exact I.
  - intros idx H. destruct idx as [|a [|b [|c r]]]; try (apply in_shape_length in H; discriminate H). apply in_shape_cons in H as [Ha H]. apply in_shape_cons in H as [Hb _]. cbn [nth]. apply sample_quantizable. auto.
  - destruct (F [] 0 ltac:(constructor) ltac:(lia)) as [F1 F2]. exists out. eexists. split; [exact E|]. split; [apply (F1 0); lia|]. cbn [with_bias].
    assert (B := C68_input_error 32 (fun k => (IZR (nth (Z.to_nat k) (repeat 2%Z 32) 0%Z) * / 2)%R) (fun k => IZR (k - 16)) (X' [] 0) (fun _ => 16 / 225 + / 262144)%R).
    assert (B' : (Rabs (inner 32 (fun k => (IZR (nth (Z.to_nat k) (repeat 2%Z 32) 0%Z) * / 2)%R) (X' [] 0%Z) - inner 32 (fun k => (IZR (nth (Z.to_nat k) (repeat 2%Z 32) 0%Z) * / 2)%R) (fun k => IZR (k - 16)%Z)) <= 2.4)%R).
    { eapply Rle_trans; [apply B|].
      - intros k Hk. destruct (F2 k 16%R Hk) as [G _]; [|exact G]. intros j Hj _. cbn [app nth]. rewrite <- abs_IZR. apply IZR_le. lia.
      - cbv -[IZR Rplus Rmult Rinv Rabs Rdiv Rle]. replace (Rabs (2 * / 2)) with 1%R by (rewrite Rabs_pos_eq; lra). lra. }
    assert (EX : inner 32 (fun k => (IZR (nth (Z.to_nat k) (repeat 2%Z 32) 0%Z) * / 2)%R) (fun k => IZR (k - 16)) = (-16)%R) by (cbv -[IZR Rplus Rmult Rinv]; lra).
    rewrite EX in B'. apply Rabs_bounds in B'. lra.
Qed.
Print Assumptions C66_q8_0_roundtrip_partial.
Print Assumptions C66_q4_0_block_partial.
Print Assumptions C66_q8_K_block_partial.
Print Assumptions C66_i8_partial.
Print Assumptions C66_i8_saturates_partial.
Print Assumptions C66_i8_row_partial.
Print Assumptions C66_tiny_block_refuted.
Print Assumptions C66_large_block_refuted.
Print Assumptions C66_i8_reference_refuted.
Print Assumptions C67_integer_product.
Print Assumptions C67_row_product_partial.
Print Assumptions C67_arm_even_partial.
Print Assumptions C67_arm_odd_refuted.
Print Assumptions C67_mmla_refuted.
Print Assumptions C67_minus_128_refuted.
Print Assumptions C68_linear_quantized_partial.
Print Assumptions C68_input_error.
Print Assumptions C68_embedding_q4_0_partial.
Print Assumptions C68_embedding_negative_refuted.
