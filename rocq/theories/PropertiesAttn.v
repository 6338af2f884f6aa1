(** Property theorems C57 - C60 (attention on the CPU, over the real numbers). *)
From Coq Require Import Reals Lra.
From Verif Require Import Base DTypeModel ParamModel ParamSpec ParamProofs TensorModel TensorSpec TensorProofs TensorSplit
  PropertiesTensor OpsModel OpsSpec OpsProofs OpsIndex OpsSum PropertiesOps MatModel MatSpec MatProofs MatKernel MatOps
  AttnModel AttnSpec AttnProofs AttnOps.
Local Open Scope Z_scope.

(** Concrete tensors of real numbers. *)
Definition reals (shape : list Z) (l : list R) : tns R :=
  mkTns (mkV shape (default_strides shape) 0) (mkBuf (product shape) (fun i => if 0 <=? i then nth_error l (Z.to_nat i) else None)).
Definition reals_at (shape : list Z) (l : list R) (idx : list Z) : R := nth (Z.to_nat (ravel shape idx)) l 0%R.
Lemma reals_holds shape l : (1 <= length shape <= 16)%nat -> Forall (fun d => 0 <= d) shape -> zlen l = product shape ->
  holds (reals shape l) shape (reals_at shape l).
Proof.
  intros H1 H2 H3. destruct (@owner_ok R shape (x_buf (reals shape l)) H1 H2 eq_refl) as [O1 O2].
  constructor; auto; [apply owns_contiguous; auto|].
  intros idx Hi. unfold reals. rewrite owner_elem by (apply in_shape_length; auto). cbn [b_at].
  assert (B := ravel_bounds _ _ Hi). replace (0 <=? ravel shape idx) with true by lia.
  apply nth_error_nth'. unfold zlen in H3. lia.
Qed.
Ltac holds_reals := apply reals_holds; [cbn; lia|repeat constructor; lia|reflexivity].
Definition sensible (a : arch) : Prop := match a with X86 lanes => 0 < lanes | Arm => True end.

(* ------------------------------------------------------------------ *)
(** ** C57: flash attention *)

(** For every number of batches, tokens, heads and channels, grouped heads included (g query heads
    per key head), on both architectures, for every register width and every order in which
    the heads are processed: the result for query s is the softmax attention over the keys
    up to its own position S_KV - S_Q + s. *)
Theorem C57_flash_attention : forall a order tq tk tv B S_Q S_KV H_KV g D FQ FK FV,
  sensible a -> Permutation order (range (H_KV * g)) ->
  holds tq [B; S_Q; H_KV * g; D] FQ -> holds tk [B; S_KV; H_KV; D] FK -> holds tv [B; S_KV; H_KV; D] FV ->
  1 <= H_KV -> 1 <= g -> 1 <= D -> S_Q <= S_KV ->
  exists out, flash_attention_op a order (H_KV * g) H_KV tq tk tv = ROk out /\
    x_shape out = [B; S_Q; H_KV * g; D] /\ tensor_ok out /\ owns_storage out /\
    forall b s h d, 0 <= b < B -> 0 <= s < S_Q -> 0 <= h < H_KV * g -> 0 <= d < D ->
      elem out [b; s; h; d] =
      Some (attend D (fun d => FQ [b; s; h; d]) (fun j d => FK [b; j; h / g; d]) (fun j => FV [b; j; h / g; d]) 0
             (range (S_KV - S_Q + s + 1))).
Proof.
  intros a order tq tk tv B S_Q S_KV H_KV g D FQ FK FV HA HO HQ HK HV H1 H2 H3 H4.
  destruct (flash_correct a order tq tk tv B S_Q S_KV (H_KV * g) H_KV g D FQ FK FV) as (out & E & O1 & O2 & O3 & O4); auto.
  exists out. split; [auto|]. split; [auto|]. split; [auto|]. split; [auto|]. intros b s h d Hb Hs Hh Hd. rewrite O4 by auto. replace (0 <? S_KV - S_Q + s + 1) with true by lia. reflexivity.
Qed.

(** Options or tensors that do not fit are refused. *)
Theorem C57_mismatch_refused : forall a order q_head kv_head tq tk tv B S_Q S_KV S_V H_Q H_KV D FQ FK FV,
  holds tq [B; S_Q; H_Q; D] FQ -> holds tk [B; S_KV; H_KV; D] FK -> holds tv [B; S_V; H_KV; D] FV ->
  H_Q <> q_head \/ S_KV <> S_V -> flash_attention_op a order q_head kv_head tq tk tv = RAbort.
Proof.
  intros a order q_head kv_head tq tk tv B S_Q S_KV S_V H_Q H_KV D FQ FK FV HQ HK HV HM. unfold flash_attention_op.
  rewrite (h_shape _ _ _ HQ), (h_shape _ _ _ HK), (h_shape _ _ _ HV), fresh_ok by (cbn; lia). cbn [rbind]. rewrite (holds_contiguous _ _ _ HQ). cbn [negb].
  rewrite dim4_ok. cbn [rbind]. destruct (Z.eqb_spec H_Q q_head); [|reflexivity]. cbn [negb].
  change (vget [B; S_KV; H_KV; D] 1) with (ROk S_KV). change (vget [B; S_V; H_KV; D] 1) with (ROk S_V). cbn [rbind].
  destruct HM as [HM|HM]; [contradiction|]. replace (S_KV =? S_V) with false by lia. reflexivity.
Qed.

(** Attention is an average: a bound on the visible values bounds the result, and values of
    tokens that are not visible do not matter. *)
Lemma total_scale js f c : total_over js (fun j => (c * f j)%R) = (c * total_over js f)%R.
Proof. induction js as [|j js IH]; cbn; [ring|]. unfold total_over in *. rewrite IH. ring. Qed.
Lemma total_le js f g : (forall j, In j js -> (f j <= g j)%R) -> (total_over js f <= total_over js g)%R.
Proof.
  induction js as [|j js IH]; intro H; cbn; [lra|]. assert (P := H j (or_introl eq_refl)).
  unfold total_over in *. specialize (IH (fun k Hk => H k (or_intror Hk))). lra.
Qed.
Theorem C57_average : forall D q k v js lo hi, js <> [] -> (forall j, In j js -> (lo <= v j <= hi)%R) ->
  (lo <= attend D q k v 0 js <= hi)%R.
Proof.
  intros D q k v js lo hi HN HB. unfold attend. rewrite Rplus_0_l. set (w := fun j => weight D q (k j)).
  destruct (total_pos js w) as [_ T]; [intros; apply weight_pos|]. specialize (T HN).
  assert (W : forall j, (0 < w j)%R) by (intro; apply weight_pos).
  assert (L : (lo * total_over js w <= total_over js (fun j => w j * v j))%R).
  { rewrite <- total_scale. apply total_le. intros j Hj. specialize (HB j Hj). specialize (W j). assert ((w j * lo <= w j * v j)%R) by (apply Rmult_le_compat_l; lra). lra. }
  assert (U : (total_over js (fun j => w j * v j) <= hi * total_over js w)%R).
  { rewrite <- total_scale. apply total_le. intros j Hj. specialize (HB j Hj). specialize (W j). assert ((w j * v j <= w j * hi)%R) by (apply Rmult_le_compat_l; lra). lra. }
  change (lo <= total_over js (fun j => w j * v j) / total_over js w <= hi)%R. split.
  - apply Rmult_le_reg_r with (total_over js w); [exact T|]. unfold Rdiv. rewrite Rmult_assoc, Rinv_l by lra. lra.
  - apply Rmult_le_reg_r with (total_over js w); [exact T|]. unfold Rdiv. rewrite Rmult_assoc, Rinv_l by lra. lra.
Qed.
Theorem C57_causal : forall a order tq tk tv tk' tv' B S_Q S_KV H_KV g D FQ FK FV FK' FV' s,
  sensible a -> Permutation order (range (H_KV * g)) ->
  holds tq [B; S_Q; H_KV * g; D] FQ -> holds tk [B; S_KV; H_KV; D] FK -> holds tv [B; S_KV; H_KV; D] FV ->
  holds tk' [B; S_KV; H_KV; D] FK' -> holds tv' [B; S_KV; H_KV; D] FV' ->
  1 <= H_KV -> 1 <= g -> 1 <= D -> S_Q <= S_KV -> 0 <= s < S_Q ->
  (forall b j h d, j <= S_KV - S_Q + s -> FK [b; j; h; d] = FK' [b; j; h; d] /\ FV [b; j; h; d] = FV' [b; j; h; d]) ->
  exists out out', flash_attention_op a order (H_KV * g) H_KV tq tk tv = ROk out /\ flash_attention_op a order (H_KV * g) H_KV tq tk' tv' = ROk out' /\
    forall b h d, 0 <= b < B -> 0 <= h < H_KV * g -> 0 <= d < D -> elem out [b; s; h; d] = elem out' [b; s; h; d].
Proof.
  intros a order tq tk tv tk' tv' B S_Q S_KV H_KV g D FQ FK FV FK' FV' s HA HO HQ HK HV HK' HV' H1 H2 H3 H4 Hs HE.
  destruct (C57_flash_attention a order tq tk tv B S_Q S_KV H_KV g D FQ FK FV) as (out & E & _ & _ & _ & O); auto.
  destruct (C57_flash_attention a order tq tk' tv' B S_Q S_KV H_KV g D FQ FK' FV') as (out' & E' & _ & _ & _ & O'); auto.
  exists out, out'. split; [auto|]. split; [auto|]. intros b h d Hb Hh Hd. rewrite O, O' by auto. f_equal.
  apply attend_ext; auto; intros j; intros; match goal with H : In j _ |- _ => apply in_range in H end; apply HE; lia.
Qed.

(** Two queries, two keys, one head: with a zero query the result is the plain average of the values seen so far. *)
Lemma C57_hypotheses :
  holds (reals [1; 2; 1 * 1; 1] [0%R; 0%R]) [1; 2; 1 * 1; 1] (reals_at [1; 2; 1 * 1; 1] [0%R; 0%R]) /\
  holds (reals [1; 2; 1; 1] [7%R; 8%R]) [1; 2; 1; 1] (reals_at [1; 2; 1; 1] [7%R; 8%R]) /\
  holds (reals [1; 2; 1; 1] [2%R; 4%R]) [1; 2; 1; 1] (reals_at [1; 2; 1; 1] [2%R; 4%R]).
Proof. split; [holds_reals|split; holds_reals]. Qed.
Lemma zero_query D k : weight D (fun _ => 0%R) k = 1%R.
Proof.
  unfold weight, inner. replace (total_over (range D) (fun d => (0 * k d)%R)) with 0%R; [unfold Rdiv; rewrite Rmult_0_l; apply exp_0|].
  rewrite (total_scale (range D) k 0). ring.
Qed.
Ltac eval_ranges := repeat match goal with |- context [range ?n] => let l := eval vm_compute in (range n) in change (range n) with l end.
Lemma attend_uniform D q k v e js : (forall d, 0 <= d < D -> q d = 0%R) -> attend D q k v e js = (total_over js v / (e + total_over js (fun _ => 1%R)))%R.
Proof.
  intro H. rewrite (attend_ext D q (fun _ => 0%R) k k v v e js) by auto. unfold attend.
  rewrite (total_ext js (fun j => weight D (fun _ => 0%R) (k j)) (fun _ => 1%R)) by (intros; apply zero_query). f_equal.
  apply total_ext. intros j _. rewrite zero_query. ring.
Qed.
Example C57_example : exists out,
  flash_attention_op (X86 8) [0] 1 1 (reals [1; 2; 1; 1] [0%R; 0%R]) (reals [1; 2; 1; 1] [7%R; 8%R]) (reals [1; 2; 1; 1] [2%R; 4%R]) = ROk out /\
  elem out [0; 0; 0; 0] = Some 2%R /\ elem out [0; 1; 0; 0] = Some 3%R.
Proof.
  destruct C57_hypotheses as (A1 & A2 & A3).
  destruct (C57_flash_attention (X86 8) [0] _ _ _ 1 2 2 1 1 1 _ _ _ ltac:(cbn; lia) (Permutation_refl _) A1 A2 A3) as (out & E & _ & _ & _ & O); try lia.
  exists out. split; [exact E|].
  rewrite !O by lia. split; f_equal; (rewrite attend_uniform; [|intros d Hd; assert (d = 0) by lia; subst; reflexivity]); eval_ranges; unfold reals_at, total_over; cbn; try change (Pos.to_nat 1) with 1%nat; cbn; field.
Qed.

(** With fewer keys than queries the leading queries see nothing, and their result is not a
    number; the other queries are right. *)
Theorem C57_too_many_queries_refuted : forall a order tq tk tv B S_Q S_KV H_KV g D FQ FK FV,
  sensible a -> Permutation order (range (H_KV * g)) ->
  holds tq [B; S_Q; H_KV * g; D] FQ -> holds tk [B; S_KV; H_KV; D] FK -> holds tv [B; S_KV; H_KV; D] FV ->
  1 <= H_KV -> 1 <= g -> 1 <= D ->
  exists out, flash_attention_op a order (H_KV * g) H_KV tq tk tv = ROk out /\
    forall b s h d, 0 <= b < B -> 0 <= s < S_Q - S_KV -> s < S_Q -> 0 <= h < H_KV * g -> 0 <= d < D -> elem out [b; s; h; d] = None.
Proof.
  intros a order tq tk tv B S_Q S_KV H_KV g D FQ FK FV HA HO HQ HK HV H1 H2 H3.
  destruct (flash_correct a order tq tk tv B S_Q S_KV (H_KV * g) H_KV g D FQ FK FV) as (out & E & O1 & O2 & O3 & O4); auto.
  exists out. split; auto. intros b s h d Hb Hs Hs2 Hh Hd. rewrite O4 by (auto; lia). replace (0 <? S_KV - S_Q + s + 1) with false by lia. reflexivity.
Qed.
(** Three query heads on two key heads are accepted, and head 2 reads a key head that does not exist;
    fewer query heads than key heads divide by zero. *)
Theorem C57_uneven_heads_refuted :
  flash_attention_op Arm [2; 0; 1] 3 2 (reals [1; 1; 3; 1] [1%R; 1%R; 1%R]) (reals [1; 1; 2; 1] [1%R; 1%R]) (reals [1; 1; 2; 1] [1%R; 1%R]) = RUB /\
  flash_attention_op Arm [0] 1 2 (reals [1; 1; 1; 1] [1%R]) (reals [1; 1; 2; 1] [1%R; 1%R]) (reals [1; 1; 2; 1] [1%R; 1%R]) = RUB.
Proof. split; lazy; reflexivity. Qed.
(** The strides of keys and values are ignored, although strided ("flexible layout") tensors are accepted:
    a tensor with other strides, hence other elements, gives the same result. *)
Theorem C57_strides_refuted :
  (forall a order q_head kv_head tq tk tv tk' tv', x_shape tk = x_shape tk' -> x_shape tv = x_shape tv' ->
     x_buf tk = x_buf tk' -> x_buf tv = x_buf tv' -> x_offset tk = x_offset tk' -> x_offset tv = x_offset tv' ->
     flash_attention_op a order q_head kv_head tq tk tv = flash_attention_op a order q_head kv_head tq tk' tv') /\
  (let t := reals [1; 2; 2; 1] [0%R; 9%R; 5%R; 9%R] in
   let strided := mkTns (mkV [1; 2; 1; 1] [4; 2; 1; 1] 0) (x_buf t) in
   let plain := mkTns (mkV [1; 2; 1; 1] [2; 1; 1; 1] 0) (x_buf t) in
   contents strided = [Some 0%R; Some 5%R] /\ contents plain = [Some 0%R; Some 9%R]).
Proof.
  split.
  - intros a order q_head kv_head tq tk tv tk' tv' E1 E2 E3 E4 E5 E6. unfold flash_attention_op. rewrite E1, E2, E3, E4, E5, E6. reflexivity.
  - split; reflexivity.
Qed.

(* ------------------------------------------------------------------ *)
(** ** C58: processing a prompt in pieces *)

(** Processing tokens t .. t+n-1 with the keys and values of the tokens 0 .. t+n-1 in the cache
    gives what processing all S tokens at once gives for them; n = 1 is decoding. *)
Theorem C58_incremental : forall a order tq tk tv tq' tk' tv' B S t n H_KV g D FQ FK FV FQ' FK' FV',
  sensible a -> Permutation order (range (H_KV * g)) -> 1 <= H_KV -> 1 <= g -> 1 <= D -> 0 <= t -> 0 <= n -> t + n <= S ->
  holds tq [B; S; H_KV * g; D] FQ -> holds tk [B; S; H_KV; D] FK -> holds tv [B; S; H_KV; D] FV ->
  holds tq' [B; n; H_KV * g; D] FQ' -> holds tk' [B; t + n; H_KV; D] FK' -> holds tv' [B; t + n; H_KV; D] FV' ->
  (forall b s h d, 0 <= s < n -> FQ' [b; s; h; d] = FQ [b; t + s; h; d]) ->
  (forall b j h d, 0 <= j < t + n -> FK' [b; j; h; d] = FK [b; j; h; d] /\ FV' [b; j; h; d] = FV [b; j; h; d]) ->
  exists whole piece, flash_attention_op a order (H_KV * g) H_KV tq tk tv = ROk whole /\
    flash_attention_op a order (H_KV * g) H_KV tq' tk' tv' = ROk piece /\
    forall b s h d, 0 <= b < B -> 0 <= s < n -> 0 <= h < H_KV * g -> 0 <= d < D ->
      elem piece [b; s; h; d] = elem whole [b; t + s; h; d] /\ elem piece [b; s; h; d] <> None.
Proof.
  intros a order tq tk tv tq' tk' tv' B S t n H_KV g D FQ FK FV FQ' FK' FV' HA HO H1 H2 H3 Ht Hn HS HQ HK HV HQ' HK' HV' EQ EK.
  destruct (C57_flash_attention a order tq tk tv B S S H_KV g D FQ FK FV) as (out & E & _ & _ & _ & O); auto; [lia|].
  destruct (C57_flash_attention a order tq' tk' tv' B n (t + n) H_KV g D FQ' FK' FV') as (out' & E' & _ & _ & _ & O'); auto; [lia|].
  exists out, out'. split; [auto|]. split; [auto|]. intros b s h d Hb Hs Hh Hd. rewrite O' by auto. split; [|discriminate]. rewrite O by (auto; lia). f_equal.
  replace (t + n - n + s + 1) with (S - S + (t + s) + 1) by ring.
  apply attend_ext; [intros; apply EQ; auto| |]; intros j; intros; match goal with H : In j _ |- _ => apply in_range in H end; apply EK; lia.
Qed.
(** Decoding the second of the two tokens of C57_example. *)
Example C58_example : exists whole piece,
  flash_attention_op (X86 8) [0] 1 1 (reals [1; 2; 1; 1] [0%R; 0%R]) (reals [1; 2; 1; 1] [7%R; 8%R]) (reals [1; 2; 1; 1] [2%R; 4%R]) = ROk whole /\
  flash_attention_op (X86 8) [0] 1 1 (reals [1; 1; 1; 1] [0%R]) (reals [1; 2; 1; 1] [7%R; 8%R]) (reals [1; 2; 1; 1] [2%R; 4%R]) = ROk piece /\
  elem piece [0; 0; 0; 0] = elem whole [0; 1; 0; 0].
Proof.
  destruct C57_hypotheses as (A1 & A2 & A3).
  assert (A4 : holds (reals [1; 1; 1 * 1; 1] [0%R]) [1; 1; 1 * 1; 1] (reals_at [1; 1; 1 * 1; 1] [0%R])) by holds_reals.
  destruct (C58_incremental (X86 8) [0] (reals [1; 2; 1; 1] [0%R; 0%R]) (reals [1; 2; 1; 1] [7%R; 8%R]) (reals [1; 2; 1; 1] [2%R; 4%R])
    (reals [1; 1; 1; 1] [0%R]) (reals [1; 2; 1; 1] [7%R; 8%R]) (reals [1; 2; 1; 1] [2%R; 4%R]) 1 2 1 1 1 1 1 (fun _ => 0%R) (reals_at [1; 2; 1; 1] [7%R; 8%R]) (reals_at [1; 2; 1; 1] [2%R; 4%R]) (fun _ => 0%R)
    (reals_at [1; 2; 1; 1] [7%R; 8%R]) (reals_at [1; 2; 1; 1] [2%R; 4%R]) ltac:(cbn; lia) (Permutation_refl _)) as (whole & piece & E1 & E2 & H); auto; try lia.
  - destruct A1 as [h1 h2 h3 h4]. constructor; auto. intros idx Hi. rewrite h4 by auto. f_equal. unfold reals_at. destruct (Z.to_nat (ravel [1; 2; 1 * 1; 1] idx)) as [|[|[|k]]]; reflexivity.
  - destruct A4 as [h1 h2 h3 h4]. constructor; auto. intros idx Hi. rewrite h4 by auto. f_equal. unfold reals_at. destruct (Z.to_nat (ravel [1; 1; 1 * 1; 1] idx)) as [|[|[|k]]]; reflexivity.
  - exists whole, piece. split; [exact E1|]. split; [exact E2|]. apply (H 0 0 0 0); lia.
Qed.

(* ------------------------------------------------------------------ *)
(** ** C59: radix attention (keys and values behind addresses) *)

(** On ARM, wherever the tokens are stored (shared, scattered, in any buffers): the
    same result as C57, for query s over the tokens up to its own position. *)
Theorem C59_radix_attention_partial : forall junk order tq ks vs B S_Q H_KV g D FQ FK FV,
  Permutation order (range (H_KV * g)) ->
  holds tq [B; S_Q; H_KV * g; D] FQ -> tokens_hold ks B H_KV D FK -> tokens_hold vs B H_KV D FV -> zlen ks = zlen vs ->
  1 <= H_KV -> 1 <= g -> 1 <= D -> S_Q <= zlen ks ->
  exists out, radix_attention_op Arm junk order (H_KV * g) H_KV tq ks vs = ROk out /\
    x_shape out = [B; S_Q; H_KV * g; D] /\ tensor_ok out /\ owns_storage out /\
    forall b s h d, 0 <= b < B -> 0 <= s < S_Q -> 0 <= h < H_KV * g -> 0 <= d < D ->
      elem out [b; s; h; d] =
      Some (attend D (fun d => FQ [b; s; h; d]) (fun j d => FK j b (h / g) d) (fun j => FV j b (h / g) d) 0 (range (zlen ks - S_Q + s + 1))).
Proof.
  intros junk order tq ks vs B S_Q H_KV g D FQ FK FV HO HQ HK HV EL H1 H2 H3 H4.
  destruct (radix_correct junk order tq ks vs B S_Q (H_KV * g) H_KV g D FQ FK FV) as (out & E & O1 & O2 & O3 & O4); auto.
  exists out. split; [auto|]. split; [auto|]. split; [auto|]. split; [auto|]. intros b s h d Hb Hs Hh Hd. rewrite O4 by auto.
  replace (0 <? zlen ks - S_Q + s + 1) with true by lia. reflexivity.
Qed.
(** The variant whose values have another width than the keys. *)
Theorem C59_radix_relax_partial : forall junk order tq ks vs B S_Q H_KV g D_QK D_V FQ FK FV,
  Permutation order (range (H_KV * g)) ->
  holds tq [B; S_Q; H_KV * g; D_QK] FQ -> tokens_hold ks B H_KV D_QK FK -> tokens_hold vs B H_KV D_V FV -> zlen ks = zlen vs ->
  1 <= H_KV -> 1 <= g -> 1 <= D_QK -> 0 <= D_V -> S_Q <= zlen ks ->
  exists out, radix_relax_op Arm junk order B (H_KV * g) H_KV D_QK D_V tq ks vs = ROk out /\
    x_shape out = [B; S_Q; H_KV * g; D_V] /\ tensor_ok out /\ owns_storage out /\
    forall b s h d, 0 <= b < B -> 0 <= s < S_Q -> 0 <= h < H_KV * g -> 0 <= d < D_V ->
      elem out [b; s; h; d] =
      Some (attend D_QK (fun d => FQ [b; s; h; d]) (fun j d => FK j b (h / g) d) (fun j => FV j b (h / g) d) 0 (range (zlen ks - S_Q + s + 1))).
Proof.
  intros junk order tq ks vs B S_Q H_KV g D_QK D_V FQ FK FV HO HQ HK HV EL H1 H2 H3 H4 H5.
  destruct (relax_correct junk order tq ks vs B S_Q (H_KV * g) H_KV g D_QK D_V FQ FK FV) as (out & E & O1 & O2 & O3 & O4); auto.
  exists out. split; [auto|]. split; [auto|]. split; [auto|]. split; [auto|]. intros b s h d Hb Hs Hh Hd. rewrite O4 by auto.
  replace (0 <? zlen ks - S_Q + s + 1) with true by lia. reflexivity.
Qed.

(** Tokens of one number each, every one in a buffer of its own. *)
Definition scattered (l : list R) : pointers := map (fun x => (x_buf (reals [1] [x]), 0)) l.
Lemma scattered_hold l : tokens_hold (scattered l) 1 1 1 (fun s _ _ _ => nth (Z.to_nat s) l 0%R).
Proof.
  intros s b h d p Hs E Hb Hh Hd. unfold scattered in E. rewrite nth_error_map in E. destruct (nth_error l (Z.to_nat s)) as [x|] eqn:EX; [|discriminate].
  cbn [option_map] in E. inversion E; subst. cbn [fst snd]. assert (b = 0) by lia. assert (h = 0) by lia. assert (d = 0) by lia. subst.
  rewrite (nth_error_nth l _ 0%R EX). cbn. split; [change (product [1]) with 1; lia|reflexivity].
Qed.
Example C59_example : exists out,
  radix_attention_op Arm 0 [0] 1 1 (reals [1; 1; 1; 1] [0%R]) (scattered [7%R; 8%R; 9%R]) (scattered [2%R; 4%R; 9%R]) = ROk out /\
  elem out [0; 0; 0; 0] = Some 5%R.
Proof.
  assert (A4 : holds (reals [1; 1; 1 * 1; 1] [0%R]) [1; 1; 1 * 1; 1] (reals_at [1; 1; 1 * 1; 1] [0%R])) by holds_reals.
  destruct (C59_radix_attention_partial 0 [0] _ _ _ 1 1 1 1 1 _ _ _ (Permutation_refl _) A4 (scattered_hold [7%R; 8%R; 9%R]) (scattered_hold [2%R; 4%R; 9%R])) as (out & E & _ & _ & _ & O); try lia; try (cbn; lia).
  exists out. split; [exact E|]. rewrite O by lia. f_equal. rewrite attend_uniform; [|intros d Hd; assert (d = 0) by lia; subst; reflexivity].
  change (zlen (scattered [7%R; 8%R; 9%R])) with 3. eval_ranges. unfold total_over. cbn [map fold_right].
  change (Z.to_nat 0) with 0%nat. change (Z.to_nat 1) with 1%nat. change (Z.to_nat 2) with 2%nat. cbn. field.
Qed.

(** On x86 the primitives radix attention is built from are empty: whatever the inputs, and whatever
    value the uninitialised score has, the result is memory that was never written. *)
Theorem C59_x86_refuted : forall lanes junk order tq ks vs B S_Q H_KV g D FQ,
  Permutation order (range (H_KV * g)) -> holds tq [B; S_Q; H_KV * g; D] FQ -> zlen ks = zlen vs -> 1 <= H_KV -> 1 <= g ->
  exists out, radix_attention_op (X86 lanes) junk order (H_KV * g) H_KV tq ks vs = ROk out /\
    produces [B; S_Q; H_KV * g; D] (fun _ => None) out.
Proof.
  intros lanes junk order tq ks vs B S_Q H_KV g D FQ HO HQ EL H1 H2. unfold radix_attention_op.
  rewrite (h_shape _ _ _ HQ), fresh_ok by (cbn; lia). cbn [rbind]. rewrite dim4_ok. cbn [rbind]. rewrite Z.eqb_refl. cbn [negb]. cbv zeta.
  rewrite EL, Z.eqb_refl. rewrite <- EL. cbn [negb radix_kernels]. rewrite (fwd_empty junk B (H_KV * g) H_KV S_Q D D) with (g := g); auto.
  - cbn [rbind]. eexists. split; [reflexivity|]. cbn [x_view x_buf].
    assert (D4 := ok_dims _ (h_ok _ _ _ HQ)). rewrite (h_shape _ _ _ HQ) in D4.
    destruct (@owner_ok R [B; S_Q; H_KV * g; D] (mkBuf (product [B; S_Q; H_KV * g; D]) (fun _ => None)) ltac:(cbn; lia) D4 eq_refl) as [O1 O2].
    constructor; auto.
  - intros b hk s j Hb Hhk Hs Hj. unfold causal_last in Hj. unfold pointer. replace (0 <=? j) with true by lia.
    assert (P : forall ps : pointers, zlen ps = zlen ks -> exists p, nth_error ps (Z.to_nat j) = Some p).
    { intros ps EP. destruct (nth_error ps (Z.to_nat j)) as [p|] eqn:E; [exists p; auto|]. apply nth_error_None in E. unfold zlen in *. lia. }
    destruct (P ks eq_refl) as (p1 & E1). destruct (P vs (eq_sym EL)) as (p2 & E2). rewrite E1, E2. cbn [rbind]. split; eexists; reflexivity.
Qed.
(** Query heads that are not a multiple of the key heads; an option B smaller than the
    batch of the queries (the result is too small): both accepted, both out of bounds. *)
Theorem C59_options_refuted :
  radix_attention_op Arm 0 [2; 0; 1] 3 2 (reals [1; 1; 3; 1] [1%R; 1%R; 1%R]) [(x_buf (reals [2] [1%R; 1%R]), 0)] [(x_buf (reals [2] [1%R; 1%R]), 0)] = RUB /\
  radix_relax_op Arm 0 [0] 1 1 1 1 1 (reals [2; 1; 1; 1] [1%R; 1%R]) [(x_buf (reals [2] [1%R; 1%R]), 0)] [(x_buf (reals [2] [1%R; 1%R]), 0)] = RUB.
Proof. split; lazy; reflexivity. Qed.

(* ------------------------------------------------------------------ *)
(** ** C60: sliding window and attention sinks *)

(** Prefill on ARM: query s at position p = S_KV - S_Q + s attends to the tokens from p - w to p, w + 1 of them
    (fewer at the start), with the sink of its head in the denominator. *)
Theorem C60_prefill_partial : forall junk order tq ks vs ta B S_Q H_KV g D_QK D_V cur w FQ FK FV FA,
  Permutation order (range (H_KV * g)) ->
  holds tq [B; S_Q; H_KV * g; D_QK] FQ -> tokens_hold ks B H_KV D_QK FK -> tokens_hold vs B H_KV D_V FV -> holds ta [H_KV * g] FA -> zlen ks = zlen vs ->
  1 <= H_KV -> 1 <= g -> 1 <= D_QK -> 0 <= D_V -> 0 <= w -> S_Q <= zlen ks ->
  exists out, radix_swa_op Arm junk Prefill order B (H_KV * g) H_KV D_QK D_V cur w tq ks vs (Some ta) = ROk out /\
    x_shape out = [B; S_Q; H_KV * g; D_V] /\ tensor_ok out /\ owns_storage out /\
    forall b s h d, 0 <= b < B -> 0 <= s < S_Q -> 0 <= h < H_KV * g -> 0 <= d < D_V ->
      let p := zlen ks - S_Q + s in
      elem out [b; s; h; d] =
      Some (attend D_QK (fun d => FQ [b; s; h; d]) (fun j d => FK j b (h / g) d) (fun j => FV j b (h / g) d) (exp (FA [h])) (between (Z.max 0 (p - w)) (p + 1))).
Proof.
  intros junk order tq ks vs ta B S_Q H_KV g D_QK D_V cur w FQ FK FV FA HO HQ HK HV HA EL H1 H2 H3 H4 H5 H6.
  destruct (swa_core junk Prefill order tq ks vs ta B S_Q (H_KV * g) H_KV g D_QK D_V cur w FQ FK FV FA (prefill_first S_Q (zlen ks) w) (prefill_last S_Q (zlen ks))) as (out & E & O1 & O2 & O3 & O4); auto; try lia.
  - intros s Hs. unfold prefill_first, prefill_last. lia.
  - exists out. split; [auto|]. split; [auto|]. split; [auto|]. split; [auto|]. intros b s h d Hb Hs Hh Hd. cbv zeta. rewrite O4 by auto. do 2 f_equal. unfold prefill_first, prefill_last. f_equal; lia.
Qed.
(** Decode on ARM: the newest of [cur] tokens, given the addresses of the last min(cur, w): it attends
    to all of these, at most w tokens, itself included. *)
Theorem C60_decode_partial : forall junk order tq ks vs ta B H_KV g D_QK D_V cur w FQ FK FV FA,
  Permutation order (range (H_KV * g)) ->
  holds tq [B; 1; H_KV * g; D_QK] FQ -> tokens_hold ks B H_KV D_QK FK -> tokens_hold vs B H_KV D_V FV -> holds ta [H_KV * g] FA -> zlen ks = zlen vs ->
  1 <= H_KV -> 1 <= g -> 1 <= D_QK -> 0 <= D_V -> 1 <= w -> 1 <= cur -> zlen ks = Z.min cur w ->
  exists out, radix_swa_op Arm junk Decode order B (H_KV * g) H_KV D_QK D_V cur w tq ks vs (Some ta) = ROk out /\
    x_shape out = [B; 1; H_KV * g; D_V] /\ tensor_ok out /\ owns_storage out /\
    forall b h d, 0 <= b < B -> 0 <= h < H_KV * g -> 0 <= d < D_V ->
      elem out [b; 0; h; d] =
      Some (attend D_QK (fun d => FQ [b; 0; h; d]) (fun j d => FK j b (h / g) d) (fun j => FV j b (h / g) d) (exp (FA [h])) (range (Z.min cur w))).
Proof.
  intros junk order tq ks vs ta B H_KV g D_QK D_V cur w FQ FK FV FA HO HQ HK HV HA EL H1 H2 H3 H4 H5 H6 H7.
  assert (L : forall s, 0 <= s < 1 -> decode_last 1 cur w s = Z.min cur w).
  { intros s Hs. unfold decode_last. cbv zeta. destruct (Z.ltb_spec (Z.min cur (s + cur - 1) - Z.max 0 (s + cur - 1 - w)) w); lia. }
  destruct (swa_core junk Decode order tq ks vs ta B 1 (H_KV * g) H_KV g D_QK D_V cur w FQ FK FV FA (fun _ => 0) (decode_last 1 cur w)) as (out & E & O1 & O2 & O3 & O4); auto; try lia.
  exists out. split; [auto|]. split; [auto|]. split; [auto|]. split; [auto|]. intros b h d Hb Hh Hd. rewrite O4 by (auto; lia). rewrite L by lia. do 2 f_equal. unfold between. rewrite Z.sub_0_r. apply map_id.
Qed.
(** Flash attention with sinks, both architectures: a whole prompt that fits in the window. *)
Theorem C60_flash_prompt : forall a order tq tk tv ta B S H_KV g D_QK D_V w FQ FK FV FA,
  sensible a -> Permutation order (range (H_KV * g)) ->
  holds tq [B; S; H_KV * g; D_QK] FQ -> holds tk [B; S; H_KV; D_QK] FK -> holds tv [B; S; H_KV; D_V] FV -> holds ta [H_KV * g] FA ->
  1 <= H_KV -> 1 <= g -> 1 <= D_QK -> 0 <= S <= w ->
  exists out, flash_swa_op a order (H_KV * g) H_KV S w tq tk tv (Some ta) = ROk out /\
    x_shape out = [B; S; H_KV * g; D_V] /\ tensor_ok out /\ owns_storage out /\
    forall b s h d, 0 <= b < B -> 0 <= s < S -> 0 <= h < H_KV * g -> 0 <= d < D_V ->
      elem out [b; s; h; d] =
      Some (attend D_QK (fun d => FQ [b; s; h; d]) (fun j d => FK [b; j; h / g; d]) (fun j => FV [b; j; h / g; d]) (exp (FA [h])) (range (s + 1))).
Proof.
  intros a order tq tk tv ta B S H_KV g D_QK D_V w FQ FK FV FA HA HO HQ HK HV HT H1 H2 H3 H4.
  assert (L : forall s, 0 <= s < S -> decode_last S S w s = s + 1).
  { intros s Hs. unfold decode_last. cbv zeta. destruct (Z.ltb_spec (Z.min S (s + S - S) - Z.max 0 (s + S - S - w)) w); lia. }
  destruct (flash_swa_core a order tq tk tv ta B S S (H_KV * g) H_KV g D_QK D_V S w FQ FK FV FA) as (out & E & O1 & O2 & O3 & O4); auto.
  - intros s Hs. rewrite L by auto. lia.
  - exists out. split; [auto|]. split; [auto|]. split; [auto|]. split; [auto|]. intros b s h d Hb Hs Hh Hd. rewrite O4, L by auto. reflexivity.
Qed.
(** ... and the newest token over the last min(cur, w). *)
Theorem C60_flash_decode : forall a order tq tk tv ta B H_KV g D_QK D_V cur w FQ FK FV FA,
  sensible a -> Permutation order (range (H_KV * g)) -> 1 <= cur -> 1 <= w ->
  holds tq [B; 1; H_KV * g; D_QK] FQ -> holds tk [B; Z.min cur w; H_KV; D_QK] FK -> holds tv [B; Z.min cur w; H_KV; D_V] FV -> holds ta [H_KV * g] FA ->
  1 <= H_KV -> 1 <= g -> 1 <= D_QK ->
  exists out, flash_swa_op a order (H_KV * g) H_KV cur w tq tk tv (Some ta) = ROk out /\
    x_shape out = [B; 1; H_KV * g; D_V] /\ tensor_ok out /\ owns_storage out /\
    forall b h d, 0 <= b < B -> 0 <= h < H_KV * g -> 0 <= d < D_V ->
      elem out [b; 0; h; d] =
      Some (attend D_QK (fun d => FQ [b; 0; h; d]) (fun j d => FK [b; j; h / g; d]) (fun j => FV [b; j; h / g; d]) (exp (FA [h])) (range (Z.min cur w))).
Proof.
  intros a order tq tk tv ta B H_KV g D_QK D_V cur w FQ FK FV FA HA HO Hc Hw HQ HK HV HT H1 H2 H3.
  assert (L : forall s, 0 <= s < 1 -> decode_last 1 cur w s = Z.min cur w).
  { intros s Hs. unfold decode_last. cbv zeta. destruct (Z.ltb_spec (Z.min cur (s + cur - 1) - Z.max 0 (s + cur - 1 - w)) w); lia. }
  destruct (flash_swa_core a order tq tk tv ta B 1 (Z.min cur w) (H_KV * g) H_KV g D_QK D_V cur w FQ FK FV FA) as (out & E & O1 & O2 & O3 & O4); auto; try lia.
  exists out. split; [auto|]. split; [auto|]. split; [auto|]. split; [auto|]. intros b h d Hb Hh Hd. rewrite O4, L by (auto; lia). reflexivity.
Qed.

(** The window of prefill is one token wider than the window of decode: with w = 1, the second of two tokens
    gets another result when it is decoded than when both are processed at once. *)
Theorem C60_window_refuted : exists whole piece,
  radix_swa_op Arm 0 Prefill [0] 1 1 1 1 1 2 1 (reals [1; 2; 1; 1] [0%R; 0%R]) (scattered [7%R; 8%R]) (scattered [0%R; 1%R]) (Some (reals [1] [0%R])) = ROk whole /\
  radix_swa_op Arm 0 Decode [0] 1 1 1 1 1 2 1 (reals [1; 1; 1; 1] [0%R]) (scattered [8%R]) (scattered [1%R]) (Some (reals [1] [0%R])) = ROk piece /\
  elem whole [0; 1; 0; 0] = Some (1 / 3)%R /\ elem piece [0; 0; 0; 0] = Some (1 / 2)%R.
Proof.
  destruct C57_hypotheses as (A1 & _). assert (A2 : holds (reals [1 * 1] [0%R]) [1 * 1] (reals_at [1 * 1] [0%R])) by holds_reals.
  assert (A4 : holds (reals [1; 1; 1 * 1; 1] [0%R]) [1; 1; 1 * 1; 1] (reals_at [1; 1; 1 * 1; 1] [0%R])) by holds_reals.
  destruct (C60_prefill_partial 0 [0] _ _ _ _ 1 2 1 1 1 1 2 1 _ _ _ _ (Permutation_refl _) A1 (scattered_hold [7%R; 8%R]) (scattered_hold [0%R; 1%R]) A2) as (whole & E1 & _ & _ & _ & O1); try lia; try (cbn; lia).
  destruct (C60_decode_partial 0 [0] _ _ _ _ 1 1 1 1 1 2 1 _ _ _ _ (Permutation_refl _) A4 (scattered_hold [8%R]) (scattered_hold [1%R]) A2) as (piece & E2 & _ & _ & _ & O2); try lia; try (cbn; lia).
  exists whole, piece. split; [exact E1|]. split; [exact E2|]. split.
  - rewrite O1 by lia. f_equal. rewrite attend_uniform; [|intros d Hd; assert (d = 0) by lia; subst; reflexivity].
    change (zlen (scattered [7%R; 8%R])) with 2. change (reals_at [1 * 1] [0%R] [0]) with 0%R. rewrite exp_0.
    change (between (Z.max 0 (2 - 2 + 1 - 1)) (2 - 2 + 1 + 1)) with [0; 1]. unfold total_over. cbn [map fold_right]. change (Z.to_nat 0) with 0%nat. change (Z.to_nat 1) with 1%nat. cbn. field.
  - rewrite O2 by lia. f_equal. rewrite attend_uniform; [|intros d Hd; assert (d = 0) by lia; subst; reflexivity].
    change (reals_at [1 * 1] [0%R] [0]) with 0%R. rewrite exp_0. change (range (Z.min 2 1)) with [0]. unfold total_over. cbn [map fold_right]. change (Z.to_nat 0) with 0%nat. cbn. field.
Qed.
(** Several new tokens once the window is full: flash attention with a window of 2, three tokens so
    far, the last two of them given as keys and as queries.  The first query (position 1) attends to the token after it. *)
Theorem C60_future_refuted : forall a order tq tk tv ta B H_KV g D_QK D_V FQ FK FV FA,
  sensible a -> Permutation order (range (H_KV * g)) ->
  holds tq [B; 2; H_KV * g; D_QK] FQ -> holds tk [B; 2; H_KV; D_QK] FK -> holds tv [B; 2; H_KV; D_V] FV -> holds ta [H_KV * g] FA ->
  1 <= H_KV -> 1 <= g -> 1 <= D_QK ->
  exists out, flash_swa_op a order (H_KV * g) H_KV 3 2 tq tk tv (Some ta) = ROk out /\
    forall b h d, 0 <= b < B -> 0 <= h < H_KV * g -> 0 <= d < D_V ->
      elem out [b; 0; h; d] =
      Some (attend D_QK (fun d => FQ [b; 0; h; d]) (fun j d => FK [b; j; h / g; d]) (fun j => FV [b; j; h / g; d]) (exp (FA [h])) [0; 1]).
Proof.
  intros a order tq tk tv ta B H_KV g D_QK D_V FQ FK FV FA HA HO HQ HK HV HT H1 H2 H3.
  destruct (flash_swa_core a order tq tk tv ta B 2 2 (H_KV * g) H_KV g D_QK D_V 3 2 FQ FK FV FA) as (out & E & O1 & O2 & O3 & O4); auto; try lia.
  - intros s Hs. assert (s = 0 \/ s = 1) as [-> | ->] by lia; cbn; lia.
  - exists out. split; [auto|]. intros b h d Hb Hh Hd. rewrite O4 by (auto; lia). reflexivity.
Qed.
(** The pattern "append" writes nothing, and leaving out the sinks, which is an option, reads an
    input that does not exist. *)
Theorem C60_append_refuted : forall a junk order tq ks vs ta B B_opt S_Q q_head kv_head D_QK D_V cur w FQ,
  holds tq [B; S_Q; q_head; D_QK] FQ -> zlen ks = zlen vs -> w <> -1 ->
  radix_swa_op a junk Append order B_opt q_head kv_head D_QK D_V cur w tq ks vs (Some ta) = ROk (mkTns (mkV [B_opt; S_Q; q_head; D_V] (default_strides [B_opt; S_Q; q_head; D_V]) 0) (mkBuf (product [B_opt; S_Q; q_head; D_V]) (fun _ => None))) /\
  radix_swa_op a junk Append order B_opt q_head kv_head D_QK D_V cur w tq ks vs None = RUB.
Proof.
  intros a junk order tq ks vs ta B B_opt S_Q q_head kv_head D_QK D_V cur w FQ HQ EL Hw. unfold radix_swa_op. replace (w =? -1) with false by lia.
  rewrite (h_shape _ _ _ HQ). change (negb (zlen [B; S_Q; q_head; D_QK] =? 4)) with false. cbv iota. rewrite dim4_ok. cbn [rbind]. rewrite fresh_ok by (cbn; lia). cbn [rbind].
  rewrite (holds_contiguous _ _ _ HQ). cbn [negb]. rewrite Z.eqb_refl. cbn [negb]. cbv zeta. rewrite EL, Z.eqb_refl. cbn [negb rbind x_view x_buf]. split; reflexivity.
Qed.
Lemma C60_hypotheses :
  holds (reals [1; 2; 2 * 1; 1] [1%R; 2%R; 3%R; 4%R]) [1; 2; 2 * 1; 1] (reals_at [1; 2; 2 * 1; 1] [1%R; 2%R; 3%R; 4%R]) /\
  holds (reals [1; 2; 2; 1] [5%R; 6%R; 7%R; 8%R]) [1; 2; 2; 1] (reals_at [1; 2; 2; 1] [5%R; 6%R; 7%R; 8%R]) /\
  holds (reals [2 * 1] [1%R; 2%R]) [2 * 1] (reals_at [2 * 1] [1%R; 2%R]) /\ Permutation [1; 0] (range (2 * 1)).
Proof. split; [holds_reals|]. split; [holds_reals|]. split; [holds_reals|]. apply perm_swap. Qed.
Print Assumptions C57_flash_attention.
Print Assumptions C57_mismatch_refused.
Print Assumptions C57_average.
Print Assumptions C57_causal.
Print Assumptions C57_too_many_queries_refuted.
Print Assumptions C57_uneven_heads_refuted.
Print Assumptions C57_strides_refuted.
Print Assumptions C58_incremental.
Print Assumptions C59_radix_attention_partial.
Print Assumptions C59_radix_relax_partial.
Print Assumptions C59_x86_refuted.
Print Assumptions C59_options_refuted.
Print Assumptions C60_prefill_partial.
Print Assumptions C60_decode_partial.
Print Assumptions C60_flash_prompt.
Print Assumptions C60_flash_decode.
Print Assumptions C60_window_refuted.
Print Assumptions C60_future_refuted.
Print Assumptions C60_append_refuted.
