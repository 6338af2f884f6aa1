(** Property theorems C47 - C54 (CPU operators: arithmetic with broadcasting,
    indexing, gather, embedding, padding, causal masks, sorting, masked scatter, sums). *)
From Verif Require Import Base DTypeModel ParamModel ParamSpec ParamProofs TensorModel TensorSpec TensorProofs
  PropertiesTensor OpsModel OpsSpec OpsProofs OpsIndex OpsMask OpsSort OpsTopk OpsSum.
From Coq Require Import Sorting.Sorted.
Local Open Scope Z_scope.

Definition ints (shape : list Z) (l : list Z) : tns Z :=
  mkTns (mkV shape (default_strides shape) 0) (mkBuf (product shape) (fun i => if 0 <=? i then nth_error l (Z.to_nat i) else None)).
Lemma ints_ok shape l : (1 <= length shape <= 16)%nat -> Forall (fun d => 0 <= d) shape -> tensor_ok (ints shape l) /\ owns_storage (ints shape l).
Proof. intros H1 H2. apply owner_ok; auto. Qed.
Ltac ints := apply ints_ok; [cbn; lia|repeat constructor; lia].
Lemma owns_contiguous {A} (t : tns A) : owns_storage t -> contiguous t.
Proof. intros [H _ _]. exact H. Qed.
Ltac cont := apply owns_contiguous; first [ints | ramp].
(** Every element of a small tensor is written: by enumeration. *)
Lemma written_all {A} (t : tns A) : forallb (fun c => match c with Some _ => true | None => false end) (contents t) = true ->
  forall idx, in_shape (x_shape t) idx -> elem t idx <> None.
Proof.
  intros H idx Hi Hn. rewrite forallb_forall in H. specialize (H None). assert (false = true); [|discriminate]. apply H.
  unfold contents. rewrite <- Hn. apply in_map. apply in_indices. exact Hi.
Qed.
Example written_example : forall idx, in_shape [2; 3] idx -> elem (ints [2; 3] [1; 7; 4; 9; 8; 10]) idx <> None.
Proof. apply (written_all (ints [2; 3] [1; 7; 4; 9; 8; 10])). vm_compute. reflexivity. Qed.

(* ------------------------------------------------------------------ *)
(** ** C47: element-wise arithmetic *)

(** The shape of the result follows the numpy rule; shapes that cannot be broadcast
    are refused. *)
Theorem C47_result_shape : forall shapes r, shapes <> [] ->
  (broadcast_shapes shapes = ROk r <-> is_broadcast shapes r).
Proof. exact broadcast_shapes_spec. Qed.

(** For contiguous operands, and for each pair of shapes for which there is a kernel,
    every element of the result is the operation applied to the two elements that
    broadcasting puts there - for every vector width. *)
Theorem C47_elementwise_partial : forall (A : Type) ty (f : A -> A -> A) N (a b : tns A) r,
  0 < N -> tensor_ok a -> tensor_ok b -> contiguous a -> contiguous b ->
  is_broadcast [x_shape a; x_shape b] r -> ew_supported ty (x_shape a) (x_shape b) ->
  exists out, ew_op ty f N a b = ROk out /\
    produces r (fun idx => apply2 f (elem a (broadcast_index (x_shape a) idx)) (elem b (broadcast_index (x_shape b) idx))) out.
Proof. intros. apply ew_correct; auto. Qed.

Lemma C47_hypotheses :
  tensor_ok (ramp_tensor [2; 3; 2]) /\ contiguous (ramp_tensor [2; 3; 2]) /\
  tensor_ok (ramp_tensor [2; 1; 2]) /\ contiguous (ramp_tensor [2; 1; 2]) /\
  broadcast_shapes [[2; 3; 2]; [2; 1; 2]] = ROk [2; 3; 2] /\
  ew_supported EwFloat32 [2; 3; 2] [2; 1; 2].
Proof.
  split; [ramp|]. split; [cont|]. split; [ramp|]. split; [cont|]. split; [reflexivity|].
  right; left. exists 1%nat. split; [reflexivity|]. intros [|[|[|[|k]]]] H; try reflexivity; contradiction.
Qed.
Example C47_example : exists out, ew_op EwFloat32 Z.add 8 (ramp_tensor [2; 3; 2]) (ramp_tensor [2; 1; 2]) = ROk out /\
  x_shape out = [2; 3; 2] /\ contents out = map Some [0; 2; 2; 4; 4; 6; 8; 10; 10; 12; 12; 14].
Proof. by_run. Qed.
(** The left operand is never repeated ... *)
Theorem C47_left_operand_refuted :
  is_broadcast [[1; 2]; [3; 2]] [3; 2] /\
  ew_op EwFloat32 Z.add 8 (ramp_tensor [1; 2]) (ramp_tensor [3; 2]) = RUB.
Proof. split; [apply C47_result_shape; [discriminate|reflexivity]|vm_compute; reflexivity]. Qed.
(** ... operands with equal numbers of elements are taken to have equal shapes ... *)
Theorem C47_column_plus_row_refuted :
  is_broadcast [[2; 1]; [1; 2]] [2; 2] /\
  ew_op EwFloat32 Z.add 8 (ramp_tensor [2; 1]) (ramp_tensor [1; 2]) = RUB.
Proof. split; [apply C47_result_shape; [discriminate|reflexivity]|vm_compute; reflexivity]. Qed.
(** ... repeating along two dimensions returns memory that was never written ... *)
Theorem C47_two_dimensions_refuted :
  is_broadcast [[2; 2; 2]; [1; 2; 1]] [2; 2; 2] /\
  exists out, ew_op EwFloat32 Z.add 8 (ramp_tensor [2; 2; 2]) (ramp_tensor [1; 2; 1]) = ROk out /\
    x_shape out = [2; 2; 2] /\ contents out = repeat None 8.
Proof. split; [apply C47_result_shape; [discriminate|reflexivity]|by_run]. Qed.
(** ... and so do integer operands with a repeated dimension, and types without a
    kernel (half precision on this platform). *)
Theorem C47_integer_repeat_refuted :
  exists out, ew_op EwInteger Z.add 8 (ramp_tensor [2; 2]) (ramp_tensor [1; 2]) = ROk out /\
    x_shape out = [2; 2] /\ contents out = repeat None 4.
Proof. by_run. Qed.
Theorem C47_no_kernel_refuted : forall (A : Type) (f : A -> A -> A) N (a b : tns A) r,
  is_broadcast [x_shape a; x_shape b] r -> (1 <= length r <= 16)%nat -> Forall (fun d => 0 <= d) r ->
  exists out, ew_op EwNoKernel f N a b = ROk out /\ produces r (fun _ => None) out.
Proof.
  intros A f N a b r H Hr Hd. unfold ew_op. destruct (broadcast_shapes_spec [x_shape a; x_shape b] r ltac:(discriminate)) as [_ E].
  rewrite (E H). cbn [rbind]. destruct r as [|e r]; [cbn in Hr; lia|]. rewrite fresh_ok by auto. cbn [rbind]. eexists. split; [reflexivity|].
  destruct (owner_ok (e :: r) (mkBuf (product (e :: r)) (fun _ : Z => @None A)) Hr Hd eq_refl) as [O1 O2].
  split; [reflexivity|]. split; [exact O1|]. split; [exact O2|]. intros idx Hi. reflexivity.
Qed.
(** Strides of the operands are ignored. *)
Theorem C47_noncontiguous_refuted :
  contents two_columns = map Some [0; 1; 3; 4] /\
  exists out, ew_op EwFloat32 Z.add 8 two_columns two_columns = ROk out /\ x_shape out = [2; 2] /\ contents out = map Some [0; 2; 4; 6].
Proof. split; [vm_compute; reflexivity|]. by_run. Qed.

(* ------------------------------------------------------------------ *)
(** ** C48: indexing *)

(** Indexing a contiguous tensor with one in-range argument per dimension (slice,
    list of positions, rank-1 tensor of positions; not all of them slices) selects
    the product of the positions. *)
Theorem C48_index_partial : forall (A : Type) (x : tns A) args poss,
  tensor_ok x -> contiguous x -> product (x_shape x) <> 0 ->
  select_all (x_shape x) args poss -> forallb is_slice args = false ->
  exists out, index_op x args = ROk (Some out) /\ produces (map zlen poss) (fun idx => elem x (pick poss idx)) out.
Proof. intros. apply index_correct; auto. Qed.

Definition some_result (r : res (option (tns Z))) : res (tns Z) :=
  match r with ROk (Some t) => ROk t | ROk None => RAbort | RAbort => RAbort | RUB => RUB | RDiverge => RDiverge end.
Example C48_hypotheses : select_all [3; 4] [IxVector [2; 0]; IxSlice (mkSl 1 kAll 2)] [[2; 0]; [1; 3]].
Proof.
  constructor; [|constructor; [|constructor]].
  - split; [repeat constructor; lia|reflexivity].
  - split; [repeat constructor; lia|]. cbn [sl_start sl_end sl_step]. split; [right; lia|]. split; [lia|]. vm_compute. intuition discriminate.
Qed.
Example C48_example : exists out, some_result (index_op (ramp_tensor [3; 4]) [IxVector [2; 0]; IxSlice (mkSl 1 kAll 2)]) = ROk out /\
  x_shape out = [2; 2] /\ contents out = map Some [9; 11; 1; 3].
Proof. by_run. Qed.
(** Positions outside the dimension - negative ones included - are accepted, and the
    elements of the result are left unwritten. *)
Theorem C48_out_of_range_refuted :
  exists out, some_result (index_op (ramp_tensor [3]) [IxVector [-1; 1; 3]]) = ROk out /\ x_shape out = [3] /\ contents out = [None; Some 1; None].
Proof. by_run. Qed.
(** A 2-dimensional tensor of positions is read with its coordinates swapped (and
    takes the place of two arguments: the dimension left over is read at 0). *)
Theorem C48_index_matrix_refuted :
  exists out, some_result (index_op (ramp_tensor [4; 2]) [IxTensor (ints [2; 2] [0; 1; 2; 3])]) = ROk out /\
    x_shape out = [2; 2] /\ contents out = map Some [0; 4; 2; 6].
Proof. by_run. Qed.
(** Indexing with slices only returns nothing. *)
Theorem C48_only_slices_refuted : forall (A : Type) (x : tns A) args,
  forallb is_slice args = true -> index_op x args = ROk None.
Proof. intros A x args H. unfold index_op. rewrite H. reflexivity. Qed.

(* ------------------------------------------------------------------ *)
(** ** C49: gather and embedding *)

(** Gathering along a dimension, for index tensors of every rank, Python-style
    negative indices included: complete description of the result (an index outside
    the dimension leaves its elements unwritten). *)
Theorem C49_gather_partial : forall (A : Type) (table : tns A) (indices : tns Z) dim d,
  tensor_ok table -> contiguous table -> tensor_ok indices -> contiguous indices ->
  names_dim (length (x_shape table)) dim d ->
  (length (x_shape table) - 1 + length (x_shape indices) <= 16)%nat ->
  (forall idx, in_shape (x_shape indices) idx -> elem indices idx <> None) ->
  exists out, gather_op table indices dim = ROk out /\
    produces (firstn d (x_shape table) ++ x_shape indices ++ skipn (S d) (x_shape table)) (gather_elem table indices d) out.
Proof. intros. apply gather_correct; auto. Qed.
Example C49_gather_example : exists out, gather_op (ramp_tensor [3; 2]) (ints [2] [-1; 0]) 0 = ROk out /\
  x_shape out = [2; 2] /\ contents out = map Some [4; 5; 0; 1].
Proof. by_run. Qed.
Theorem C49_gather_out_of_range_refuted : exists out, gather_op (ramp_tensor [3; 2]) (ints [2] [3; 0]) 0 = ROk out /\
  x_shape out = [2; 2] /\ contents out = [None; None; Some 0; Some 1].
Proof. by_run. Qed.

(** Embedding: the row of each token, for token ids of any layout. *)
Theorem C49_embedding_partial : forall (A : Type) (weight : tns A) V hidden ids B T,
  tensor_ok weight -> contiguous weight -> x_shape weight = [V; hidden] ->
  tensor_ok ids -> x_shape ids = [B; T] ->
  (forall b s, 0 <= b < B -> 0 <= s < T -> exists id, elem ids [b; s] = Some id /\ 0 <= id < V) ->
  exists out, embedding_op weight hidden ids = ROk out /\ produces [B; T; hidden] (embedding_elem weight ids) out.
Proof. intros. apply (embedding_correct weight V); auto. Qed.
Lemma C49_hypotheses : forall b s, 0 <= b < 1 -> 0 <= s < 3 -> exists id, elem (ints [1; 3] [2; 0; 2]) [b; s] = Some id /\ 0 <= id < 3.
Proof.
  intros b s Hb Hs. assert (b = 0) as -> by lia. assert (H : s = 0 \/ s = 1 \/ s = 2) by lia.
  destruct H as [-> | [-> | ->]]; eexists; (split; [vm_compute; reflexivity|lia]).
Qed.
Example C49_embedding_example : exists out, embedding_op (ramp_tensor [3; 2]) 2 (ints [1; 3] [2; 0; 2]) = ROk out /\
  x_shape out = [1; 3; 2] /\ contents out = map Some [4; 5; 0; 1; 4; 5].
Proof. by_run. Qed.
(** A token id that is not in the table - any id, anywhere in the input - is undefined
    behaviour: ids are not checked. *)
Theorem C49_embedding_unchecked_refuted : forall (A : Type) (weight : tns A) V hidden ids B T b0 s0 id,
  owns_storage weight -> x_shape weight = [V; hidden] -> 0 < hidden -> 0 <= V ->
  tensor_ok ids -> x_shape ids = [B; T] ->
  0 <= b0 < B -> 0 <= s0 < T -> elem ids [b0; s0] = Some id -> (id < 0 \/ V <= id) ->
  embedding_op weight hidden ids = RUB.
Proof. intros until id. apply embedding_out_of_range. Qed.

(* ------------------------------------------------------------------ *)
(** ** C50: padding *)

(** All four modes, any rank, any amounts (negative amounts crop), as long as the
    resulting extents are non-negative and - except in constant mode - the tensor is
    not empty. *)
Theorem C50_pad_partial : forall (A : Type) mode (value : A) pad (x : tns A),
  tensor_ok x -> contiguous x -> (mode <> PadConstant -> Forall (fun s => 1 <= s) (x_shape x)) ->
  let D := length (x_shape x) in
  let before := pads_before D pad in
  let oshape := plus (plus (x_shape x) before) (pads_after D pad) in
  Forall (fun d => 0 <= d) oshape ->
  exists out, pad_op mode value pad x = ROk out /\
    x_shape out = oshape /\ tensor_ok out /\ owns_storage out /\
    forall idx, in_shape oshape idx ->
      (exists src, pads_from mode (x_shape x) (minus idx before) src /\ elem out idx = elem x src) \/
      (mode = PadConstant /\ (forall src, ~ pads_from mode (x_shape x) (minus idx before) src) /\ elem out idx = Some value).
Proof. intros A mode value pad x H1 H2 H3. exact (pad_correct mode value pad x H1 H2 H3). Qed.
Lemma C50_hypotheses : plus (plus [2; 3] (pads_before 2 [1; 2; 1; 0])) (pads_after 2 [1; 2; 1; 0]) = [3; 6].
Proof. reflexivity. Qed.
Example C50_example_constant : exists out, pad_op PadConstant 9 [1; 2; 1; 0] (ramp_tensor [2; 3]) = ROk out /\
  x_shape out = [3; 6] /\ contents out = map Some [9; 9; 9; 9; 9; 9; 9; 0; 1; 2; 9; 9; 9; 3; 4; 5; 9; 9].
Proof. by_run. Qed.
Example C50_example_reflect : exists out, pad_op PadReflect 9 [2; 3] (ramp_tensor [3]) = ROk out /\
  x_shape out = [8] /\ contents out = map Some [2; 1; 0; 1; 2; 1; 0; 1].
Proof. by_run. Qed.
Example C50_example_circular : exists out, pad_op PadCircular 9 [1; 2] (ramp_tensor [3]) = ROk out /\
  x_shape out = [6] /\ contents out = map Some [2; 0; 1; 2; 0; 1].
Proof. by_run. Qed.
Theorem C50_noncontiguous_refuted :
  contents two_columns = map Some [0; 1; 3; 4] /\
  exists out, pad_op PadConstant 9 [0; 1] two_columns = ROk out /\ x_shape out = [2; 3] /\ contents out = map Some [0; 1; 9; 2; 3; 9].
Proof. split; [vm_compute; reflexivity|]. by_run. Qed.

(* ------------------------------------------------------------------ *)
(** ** C51: sorting *)

(** Along the chosen dimension, argsort returns a permutation of the positions, and
    the values at these positions are in order. *)
Theorem C51_argsort_partial : forall (A : Type) (less : A -> A -> bool) sort (x : tns A) dim d,
  tensor_ok x -> contiguous x -> names_dim (length (x_shape x)) dim d ->
  (forall idx, in_shape (x_shape x) idx -> elem x idx <> None) ->
  sorts (by_value less) sort ->
  exists out, argsort_op sort x dim = ROk out /\ x_shape out = x_shape x /\ tensor_ok out /\ owns_storage out /\
    forall idx, in_shape (x_shape x) idx ->
      exists pairs,
        along out d idx = map (fun p => Some (snd p)) pairs /\
        (forall w p, In (w, p) pairs -> elem x (with_coord d p idx) = Some w) /\
        Permutation (map snd pairs) (map Z.of_nat (seq 0 (Z.to_nat (nth d (x_shape x) 0)))) /\
        in_order less (map fst pairs).
Proof. intros A less sort x dim d H1 H2 H3 H4 H5. exact (argsort_correct less sort x dim d H1 H2 H3 H4 H5). Qed.

(** topk returns k elements of each lane with their positions, no position twice,
    best first, and none of the elements left out has precedence over one returned. *)
Theorem C51_topk_partial : forall (A : Type) (before : A -> A -> bool) push pop sort (x : tns A) k dim d,
  tensor_ok x -> contiguous x -> names_dim (length (x_shape x)) dim d ->
  (forall idx, in_shape (x_shape x) idx -> elem x idx <> None) ->
  strict_weak before -> is_queue (by_value before) push pop -> sorts (by_value before) sort ->
  1 <= k <= nth d (x_shape x) 0 ->
  let oshape := with_coord d k (x_shape x) in
  exists values indices, topk_op before push pop sort x k dim = ROk (values, indices) /\
    (x_shape values = oshape /\ tensor_ok values /\ owns_storage values) /\
    (x_shape indices = oshape /\ tensor_ok indices /\ owns_storage indices) /\
    forall idx, in_shape oshape idx ->
      exists chosen,
        along values d idx = map (fun p => Some (fst p)) chosen /\
        along indices d idx = map (fun p => Some (snd p)) chosen /\
        in_order before (map fst chosen) /\
        NoDup (map snd chosen) /\
        (forall w p, In (w, p) chosen -> 0 <= p < nth d (x_shape x) 0 /\ elem x (with_coord d p idx) = Some w) /\
        (forall q w v p, 0 <= q < nth d (x_shape x) 0 -> ~ In q (map snd chosen) ->
           elem x (with_coord d q idx) = Some w -> In (v, p) chosen -> before w v = false).
Proof.
  intros A before push pop sort x k dim d H1 H2 H3 H4 H5 H6 H7 H8 oshape.
  destruct (topk_correct before push pop sort x k dim d H1 H2 H3 H4 H5 H6 (fun l => proj1 (H7 l)) H8) as (v & i & E & Hv & Hi & P).
  exists v, i. split; [exact E|]. split; [exact Hv|]. split; [exact Hi|]. intros idx Hidx.
  destruct (P idx Hidx) as (ch & P1 & P2 & (l & P3) & P4 & P5 & P6). exists ch. repeat (split; [assumption|]).
  split; [|auto]. apply in_order_map. rewrite P3. apply H7.
Qed.

(** Functions meeting the contracts of std::sort and std::priority_queue exist for
    every strict weak order. *)
Section Contracts.
Context {B : Type}.
Variable less : B -> B -> bool.
Fixpoint insert (x : B) (l : list B) : list B :=
  match l with [] => [x] | y :: r => if less x y then x :: y :: r else y :: insert x r end.
Definition insertion_sort (l : list B) : list B := fold_right insert [] l.
Fixpoint pop_top (l : list B) : option (B * list B) :=
  match l with
  | [] => None
  | x :: r => match pop_top r with
              | None => Some (x, [])
              | Some (t, r') => if less t x then Some (x, t :: r') else Some (t, x :: r')
              end
  end.
Lemma insert_perm x l : Permutation (x :: l) (insert x l).
Proof.
  induction l as [|y l IH]; cbn [insert]; [auto|]. destruct (less x y); [auto|].
  eapply perm_trans; [apply perm_swap|]. constructor. exact IH.
Qed.
Lemma insert_order x l : strict_weak less -> in_order less l -> in_order less (insert x l).
Proof.
  intros W H. unfold in_order in *. induction H as [|y l Hl IH Hy]; cbn [insert]; [repeat constructor|].
  destruct (less x y) eqn:E.
  - constructor; [constructor; auto|]. constructor.
    + destruct (less y x) eqn:E2; auto. assert (Q := sw_trans _ W _ _ _ E E2). rewrite (sw_irrefl _ W) in Q. discriminate.
    + rewrite Forall_forall in Hy |- *. intros z Hz. specialize (Hy z Hz). destruct (less z x) eqn:E2; auto.
      assert (Q := sw_trans _ W _ _ _ E2 E). congruence.
  - constructor; [exact IH|]. rewrite Forall_forall in Hy |- *. intros z Hz.
    apply (Permutation_in z (Permutation_sym (insert_perm x l))) in Hz. destruct Hz as [<-|Hz]; auto.
Qed.
Lemma insertion_sorts : strict_weak less -> sorts less insertion_sort.
Proof.
  intros W l. induction l as [|x l [IH1 IH2]]; [split; constructor|]. cbn [insertion_sort fold_right]. split.
  - eapply perm_trans; [constructor; exact IH1|]. apply insert_perm.
  - apply insert_order; auto.
Qed.
Lemma pop_top_queue : strict_weak less -> is_queue less cons pop_top.
Proof.
  intro W. split; [intros; apply Permutation_refl|]. induction l as [|x r IH]; [reflexivity|]. cbn [pop_top].
  destruct (pop_top r) as [[t r']|].
  - destruct IH as [P F]. destruct (less t x) eqn:E.
    + split; [constructor; exact P|]. constructor; [apply (sw_irrefl _ W)|]. rewrite Forall_forall in F |- *. intros y Hy.
      specialize (F y Hy). destruct (less x y) eqn:E2; auto. assert (Q := sw_trans _ W _ _ _ E E2). congruence.
    + split; [eapply perm_trans; [constructor; exact P|apply perm_swap]|]. constructor; auto.
  - subst r. split; [auto|]. constructor; [apply (sw_irrefl _ W)|constructor].
Qed.
End Contracts.
Lemma by_value_weak {A} (less : A -> A -> bool) : strict_weak less -> strict_weak (by_value less).
Proof.
  intros [H1 H2 H3]. unfold by_value. split.
  - intros x. apply H1.
  - intros x y z. apply H2.
  - intros x y z. apply H3.
Qed.
Lemma gtb_weak : strict_weak Z.gtb.
Proof. split; intros; lia. Qed.
Example C51_hypotheses : strict_weak Z.gtb /\ is_queue (by_value Z.gtb) cons (pop_top (by_value Z.gtb)) /\
  sorts (by_value Z.gtb) (insertion_sort (by_value Z.gtb)).
Proof.
  split; [exact gtb_weak|]. split; [apply pop_top_queue|apply insertion_sorts]; apply by_value_weak, gtb_weak.
Qed.
Example C51_example_argsort : exists out, argsort_op (insertion_sort (by_value Z.gtb)) (ints [2; 3] [1; 7; 4; 9; 8; 8]) (-1) = ROk out /\
  x_shape out = [2; 3] /\ contents out = map Some [1; 2; 0; 0; 2; 1].
Proof. by_run. Qed.
Definition topk_example k := topk_op Z.gtb cons (pop_top (by_value Z.gtb)) (insertion_sort (by_value Z.gtb)) (ints [2; 3] [1; 7; 4; 9; 8; 10]) k 1.
Example C51_example_topk :
  exists values, (do r <- topk_example 2; ROk (fst r)) = ROk values /\ x_shape values = [2; 2] /\ contents values = map Some [7; 4; 10; 9].
Proof. by_run. Qed.
(** k = 0 or k larger than the dimension is undefined behaviour, not an error. *)
Theorem C51_topk_bounds_refuted : topk_example 0 = RUB /\ topk_example 4 = RUB.
Proof. split; vm_compute; reflexivity. Qed.

(* ------------------------------------------------------------------ *)
(** ** C52: causal masks *)

(** fp32 without window: of S queries over D >= S - 1 keys, query r sees the keys up
    to r + (D - S); everything else is the mask value. *)
Theorem C52_causal_mask_partial : forall (A : Type) (x : tns A) m B H S D,
  tensor_ok x -> contiguous x -> x_shape x = [B; H; S; D] -> S - 1 <= D ->
  exists out, causal_mask MaskFloat32 None m x = ROk out /\ produces [B; H; S; D] (masked (causal S D) m x) out.
Proof. intros. apply causal_mask_correct; auto. Qed.
Theorem C52_causal_mask_half_partial : forall (A : Type) (x : tns A) m B H S,
  tensor_ok x -> contiguous x -> x_shape x = [B; H; S; S] ->
  exists out, causal_mask MaskFloat16 None m x = ROk out /\ produces [B; H; S; S] (masked (causal S S) m x) out.
Proof. intros. apply causal_mask_fp16_correct; auto. Qed.
Theorem C52_causal_window_partial : forall (A : Type) ty (x : tns A) m w B H S,
  tensor_ok x -> contiguous x -> x_shape x = [B; H; S; S] -> 1 <= w ->
  exists out, causal_mask ty (Some w) m x = ROk out /\ produces [B; H; S; S] (masked (causal_window w) m x) out.
Proof. intros. apply causal_mask_window_correct; auto. Qed.
Example C52_example : exists out, causal_mask MaskFloat32 None 99 (ramp_tensor [1; 1; 2; 3]) = ROk out /\
  x_shape out = [1; 1; 2; 3] /\ contents out = map Some [0; 1; 99; 3; 4; 5].
Proof. by_run. Qed.
Example C52_example_window : exists out, causal_mask MaskFloat32 (Some 2) 99 (ramp_tensor [1; 1; 3; 3]) = ROk out /\
  x_shape out = [1; 1; 3; 3] /\ contents out = map Some [0; 99; 99; 3; 4; 99; 99; 7; 8].
Proof. by_run. Qed.
(** With keys from a cache (D > S), half precision and windows take S for D. *)
Theorem C52_half_cache_refuted : exists out, causal_mask MaskFloat16 None 99 (ramp_tensor [1; 1; 2; 3]) = ROk out /\
  x_shape out = [1; 1; 2; 3] /\ contents out = [Some 0; Some 99; Some 2; Some 3; None; None].
Proof. by_run. Qed.
Theorem C52_window_cache_refuted : exists out, causal_mask MaskFloat32 (Some 2) 99 (ramp_tensor [1; 1; 2; 3]) = ROk out /\
  x_shape out = [1; 1; 2; 3] /\ contents out = [Some 0; Some 99; Some 2; Some 3; None; None].
Proof. by_run. Qed.
(** A single query is never masked, so a window has no effect while decoding. *)
Theorem C52_window_decode_refuted : exists out, causal_mask MaskFloat32 (Some 2) 99 (ramp_tensor [1; 1; 1; 4]) = ROk out /\
  x_shape out = [1; 1; 1; 4] /\ contents out = map Some [0; 1; 2; 3].
Proof. by_run. Qed.
(** Fewer keys than queries minus one: always undefined behaviour. *)
Theorem C52_few_keys_refuted : forall (A : Type) (x : tns A) m B H S D,
  tensor_ok x -> x_shape x = [B; H; S; D] -> 0 < B -> 0 < H -> D < S - 1 ->
  causal_mask MaskFloat32 None m x = RUB.
Proof. intros A x m B H S D. apply causal_mask_narrow. Qed.

(* ------------------------------------------------------------------ *)
(** ** C53: masked scatter *)

(** Elements whose (broadcast) mask is non-zero become the (broadcast) source's
    element of the same index, all others keep their value. *)
Theorem C53_masked_scatter_partial : forall (A : Type) (dst : tns A) mask (src : tns A),
  tensor_ok dst -> contiguous dst -> tensor_ok mask -> contiguous mask -> tensor_ok src -> contiguous src ->
  is_broadcast [x_shape dst; x_shape mask; x_shape src] (x_shape dst) ->
  (forall idx, in_shape (x_shape mask) idx -> elem mask idx <> None) ->
  exists out, masked_scatter dst mask src = ROk out /\ x_view out = x_view dst /\ b_len (x_buf out) = b_len (x_buf dst) /\
    forall idx, in_shape (x_shape dst) idx ->
      elem out idx = if match elem mask (broadcast_index (x_shape mask) idx) with Some v => v =? 0 | None => true end
                     then elem dst idx else elem src (broadcast_index (x_shape src) idx).
Proof. intros. apply masked_scatter_correct; auto. Qed.
Lemma C53_hypotheses : is_broadcast [[2; 2]; [2; 1]; [2; 2]] [2; 2].
Proof. apply C47_result_shape; [discriminate|reflexivity]. Qed.
Example C53_example : exists out, masked_scatter (ints [2; 2] [0; 1; 2; 3]) (ints [2; 1] [0; 1]) (ints [2; 2] [5; 6; 7; 8]) = ROk out /\
  x_shape out = [2; 2] /\ contents out = map Some [0; 1; 7; 8].
Proof. by_run. Qed.
(** The operation of that name elsewhere (and the use the vision models make of it:
    as many source rows as there are non-zero mask entries) takes the source's
    elements in order; here rows 1 and 2 receive the source rows 1 and 0. *)
Theorem C53_source_order_refuted : exists out,
  masked_scatter (ints [4; 2] [0; 0; 0; 0; 0; 0; 0; 0]) (ints [4; 1] [0; 1; 1; 0]) (ints [2; 2] [5; 6; 7; 8]) = ROk out /\
  x_shape out = [4; 2] /\ contents out = map Some [0; 0; 7; 8; 5; 6; 0; 0].
Proof. by_run. Qed.

(* ------------------------------------------------------------------ *)
(** ** C54: sums *)

(** Sum along a dimension, with and without keeping it, for every vector width, in
    every commutative monoid. *)
Theorem C54_sum_partial : forall (A : Type) (zero : A) add N (x : tns A) dim d keep,
  comm_monoid zero add -> 0 < N -> tensor_ok x -> contiguous x -> dim <> all_dims -> names_dim (length (x_shape x)) dim d ->
  (forall idx, in_shape (x_shape x) idx -> elem x idx <> None) ->
  (keep = true \/ (2 <= length (x_shape x))%nat) ->
  let oshape := if keep then with_coord d 1 (x_shape x) else firstn d (x_shape x) ++ skipn (S d) (x_shape x) in
  exists out, sum_op zero add N x dim keep = ROk out /\ x_shape out = oshape /\ tensor_ok out /\ owns_storage out /\
    forall idx, in_shape oshape idx ->
      exists vals, along x d (if keep then idx else firstn d idx ++ 0 :: skipn d idx) = map Some vals /\
        elem out idx = Some (sum zero add vals).
Proof. intros A zero add N x dim d keep. apply sum_correct. Qed.
(** Sum of all elements. *)
Theorem C54_sum_all_partial : forall (A : Type) (zero : A) add N (x : tns A) keep,
  comm_monoid zero add -> 0 < N -> tensor_ok x -> contiguous x ->
  (forall idx, in_shape (x_shape x) idx -> elem x idx <> None) ->
  exists out vals, sum_op zero add N x all_dims keep = ROk out /\
    x_shape out = (if keep then map (fun _ => 1) (x_shape x) else [1]) /\ tensor_ok out /\ owns_storage out /\
    contents x = map Some vals /\ contents out = [Some (sum zero add vals)].
Proof. intros A zero add N x keep. apply sum_all_correct. Qed.
Lemma C54_hypotheses : comm_monoid 0 Z.add.
Proof. split; intros; lia. Qed.
Example C54_example : exists out, sum_op 0 Z.add 2 (ramp_tensor [2; 11]) (-1) false = ROk out /\ x_shape out = [2] /\ contents out = map Some [55; 176].
Proof. by_run. Qed.
(** Summing a rank-1 tensor along its only dimension without keeping it. *)
Theorem C54_rank_one_refuted : forall (A : Type) (zero : A) add N (x : tns A) n,
  x_shape x = [n] -> sum_op zero add N x 0 false = RUB.
Proof. intros A zero add N x n H. unfold sum_op. rewrite H. reflexivity. Qed.
Print Assumptions C47_result_shape.
Print Assumptions C47_elementwise_partial.
Print Assumptions C47_left_operand_refuted.
Print Assumptions C47_column_plus_row_refuted.
Print Assumptions C47_two_dimensions_refuted.
Print Assumptions C47_integer_repeat_refuted.
Print Assumptions C47_no_kernel_refuted.
Print Assumptions C47_noncontiguous_refuted.
Print Assumptions C48_index_partial.
Print Assumptions C48_out_of_range_refuted.
Print Assumptions C48_index_matrix_refuted.
Print Assumptions C48_only_slices_refuted.
Print Assumptions C49_gather_partial.
Print Assumptions C49_gather_out_of_range_refuted.
Print Assumptions C49_embedding_partial.
Print Assumptions C49_embedding_unchecked_refuted.
Print Assumptions C50_pad_partial.
Print Assumptions C50_noncontiguous_refuted.
Print Assumptions C51_argsort_partial.
Print Assumptions C51_topk_partial.
Print Assumptions C51_topk_bounds_refuted.
Print Assumptions C52_causal_mask_partial.
Print Assumptions C52_causal_mask_half_partial.
Print Assumptions C52_causal_window_partial.
Print Assumptions C52_half_cache_refuted.
Print Assumptions C52_window_cache_refuted.
Print Assumptions C52_window_decode_refuted.
Print Assumptions C52_few_keys_refuted.
Print Assumptions C53_masked_scatter_partial.
Print Assumptions C53_source_order_refuted.
Print Assumptions C54_sum_partial.
Print Assumptions C54_sum_all_partial.
Print Assumptions C54_rank_one_refuted.
