(** Property theorems C14 - C18, C37, C38 (tensors, views and the operators that
    move elements). *)
From Verif Require Import Base DTypeModel ParamModel ParamSpec ParamProofs ParamMore TensorModel TensorSpec TensorProofs TensorViews TensorSplit TensorConcat TensorStack TensorPermute TensorTranspose TensorContig.
Local Open Scope Z_scope.

(** Example data: n cells holding 0, 1, 2, ... *)
Definition ramp (n : Z) : buf Z := mkBuf n (fun i => if (0 <=? i) && (i <? n) then Some i else None).
Definition ramp_tensor (shape : list Z) : tns Z :=
  mkTns (mkV shape (default_strides shape) 0) (ramp (product shape)).
Lemma ramp_ok shape : (1 <= length shape <= 16)%nat -> Forall (fun d => 0 <= d) shape ->
  tensor_ok (ramp_tensor shape) /\ owns_storage (ramp_tensor shape).
Proof. intros H1 H2. apply owner_ok; auto. Qed.
(** Evaluation of concrete operator calls. *)
Definition result_is (r : res (tns Z)) (shape : list Z) (data : list (option Z)) : Prop :=
  match r with ROk out => x_shape out = shape /\ contents out = data | _ => False end.
Lemma by_eval r shape data : result_is r shape data -> exists out, r = ROk out /\ x_shape out = shape /\ contents out = data.
Proof. destruct r; cbn [result_is]; try contradiction. intros [H1 H2]. eauto. Qed.
Ltac by_run := apply by_eval; vm_compute; split; reflexivity.
Ltac ramp := apply ramp_ok; [cbn; lia|repeat constructor; lia].

(** The columns 0 and 1 of a 2 x 3 matrix: a tensor that is not contiguous. *)
Definition two_columns : tns Z := mkTns (mkV [2; 2] [3; 1] 0) (ramp 6).
Lemma two_columns_slice : slice (ramp_tensor [2; 3]) [mkSl kAll kAll 1; mkSl 0 2 1] = ROk two_columns.
Proof. reflexivity. Qed.
Lemma two_columns_ok : tensor_ok two_columns.
Proof.
  destruct (slice_correct (ramp_tensor [2; 3]) [mkSl kAll kAll 1; mkSl 0 2 1]) as (t' & E & H & _).
  - ramp.
  - repeat constructor; vm_compute; intuition discriminate.
  - rewrite two_columns_slice in E. injection E as <-. exact H.
Qed.

Lemma names_dim_norm rank dim d : names_dim rank dim d -> norm_dim (Z.of_nat rank) dim = Z.of_nat d.
Proof. unfold names_dim, norm_dim. intros [H1 H2]. destruct (dim <? 0) eqn:E; lia. Qed.

(* ------------------------------------------------------------------ *)
(** ** C14: layout of a new tensor *)

(** Tensor::empty(shape) for every shape of 1 to 16 non-negative extents: the
    multi-indices in order have the offsets 0, 1, .., numel-1, each offset belongs to
    exactly one multi-index, and the tensor is contiguous. *)
Theorem C14_fresh_layout : forall (A : Type) shape,
  (1 <= length shape <= 16)%nat -> Forall (fun d => 0 <= d) shape ->
  exists t : tns A, fresh_tensor shape = ROk t /\ x_shape t = shape /\ tensor_ok t /\ owns_storage t /\
    is_contiguous (x_view t) = true /\
    map (address (x_view t)) (indices shape) = map Z.of_nat (seq 0 (Z.to_nat (product shape))) /\
    (forall idx, in_shape shape idx -> 0 <= address (x_view t) idx < product shape) /\
    (forall k, 0 <= k < product shape ->
       exists idx, in_shape shape idx /\ address (x_view t) idx = k /\
         forall idx', in_shape shape idx' -> address (x_view t) idx' = k -> idx' = idx).
Proof.
  intros A shape Hr Hd. rewrite fresh_ok by auto. eexists. split; [reflexivity|].
  destruct (owner_ok shape (mkBuf (product shape) (fun _ : Z => @None A)) Hr Hd eq_refl) as [O1 O2].
  assert (Ha : forall idx, in_shape shape idx -> address (mkV shape (default_strides shape) 0) idx = ravel shape idx).
  { intros idx Hi. rewrite address_dot. cbn [v_offset v_stride]. rewrite dot_ravel by (apply in_shape_length; auto). lia. }
  cbn [x_view]. split; [reflexivity|]. split; [exact O1|]. split; [exact O2|]. split; [|split; [|split]].
  - apply (is_contiguous_spec (mkTns (mkV shape (default_strides shape) 0) (mkBuf (product shape) (fun _ : Z => @None A)))).
    + apply default_strides_length.
    + apply O2.
  - rewrite <- indices_ravel by auto. apply map_ext_in. intros idx Hi. apply Ha. apply in_indices. auto.
  - intros idx Hi. rewrite Ha by auto. apply ravel_bounds. auto.
  - intros k Hk. destruct (unravel_spec shape k Hd Hk) as [U1 U2]. exists (unravel shape k).
    split; [exact U1|]. split; [rewrite Ha by auto; exact U2|].
    intros idx' Hi E. rewrite Ha in E by auto. rewrite <- E, unravel_ravel by auto. reflexivity.
Qed.
Example C14_case : map (address (mkV [2; 3] (default_strides [2; 3]) 0)) (indices [2; 3]) = [0; 1; 2; 3; 4; 5].
Proof. reflexivity. Qed.

(** Writing one element of a tensor whose elements have distinct addresses changes
    that element and no other. *)
Theorem C14_write_one_element : forall (A : Type) (t : tns A) idx (x : A),
  tensor_ok t -> owns_storage t -> in_shape (x_shape t) idx ->
  exists t', at_store t idx (Some x) = ROk t' /\ x_view t' = x_view t /\ tensor_ok t' /\
    at_load t' idx = ROk (Some x) /\
    forall other, in_shape (x_shape t) other -> other <> idx -> at_load t' other = at_load t other.
Proof.
  intros A t idx x Hok [Hl Ho Hb] Hi. assert (Hc : contiguous t) by exact Hl.
  assert (O := ok_inside _ Hok _ Hi). unfold at_store, offsetted, zlen.
  assert (Li := in_shape_length _ _ Hi). unfold x_shape in Li. rewrite Li, Z.eqb_refl. cbn [rbind].
  rewrite <- address_dot. unfold store. replace ((0 <=? _) && _) with true by lia. cbn [rbind].
  eexists. split; [reflexivity|]. split; [reflexivity|].
  set (t' := mkTns _ _). assert (Hok' : tensor_ok t') by (destruct Hok; constructor; auto).
  split; [exact Hok'|]. split.
  - rewrite at_load_ok by auto. unfold elem, t'. cbn [x_buf x_view b_at]. rewrite Z.eqb_refl. reflexivity.
  - intros other Hoi Hne. rewrite !at_load_ok by auto. unfold elem, t'. cbn [x_buf x_view b_at].
    destruct (Z.eqb_spec (address (x_view t) other) (address (x_view t) idx)) as [E|]; [|reflexivity].
    exfalso. apply Hne. rewrite !contiguous_address in E by (auto; apply in_shape_length; auto).
    apply (ravel_inj (x_shape t)); auto. lia.
Qed.
Example C14_write_case : tensor_ok (ramp_tensor [2; 3]) /\ owns_storage (ramp_tensor [2; 3]) /\ in_shape (x_shape (ramp_tensor [2; 3])) [1; 2].
Proof. split; [ramp|]. split; [ramp|]. repeat constructor; vm_compute; intuition discriminate. Qed.

(** Shapes outside 1..16 dimensions are not rejected: a scalar shape {} or 17
    dimensions write outside the fixed arrays. *)
Theorem C14_rank_refuted : forall (A : Type) shape,
  length shape = 0%nat \/ (16 < length shape)%nat -> @fresh_tensor A shape = RUB.
Proof.
  intros A shape H. unfold fresh_tensor, create_view, zlen.
  replace ((1 <=? Z.of_nat (length shape)) && (Z.of_nat (length shape) <=? 16)) with false by lia. reflexivity.
Qed.

(* ------------------------------------------------------------------ *)
(** ** C15: slices *)

(** For every tensor (any strides, in particular a slice of a slice) and in-range
    slice specifications: the slice shares the storage, has the expected extents,
    all its elements lie inside the storage, and each is the selected element of the
    source. *)
Theorem C15_slice_selects : forall (A : Type) (t : tns A) ps,
  tensor_ok t -> Forall2 slice_in_range (x_shape t) ps ->
  exists t', slice t ps = ROk t' /\ tensor_ok t' /\ x_buf t' = x_buf t /\
    x_shape t' = map (fun x => slice_count (fst x) (snd x)) (combine (x_shape t) ps) /\
    forall idx, in_shape (x_shape t') idx ->
      in_shape (x_shape t) (slice_source (x_shape t) ps idx) /\
      address (x_view t') idx = address (x_view t) (slice_source (x_shape t) ps idx) /\
      elem t' idx = elem t (slice_source (x_shape t) ps idx).
Proof. intros A. exact slice_correct. Qed.
Example C15_case : exists t', slice (ramp_tensor [3; 4]) [slice_at (-1); mkSl (-3) kAll 2] = ROk t' /\
  x_shape t' = [1; 2] /\ contents t' = [Some 9; Some 11] /\
  Forall2 slice_in_range [3; 4] [slice_at (-1); mkSl (-3) kAll 2].
Proof.
  eexists. split; [reflexivity|]. split; [reflexivity|]. split; [reflexivity|].
  repeat constructor; vm_compute; intuition discriminate.
Qed.

(** Writing through a slice writes the selected element of the source (both share
    the storage). *)
Theorem C15_slice_writes_through : forall (A : Type) (t : tns A) ps idx (x : A),
  tensor_ok t -> Forall2 slice_in_range (x_shape t) ps ->
  exists t', slice t ps = ROk t' /\
    (in_shape (x_shape t') idx ->
     exists w, at_store t' idx (Some x) = ROk w /\
       at_load (mkTns (x_view t) (x_buf w)) (slice_source (x_shape t) ps idx) = ROk (Some x)).
Proof.
  intros A t ps idx x Hok Hps. destruct (slice_correct t ps Hok Hps) as (t' & E & Hok' & Hb & _ & Hel).
  exists t'. split; [exact E|]. intro Hi. destruct (Hel idx Hi) as (I1 & I2 & _).
  assert (O := ok_inside _ Hok' _ Hi). unfold at_store, offsetted, zlen.
  assert (Li := in_shape_length _ _ Hi). unfold x_shape in Li. rewrite Li, Z.eqb_refl. cbn [rbind].
  rewrite <- address_dot. unfold store. replace ((0 <=? _) && _) with true by lia. cbn [rbind].
  eexists. split; [reflexivity|]. cbn [x_buf].
  rewrite at_load_ok.
  - unfold elem. cbn [x_buf x_view b_at]. rewrite <- I2, Z.eqb_refl. reflexivity.
  - destruct Hok as [o1 o2 o3 o4]. constructor; auto. cbn [x_buf b_len x_view]. rewrite Hb. exact o4.
  - exact I1.
Qed.

(** Bounds beyond the extent are accepted, and elements of the resulting tensor lie
    outside the storage. *)
Theorem C15_out_of_range_refuted :
  exists (t t' : tns Z) ps idx, tensor_ok t /\ slice t ps = ROk t' /\ in_shape (x_shape t') idx /\ at_load t' idx = RUB.
Proof.
  exists (ramp_tensor [4]). eexists. exists [mkSl 0 100 1], [50].
  split; [ramp|]. split; [reflexivity|]. split; [|reflexivity]. repeat constructor; vm_compute; intuition discriminate.
Qed.
(** The out-of-range single index -5 of a tensor with 3 elements silently selects
    element 1. *)
Theorem C15_negative_index_refuted :
  exists t', slice (ramp_tensor [3]) [slice_at (-5)] = ROk t' /\ contents t' = [Some 1].
Proof. eexists. split; reflexivity. Qed.

(* ------------------------------------------------------------------ *)
(** ** C16: views *)

(** Whatever view() accepts keeps the number and the row-major order of the
    elements, resolves at most one -1, stays inside the storage, and is itself
    contiguous if the source was. *)
Theorem C16_view_keeps_elements : forall (A : Type) (t t' : tns A) wanted,
  tensor_ok t -> to_view t wanted = ROk t' ->
  resolves (product (x_shape t)) wanted (x_shape t') /\
  x_buf t' = x_buf t /\ contents t' = contents t /\
  length (x_stride t') = length (x_shape t') /\
  Forall (fun d => 0 <= d) (x_shape t') /\
  (forall idx, in_shape (x_shape t') idx -> 0 <= address (x_view t') idx < b_len (x_buf t')) /\
  (is_contiguous (x_view t) = true -> contiguous t').
Proof. intros A. exact to_view_correct. Qed.
(** Every shape with the right number of elements is accepted for a contiguous
    tensor. *)
Theorem C16_view_accepts : forall (A : Type) (t : tns A) shape,
  tensor_ok t -> is_contiguous (x_view t) = true -> (length shape <= 16)%nat ->
  Forall (fun d => 0 <= d) shape -> product shape = product (x_shape t) ->
  exists t', to_view t shape = ROk t' /\ x_shape t' = shape.
Proof. intros A. exact to_view_accepts. Qed.
Example C16_case : exists t', to_view (ramp_tensor [2; 6]) [3; -1; 2] = ROk t' /\ x_shape t' = [3; 2; 2].
Proof. eexists. split; reflexivity. Qed.
Example C16_rejects : to_view (ramp_tensor [2; 6]) [5; -1] = RAbort /\ to_view (ramp_tensor [2; 6]) [-1; -1; 3] = RAbort
  /\ to_view two_columns [4] = RAbort.
Proof. repeat split. Qed.

(** unsqueeze, squeeze of an extent-1 dimension and flatten of a contiguous tensor
    always succeed, with the expected shape and the same elements. *)
Theorem C16_unsqueeze : forall (A : Type) (t : tns A) dim d,
  tensor_ok t -> is_contiguous (x_view t) = true -> names_dim (S (length (x_shape t))) dim d ->
  (length (x_shape t) <= 15)%nat ->
  exists t', unsqueeze t dim = ROk t' /\ x_shape t' = firstn d (x_shape t) ++ 1 :: skipn d (x_shape t) /\ contents t' = contents t.
Proof.
  intros A t dim d Hok Hc [Hd1 Hd2] Hr. unfold unsqueeze, zlen.
  assert (E : (if dim <? 0 then Z.of_nat (length (x_shape t)) + dim + 1 else dim) = Z.of_nat d) by (destruct (dim <? 0) eqn:E; lia).
  rewrite E. replace ((0 <=? Z.of_nat d) && (Z.of_nat d <=? Z.of_nat (length (x_shape t)))) with true by lia. rewrite Nat2Z.id.
  unfold insert_at.
  assert (Hs := firstn_skipn d (x_shape t)).
  destruct (to_view_accepts t (firstn d (x_shape t) ++ 1 :: skipn d (x_shape t)) Hok Hc) as (t' & Et & Es).
  - rewrite app_length. cbn [length]. rewrite firstn_length, skipn_length. lia.
  - assert (Hf := ok_dims _ Hok). rewrite <- Hs in Hf. apply Forall_app in Hf as [F1 F2]. apply Forall_app. split; auto. constructor; [lia|auto].
  - rewrite product_app, product_cons. rewrite <- Hs at 3. rewrite product_app. lia.
  - exists t'. split; [exact Et|]. split; [exact Es|]. apply (to_view_correct t t' _ Hok Et).
Qed.
Theorem C16_squeeze : forall (A : Type) (t : tns A) dim d,
  tensor_ok t -> is_contiguous (x_view t) = true -> names_dim (length (x_shape t)) dim d ->
  nth d (x_shape t) 0 = 1 ->
  exists t', squeeze t dim = ROk t' /\ x_shape t' = firstn d (x_shape t) ++ skipn (S d) (x_shape t) /\ contents t' = contents t.
Proof.
  intros A t dim d Hok Hc Hn Hone. assert (Hnorm := names_dim_norm _ _ _ Hn). destruct Hn as [Hd _].
  unfold squeeze, zlen. rewrite Hnorm. replace ((Z.of_nat d <? 0) || (Z.of_nat (length (x_shape t)) <=? Z.of_nat d)) with false by lia.
  rewrite Nat2Z.id, Hone. change (1 =? 1) with true. cbv iota.
  assert (Hs : x_shape t = firstn d (x_shape t) ++ 1 :: skipn (S d) (x_shape t)) by (rewrite <- Hone; apply list_at; auto).
  destruct (to_view_accepts t (firstn d (x_shape t) ++ skipn (S d) (x_shape t)) Hok Hc) as (t' & Et & Es).
  - assert (Hr := ok_rank _ Hok). rewrite Hs in Hr. rewrite !app_length in *. cbn [length] in *. lia.
  - assert (Hf := ok_dims _ Hok). rewrite Hs in Hf. apply Forall_app in Hf as [F1 F2]. inversion F2; subst. apply Forall_app. auto.
  - rewrite Hs at 3. rewrite !product_app, product_cons. lia.
  - exists t'. split; [exact Et|]. split; [exact Es|]. apply (to_view_correct t t' _ Hok Et).
Qed.
Theorem C16_flatten : forall (A : Type) (t : tns A) dim d,
  tensor_ok t -> is_contiguous (x_view t) = true ->
  (exists t', flatten_all t = ROk t' /\ x_shape t' = [product (x_shape t)] /\ contents t' = contents t) /\
  (names_dim (length (x_shape t)) dim d ->
   exists t', flatten_from t dim = ROk t' /\ x_shape t' = firstn d (x_shape t) ++ [product (skipn d (x_shape t))] /\ contents t' = contents t).
Proof.
  intros A t dim d Hok Hc. assert (Hp := product_nonneg _ (ok_dims _ Hok)). split.
  - unfold flatten_all. rewrite numel_product.
    destruct (to_view_accepts t [product (x_shape t)] Hok Hc) as (t' & Et & Es).
    + cbn [length]. lia.
    + repeat constructor; lia.
    + rewrite product_cons. unfold product at 2. cbn [fold_right]. lia.
    + exists t'. split; [exact Et|]. split; [exact Es|]. apply (to_view_correct t t' _ Hok Et).
  - intro Hn. assert (Hnorm := names_dim_norm _ _ _ Hn). destruct Hn as [Hd _]. unfold flatten_from, zlen.
    replace (Z.of_nat (length (x_shape t)) =? 0) with false by lia. rewrite Hnorm.
    replace ((Z.of_nat d <? 0) || (Z.of_nat (length (x_shape t)) <=? Z.of_nat d)) with false by lia. rewrite Nat2Z.id, numel_product.
    assert (Hf := ok_dims _ Hok). rewrite <- (firstn_skipn d (x_shape t)) in Hf. apply Forall_app in Hf as [F1 F2].
    destruct (to_view_accepts t (firstn d (x_shape t) ++ [product (skipn d (x_shape t))]) Hok Hc) as (t' & Et & Es).
    + assert (Hr := ok_rank _ Hok). rewrite app_length, firstn_length. cbn [length]. lia.
    + apply Forall_app. split; auto. constructor; [apply product_nonneg; auto|constructor].
    + rewrite product_app, product_cons. rewrite <- (firstn_skipn d (x_shape t)) at 3. rewrite product_app. unfold product at 3. cbn [fold_right]. lia.
    + exists t'. split; [exact Et|]. split; [exact Es|]. apply (to_view_correct t t' _ Hok Et).
Qed.
Example C16_squeeze_case : tensor_ok (ramp_tensor [2; 1; 3]) /\ is_contiguous (x_view (ramp_tensor [2; 1; 3])) = true /\
  names_dim 3 (-2) 1 /\ exists t', squeeze (ramp_tensor [2; 1; 3]) (-2) = ROk t' /\ x_shape t' = [2; 3].
Proof. split; [ramp|]. split; [reflexivity|]. split; [split; [lia|right; reflexivity]|]. eexists. split; reflexivity. Qed.

(** reshape() on the CPU returns a tensor of the right shape which is never written:
    no element of the source arrives, for any tensor and shape. *)
Theorem C16_reshape_uninitialised_refuted : forall (A : Type) (t t' : tns A) shape,
  reshape t shape = ROk t' -> forall idx, elem t' idx = None.
Proof.
  intros A t t' shape H idx. unfold reshape in H. destruct (reshape_shape (numel (x_shape t)) shape) as [s| | |]; cbn [rbind] in H; try discriminate.
  assert (Hr := fresh_inv _ _ H). rewrite fresh_ok in H by auto. injection H as <-. reflexivity.
Qed.
(** It also accepts negative extents. *)
Theorem C16_reshape_negative_refuted : exists t', reshape (ramp_tensor [6]) [-2; -3] = ROk t' /\ x_shape t' = [-2; -3].
Proof. eexists. split; reflexivity. Qed.

(* ------------------------------------------------------------------ *)
(** ** C17: split and concat *)

(** For positive sections: the extents of the pieces sum to the original extent,
    they are as requested, piece number k starts where piece k-1 ends, and each piece
    shows its part of the source, in the source's storage. *)
Theorem C17_split_partitions : forall (A : Type) (t : tns A) dim spec ts,
  tensor_ok t -> Forall (fun s => 0 < s) spec -> split t dim spec = ROk ts ->
  exists d sections, names_dim (length (x_shape t)) dim d /\
    total sections = nth d (x_shape t) 0 /\ Forall (fun s => 0 < s) sections /\
    (length spec <> 1%nat -> sections = spec) /\ (forall s, spec = [s] -> Forall (eq s) sections) /\
    length ts = length sections /\
    forall before s after, sections = before ++ s :: after ->
      exists p, nth_error ts (length before) = Some p /\ tensor_ok p /\ x_buf p = x_buf t /\
        x_shape p = with_coord d s (x_shape t) /\
        forall idx, in_shape (x_shape p) idx ->
          in_shape (x_shape t) (with_coord d (nth d idx 0 + total before) idx) /\
          elem p idx = elem t (with_coord d (nth d idx 0 + total before) idx).
Proof.
  intros A t dim spec ts Hok Hsp H. destruct (split_correct t dim spec ts Hok Hsp H) as (d & sections & Hn & Hd & H1 & H2 & H3 & H4 & H5 & H6).
  exists d, sections. split.
  { split; [exact Hd|]. unfold norm_dim, zlen in Hn. destruct (dim <? 0) eqn:E; lia. }
  split; [auto|]. split; [auto|]. split; [auto|]. split; [auto|]. split; [|auto].
  rewrite H5, map_length. apply starts_length.
Qed.
(** concat of fp32/fp16 tensors of any layout that agree outside the dimension: the
    extents add up and each input occupies its own consecutive range. *)
Theorem C17_concat_places : forall (A : Type) dt dim d (t0 : tns A) r,
  dt = 0 \/ dt = 1 -> names_dim (length (x_shape t0)) dim d ->
  Forall (fun t => tensor_ok t /\ agree_outside d (x_shape t0) t) (t0 :: r) ->
  exists out, concat_op dt (t0 :: r) dim = ROk out /\
    x_shape out = with_coord d (total (extents d (t0 :: r))) (x_shape t0) /\ tensor_ok out /\ owns_storage out /\
    forall before t after, t0 :: r = before ++ t :: after -> forall idx, in_shape (x_shape t) idx ->
      in_shape (x_shape out) (with_coord d (total (extents d before) + nth d idx 0) idx) /\
      elem out (with_coord d (total (extents d before) + nth d idx 0) idx) = elem t idx.
Proof.
  intros A dt dim d t0 r Hdt Hn Hall. apply concat_correct; auto; [apply Hn| |apply names_dim_norm; auto].
  destruct Hdt as [-> | ->]; reflexivity.
Qed.
(** Concatenating the pieces of a split gives back shape and elements. *)
Theorem C17_split_then_concat : forall (A : Type) (t : tns A) dt dim spec ts,
  tensor_ok t -> Forall (fun s => 0 < s) spec -> dt = 0 \/ dt = 1 ->
  split t dim spec = ROk ts -> ts <> [] ->
  exists out, concat_op dt ts dim = ROk out /\ x_shape out = x_shape t /\ contents out = contents t.
Proof. intros A t dt dim spec ts Hok Hs Hdt. apply split_concat_correct; auto. destruct Hdt as [-> | ->]; reflexivity. Qed.
Example C17_case : exists ts, split (ramp_tensor [2; 5]) (-1) [2; 3] = ROk ts /\ ts <> [] /\
  exists out, concat_op 0 ts (-1) = ROk out /\ x_shape out = [2; 5] /\ contents out = map Some [0; 1; 2; 3; 4; 5; 6; 7; 8; 9].
Proof. eexists. split; [reflexivity|]. split; [discriminate|]. by_run. Qed.

(** Sections that are not positive are accepted: [-1;5] of extent 4 gives a piece of
    extent -1, and the section size -2 gives no pieces at all. *)
Theorem C17_negative_sections_refuted :
  (exists p q, split (ramp_tensor [4]) 0 [-1; 5] = ROk [p; q] /\ x_shape p = [-1]) /\
  split (ramp_tensor [4]) 0 [-2] = ROk [].
Proof. split; [|reflexivity]. do 2 eexists. split; reflexivity. Qed.
(** concat of a type without a copying loop (here int64) returns a tensor of the
    right shape none of whose elements was written. *)
Theorem C17_concat_type_refuted : forall (A : Type) dt (ts : list (tns A)) dim out,
  dt <> 0 -> dt <> 1 -> concat_op dt ts dim = ROk out -> forall idx, elem out idx = None.
Proof.
  intros A dt ts dim out H0 H1 H idx. unfold concat_op in H.
  destruct (concat_shape ts dim) as [s| | |]; cbn [rbind] in H; try discriminate.
  destruct (fresh_tensor s) as [f| | |] eqn:Ef; cbn [rbind] in H; try discriminate.
  assert (Hr := fresh_inv _ _ Ef). rewrite fresh_ok in Ef by auto. injection Ef as <-.
  unfold concat_forward, has_copy_loop in H. destruct ts as [|t0 r]; [discriminate|].
  replace ((dt =? 0) || (dt =? 1)) with false in H by lia. cbn [negb] in H.
  destruct (forallb _ _); injection H as <-; reflexivity.
Qed.
Example C17_concat_type_case : exists out, concat_op 132 [ramp_tensor [2]; ramp_tensor [3]] 0 = ROk out /\ x_shape out = [5] /\ contents out = [None; None; None; None; None].
Proof. by_run. Qed.

(* ------------------------------------------------------------------ *)
(** ** C18: permute and transpose *)

(** Permutation of a contiguous tensor of a supported type: every element moves to
    its place. *)
Theorem C18_permute_partial : forall (A : Type) (t : tns A) dt axis,
  tensor_ok t -> contiguous t -> is_permutation (length (x_shape t)) axis ->
  In dt [0; 1; 16; 17; 18; 129; 130; 131; 132; 133] ->
  exists out, permute_op dt t axis = ROk out /\ x_shape out = rearrange axis (x_shape t) /\
    tensor_ok out /\ owns_storage out /\
    forall idx, in_shape (x_shape t) idx ->
      in_shape (x_shape out) (rearrange axis idx) /\ elem out (rearrange axis idx) = elem t idx.
Proof.
  intros A t dt axis Hok Hc Hp Hdt. apply permute_correct; auto.
  cbn [In] in Hdt. repeat (destruct Hdt as [<- | Hdt]; [reflexivity|]). contradiction.
Qed.
(** Permuting with a permutation and then with its inverse is the identity. *)
Theorem C18_permute_inverse : forall (A : Type) (t : tns A) dt axis inv,
  tensor_ok t -> contiguous t -> is_permutation (length (x_shape t)) axis -> is_permutation (length (x_shape t)) inv ->
  (forall k, (k < length (x_shape t))%nat -> nth (Z.to_nat (nth k inv 0)) axis 0 = Z.of_nat k) ->
  In dt [0; 1; 16; 17; 18; 129; 130; 131; 132; 133] ->
  exists mid out, permute_op dt t axis = ROk mid /\ permute_op dt mid inv = ROk out /\ is_packed_copy t out.
Proof.
  intros A t dt axis inv Hok Hc Hp Hi Hinv Hdt.
  destruct (C18_permute_partial A t dt axis Hok Hc Hp Hdt) as (mid & E1 & S1 & O1 & W1 & El1).
  set (n := length (x_shape t)) in *.
  assert (L1 : length (x_shape mid) = n) by (rewrite S1; apply (rearrange_length n); auto).
  destruct (C18_permute_partial A mid dt inv O1 (os_layout _ W1)) as (out & E2 & S2 & O2 & W2 & El2); auto.
  { rewrite L1. exact Hi. }
  assert (Hid : forall l, length l = n -> rearrange inv (rearrange axis l) = l).
  { intros l Hl. apply (nth_ext _ _ 0 0); [rewrite (rearrange_length n); auto|].
    intros k Hk. rewrite (rearrange_length n) in Hk by auto. rewrite (rearrange_nth n) by auto.
    assert (B := perm_bound n inv Hi k Hk). rewrite (rearrange_nth n) by (auto; lia). rewrite (Hinv k Hk), Nat2Z.id. reflexivity. }
  exists mid, out. split; [exact E1|]. split; [exact E2|].
  assert (Hs : x_shape out = x_shape t) by (rewrite S2, S1; apply Hid; reflexivity).
  assert (He : forall idx, in_shape (x_shape t) idx -> elem out idx = elem t idx).
  { intros idx Hx. destruct (El1 idx Hx) as [I1 I2]. destruct (El2 _ I1) as [_ I4].
    rewrite Hid in I4 by (apply in_shape_length; auto). congruence. }
  split; [exact Hs|]. split; [exact O2|]. split; [exact W2|]. split; [|exact He].
  unfold contents. rewrite Hs. apply map_ext_in. intros idx Hx. apply He. apply in_indices. auto.
Qed.
Example C18_permute_case : is_permutation 3 [2; 0; 1] /\ is_permutation 3 [1; 2; 0] /\
  exists out, permute_op 0 (ramp_tensor [2; 3; 2]) [2; 0; 1] = ROk out /\ x_shape out = [2; 2; 3] /\
    contents out = map Some [0; 2; 4; 6; 8; 10; 1; 3; 5; 7; 9; 11].
Proof.
  split; [|split].
  - exact (Permutation_cons_append [0; 1] 2).
  - exact (Permutation_sym (Permutation_cons_append [1; 2] 0)).
  - by_run.
Qed.

(** Transpose of a contiguous fp32 or int64 tensor, except for dimensions 0 and 1 of
    a tensor whose rank is not 2 (refuted below): every element moves to its place. *)
Theorem C18_transpose_partial : forall (A : Type) (t : tns A) dt d0 d1 a b,
  tensor_ok t -> contiguous t -> dt = 0 \/ dt = 132 ->
  names_dim (length (x_shape t)) d0 a -> names_dim (length (x_shape t)) d1 b ->
  length (x_shape t) = 2%nat \/ (a + b <> 1)%nat ->
  exists out, transpose_op dt t d0 d1 = ROk out /\ x_shape out = exchange a b (x_shape t) /\
    tensor_ok out /\ owns_storage out /\
    forall idx, in_shape (x_shape t) idx ->
      in_shape (x_shape out) (exchange a b idx) /\ elem out (exchange a b idx) = elem t idx.
Proof.
  intros A t dt d0 d1 a b Hok Hc Hdt Ha Hb Hn. apply transpose_correct; auto; try apply Ha; try apply Hb; apply names_dim_norm; auto.
Qed.
(** Transposing twice is the identity. *)
Theorem C18_transpose_twice : forall (A : Type) (t : tns A) dt d0 d1 a b,
  tensor_ok t -> contiguous t -> dt = 0 \/ dt = 132 ->
  names_dim (length (x_shape t)) d0 a -> names_dim (length (x_shape t)) d1 b ->
  length (x_shape t) = 2%nat \/ (a + b <> 1)%nat ->
  exists mid out, transpose_op dt t d0 d1 = ROk mid /\ transpose_op dt mid d0 d1 = ROk out /\ is_packed_copy t out.
Proof.
  intros A t dt d0 d1 a b Hok Hc Hdt Ha Hb Hn.
  destruct (C18_transpose_partial A t dt d0 d1 a b Hok Hc Hdt Ha Hb Hn) as (mid & E1 & S1 & O1 & W1 & El1).
  assert (L1 : length (x_shape mid) = length (x_shape t)) by (rewrite S1; apply exchange_length).
  destruct (C18_transpose_partial A mid dt d0 d1 a b O1 (os_layout _ W1) Hdt) as (out & E2 & S2 & O2 & W2 & El2); try (rewrite L1; auto).
  exists mid, out. split; [exact E1|]. split; [exact E2|].
  assert (Hid : forall l, length l = length (x_shape t) -> exchange a b (exchange a b l) = l).
  { intros l Hl. apply exchange_twice; rewrite Hl; [apply Ha|apply Hb]. }
  assert (Hs : x_shape out = x_shape t) by (rewrite S2, S1; apply Hid; reflexivity).
  assert (He : forall idx, in_shape (x_shape t) idx -> elem out idx = elem t idx).
  { intros idx Hx. destruct (El1 idx Hx) as [I1 I2]. destruct (El2 _ I1) as [_ I4].
    rewrite Hid in I4 by (apply in_shape_length; auto). congruence. }
  split; [exact Hs|]. split; [exact O2|]. split; [exact W2|]. split; [|exact He].
  unfold contents. rewrite Hs. apply map_ext_in. intros idx Hx. apply He. apply in_indices. auto.
Qed.
Example C18_transpose_case : exists out, transpose_op 0 (ramp_tensor [5; 6]) (-1) 0 = ROk out /\ x_shape out = [6; 5] /\
  contents out = map Some [0; 6; 12; 18; 24; 1; 7; 13; 19; 25; 2; 8; 14; 20; 26; 3; 9; 15; 21; 27; 4; 10; 16; 22; 28; 5; 11; 17; 23; 29].
Proof. by_run. Qed.
Example C18_transpose_case4 : exists out, transpose_op 132 (ramp_tensor [1; 2; 2; 3]) 1 2 = ROk out /\ x_shape out = [1; 2; 2; 3] /\
  contents out = map Some [0; 1; 2; 6; 7; 8; 3; 4; 5; 9; 10; 11].
Proof. by_run. Qed.

(** Transposing dimensions 0 and 1 of a tensor of rank 3 or more never writes the
    output (the number of batches is computed as 0 * ...). *)
Theorem C18_transpose_batch_refuted : forall (A : Type) (t : tns A) dt d0 d1 a b,
  tensor_ok t -> dt = 0 \/ dt = 132 -> (2 < length (x_shape t))%nat ->
  names_dim (length (x_shape t)) d0 a -> names_dim (length (x_shape t)) d1 b -> (a + b = 1)%nat ->
  exists out, transpose_op dt t d0 d1 = ROk out /\ x_shape out = exchange a b (x_shape t) /\
    forall idx, elem out idx = None.
Proof.
  intros A t dt d0 d1 a b Hok Hdt Hr Ha Hb Hab. unfold transpose_op. cbv zeta. unfold zlen.
  rewrite (names_dim_norm _ _ _ Ha), (names_dim_norm _ _ _ Hb). destruct Ha as [Ha _], Hb as [Hb _].
  replace ((0 <=? Z.of_nat a) && (Z.of_nat a <? Z.of_nat (length (x_shape t))) && (0 <=? Z.of_nat b) && (Z.of_nat b <? Z.of_nat (length (x_shape t)))) with true by lia.
  rewrite swap_at_exchange by auto. rewrite fresh_ok by (rewrite exchange_length; apply Hok). cbn [rbind x_buf x_view].
  unfold transpose_forward, zlen. replace (negb ((dt =? 0) || (dt =? 132))) with false by (destruct Hdt as [-> | ->]; reflexivity).
  replace ((Z.of_nat (length (x_shape t)) =? 2) && (Z.of_nat a + Z.of_nat b =? 1)) with false by lia.
  replace ((Z.of_nat (length (x_shape t)) =? 4) && ((Z.of_nat a =? 1) && (Z.of_nat b =? 2) || (Z.of_nat a =? 2) && (Z.of_nat b =? 1))) with false by lia.
  replace (negb (Z.of_nat (length (x_shape t)) =? 2) && (Z.of_nat a + Z.of_nat b =? 1)) with true by lia.
  cbv zeta. rewrite fold_mul. unfold transpose_last. rewrite zloop_0 by lia. cbn [rbind].
  eexists. split; [reflexivity|]. split; [reflexivity|]. reflexivity.
Qed.
Example C18_transpose_batch_case : exists out, transpose_op 0 (ramp_tensor [2; 2; 1]) 0 1 = ROk out /\ x_shape out = [2; 2; 1] /\ contents out = [None; None; None; None].
Proof. by_run. Qed.

(** permute and transpose ignore the strides of their input: on the columns 0 and 1
    of [[0,1,2],[3,4,5]], that is [[0,1],[3,4]], they use element 2. *)
Theorem C18_noncontiguous_refuted :
  contents two_columns = map Some [0; 1; 3; 4] /\
  (exists out, permute_op 0 two_columns [1; 0] = ROk out /\ x_shape out = [2; 2] /\ contents out = map Some [0; 2; 1; 3]) /\
  (exists out, transpose_op 0 two_columns 0 1 = ROk out /\ x_shape out = [2; 2] /\ contents out = map Some [0; 2; 1; 3]).
Proof. split; [vm_compute; reflexivity|]. split; by_run. Qed.

(* ------------------------------------------------------------------ *)
(** ** C37: contiguous, clone, copy2 *)

(** contiguous() of a tensor with any strides, unless every stride is the square of
    the next (refuted below): a packed copy. *)
Theorem C37_contiguous_partial : forall (A : Type) (t : tns A),
  tensor_ok t ->
  (length (x_shape t) = 1%nat \/ contiguous t \/
   exists i, (S i < length (x_shape t))%nat /\ nth i (x_stride t) 0 <> nth (S i) (x_stride t) 0 * nth (S i) (x_stride t) 0) ->
  exists out, contiguous_op t = ROk out /\ is_packed_copy t out.
Proof. intros A. exact contiguous_correct. Qed.
Example C37_contiguous_case : exists out, contiguous_op two_columns = ROk out /\ x_shape out = [2; 2] /\ contents out = map Some [0; 1; 3; 4].
Proof. by_run. Qed.
(** Every second column of a matrix with 4 columns has strides (4, 2), and 4 = 2*2:
    the blocked path then copies the wrong elements (here of the first two rows), or
    reads beyond the storage (all rows). *)
Theorem C37_contiguous_square_stride_refuted :
  (exists t, slice (ramp_tensor [4; 4]) [mkSl 0 2 1; mkSl kAll kAll 2] = ROk t /\ tensor_ok t /\
    contents t = map Some [0; 2; 4; 6] /\
    exists out, contiguous_op t = ROk out /\ x_shape out = [2; 2] /\ contents out = map Some [0; 1; 8; 9]) /\
  (exists t, slice (ramp_tensor [4; 4]) [mkSl kAll kAll 1; mkSl kAll kAll 2] = ROk t /\ contiguous_op t = RUB).
Proof.
  split.
  - exists (mkTns (mkV [2; 2] [4; 2] 0) (ramp 16)). split; [reflexivity|]. split.
    { destruct (slice_correct (ramp_tensor [4; 4]) [mkSl 0 2 1; mkSl kAll kAll 2]) as (t' & E & H & _).
      - ramp.
      - repeat constructor; vm_compute; intuition discriminate.
      - assert (E2 : slice (ramp_tensor [4; 4]) [mkSl 0 2 1; mkSl kAll kAll 2] = ROk (mkTns (mkV [2; 2] [4; 2] 0) (ramp 16))) by reflexivity.
        rewrite E2 in E. injection E as <-. exact H. }
    split; [vm_compute; reflexivity|]. by_run.
  - eexists. split; [reflexivity|]. vm_compute. reflexivity.
Qed.
(** clone() of a tensor that owns its storage. *)
Theorem C37_clone_partial : forall (A : Type) (t : tns A), tensor_ok t -> owns_storage t ->
  exists out, clone_op t = ROk out /\ is_packed_copy t out.
Proof. intros A. exact clone_correct. Qed.
(** clone() of a contiguous part of a larger storage copies as many bytes as the
    whole storage has, beyond the end of the new tensor. *)
Theorem C37_clone_view_refuted :
  exists t, slice (ramp_tensor [4; 2]) [mkSl 1 3 1; mkSl kAll kAll 1] = ROk t /\
    is_contiguous (x_view t) = true /\ clone_op t = RUB.
Proof. eexists. split; [reflexivity|]. split; vm_compute; reflexivity. Qed.
(** copy2 between tensors owning their storage: the argument becomes a copy of the
    tensor it is called on (not the reverse). *)
Theorem C37_copy2_partial : forall (A : Type) (self src : tns A),
  tensor_ok self -> owns_storage self -> tensor_ok src -> owns_storage src -> x_shape self = x_shape src ->
  exists b, copy2 self src = ROk b /\ is_packed_copy self (mkTns (x_view src) b).
Proof. intros A. exact copy2_correct. Qed.
Example C37_owner_case : tensor_ok (ramp_tensor [2; 3]) /\ owns_storage (ramp_tensor [2; 3]) /\
  exists out, clone_op (ramp_tensor [2; 3]) = ROk out /\ x_shape out = [2; 3] /\ contents out = map Some [0; 1; 2; 3; 4; 5].
Proof. split; [ramp|]. split; [ramp|]. by_run. Qed.

(* ------------------------------------------------------------------ *)
(** ** C38: stack and repeat *)

(** stack of fp32/fp16 tensors of equal shape and any layout: element [idx] of input
    number k is element [idx] of the result with k inserted at the new dimension. *)
Theorem C38_stack_places : forall (A : Type) dt dim d (t0 : tns A) r,
  dt = 0 \/ dt = 1 -> names_dim (S (length (x_shape t0))) dim d -> (length (x_shape t0) <= 15)%nat ->
  Forall (fun t => tensor_ok t /\ x_shape t = x_shape t0) (t0 :: r) ->
  exists out, stack_op dt (t0 :: r) dim = ROk out /\
    x_shape out = firstn d (x_shape t0) ++ Z.of_nat (length (t0 :: r)) :: skipn d (x_shape t0) /\
    tensor_ok out /\ owns_storage out /\
    forall k t idx, nth_error (t0 :: r) k = Some t -> in_shape (x_shape t) idx ->
      in_shape (x_shape out) (firstn d idx ++ Z.of_nat k :: skipn d idx) /\
      elem out (firstn d idx ++ Z.of_nat k :: skipn d idx) = elem t idx.
Proof.
  intros A dt dim d t0 r Hdt [Hn1 Hn2] Hr Hall. apply stack_correct; auto; [lia|destruct Hdt as [-> | ->]; reflexivity|].
  unfold zlen. destruct (dim <? 0) eqn:E; lia.
Qed.
Example C38_stack_case : exists out, stack_op 0 [ramp_tensor [2]; ramp_tensor [2]; ramp_tensor [2]] (-1) = ROk out /\
  x_shape out = [2; 3] /\ contents out = map Some [0; 0; 0; 1; 1; 1].
Proof. by_run. Qed.

(** repeat of a contiguous fp32/fp16 tensor: coordinate c of the result along the
    dimension shows coordinate c / times of the source (each slice [times] times in
    a row). *)
Theorem C38_repeat_partial : forall (A : Type) dt dim d (t : tns A) times,
  dt = 0 \/ dt = 1 -> names_dim (length (x_shape t)) dim d -> 1 < times -> tensor_ok t -> contiguous t ->
  exists out, repeat_op dt t times dim = ROk out /\
    x_shape out = with_coord d (nth d (x_shape t) 0 * times) (x_shape t) /\ tensor_ok out /\ owns_storage out /\
    forall idx, in_shape (x_shape out) idx ->
      in_shape (x_shape t) (with_coord d (nth d idx 0 / times) idx) /\
      elem out idx = elem t (with_coord d (nth d idx 0 / times) idx).
Proof.
  intros A dt dim d t times Hdt Hn Ht Hok Hc. apply repeat_correct; auto; try lia; [apply Hn|destruct Hdt as [-> | ->]; reflexivity|].
  apply names_dim_norm; auto.
Qed.
Example C38_repeat_case : exists out, repeat_op 0 (ramp_tensor [2; 2]) 2 0 = ROk out /\
  x_shape out = [4; 2] /\ contents out = map Some [0; 1; 0; 1; 2; 3; 2; 3].
Proof. by_run. Qed.
(** repeat ignores the strides of its input. *)
Theorem C38_repeat_noncontiguous_refuted :
  contents two_columns = map Some [0; 1; 3; 4] /\
  exists out, repeat_op 0 two_columns 2 0 = ROk out /\ x_shape out = [4; 2] /\ contents out = map Some [0; 1; 0; 1; 2; 3; 2; 3].
Proof. split; [vm_compute; reflexivity|]. by_run. Qed.
Print Assumptions C14_fresh_layout.
Print Assumptions C14_write_one_element.
Print Assumptions C14_rank_refuted.
Print Assumptions C15_slice_selects.
Print Assumptions C15_slice_writes_through.
Print Assumptions C15_out_of_range_refuted.
Print Assumptions C15_negative_index_refuted.
Print Assumptions C16_view_keeps_elements.
Print Assumptions C16_view_accepts.
Print Assumptions C16_unsqueeze.
Print Assumptions C16_squeeze.
Print Assumptions C16_flatten.
Print Assumptions C16_reshape_uninitialised_refuted.
Print Assumptions C16_reshape_negative_refuted.
Print Assumptions C17_split_partitions.
Print Assumptions C17_concat_places.
Print Assumptions C17_split_then_concat.
Print Assumptions C17_negative_sections_refuted.
Print Assumptions C17_concat_type_refuted.
Print Assumptions C18_permute_partial.
Print Assumptions C18_permute_inverse.
Print Assumptions C18_transpose_partial.
Print Assumptions C18_transpose_twice.
Print Assumptions C18_transpose_batch_refuted.
Print Assumptions C18_noncontiguous_refuted.
Print Assumptions C37_contiguous_partial.
Print Assumptions C37_contiguous_square_stride_refuted.
Print Assumptions C37_clone_partial.
Print Assumptions C37_clone_view_refuted.
Print Assumptions C37_copy2_partial.
Print Assumptions C38_stack_places.
Print Assumptions C38_repeat_partial.
Print Assumptions C38_repeat_noncontiguous_refuted.
