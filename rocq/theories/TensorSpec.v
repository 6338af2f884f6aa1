(** Specification vocabulary for tensors: multi-indices, the element a tensor
    shows at a multi-index, and its elements in row-major order. *)
From Verif Require Import Base DTypeModel ParamModel ParamSpec TensorModel.
Local Open Scope Z_scope.

(** [idx] is a multi-index of [shape]: one coordinate per dimension, each between 0
    and the extent. *)
Definition in_shape (shape idx : list Z) : Prop := Forall2 (fun i d => 0 <= i < d) idx shape.

(** All multi-indices, in row-major (lexicographic) order. *)
Fixpoint indices (shape : list Z) : list (list Z) :=
  match shape with
  | [] => [[]]
  | d :: ds => flat_map (fun i => map (cons (Z.of_nat i)) (indices ds)) (seq 0 (Z.to_nat d))
  end.

(** Position in the storage of the element with multi-index [idx]. *)
Definition address (v : view) (idx : list Z) : Z :=
  v_offset v + fold_right Z.add 0 (map (fun p => fst p * snd p) (combine idx (v_stride v))).

(** The element at [idx]. *)
Definition elem {A} (t : tns A) (idx : list Z) : option A := b_at (x_buf t) (address (x_view t) idx).

(** The elements in row-major order. *)
Definition contents {A} (t : tns A) : list (option A) := map (elem t) (indices (x_shape t)).

(** A tensor as the library hands it out: 1 to 16 dimensions, non-negative
    extents, one stride per dimension, and every element inside the storage. *)
Record tensor_ok {A} (t : tns A) : Prop := {
  ok_rank : (1 <= length (x_shape t) <= 16)%nat;
  ok_stride : length (x_stride t) = length (x_shape t);
  ok_dims : Forall (fun d => 0 <= d) (x_shape t);
  ok_inside : forall idx, in_shape (x_shape t) idx -> 0 <= address (x_view t) idx < b_len (x_buf t);
}.

(** Row-major layout starting anywhere in the storage. *)
Definition contiguous {A} (t : tns A) : Prop := row_major (x_shape t) (x_stride t).

(** A tensor owning exactly its elements. *)
Record owns_storage {A} (t : tns A) : Prop := {
  os_layout : row_major (x_shape t) (x_stride t);
  os_offset : x_offset t = 0;
  os_len : b_len (x_buf t) = product (x_shape t);
}.

(** Replace coordinate [d] of a multi-index. *)
Definition with_coord (d : nat) (c : Z) (idx : list Z) : list Z := upd_nth d (fun _ => c) idx.

(** The meaning of one slice specification for a dimension of extent [d]: indices
    [lo], [lo+step], ... below [hi].  Negative bounds count from the end; (-1, 0) is
    the last index (the library writes the single index v as (v, v+1)). *)
Definition slice_lo (d : Z) (p : slice_pair) : Z :=
  if sl_start p =? kAll then 0 else if sl_start p <? 0 then d + sl_start p else sl_start p.
Definition slice_hi (d : Z) (p : slice_pair) : Z :=
  if sl_end p =? kAll then d
  else if (sl_start p =? -1) && (sl_end p =? 0) then d
  else if sl_end p <? 0 then d + sl_end p else sl_end p.
Definition slice_in_range (d : Z) (p : slice_pair) : Prop :=
  0 <= slice_lo d p <= slice_hi d p /\ slice_hi d p <= d /\ 1 <= sl_step p /\ d < kAll.
(** Number of indices lo, lo+step, ... below hi. *)
Definition slice_count (d : Z) (p : slice_pair) : Z :=
  (slice_hi d p - slice_lo d p + sl_step p - 1) / sl_step p.
(** Index in the source of index [idx] of the slice. *)
Fixpoint slice_source (shape : list Z) (ps : list slice_pair) (idx : list Z) : list Z :=
  match shape, ps, idx with
  | d :: ds, p :: ps', i :: r => slice_lo d p + i * sl_step p :: slice_source ds ps' r
  | _, _, _ => []
  end.

(** Target shape of a view: [wanted] with at most one -1, which stands for the
    extent that makes the element counts agree. *)
Definition resolves (n : Z) (wanted shape : list Z) : Prop :=
  length shape = length wanted /\ product shape = n /\
  Forall2 (fun w d => w = d \/ w = -1) wanted shape /\
  (length (filter (Z.eqb (-1)) wanted) <= 1)%nat.

(** Extents of tensors along dimension [d]. *)
Definition extents {A} (d : nat) (ts : list (tns A)) : list Z := map (fun t => nth d (x_shape t) 0) ts.
Definition total (l : list Z) : Z := fold_right Z.add 0 l.

(** The rank-[length shape0] tensors agree with shape0 outside dimension [d]. *)
Definition agree_outside {A} (d : nat) (shape0 : list Z) (t : tns A) : Prop :=
  length (x_shape t) = length shape0 /\
  forall i, i <> d -> nth i (x_shape t) 0 = nth i shape0 0.

(** [axis] is a permutation of 0 .. n-1. *)
Definition is_permutation (n : nat) (axis : list Z) : Prop :=
  Permutation axis (map Z.of_nat (seq 0 n)).
(** The coordinates of a multi-index rearranged by [axis]: the k-th coordinate of the
    result is coordinate number axis[k]. *)
Definition rearrange (axis idx : list Z) : list Z := map (fun a => nth (Z.to_nat a) idx 0) axis.
(** Exchange coordinates a and b. *)
Definition exchange (a b : nat) (l : list Z) : list Z :=
  map (fun k => nth (if Nat.eqb k a then b else if Nat.eqb k b then a else k) l 0) (seq 0 (length l)).

(** Dimension number [d] of a tensor of the given rank, written [dim] by the
    caller: either d itself or, counted from the end, d - rank. *)
Definition names_dim (rank : nat) (dim : Z) (d : nat) : Prop :=
  (d < rank)%nat /\ (dim = Z.of_nat d \/ dim = Z.of_nat d - Z.of_nat rank).

(** What a copy operator must return: a tensor of the same shape which owns exactly
    its elements, and shows the same element at every index. *)
Definition is_packed_copy {A} (t out : tns A) : Prop :=
  x_shape out = x_shape t /\ tensor_ok out /\ owns_storage out /\ contents out = contents t /\
  (forall idx, in_shape (x_shape t) idx -> elem out idx = elem t idx).
