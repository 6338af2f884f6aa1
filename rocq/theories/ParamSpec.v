(** Specification vocabulary for model files: what may be saved, what "the same
    parameters" means, and the documented file layout
    (/repo/mllm/core/schema/ModelFileV1.hpp:9-50, ModelFileV2.hpp:19-62),
    independent of the writer and reader functions. *)
From Verif Require Import Base DTypeModel ParamModel.
Local Open Scope Z_scope.

Definition product (l : list Z) : Z := fold_right Z.mul 1 l.

(** Row-major strides: the stride of dimension i is the product of the extents
    behind it. *)
Definition row_major (shape stride : list Z) : Prop :=
  length stride = length shape /\
  forall i, (i < length shape)%nat -> nth i stride 0 = product (skipn (S i) shape).

(** A tensor that owns its whole storage: row-major, offset 0, between 1 and 16
    dimensions, and a storage of exactly the size its shape needs. *)
Record whole (t : tensor) : Prop := {
  wh_offset : t_offset t = 0;
  wh_stride : row_major (t_shape t) (t_stride t);
  wh_rank : (1 <= length (t_shape t) <= 16)%nat;
  wh_dims : Forall (fun d => 0 <= d < 2 ^ 31) (t_shape t);
  wh_dtype : 0 <= t_dtype t < 2 ^ 31;
  wh_size : exists blocks, product (t_shape t) = blocks * lanesOfType (t_dtype t) /\
                           zlen (t_mem t) = blocks * bytesOfType (t_dtype t);
  wh_numel : product (t_shape t) < 2 ^ 64;
}.

Definition total_bytes (s : store) : Z := fold_right (fun p a => zlen (t_mem (snd p)) + a) 0 s.

(** Stores the V2 format can represent. *)
Record savable_v2 (s : store) : Prop := {
  s2_map : NoDup (map fst s);                      (* names are the keys of a map *)
  s2_whole : forall name t, In (name, t) s -> whole t;
  s2_names : forall name t, In (name, t) s -> (length name <= 255)%nat /\ ~ In 0 name;
  s2_count : zlen s < 2 ^ 32;
  s2_total : 532 + 352 * zlen s + total_bytes s < 2 ^ 64;
}.

(** Stores the V1 writer handles: besides the size limits it relies on the names
    stored inside the tensors having, in total, the length of the keys. *)
Record savable_v1 (s : store) : Prop := {
  s1_map : NoDup (map fst s);
  s1_whole : forall name t, In (name, t) s -> whole t;
  s1_numel : forall name t, In (name, t) s -> product (t_shape t) < 2 ^ 31;
  s1_names : forall name t, In (name, t) s -> zlen name < 2 ^ 31;
  s1_total : 12 + fold_right (fun p a => 24 + zlen (fst p) + a) 0 s + total_bytes s < 2 ^ 64;
  s1_snames : fold_right (fun p a => zlen (t_sname (snd p)) + a) 0 s
              = fold_right (fun p a => zlen (fst p) + a) 0 s;
}.

(** The loaded store answers every request as the saved one: names, element
    types and bytes ([same_shape]: also shapes). *)
Record holds_same (s s' : store) (same_shape : bool) : Prop := {
  hs_present : forall name t, In (name, t) s ->
    exists t', pull name s' = ROk t' /\
      t_dtype t' = t_dtype t /\ t_mem t' = t_mem t /\ t_sname t' = name /\
      t_offset t' = 0 /\ row_major (t_shape t') (t_stride t') /\
      (if same_shape then t_shape t' = t_shape t
       else t_shape t' = [product (t_shape t)]);
  hs_absent : forall name, ~ In name (map fst s) -> has name s' = false /\ pull name s' = RAbort;
}.

(** The number stored at bytes [off .. off+n-1], least significant first. *)
Definition number_at (file : list Z) (off : Z) (n : nat) : Z :=
  fold_right Z.add 0
    (map (fun i => nth (Z.to_nat off + i) file 0 * 256 ^ Z.of_nat i) (seq 0 n)).

(** Layout V2: header of 532 bytes, descriptors of 352 bytes each (size at +8,
    offset at +16). *)
Definition v2_size_of (file : list Z) (i : nat) : Z := number_at file (532 + 352 * Z.of_nat i + 8) 8.
Definition v2_offset_of (file : list Z) (i : nat) : Z := number_at file (532 + 352 * Z.of_nat i + 16) 8.

(** Layout V1: header of 12 bytes (descriptor section size at +4), then
    descriptors "length, name, size, offset, type". *)
Definition v1_pos (s : store) (i : nat) : Z :=
  12 + fold_right (fun p a => 24 + zlen (fst p) + a) 0 (firstn i s).
Definition v1_size_of (s : store) (file : list Z) (i : nat) : Z :=
  number_at file (v1_pos s i + 4 + zlen (fst (nth i s ([], mkT 0 [] [] 0 [] [])))) 8.
Definition v1_offset_of (s : store) (file : list Z) (i : nat) : Z :=
  number_at file (v1_pos s i + 12 + zlen (fst (nth i s ([], mkT 0 [] [] 0 [] [])))) 8.

(** The n parameters' ranges in the file: behind [lo], inside the file, in
    order and disjoint, and holding the parameters' bytes. *)
Record sections_ok (s : store) (file : list Z) (lo : Z) (size offset : nat -> Z) : Prop := {
  so_lo : forall i, (i < length s)%nat -> lo <= offset i;
  so_in : forall i, (i < length s)%nat -> offset i + size i <= zlen file;
  so_disjoint : forall i j, (i < j < length s)%nat -> offset i + size i <= offset j;
  so_data : forall i name t, nth_error s i = Some (name, t) ->
    size i = zlen (t_mem t) /\ bytes_at file (offset i) (size i) = Some (t_mem t);
}.

(** Row-major list of element offsets addressed by a view. *)
Fixpoint view_offsets (shape stride : list Z) (base : Z) : list Z :=
  match shape, stride with
  | d :: ds, st :: sts =>
      flat_map (fun i => view_offsets ds sts (base + Z.of_nat i * st)) (seq 0 (Z.to_nat d))
  | _, _ => [base]
  end.
(** The elements (as byte strings) a view shows, in row-major order; for element
    types with one element per block. *)
Definition elements (t : tensor) : list (option (list Z)) :=
  let b := bytesOfType (t_dtype t) in
  map (fun o => bytes_at (t_mem t) (o * b) b) (view_offsets (t_shape t) (t_stride t) (t_offset t)).
