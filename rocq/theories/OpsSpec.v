(** Specification vocabulary for the CPU operators. *)
From Verif Require Import Base DTypeModel ParamModel ParamSpec TensorModel TensorSpec OpsModel.
From Coq Require Import Sorting.Sorted.
Local Open Scope Z_scope.

(** [out] is a tensor of [shape] owning its storage whose element at every
    multi-index [idx] is [F idx]. *)
Definition produces {A} (shape : list Z) (F : list Z -> option A) (out : tns A) : Prop :=
  x_shape out = shape /\ tensor_ok out /\ owns_storage out /\
  forall idx, in_shape shape idx -> elem out idx = F idx.

(* ---------------- broadcasting ---------------- *)
(** Extent number k counted from the right; missing dimensions count as 1. *)
Definition extent_from_right (shape : list Z) (k : nat) : Z := nth k (rev shape) 1.
(** The numpy rule: the result has the largest rank; at each position from the
    right every shape has either the result's extent or 1, and the result's extent is
    1 only if all of them are. *)
Definition is_broadcast (shapes : list (list Z)) (result : list Z) : Prop :=
  (forall s, In s shapes -> (length s <= length result)%nat) /\
  (exists s, In s shapes /\ length s = length result) /\
  forall k, (k < length result)%nat ->
    (forall s, In s shapes -> extent_from_right s k = 1 \/ extent_from_right s k = extent_from_right result k) /\
    (exists s, In s shapes /\ extent_from_right s k = extent_from_right result k).
(** The element of a tensor of [shape] that broadcasting shows at [idx]: trailing
    coordinates, 0 along dimensions of extent 1. *)
Definition broadcast_index (shape idx : list Z) : list Z :=
  map (fun p => if snd p =? 1 then 0 else fst p) (combine (skipn (length idx - length shape) idx) shape).
(** How the right operand may differ from the left one: not at all; by a single
    dimension along which it is repeated; or by consisting of one element. *)
Definition same_extents (a b : list Z) : Prop := forall k, extent_from_right a k = extent_from_right b k.
Definition one_repeated (a b : list Z) : Prop :=
  exists k, extent_from_right b k = 1 /\ forall j, j <> k -> extent_from_right a j = extent_from_right b j.
Definition one_element (b : list Z) : Prop := forall k, extent_from_right b k = 1.
Definition apply2 {A} (f : A -> A -> A) (x y : option A) : option A :=
  match x, y with Some a, Some b => Some (f a b) | _, _ => None end.

(* ---------------- indexing ---------------- *)
(** The positions one index argument selects along a dimension of extent d, as a
    list.  (Rank-1 index tensors only.) *)
Definition selects (d : Z) (a : index_arg) (positions : list Z) : Prop :=
  Forall (fun p => 0 <= p < d) positions /\
  match a with
  | IxSlice p =>
      (sl_start p = kAll \/ 0 <= sl_start p) /\ 1 <= sl_step p /\
      let lo := if sl_start p =? kAll then 0 else sl_start p in
      let hi := if sl_end p =? kAll then d else sl_end p in
      lo <= hi <= d /\
      positions = map (fun i => lo + Z.of_nat i * sl_step p) (seq 0 (Z.to_nat ((hi - lo + sl_step p - 1) / sl_step p)))
  | IxVector l => positions = l
  | IxTensor t => tensor_ok t /\ x_shape t = [zlen positions] /\ contents t = map Some positions
  end.

(** Coordinate-wise selection. *)
Fixpoint pick (poss : list (list Z)) (idx : list Z) : list Z :=
  match poss, idx with
  | p :: ps, i :: r => nth (Z.to_nat i) p 0 :: pick ps r
  | _, _ => []
  end.

Inductive select_all : list Z -> list index_arg -> list (list Z) -> Prop :=
| sa_nil : select_all [] [] []
| sa_cons d a p ds al ps : selects d a p -> select_all ds al ps -> select_all (d :: ds) (a :: al) (p :: ps).

(** Python-style index: negative counts from the end. *)
Definition wrap_index (n i : Z) : Z := if i <? 0 then i + n else i.

(* ---------------- padding ---------------- *)
(** The source coordinate for position x of a dimension of extent s. *)
Definition pads (mode : pad_mode) (s x c : Z) : Prop :=
  0 <= c < s /\
  match mode with
  | PadConstant => c = x
  | PadReplicate => (x < 0 -> c = 0) /\ (0 <= x < s -> c = x) /\ (s <= x -> c = s - 1)
  | PadCircular => exists k, x = c + k * s
  | PadReflect => if s =? 1 then c = 0
                  else exists k, x = c + k * (2 * (s - 1)) \/ x = - c + k * (2 * (s - 1))
  end.

(* ---------------- sorting ---------------- *)
(** [less] is a strict weak order (what std::sort requires of a comparison). *)
Record strict_weak {A} (less : A -> A -> bool) : Prop := {
  sw_irrefl : forall x, less x x = false;
  sw_trans : forall x y z, less x y = true -> less y z = true -> less x z = true;
  sw_incomp : forall x y z, less x y = false -> less y z = false -> less x z = false;
}.
(** No later element comes before an earlier one. *)
Definition in_order {A} (less : A -> A -> bool) (l : list A) : Prop :=
  StronglySorted (fun x y => less y x = false) l.
(** Contract of std::sort with comparison [less]. *)
Definition sorts {A} (less : A -> A -> bool) (sort : list A -> list A) : Prop :=
  forall l, Permutation l (sort l) /\ in_order less (sort l).
(** Contract of std::priority_queue with comparison [less]: it holds what was pushed
    and not popped; top is an element before which (in the sense "less than") no
    other has precedence, i.e. top is not less than any element. *)
Definition is_queue {A} (less : A -> A -> bool) (push : A -> list A -> list A) (pop : list A -> option (A * list A)) : Prop :=
  (forall x l, Permutation (x :: l) (push x l)) /\
  (forall l, match pop l with
             | None => l = []
             | Some (top, rest) => Permutation l (top :: rest) /\ Forall (fun y => less top y = false) l
             end).
(** The lane of [x] through [idx] along dimension d. *)
Definition along {A} (x : tns A) (d : nat) (idx : list Z) : list (option A) :=
  map (fun i => elem x (with_coord d (Z.of_nat i) idx)) (seq 0 (Z.to_nat (nth d (x_shape x) 0))).

(** Sum of a list in a monoid. *)
Record comm_monoid {A} (zero : A) (add : A -> A -> A) : Prop := {
  cm_assoc : forall x y z, add x (add y z) = add (add x y) z;
  cm_comm : forall x y, add x y = add y x;
  cm_zero : forall x, add zero x = x;
}.
Definition sum {A} (zero : A) (add : A -> A -> A) (l : list A) : A := fold_right add zero l.

(** Amounts of padding before and after each of the D dimensions: [pad] lists the
    pairs (before, after) starting with the last dimension; missing pairs are 0. *)
Definition pads_before (D : nat) (pad : list Z) : list Z := rev (map (fun k => nth (2 * k) pad 0) (seq 0 D)).
Definition pads_after (D : nat) (pad : list Z) : list Z := rev (map (fun k => nth (2 * k + 1) pad 0) (seq 0 D)).
Definition minus (a b : list Z) : list Z := map (fun p => fst p - snd p) (combine a b).
Definition plus (a b : list Z) : list Z := map (fun p => fst p + snd p) (combine a b).
(** [source] has the coordinates padding [mode] reads for coordinates [xs] (relative
    to the unpadded tensor). *)
Inductive pads_from (mode : pad_mode) : list Z -> list Z -> list Z -> Prop :=
| pf_nil : pads_from mode [] [] []
| pf_cons s x c ss xs cs : pads mode s x c -> pads_from mode ss xs cs -> pads_from mode (s :: ss) (x :: xs) (c :: cs).

(** The operand shapes for which there is a kernel. *)
Definition ew_supported (ty : ew_type) (sa sb : list Z) : Prop :=
  match ty with
  | EwFloat32 => same_extents sa sb \/ one_repeated sa sb \/ one_element sb
  | EwInteger => same_extents sa sb \/ one_element sb
  | EwNoKernel => False
  end.

(** Element [idx] of a gather along dimension d: the coordinates of [idx] are split in
    the table's first d, one per dimension of the indices, and the table's last. *)
Definition gather_elem {A} (table : tns A) (indices : tns Z) (d : nat) (idx : list Z) : option A :=
  let k := length (x_shape indices) in
  match elem indices (firstn k (skipn d idx)) with
  | None => None
  | Some i =>
      let n := nth d (x_shape table) 0 in
      if (- n <=? i) && (i <? n)
      then elem table (firstn d idx ++ [wrap_index n i] ++ skipn (d + k) idx)
      else None
  end.

(** The embedding table's row of the token at [idx]. *)
Definition embedding_elem {A} (weight : tns A) (ids : tns Z) (idx : list Z) : option A :=
  match elem ids (firstn 2 idx) with
  | Some id => elem weight (id :: skipn 2 idx)
  | None => None
  end.

(** Element of a masked tensor: [visible r c] or the mask value. *)
Definition masked {A} (visible : Z -> Z -> bool) (m : A) (x : tns A) (idx : list Z) : option A :=
  if visible (nth 2 idx 0) (nth 3 idx 0) then elem x idx else Some m.

(** Of S queries the last sees all D keys, each earlier one a key less; with a window
    a query sees itself and at most w - 1 keys before. *)
Definition causal (S D r c : Z) : bool := c <=? r + (D - S).
Definition causal_window (w r c : Z) : bool := (c <=? r) && (r - w <? c).

(** Comparing (value, position) pairs by value. *)
Definition by_value {A} (less : A -> A -> bool) (a b : A * Z) : bool := less (fst a) (fst b).
