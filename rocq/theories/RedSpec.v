(** Vocabulary for reductions. *)
From Coq Require Import Reals.
From Verif Require Import Base DTypeModel ParamModel TensorModel TensorSpec OpsModel OpsSpec.
Local Open Scope Z_scope.

(** The shape of a reduction along dimension d, and the lane an element of the result stands for. *)
Definition reduced_shape (shape : list Z) (d : nat) (keep : bool) : list Z :=
  if keep then with_coord d 1 shape else firstn d shape ++ skipn (S d) shape.
Definition lane_of {A} (x : tns A) (d : nat) (keep : bool) (idx : list Z) : list (option A) :=
  along x d (if keep then idx else firstn d idx ++ 0 :: skipn d idx).
(** [out] is a new tensor whose every element is related by [rel] to the values of its lane, all of them written. *)
Definition reduces_along {A} (rel : list A -> A -> Prop) (x : tns A) (d : nat) (keep : bool) (out : tns A) : Prop :=
  x_shape out = reduced_shape (x_shape x) d keep /\ tensor_ok out /\ owns_storage out /\
  forall idx, in_shape (x_shape out) idx -> exists vals r, lane_of x d keep idx = map Some vals /\ elem out idx = Some r /\ rel vals r.
Definition reduces_all {A} (rel : list A -> A -> Prop) (x : tns A) (keep : bool) (out : tns A) : Prop :=
  x_shape out = (if keep then map (fun _ => 1) (x_shape x) else [1]) /\ tensor_ok out /\ owns_storage out /\
  exists vals r, contents x = map Some vals /\ contents out = [Some r] /\ rel vals r.

Definition greatest (vals : list Z) (r : Z) : Prop := vals <> [] -> In r vals /\ forall y, In y vals -> y <= r.
Definition least (vals : list Z) (r : Z) : Prop := vals <> [] -> In r vals /\ forall y, In y vals -> r <= y.
Definition total (vals : list Z) : Z := fold_right Z.add 0 vals.
Definition greatest_real (vals : list R) (r : R) : Prop := vals <> [] -> In r vals /\ forall y, In y vals -> (y <= r)%R.
Definition least_real (vals : list R) (r : R) : Prop := vals <> [] -> In r vals /\ forall y, In y vals -> (r <= y)%R.
Definition total_real (vals : list R) : R := fold_right Rplus 0%R vals.
(** A two's complement number of [bits] bits. *)
Definition representable (bits z : Z) : Prop := - 2 ^ (bits - 1) <= z < 2 ^ (bits - 1).
(** [r] is the number of [bits] bits congruent to [z]. *)
Definition modulo_bits (bits z r : Z) : Prop := representable bits r /\ exists k, r = z + k * 2 ^ bits.
(** Reading [vals] from the left, no partial sum leaves the range. *)
Definition prefixes_fit (bits : Z) (vals : list Z) : Prop := forall k, (k <= length vals)%nat -> representable bits (total (firstn k vals)).
