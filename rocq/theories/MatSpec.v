(** Specification vocabulary for matrix products. *)
From Verif Require Import Base DTypeModel ParamModel ParamSpec TensorModel TensorSpec OpsModel OpsSpec.
Local Open Scope Z_scope.

(** 0, 1, ..., n - 1. *)
Definition range (n : Z) : list Z := map Z.of_nat (seq 0 (Z.to_nat n)).
(** x(0) y(0) + ... + x(K-1) y(K-1). *)
Definition dot_product {A} (zero : A) (add mul : A -> A -> A) (K : Z) (x y : Z -> A) : A :=
  sum zero add (map (fun k => mul (x k) (y k)) (range K)).
(** A readable tensor of [shape], laid out contiguously, with the elements F. *)
Record holds {A} (t : tns A) (shape : list Z) (F : list Z -> A) : Prop := {
  h_shape : x_shape t = shape;
  h_ok : tensor_ok t;
  h_contiguous : contiguous t;
  h_elem : forall idx, in_shape shape idx -> elem t idx = Some (F idx);
}.
(** Index of the element in row k, column n of the right operand, which may be stored
    transposed. *)
Definition right_index (transposed : bool) (p : list Z) (k n : Z) : list Z := p ++ (if transposed then [n; k] else [k; n]).
Definition right_shape (transposed : bool) (K N : Z) : list Z := if transposed then [N; K] else [K; N].
(** An optional vector of N numbers, added per channel. *)
Definition bias_holds {A} (bias : option (tns A)) (fb : option (list Z -> A)) (N : Z) : Prop :=
  match bias, fb with
  | None, None => True
  | Some t, Some f => holds t [N] f
  | _, _ => False
  end.
Definition with_bias {A} (add : A -> A -> A) (fb : option (list Z -> A)) (n : Z) (s : A) : A :=
  match fb with None => s | Some f => add s (f [n]) end.
