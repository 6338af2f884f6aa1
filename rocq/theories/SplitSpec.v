(** What Python's str.split gives. *)
From Verif Require Import Base.

Section Spec.
Context {A : Type} (space : A -> bool).
(** sep.join(pieces). *)
Fixpoint join (sep : list A) (l : list (list A)) : list A :=
  match l with [] => [] | [p] => p | p :: l' => p ++ sep ++ join sep l' end.
(** sep is nowhere in s. *)
Definition absent (sep s : list A) : Prop := forall a b, s <> a ++ sep ++ b.
(** The words of s: longest pieces without white space, in order. *)
Inductive Words : list A -> list (list A) -> Prop :=
  | W_nil : forall s, (forall x, In x s -> space x = true) -> Words s []
  | W_cons : forall a w b ws, (forall x, In x a -> space x = true) -> w <> [] -> (forall x, In x w -> space x = false) ->
      (b = [] \/ exists x t, b = x :: t /\ space x = true) -> Words b ws -> Words (a ++ w ++ b) (w :: ws).
End Spec.
