(** Vocabulary for the audio codes. *)
From Coq Require Import Reals.
From Verif Require Import Base.

(** A frame ends the speech when any of its codes is the end code. *)
Definition ends (eos : Z) (fr : list Z) : Prop := In eos fr.
(** The speech: the frames from position p on, at most n of them, up to but without the
    first one that ends it. *)
Fixpoint speech (frame : nat -> list Z) (eos : Z) (n p : nat) : list (list Z) :=
  match n with
  | O => []
  | Datatypes.S m => if in_dec Z.eq_dec eos (frame p) then [] else frame p :: speech frame eos m (Datatypes.S p)
  end.
(** Pieces of which each one repeats the last k elements of what came before (all of it,
    if shorter): the whole without the repetitions, after [len] elements. *)
Fixpoint unrepeat {A} (k len : nat) (l : list (list A)) : list A :=
  match l with
  | [] => []
  | x :: l' => let new := skipn (Nat.min k len) x in new ++ unrepeat k (len + length new) l'
  end.
(** The sum of the first n numbers. *)
Fixpoint sum_to (l : list R) (n : nat) : R :=
  match n, l with Datatypes.S m, x :: l' => (x + sum_to l' m)%R | _, _ => 0%R end.
