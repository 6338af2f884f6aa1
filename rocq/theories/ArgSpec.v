(** Vocabulary of the command line: what a line says. *)
From Verif Require Import Base DTypeModel ArgModel.
Local Open Scope Z_scope.

(** One thing on the command line. *)
Inductive item := Value (flag text : str) | Switch (flag : str) | Word (text : str).
Definition spell (i : item) : list str := match i with Value f t => [f; t] | Switch f => [f] | Word t => [t] end.
Definition line (l : list item) : list str := flat_map spell l.
(** The parameter a flag belongs to: the first that lists it. *)
Fixpoint owner (f : str) (ps : list arg) : option nat :=
  match ps with [] => None | a :: r => if has_flag f a then Some O else option_map S (owner f r) end.
(** The item makes sense: a text behind a flag which takes one and can be read, a switch without, a word without a dash. *)
Definition sensible (ps : list arg) (i : item) : Prop :=
  match i with
  | Value f t => is_option f = true /\ exists k a, owner f ps = Some k /\ nth_error ps k = Some a /\ a_kind a <> KBool /\ read_value (a_kind a) t <> None
  | Switch f => is_option f = true /\ exists k a, owner f ps = Some k /\ nth_error ps k = Some a /\ a_kind a = KBool
  | Word t => is_option t = false
  end.
(** What the item says about parameter number [k]. *)
Definition says (ps : list arg) (k : nat) (i : item) : option val :=
  match i with
  | Value f t => match owner f ps, nth_error ps k with Some k', Some a => if (k' =? k)%nat then read_value (a_kind a) t else None | _, _ => None end
  | Switch f => match owner f ps with Some k' => if (k' =? k)%nat then Some (VBool true) else None | None => None end
  | Word _ => None
  end.
(** The last thing said. *)
Fixpoint last_said (ps : list arg) (k : nat) (l : list item) : option val :=
  match l with [] => None | i :: r => match last_said ps k r with Some v => Some v | None => says ps k i end end.
Definition words (l : list item) : list str := flat_map (fun i => match i with Word t => [t] | _ => [] end) l.
(** How many of the first [k] parameters are positional. *)
Definition positionals_before (ps : list arg) (k : nat) : nat := length (filter a_positional (firstn k ps)).
(** The value of parameter [k]: of its word if it is positional and there is one, else the last said, else what it was. *)
Definition value_of (ps : list arg) (l : list item) (k : nat) (a : arg) : option val :=
  match (if a_positional a then nth_error (words l) (positionals_before ps k) else None) with
  | Some t => read_value (a_kind a) t
  | None => match last_said ps k l with Some v => Some v | None => a_value a end
  end.
(** Every word that is used can be read. *)
Definition words_readable (ps : list arg) (l : list item) : Prop :=
  forall k a t, nth_error ps k = Some a -> a_positional a = true -> nth_error (words l) (positionals_before ps k) = Some t -> read_value (a_kind a) t <> None.
(** Required parameters have a value. *)
Definition complete (ps : list arg) (l : list item) : Prop :=
  forall k a, nth_error ps k = Some a -> a_required a = true ->
    value_of ps l k a <> None /\ (a_positional a = true -> nth_error (words l) (positionals_before ps k) <> None).
