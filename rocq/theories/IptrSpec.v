(** Vocabulary for the handle properties. *)
From Verif Require Import Base IptrModel.
Local Open Scope Z_scope.

(** The handle at location h points to object o. *)
Definition points (s : pst) (h o : nat) : Prop := nth_error (p_cell s) h = Some (HPtr o).
(** How many handles point to o. *)
Definition owners (s : pst) (o : nat) : nat :=
  length (filter (fun c => match c with HPtr o' => (o' =? o)%nat | _ => false end) (p_cell s)).
(** No operation is in flight. *)
Definition quiet (s : pst) : Prop := forall t x, nth_error (p_thr s) t = Some x -> x = TIdle.
(** The object has been created. *)
Definition created (s : pst) (o : nat) : Prop := (o < p_next s)%nat.

(** Steps of thread t alone. *)
Inductive alone (t : nat) (s : pst) : pst -> Prop :=
| al_here : alone t s s
| al_step : forall s1 s2, alone t s s1 -> pstep false t s1 s2 -> alone t s s2.
(** What the handle at h points to. *)
Definition pointee (s : pst) (h : nat) : option (option nat) :=
  match nth_error (p_cell s) h with
  | Some HNull => Some None
  | Some (HPtr o) => Some (Some o)
  | _ => None
  end.
(** Own steps the operation in flight still needs, at most. *)
Definition remaining (x : tstate) : nat :=
  match x with TIdle => 0 | TDeleting _ => 1 | TReleasing _ => 2 | THolding _ _ => 3 | TAdding _ _ _ => 4 end%nat.
