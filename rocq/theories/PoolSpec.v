(** Vocabulary for the properties of the thread pool. *)
From Verif Require Import Base DTypeModel PoolModel.
Local Open Scope Z_scope.

(** The indices of a loop: start, start + step, ... below end. *)
Definition tile (tk : task) (i : Z) : Prop :=
  exists k, 0 <= k /\ i = t_start tk + k * t_step tk /\ i < t_end tk.
(** [l] has every index of the loop, each exactly once. *)
Definition exactly_once (tk : task) (l : list Z) : Prop := NoDup l /\ forall i, In i l <-> tile tk i.
Definition at_most_once (tk : task) (l : list Z) : Prop := NoDup l /\ forall i, In i l -> tile tk i.

Definition of_slot (s : nat) (e : event) : bool :=
  match e with EvBegin s' _ => (s' =? s)%nat | EvCall s' _ => (s' =? s)%nat | EvEnd s' => (s' =? s)%nat end.
Definition slot_trace (s : nat) (tr : list event) : list event := filter (of_slot s) tr.
(** What an observer of one slot may see: loops one after the other; each loop body call
    between the beginning and the return of its loop; at the return, every index has been
    called exactly once.  The second argument: the loop that is running, with the calls
    made so far. *)
Inductive Seen : list event -> option (task * list Z) -> Prop :=
| seen_nil : Seen [] None
| seen_begin : forall s tr tk, Seen tr None -> Seen (tr ++ [EvBegin s tk]) (Some (tk, []))
| seen_call : forall s tr tk l i, Seen tr (Some (tk, l)) -> at_most_once tk (l ++ [i]) ->
    Seen (tr ++ [EvCall s i]) (Some (tk, l ++ [i]))
| seen_end : forall s tr tk l, Seen tr (Some (tk, l)) -> exactly_once tk l -> Seen (tr ++ [EvEnd s]) None.
