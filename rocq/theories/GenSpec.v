(** Vocabulary for the properties of generation and sampling. *)
From Verif Require Import Base DTypeModel ParamModel TensorModel TensorSpec GenModel.
Local Open Scope Z_scope.

(** [Run fw fd sm i s ts]: starting in state s at step i, the tokens ts are produced one by
    one, each being the sampler's choice on the logits of the state reached so far. *)
Inductive Run {St L} (forward : St -> St * L) (feed : St -> Z -> St) (sample : nat -> L -> res Z) : nat -> St -> list Z -> Prop :=
| run_nil : forall i s, Run forward feed sample i s []
| run_cons : forall i s t ts, sample i (snd (forward s)) = ROk t ->
    Run forward feed sample (S i) (feed (fst (forward s)) t) ts -> Run forward feed sample i s (t :: ts).
(** The token list of a finished generation with limit [n]. *)
Definition Complete (n eos : Z) (ts : list Z) : Prop :=
  Z.of_nat (length ts) <= Z.max 0 n
  /\ (forall a t b, ts = a ++ t :: b -> b <> [] -> t <> eos)
  /\ (Z.of_nat (length ts) = Z.max 0 n \/ exists a, ts = a ++ [eos]).
(** The tokens before the end token. *)
Fixpoint before_eos (eos : Z) (ts : list Z) : list Z :=
  match ts with [] => [] | t :: r => if t =? eos then [] else t :: before_eos eos r end.

(** A comparison of numbers without NaN: a strict order whose "neither smaller" is
    transitive. *)
Record weak_order {F} (lt : F -> F -> bool) : Prop := {
  wo_irrefl : forall x, lt x x = false;
  wo_trans : forall x y z, lt x y = true -> lt y z = true -> lt x z = true;
  wo_neg : forall x y z, lt x y = false -> lt y z = false -> lt x z = false }.
(** [id] is the first index of a largest value. *)
Definition first_max {F} (lt : F -> F -> bool) (l : list F) (id : Z) : Prop :=
  exists v, nth_error l (Z.to_nat id) = Some v /\ 0 <= id
  /\ (forall j w, nth_error l j = Some w -> lt v w = false)
  /\ (forall j w, (j < Z.to_nat id)%nat -> nth_error l j = Some w -> lt w v = true).
(** What std::partial_sort guarantees: a permutation of 0..V-1 whose first k entries are in
    order of decreasing probability and not smaller than the others. *)
Definition partially_sorted {F} (lt : F -> F -> bool) (d : F) (probs : list F) (k : nat) (order : list nat) : Prop :=
  Permutation order (seq 0 (length probs))
  /\ forall i j, (i < j < length probs)%nat -> (i < k)%nat -> lt (nth (nth i order 0%nat) probs d) (nth (nth j order 0%nat) probs d) = false.
(** Ids with a probability larger than that of [id]. *)
Definition larger {F} (lt : F -> F -> bool) (d : F) (probs : list F) (id : nat) : list nat :=
  filter (fun j => lt (nth id probs d) (nth j probs d)) (seq 0 (length probs)).
(** Sum of the first m numbers. *)
Definition sum_first {F} (add : F -> F -> F) (zero : F) (l : list F) (m : nat) : F := fold_left add (firstn m l) zero.
Definition row_elem {F} (t : tns F) (b s j : Z) : option F := elem t [b; s; j].
(** The i-th running sum: the sum of the numbers 0..i, added from the left. *)
Definition running {F} (add : F -> F -> F) (zero : F) (l : list F) (i : nat) : F :=
  match l with [] => zero | x :: r => fold_left add (firstn i r) x end.
