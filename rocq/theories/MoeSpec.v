(** Vocabulary of the mixture of experts. *)
From Verif Require Import Base DTypeModel.
Local Open Scope nat_scope.

(** [idxs] are the positions of [ids] in an order that sorts them. *)
Definition sorts (ids : list Z) (idxs : list nat) : Prop :=
  Permutation idxs (seq 0 (length ids)) /\
  forall a b, a <= b < length idxs -> (nth (nth a idxs 0%nat) ids 0 <= nth (nth b idxs 0%nat) ids 0)%Z.
(** The expert handles every row by itself: [f]. *)
Definition row_wise {R} (g : list R -> list R) (f : R -> R) : Prop := forall rows, rows <> [] -> g rows = map f rows.
(** The expert and the weight token [t] has in its [j]-th place. *)
Definition expert_of (ids : list Z) (k t j : nat) : nat := Z.to_nat (nth (t * k + j) ids 0%Z).
(** What the layer is to compute for token [t]: the weighted sum of its experts' answers to its own row. *)
Definition mixture {R W} (scale : W -> R -> R) (total : list R -> R) (f : nat -> R -> R) (ids : list Z) (weights : list W) (w0 : W) (k t : nat) (row : R) : R :=
  total (map (fun j => scale (nth (t * k + j) weights w0) (f (expert_of ids k t j) row)) (seq 0 k)).
