(** Vocabulary for the filters. *)
From Coq Require Import Reals.
From Verif Require Import Base WarpModel.

(** What std::partial_sort with [k] and, for k the whole length, std::sort leave behind. *)
Definition sorted_to (k : nat) (l srt : list (logit * nat)) : Prop :=
  Permutation l srt /\
  forall i j, (i < j)%nat -> (i < k)%nat -> (j < length srt)%nat ->
    ~ lt_logit (fst (nth i srt (None, O))) (fst (nth j srt (None, O))).
(** How many logits of the row are greater than x. *)
Definition greater (l : list logit) (x : logit) : nat := length (filter (fun y => if lt_dec x y then true else false) l).
(** The probability of a logit in its row. *)
Definition weight (x : logit) : R := match x with Some y => exp y | None => 0%R end.
Definition prob (l : list logit) (x : logit) : R := (weight x / rsum (map weight l))%R.
