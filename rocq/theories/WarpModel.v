(** The filters of the speech model's logits: applyTopKWarper and applyTopPWarper of
    models/minicpm_o2_6/modeling_chattts.hpp:601-706, for one codebook (the loops of lines
    616 and 662 treat the rows of a contiguous copy one after the other, each by itself).

    Simplifications.  A logit is a real number or minus infinity (None); sums and
    exponentials are exact.  [srt] is what std::partial_sort or std::sort leaves in
    values_indices: any rearrangement that meets the contract of the algorithm (see
    WarpSpec.v); pairs with equal values may come in any order. *)
From Coq Require Import Reals.
From Verif Require Import Base.

Definition logit := option R.
(** a < b, with minus infinity below every number. *)
Definition lt_logit (a b : logit) : Prop :=
  match a, b with None, Some _ => True | Some x, Some y => (x < y)%R | _, None => False end.
Definition lt_dec (a b : logit) : {lt_logit a b} + {~ lt_logit a b}.
Proof.
  destruct a as [x|], b as [y|]; cbn; [apply Rlt_dec|right; tauto|left; exact I|right; tauto].
Defined.
(** values_indices, lines 620-622 and 666-668. *)
Definition pairs (l : list logit) : list (logit * nat) := combine l (seq 0 (length l)).

(** applyTopKWarper, lines 605-634. *)
Definition top_k_count (top_k min_keep vocab : nat) : nat := Nat.min (Nat.max top_k min_keep) vocab.
Definition top_k_warp (srt : list (logit * nat)) (k : nat) (l : list logit) : list logit :=
  let threshold := fst (nth (k - 1) srt (None, O)) in
  map (fun x => if lt_dec x threshold then None else x) l.

(** exp(x - max), lines 677-681. *)
Definition exp_logit (x : logit) (max : R) : R := match x with Some y => exp (y - max) | None => 0%R end.
(** The loop of lines 689-693: how many are kept, from the running sum [acc]. *)
Fixpoint nucleus (p : list R) (top_p acc : R) : nat :=
  match p with
  | [] => O
  | x :: p' => Datatypes.S (if Rlt_dec top_p (acc + x)%R then O else nucleus p' top_p (acc + x)%R)
  end.
Fixpoint rsum (l : list R) : R := match l with [] => 0%R | x :: l' => (x + rsum l')%R end.
(** Lines 698-702: dst[idx] = -inf. *)
Definition clear_at (l : list logit) (idx : nat) : list logit := firstn idx l ++ match skipn idx l with [] => [] | _ :: t => None :: t end.
(** applyTopPWarper, lines 672-702. *)
Definition top_p_warp (srt : list (logit * nat)) (top_p : R) (min_keep : nat) (l : list logit) : list logit :=
  let max := match fst (nth 0 srt (None, O)) with Some m => m | None => 0%R end in
  let e := map (fun vi => exp_logit (fst vi) max) srt in
  let probs := map (fun x => (x / rsum e)%R) e in
  let keep := Nat.max (nucleus probs top_p 0) min_keep in
  fold_left (fun d vi => clear_at d (snd vi)) (skipn keep srt) l.
