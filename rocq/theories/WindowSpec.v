(** Vocabulary for the text windows. *)
From Verif Require Import Base WindowModel.

(** The text only grows, and the language model is finished in call m for the first time. *)
Definition grows (text : nat -> list Z) : Prop := forall k, exists more, text (Datatypes.S k) = text k ++ more.
Definition finishes (fin : nat -> bool) (m : nat) : Prop := fin m = true /\ forall k, (k < m)%nat -> fin k = false.
(** What should stand at position p: start, speaker, the first 300 tokens, end of text. *)
Definition should (text : list Z) (p : nat) : option ttok :=
  match p with
  | O => Some TStts
  | 1%nat => Some TSpk
  | _ => match nth_error (firstn 300 text) (p - 2) with
         | Some t => Some (TText t)
         | None => if (p - 2 =? length text)%nat then Some TEtts else None
         end
  end.
(** The text is never behind the windows before it is finished. *)
Definition in_time (text : nat -> list Z) (m : nat) : Prop :=
  forall k, (k < m)%nat -> (Nat.min (10 * (k + 1)) 300 <= length (text k))%nat.
