(** Vocabulary for the chunk properties. *)
From Verif Require Import Base ChunkModel.

(** The answer: the sampled tokens from position [pos] on, up to and including the first
    end-of-sequence token, at most [n] of them. *)
Fixpoint answer (tok : nat -> Z) (eos : Z -> bool) (n pos : nat) : list Z :=
  match n with
  | O => []
  | Datatypes.S m => tok pos :: (if eos (tok pos) then [] else answer tok eos m (Datatypes.S pos))
  end.
(** All the texts of a list of outputs, one after the other. *)
Definition said (l : list gout) : bytes := concat (map o_text l).
(** The text breaks off inside a character (its last bytes decode to U+FFFD). *)
Definition broken_off (s : bytes) : Prop := exists p, s = p ++ [239; 191; 189]%Z.
(** The text of a list of tokens. *)
Definition spelled (piece : Z -> bytes) (l : list Z) : bytes := concat (map piece l).
(** Every end-of-sequence token has a text of three bytes or more that is not broken off. *)
Definition plain_end (piece : Z -> bytes) (eos : Z -> bool) : Prop :=
  forall t, eos t = true -> (3 <= length (piece t))%nat /\ ~ broken_off (piece t).
