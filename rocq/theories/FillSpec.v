(** Vocabulary for the fill properties. *)
From Verif Require Import Base DTypeModel ParamModel TensorModel.
From Coq Require Import Reals.
From Flocq Require Import Core.
Local Open Scope Z_scope.

(** [dst] becomes [b]: elements 0..n-1 are v 0, v 1, ..., all others keep what they held. *)
Definition fills_with (dst b : buf R) (n : Z) (v : Z -> R) : Prop :=
  b_len b = b_len dst /\
  forall i, b_at b i = if (0 <=? i) && (i <? n) then Some (v i) else b_at dst i.
(** A tensor of exactly the elements v 0 ... v (n-1). *)
Definition elements (b : buf R) (n : Z) (v : Z -> R) : Prop :=
  b_len b = n /\ forall i, 0 <= i < n -> b_at b i = Some (v i).
(** The linear congruential sequence x(k+1) = (1103515245 x(k) + 12345) mod 2^31 from a seed. *)
Fixpoint lcg_seq (seed : Z) (k : nat) : Z :=
  match k with
  | O => seed
  | Datatypes.S j => (1103515245 * lcg_seq seed j + 12345) mod 2 ^ 31
  end.
