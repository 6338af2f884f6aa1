(** Vocabulary for the bitspack properties (C134-C138): which bytes of memory
    two states share, which values fit in a width. *)
From Verif Require Import Base.
Open Scope Z_scope.

(** The bytes [p, p + len) of the two memories are the same. *)
Definition same_bytes (m m' : Z -> Z) (p len : Z) : Prop :=
  forall a, p <= a < p + len -> m' a = m a.

(** Nothing outside the bytes [p, p + len) differs. *)
Definition only_changes (m m' : Z -> Z) (p len : Z) : Prop :=
  forall a, ~ (p <= a < p + len) -> m' a = m a.

(** A signed / unsigned value of the given width. *)
Definition fits (nbit x : Z) : Prop := - 2 ^ (nbit - 1) <= x < 2 ^ (nbit - 1).
Definition fits_unsigned (nbit x : Z) : Prop := 0 <= x < 2 ^ nbit.

(** A 32-bit pattern. *)
Definition word (w : Z) : Prop := 0 <= w < 2 ^ 32.

(** The sum of x(0) .. x(n-1). *)
Fixpoint sum_below (n : nat) (x : Z -> Z) : Z :=
  match n with
  | O => 0
  | S n' => sum_below n' x + x (Z.of_nat n')
  end.
