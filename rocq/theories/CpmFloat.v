(** The comparisons of the position buckets in binary32, modeling_siglip.hpp:60-63, 86-109: step = 1.0f / n, coordinates and
    boundaries are i * step; Coq's executable IEEE arithmetic. *)
From Coq Require Import ZArith SpecFloat.
Local Open Scope Z_scope.
Definition f32_of (z : Z) : spec_float := binary_normalize 24 128 z 0 false.
Definition frac (i n : Z) : spec_float := SFmul 24 128 (f32_of i) (SFdiv 24 128 (f32_of 1) (f32_of n)).
(** fractional_coords[h] < boundaries[i]. *)
Definition frac_lt (nb n h i : nat) : bool := SFltb (frac (Z.of_nat h) (Z.of_nat nb)) (frac (Z.of_nat i + 1) (Z.of_nat n)).
