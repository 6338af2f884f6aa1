(** Vocabulary for the finite scalar quantisation claims. *)
From Verif Require Import Base QuantModel CpmAudioModel.
From Coq Require Import Reals.
Import ListNotations.

(** A choice of one level per dimension: digit d is one of 0 .. level-1. *)
Definition digits_of (levels digits : list Z) : Prop := Forall2 (fun l d => (0 <= d < l)%Z) levels digits.
(** Its number, the first dimension varying fastest. *)
Fixpoint number (levels digits : list Z) : Z :=
  match levels, digits with l :: ls, d :: ds => (d + l * number ls ds)%Z | _, _ => 0%Z end.
(** How many there are. *)
Definition how_many (levels : list Z) : Z := fold_right Z.mul 1%Z levels.
(** The code of a level: levels 0 .. l-1 evenly spaced, level l/2 at 0, level 0 at -1
    (rounded to binary32). *)
Definition code (l d : Z) : R := to_f32 (IZR (d - l / 2) / IZR (l / 2)).
Definition codes (levels digits : list Z) : list R := map (fun p => code (fst p) (snd p)) (combine levels digits).

(** Residual decoding: for every position and quantiser either a choice of levels or
    nothing (the quantiser was dropped; written as index -1). *)
Definition index_of (levels : list Z) (e : option (list Z)) : Z := match e with Some ds => number levels ds | None => (-1)%Z end.
Definition value_of (levels : list Z) (e : option (list Z)) (d : nat) : R :=
  match e with Some ds => code (nth d levels 0%Z) (nth d ds 0%Z) | None => 0%R end.
Definition entry_ok (levels : list Z) (e : option (list Z)) : Prop := match e with Some ds => digits_of levels ds | None => True end.
