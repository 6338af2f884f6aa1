(** splitString, utils/StringHelper.hpp:10-59.

    Simplifications.  A string is a list of characters; isspace is an arbitrary test.
    memchr and std::search give the first place (for one character both mean the same);
    maxsplit is an unbounded integer.  Fuel: the length of the string, never used up. *)
From Verif Require Import Base.

Section Split.
Context {A : Type} (eq_dec : forall x y : A, {x = y} + {x <> y}) (space : A -> bool).

(** Does the string start with sep? *)
Fixpoint starts (sep s : list A) : bool :=
  match sep, s with
  | [], _ => true
  | _, [] => false
  | x :: sep', y :: s' => if eq_dec x y then starts sep' s' else false
  end.
(** memchr, line 39; std::search, line 48. *)
Fixpoint find (sep s : list A) : option nat :=
  if starts sep s then Some 0%nat
  else match s with [] => None | _ :: s' => option_map Datatypes.S (find sep s') end.
(** Lines 36-57; every piece found is put out, the rest last. *)
Fixpoint split_on (fuel : nat) (sep : list A) (maxsplit : Z) (p : list A) : list (list A) :=
  match fuel with
  | O => [p]
  | S fuel' =>
    if (maxsplit =? 0)%Z then [p]
    else match find sep p with
         | None => [p]
         | Some pos => firstn pos p ::
             split_on fuel' sep (if (0 <? maxsplit)%Z then maxsplit - 1 else maxsplit)%Z (skipn (pos + length sep) p)
         end
  end.
(** skip_space, lines 21-23. *)
Fixpoint skip_space (p : list A) : list A := match p with x :: p' => if space x then skip_space p' else p | [] => [] end.
(** Line 27: the word and what is behind it. *)
Fixpoint word (p : list A) : list A * list A :=
  match p with
  | x :: p' => if space x then ([], p) else let (w, r) := word p' in (x :: w, r)
  | [] => ([], [])
  end.
(** Lines 25-34, [p] after skip_space. *)
Fixpoint words (fuel : nat) (maxsplit : Z) (p : list A) : list (list A) :=
  match fuel, p with
  | O, _ | _, [] => []
  | S fuel', _ =>
    let (w, r) := word p in
    if (0 <=? maxsplit)%Z && (maxsplit - 1 =? 0)%Z then [w; r]
    else w :: words fuel' (if (0 <=? maxsplit)%Z then maxsplit - 1 else maxsplit)%Z (skip_space r)
  end.
Definition split_string (s sep : list A) (maxsplit : Z) : list (list A) :=
  if (maxsplit =? 0)%Z then [s]
  else match sep with
       | [] => words (length s) maxsplit (skip_space s)
       | _ => split_on (length s) sep maxsplit s
       end.
End Split.
