(** Vocabulary for the statements about the tokenizers, independent of the model. *)
From Verif Require Import Base.
Local Open Scope Z_scope.

(** *** UTF-8 as RFC 3629 tabulates it *)
Definition code_point (c : Z) : Prop := 0 <= c <= 1114111.
Definition is_byte (b : Z) : Prop := 0 <= b <= 255.
Definition utf8_of (c : Z) : list Z :=
  if c <? 128 then [c]
  else if c <? 2048 then [192 + c / 64; 128 + c mod 64]
  else if c <? 65536 then [224 + c / 4096; 128 + (c / 64) mod 64; 128 + c mod 64]
  else [240 + c / 262144; 128 + (c / 4096) mod 64; 128 + (c / 64) mod 64; 128 + c mod 64].
Definition utf8_text (w : list Z) : list Z := concat (map utf8_of w).
(** The byte strings that are UTF-8 text. *)
Definition well_formed (s : list Z) : Prop := exists w, Forall code_point w /\ s = utf8_text w.

(** *** Splitting a text at special tokens *)
Definition occurs_in (t s : list Z) : Prop := exists a b, s = a ++ t ++ b.
Definition is_prefix (p l : list Z) : Prop := exists r, l = p ++ r.
(** A piece with no special token in it. *)
Definition plain_piece (T : list (list Z)) (p : list Z) : Prop := p <> [] /\ forall t, In t T -> ~ occurs_in t p.
(** Token sets whose tokens cannot overlap in a text: no token is a prefix of
    another, and the first character of a token occurs in no token behind the first
    position (every set of the shape <...> with no inner '<'). *)
Definition unambiguous (T : list (list Z)) : Prop :=
  (forall t, In t T -> t <> []) /\
  (forall t u, In t T -> In u T -> is_prefix t u -> t = u) /\
  (forall c r d u, In (c :: r) T -> In (d :: u) T -> ~ In c u).
(** No two neighbours both satisfy P. *)
Definition no_two_adjacent {A} (P : A -> Prop) (l : list A) : Prop :=
  forall a x y b, l = a ++ x :: y :: b -> ~ (P x /\ P y).

(** *** Byte pair encoding *)
Definition neighbours {A} (x y : A) (l : list A) : Prop := exists a b, l = a ++ x :: y :: b.
(** The rank of a pair: its first position in the merge list. *)
Definition has_rank {A} (merges : list (A * A)) (p : A * A) (n : nat) : Prop :=
  nth_error merges n = Some p /\ forall m, (m < n)%nat -> nth_error merges m <> Some p.
(** Joining, from left to right, the non-overlapping occurrences of the pair (x, y). *)
Inductive joined {A} (x y : list A) : list (list A) -> list (list A) -> Prop :=
| joined_nil : joined x y [] []
| joined_pair l l' : joined x y l l' -> joined x y (x :: y :: l) ((x ++ y) :: l')
| joined_other z l l' : (z <> x \/ hd_error l <> Some y) -> joined x y l l' -> joined x y (z :: l) (z :: l').
(** One round: the pair of least rank among the neighbouring pairs is joined. *)
Definition bpe_round {A} (merges : list (list A * list A)) (w w' : list (list A)) : Prop :=
  exists x y n, has_rank merges (x, y) n /\ neighbours x y w /\
    (forall x' y' n', neighbours x' y' w -> has_rank merges (x', y') n' -> (n <= n')%nat) /\
    joined x y w w'.
Inductive bpe_rounds {A} (merges : list (list A * list A)) : list (list A) -> list (list A) -> Prop :=
| rounds_done w : bpe_rounds merges w w
| rounds_more w w' w'' : bpe_round merges w w' -> bpe_rounds merges w' w'' -> bpe_rounds merges w w''.

(** *** The pre-tokenizer's pattern, alternative by alternative

    (?i:'s|'t|'re|'ve|'m|'ll|'d) | [^\r\n\p{L}\p{N}]?\p{L}+ | \p{N} |
    ?[^\s\p{L}\p{N}]+[\r\n]* | \s*[\r\n]+ | \s+(?!\S) | \s+
    The first alternative that matches at the present position is taken; repetitions
    are greedy and give back characters when the rest of the alternative fails.
    L, N, S are the classes of letters, digits and white space. *)
Section Pattern.
Variables L N S : Z -> bool.
(** The longest prefix in a class. *)
Fixpoint run (p : Z -> bool) (l : list Z) : list Z :=
  match l with x :: r => if p x then x :: run p r else [] | [] => [] end.
Definition newline (c : Z) : bool := (c =? 13) || (c =? 10).
Definition lower (c : Z) : Z := if (65 <=? c) && (c <=? 90) then c + 32 else c.
Definition contraction (s : list Z) : option (list Z) :=
  match s with
  | 39 :: a :: r =>
      let a' := lower a in
      if (a' =? 115) || (a' =? 116) then Some [39; a] else
      match r with
      | b :: _ =>
          let b' := lower b in
          if ((a' =? 114) && (b' =? 101)) || ((a' =? 118) && (b' =? 101)) then Some [39; a; b]
          else if a' =? 109 then Some [39; a]
          else if (a' =? 108) && (b' =? 108) then Some [39; a; b]
          else if a' =? 100 then Some [39; a] else None
      | [] => if (a' =? 109) || (a' =? 100) then Some [39; a] else None
      end
  | _ => None
  end.
(** X?Y+ : the optional character is taken if Y+ can follow it. *)
Definition opt_then (x y : Z -> bool) (s : list Z) : option (list Z) :=
  match s with
  | c :: r =>
      if x c && negb (match run y r with [] => true | _ => false end) then Some (c :: run y r)
      else match run y s with [] => None | m => Some m end
  | [] => None
  end.
Definition words := opt_then (fun c => negb (newline c || L c || N c)) L.
Definition digit (s : list Z) : option (list Z) := match s with c :: _ => if N c then Some [c] else None | [] => None end.
Definition mark (c : Z) : bool := negb (S c || L c || N c).
Definition symbols (s : list Z) : option (list Z) :=
  match opt_then (fun c => c =? 32) mark s with
  | Some m => Some (m ++ run newline (skipn (length m) s))
  | None => None
  end.
(** \s*[\r\n]+ : the white space up to its last line break. *)
Fixpoint upto_last (p : Z -> bool) (l : list Z) : option (list Z) :=
  match l with
  | [] => None
  | x :: r => match upto_last p r with Some m => Some (x :: m) | None => if p x then Some [x] else None end
  end.
Definition line_breaks (s : list Z) : option (list Z) := upto_last newline (run S s).
(** \s+(?!\S) : all the white space at the end of the text, else all but its last
    character. *)
Definition spaces_not_before (s : list Z) : option (list Z) :=
  let w := run S s in
  let m := if (length w =? length s)%nat then w else removelast w in
  match m with [] => None | _ => Some m end.
Definition spaces (s : list Z) : option (list Z) := match run S s with [] => None | w => Some w end.
Definition first_of {X} (a b : option X) : option X := match a with Some _ => a | None => b end.
Definition pattern_match (s : list Z) : option (list Z) :=
  first_of (contraction s) (first_of (words s) (first_of (digit s) (first_of (symbols s)
    (first_of (line_breaks s) (first_of (spaces_not_before s) (spaces s)))))).
End Pattern.
