(** Vocabulary for the WordPiece, ChatTTS and MiniCPM4 tokenizers, independent of the model. *)
From Verif Require Import Base TokSpec.
Local Open Scope Z_scope.

(** Unicode scalar values: code points that are no surrogates.  Valid UTF-8 encodes these
    ([utf8_of] is RFC 3629's table). *)
Definition scalar (c : Z) : Prop := 0 <= c <= 0xD7FF \/ 0xE000 <= c <= 0x10FFFF.
Definition valid_utf8 (s : list Z) : Prop := exists w, Forall scalar w /\ s = utf8_text w.

(** *** Character classes *)
(** The 32 printable ASCII characters that are neither letters, digits nor space. *)
Definition ascii_punctuation : list Z :=
  [33; 34; 35; 36; 37; 38; 39; 40; 41; 42; 43; 44; 45; 46; 47; 58; 59; 60; 61; 62; 63; 64; 91; 92; 93; 94; 95; 96; 123; 124; 125; 126].
Definition punctuation (c : Z) : bool := existsb (Z.eqb c) ascii_punctuation.
Definition between (c : Z) (r : Z * Z) : bool := (fst r <=? c) && (c <=? snd r).
(** C0, DEL, C1 *)
Definition control (c : Z) : bool := existsb (between c) [(0, 31); (127, 159)].
Definition blank (c : Z) : bool := existsb (Z.eqb c) [32; 9; 10; 13; 0xA0; 0x1680; 0x2000; 0x2001; 0x2002; 0x2003; 0x2004; 0x2005; 0x2006; 0x2007; 0x2008; 0x2009; 0x200A; 0x202F; 0x205F; 0x3000].
Definition line_blank (c : Z) : bool := existsb (Z.eqb c) [9; 10; 13].
Definition ideograph (c : Z) : bool :=
  existsb (between c) [(0x4E00, 0x9FFF); (0x3400, 0x4DBF); (0x20000, 0x2A6DF); (0x2A700, 0x2B73F); (0x2B740, 0x2B81F); (0x2B820, 0x2CEAF); (0xF900, 0xFAFF); (0x2F800, 0x2FA1F)].
Definition to_lower (c : Z) : Z := if (65 <=? c) && (c <=? 90) then c + 32 else c.

(** *** Words *)
(** The parts of l between the elements satisfying p; the non-empty ones. *)
Fixpoint fields (p : Z -> bool) (l : list Z) : list (list Z) :=
  match l with
  | [] => [[]]
  | c :: r => if p c then [] :: fields p r
              else match fields p r with f :: fs => (c :: f) :: fs | [] => [[c]] end
  end.
Definition words (p : Z -> bool) (l : list Z) : list (list Z) := filter (fun f => match f with [] => false | _ => true end) (fields p l).
(** What happens to a character: control characters vanish, blanks separate, punctuation (and
    ideographs, if asked for) stands alone. *)
Definition spread (lower chinese : bool) (c : Z) : list Z :=
  if line_blank c then [32] else if control c then [] else if blank c then [32]
  else if punctuation c || (chinese && ideograph c) then [32; c; 32]
  else [if lower then to_lower c else c].
Definition plain_words (lower chinese : bool) (w : list Z) : list (list Z) := words (Z.eqb 32) (flat_map (spread lower chinese) w).
(** The text in which special tokens are looked for. *)
Definition cleaned (chinese : bool) (w : list Z) : list Z :=
  flat_map (fun c => if line_blank c then [32] else if control c then [] else if chinese && ideograph c then [32; c; 32] else [c]) w.

(** *** Special tokens *)
(** The special tokens found from left to right: at each step one that starts as early as
    possible. *)
Definition unless_empty (u : list Z) : list (list Z) := match u with [] => [] | _ => [u] end.
Inductive leftmost (T : list (list Z)) : list Z -> list (list Z) -> Prop :=
| left_end : leftmost T [] []
| left_plain w : plain_piece T w -> leftmost T w [w]
| left_special u t v segs :
    In t T -> (forall t' a b, In t' T -> u ++ t ++ v = a ++ t' ++ b -> (length u <= length a)%nat) ->
    leftmost T v segs -> leftmost T (u ++ t ++ v) (unless_empty u ++ t :: segs).
(** The special ones among the added tokens are the texts T. *)
Definition specials (added : list (list Z * bool)) (T : list (list Z)) : Prop :=
  Forall (fun c => c <> [] /\ Forall scalar c) T /\ forall s, In (s, true) added <-> exists c, In c T /\ s = utf8_text c.
(** No token is the beginning of another. *)
Definition prefix_free (T : list (list Z)) : Prop := forall a b r, In a T -> In b T -> b = a ++ r -> r = [].

(** *** Greedy longest match *)
(** [pieces] segments [word] into pieces of the vocabulary, each the longest possible; all but
    the first are listed with the prefix. *)
Inductive greedy (vocab : list Z -> Prop) (mark : list Z) : bool -> list Z -> list (list Z) -> Prop :=
| greedy_done first : greedy vocab mark first [] []
| greedy_piece (first : bool) p rest ps :
    p <> [] -> vocab ((if first then [] else mark) ++ p) ->
    (forall q r, p ++ rest = q ++ r -> (length p < length q)%nat -> ~ vocab ((if first then [] else mark) ++ q)) ->
    greedy vocab mark false rest ps ->
    greedy vocab mark first (p ++ rest) (((if first then [] else mark) ++ p) :: ps).

(** *** Joining words *)
Fixpoint unwords (l : list (list Z)) : list Z :=
  match l with
  | [] => []
  | [w] => w
  | w :: r => w ++ [32] ++ unwords r
  end.
(** U+2581, the visible space. *)
Definition visible_space : Z := 0x2581.
Definition show_space (c : Z) : Z := if c =? 32 then visible_space else c.
Definition hide_space (c : Z) : Z := if c =? visible_space then 32 else c.
(** The text of the segments when a space is put before every segment that is no special token, and the
    first segment loses its space. *)
Definition listed (T : list (list Z)) (p : list Z) : bool := if in_dec (list_eq_dec Z.eq_dec) p T then true else false.
Definition respaced (T : list (list Z)) (segs : list (list Z)) : list Z :=
  match segs with
  | [] => []
  | p :: r => p ++ flat_map (fun q => if listed T q then q else 32 :: q) r
  end.
(** A token in brackets (its first character is an opening square bracket), such as CLS, SEP and PAD. *)
Definition bracketed (s : list Z) : Prop := exists y, y <> [] /\ s = 91 :: y.
