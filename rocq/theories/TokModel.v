(** Tokenizers: UTF-8 conversion, the byte-level alphabet, the special-token trie,
    byte pair encoding, and the Qwen pre-tokenizer and tokenizer built from them.
    Sources: /repo/mllm/preprocessor/tokenizers/{Unicode,AutoTokenizer,BPE}.cpp and
    /repo/mllm/models/qwen3/tokenization_qwen3.hpp.

    A wide character is an integer (wchar_t: 32-bit signed), a byte an integer
    0..255, strings are lists.  Simplifications: sizes below 2^31 (the code keeps some
    positions in int / unsigned int); hash maps are association lists, with the
    iteration order left open where the code iterates over one; JSON loading is not
    modelled (the vocabulary and the merge list are given as lists). *)
From Verif Require Import Base DTypeModel ParamModel TensorModel.
Local Open Scope Z_scope.

(* ------------------------------------------------------------------ *)
(** ** UTF-8: Unicode.cpp:11-76 *)

Definition band := Z.land.
Definition bor := Z.lor.
Definition shr (x n : Z) : Z := Z.shiftr x n.
(** static_cast<char> seen as an unsigned byte. *)
Definition to_byte (x : Z) : Z := x mod 256.

(** One character, Unicode.cpp:13-28.  The comparisons are made on unsigned values. *)
Definition encode_char (wc : Z) : list Z :=
  let u := wc mod 2 ^ 32 in
  if u <=? 127 then [to_byte wc]
  else if u <=? 2047 then [to_byte (bor 192 (band (shr wc 6) 31)); to_byte (bor 128 (band wc 63))]
  else if u <=? 65535 then
    [to_byte (bor 224 (band (shr wc 12) 15)); to_byte (bor 128 (band (shr wc 6) 63)); to_byte (bor 128 (band wc 63))]
  else if u <=? 1114111 then
    [to_byte (bor 240 (band (shr wc 18) 7)); to_byte (bor 128 (band (shr wc 12) 63));
     to_byte (bor 128 (band (shr wc 6) 63)); to_byte (bor 128 (band wc 63))]
  else [].
Definition wide_to_utf8 (w : list Z) : list Z := flat_map encode_char w.

(** utf8string2WideString, Unicode.cpp:33-76: the loop over [i]; reading str[j] with j
    out of range is undefined behaviour (vget). *)
Fixpoint utf8_loop (fuel : nat) (s : list Z) (i : Z) (acc : list Z) : res (list Z) :=
  match fuel with
  | O => RDiverge
  | S f =>
      if negb (i <? zlen s) then ROk acc else
      do byte <- vget s i;
      if band byte 128 =? 0 then utf8_loop f s (i + 1) (acc ++ [byte])
      else if band byte 224 =? 192 then
        if i + 1 <? zlen s then
          do b1 <- vget s (i + 1);
          utf8_loop f s (i + 2) (acc ++ [bor (Z.shiftl (band byte 31) 6) (band b1 63)])
        else ROk acc
      else if band byte 240 =? 224 then
        if i + 2 <? zlen s then
          do b1 <- vget s (i + 1);
          do b2 <- vget s (i + 2);
          utf8_loop f s (i + 3) (acc ++ [bor (bor (Z.shiftl (band byte 15) 12) (Z.shiftl (band b1 63) 6)) (band b2 63)])
        else ROk acc
      else if band byte 248 =? 240 then
        if i + 3 <? zlen s then
          do b1 <- vget s (i + 1);
          do b2 <- vget s (i + 2);
          do b3 <- vget s (i + 3);
          utf8_loop f s (i + 4)
            (acc ++ [bor (bor (bor (Z.shiftl (band byte 7) 18) (Z.shiftl (band b1 63) 12)) (Z.shiftl (band b2 63) 6)) (band b3 63)])
        else ROk acc
      else utf8_loop f s (i + 1) acc
  end.
Definition utf8_to_wide (s : list Z) : res (list Z) := utf8_loop (S (length s)) s 0 [].

(* ------------------------------------------------------------------ *)
(** ** The byte-level alphabet: makeBytes2UnicodeMap, Unicode.cpp:78-101 *)
Definition zrange (lo hi : Z) : list Z := map (fun k => lo + Z.of_nat k) (seq 0 (Z.to_nat (hi - lo + 1))).
(** Lines 81-84: '!'..'~', U+00A1..U+00AC, U+00AE..U+00FF. *)
Definition printable : list Z := zrange 33 126 ++ zrange 161 172 ++ zrange 174 255.
(** Lines 89-96: the remaining bytes get 256, 257, ... *)
Definition add_missing (x : list Z * list Z * Z) (b : Z) : list Z * list Z * Z :=
  let '(bs, cs, n) := x in
  if existsb (Z.eqb b) bs then (bs, cs, n) else (bs ++ [b], cs ++ [256 + n], n + 1).
Definition byte_tables : list Z * list Z :=
  let '(bs, cs, _) := fold_left add_missing (zrange 0 255) (printable, printable, 0) in (bs, cs).
(** unordered_map::insert keeps the first entry of a key. *)
Definition assoc {V} (k : Z) (m : list (Z * V)) : option V :=
  match find (fun e => Z.eqb (fst e) k) m with Some e => Some (snd e) | None => None end.
Definition map_insert {V} (m : list (Z * V)) (e : Z * V) : list (Z * V) :=
  match assoc (fst e) m with Some _ => m | None => m ++ [e] end.
Definition byte_dict : list (Z * Z) := fold_left map_insert (combine (fst byte_tables) (snd byte_tables)) [].
(** The inverse table of the tokenizers (tokenization_qwen3.hpp:163): the entries of
    the dictionary in some order, turned round. *)
Definition inverse_dict (entries : list (Z * Z)) : list (Z * Z) :=
  fold_left map_insert (map (fun e => (snd e, fst e)) entries) [].
(** operator[] of a map: a missing key gives 0. *)
Definition lookup0 (m : list (Z * Z)) (k : Z) : Z := match assoc k m with Some v => v | None => 0 end.

(* ------------------------------------------------------------------ *)
(** ** The special-token trie: AutoTokenizer.cpp:15-111 *)
Inductive trie := Node (is_end : bool) (children : list (Z * trie)).
Definition t_end (t : trie) : bool := match t with Node e _ => e end.
Definition t_children (t : trie) : list (Z * trie) := match t with Node _ ch => ch end.
Definition child (t : trie) (c : Z) : option trie := assoc c (t_children t).
Definition set_child (c : Z) (s : trie) (ch : list (Z * trie)) : list (Z * trie) :=
  (c, s) :: filter (fun e => negb (fst e =? c)) ch.
(** Trie::add, lines 15-27: walk, making missing nodes, and mark the last one. *)
Fixpoint trie_insert (w : list Z) (t : trie) : trie :=
  match w with
  | [] => Node true (t_children t)
  | c :: r =>
      let sub := match child t c with Some s => s | None => Node false [] end in
      Node (t_end t) (set_child c (trie_insert r sub) (t_children t))
  end.
Record splitter := mkSplit { sp_root : trie; sp_tokens : list (list Z) }.
Definition split_empty : splitter := mkSplit (Node false []) [].
Definition split_add (x : splitter) (w : list Z) : splitter :=
  match w with [] => x | _ => mkSplit (trie_insert w (sp_root x)) (w :: sp_tokens x) end.
(** Trie::update, lines 29-31. *)
Definition split_update (x : splitter) (ws : list (list Z)) : splitter := fold_left split_add ws x.
(** isSpecialToken, line 111. *)
Definition is_special (x : splitter) (w : list Z) : bool := if in_dec (list_eq_dec Z.eq_dec) w (sp_tokens x) then true else false.

(** The inner while, lines 59-72: the variables start, end, skip and ptr. *)
Fixpoint look_walk (fuel : nat) (text : list Z) (look_start : Z) (ptr : trie) (lookahead start end_ skip : Z) : trie * (Z * (Z * Z)) :=
  match fuel with
  | O => (ptr, (start, (end_, skip)))
  | S f =>
      if lookahead <? zlen text then
        match child ptr (nth (Z.to_nat lookahead) text 0) with
        | None => (ptr, (start, (end_, skip)))
        | Some p =>
            if t_end p then look_walk f text look_start p (lookahead + 1) look_start (lookahead + 1) (lookahead + 1)
            else look_walk f text look_start p (lookahead + 1) start end_ skip
        end
      else (ptr, (start, (end_, skip)))
  end.
(** The loop over all states, lines 50-75. Returns (start, max_end, skip). *)
Fixpoint look_all (text : list Z) (current : Z) (states : list (Z * trie)) (start max_end skip : Z) : Z * (Z * Z) :=
  match states with
  | [] => (start, (max_end, skip))
  | (ls, ln) :: r =>
      if start <? ls then (start, (max_end, skip))
      else
        let la := if ls <? start then current + 1 else current in
        let '(ptr, (start', (end_, skip'))) := look_walk (S (length text)) text ls ln la start la skip in
        look_all text current r start' (if t_end ptr && (max_end <? end_) then end_ else max_end) skip'
  end.
(** The loop over the states, lines 45-87: states already visited are in [done]. *)
Fixpoint scan_states (text : list Z) (current c : Z) (done rest : list (Z * trie)) (gone : list Z) (skip : Z)
  : list (Z * trie) * (list Z * Z) :=
  match rest with
  | [] => (filter (fun e => negb (existsb (Z.eqb (fst e)) gone)) done, ([], skip))
  | (s, n) :: r =>
      if t_end n then
        let '(start, (max_end, skip')) := look_all text current (done ++ (s, n) :: r) s current skip in
        ([], ([start; max_end], skip'))
      else match child n c with
           | Some n' => scan_states text current c (done ++ [(s, n')]) r gone skip
           | None => scan_states text current c (done ++ [(s, n)]) r (s :: gone) skip
           end
  end.
(** The main loop, lines 38-94; [rest] is the text from [current] on. *)
Fixpoint split_loop (root : trie) (text : list Z) (current : Z) (rest : list Z) (states : list (Z * trie)) (offsets : list Z) (skip : Z)
  : list (Z * trie) * list Z :=
  match rest with
  | [] => (states, offsets)
  | c :: r =>
      if current <? skip then split_loop root text (current + 1) r states offsets skip
      else
        let '(states1, (new, skip1)) := scan_states text current c [] states [] skip in
        let states2 := if skip1 <=? current then
                         match child root c with Some n => states1 ++ [(current, n)] | None => states1 end
                       else states1 in
        split_loop root text (current + 1) r states2 (offsets ++ new) skip1
  end.
(** Lines 95-101. *)
Fixpoint final_offsets (size : Z) (states : list (Z * trie)) : list Z :=
  match states with
  | [] => []
  | (s, n) :: r => if t_end n then [s; size] else final_offsets size r
  end.
(** std::sort. *)
Fixpoint insert_sorted (x : Z) (l : list Z) : list Z :=
  match l with
  | [] => [x]
  | y :: r => if x <=? y then x :: l else y :: insert_sorted x r
  end.
Definition sort_z (l : list Z) : list Z := fold_right insert_sorted [] l.
(** std::wstring::substr(a, n). *)
Definition substr {X} (l : list X) (a n : Z) : list X := firstn (Z.to_nat n) (skipn (Z.to_nat a) l).
(** Lines 103-108. *)
Fixpoint pieces (text : list Z) (offsets : list Z) : list (list Z) :=
  match offsets with
  | [] => []
  | [a] => if a =? zlen text then [] else [skipn (Z.to_nat a) text]
  | a :: ((b :: _) as l) => if a =? b then pieces text l else substr text a (b - a) :: pieces text l
  end.
Definition split_offsets (x : splitter) (text : list Z) : list Z :=
  let '(states, offsets) := split_loop (sp_root x) text 0 text [] [0] 0 in
  sort_z (offsets ++ final_offsets (zlen text) states).
Definition trie_split (x : splitter) (text : list Z) : list (list Z) := pieces text (split_offsets x text).

(* ------------------------------------------------------------------ *)
(** ** Byte pair encoding: BPE.cpp:74-163 *)
Definition symbol := list Z.
Definition sym_eqb (a b : symbol) : bool := if list_eq_dec Z.eq_dec a b then true else false.
(** bpe_ranks_, BPE.cpp:55-68: the position of the first entry of the pair. *)
Fixpoint rank_of (merges : list (symbol * symbol)) (p : symbol * symbol) (cnt : Z) : option Z :=
  match merges with
  | [] => None
  | m :: r => if sym_eqb (fst m) (fst p) && sym_eqb (snd m) (snd p) then Some cnt else rank_of r p (cnt + 1)
  end.
(** _get_pairs, lines 154-163, as the list of adjacent pairs. *)
Fixpoint get_pairs (word : list symbol) : list (symbol * symbol) :=
  match word with
  | a :: ((b :: _) as l) => (a, b) :: get_pairs l
  | _ => []
  end.
(** Lines 84-97: the loop over the pairs (in the set's order). *)
Definition better (merges : list (symbol * symbol)) (best : option (symbol * symbol) * Z) (p : symbol * symbol) : option (symbol * symbol) * Z :=
  match rank_of merges p 0 with
  | Some r => if r <? snd best then (Some p, r) else best
  | None => best
  end.
Definition best_pair (merges : list (symbol * symbol)) (pairs : list (symbol * symbol)) : option (symbol * symbol) :=
  fst (fold_left (better merges) pairs (None, 2 ^ 63 - 1)).
(** Line 108: the next occurrence of [first] at or behind j. *)
Fixpoint find_from (word : list symbol) (first : symbol) (j : Z) : Z :=
  match word with
  | [] => j
  | x :: r => if sym_eqb x first then j else find_from r first (j + 1)
  end.
(** Lines 103-124. *)
Fixpoint merge_loop (fuel : nat) (word : list symbol) (first second : symbol) (i : Z) (new_word : list symbol) : res (list symbol) :=
  match fuel with
  | O => RDiverge
  | S f =>
      if negb (i <? zlen word) then ROk new_word else
      let j := find_from (skipn (Z.to_nat i) word) first i in
      let new_word := if i <? j then new_word ++ substr word i (j - i) else new_word in
      do can <- (if j <? zlen word - 1 then
                   do x <- vget word j;
                   do y <- vget word (j + 1);
                   ROk (sym_eqb x first && sym_eqb y second)
                 else ROk false);
      if can then merge_loop f word first second (j + 2) (new_word ++ [first ++ second])
      else if j <? zlen word then
        do x <- vget word j;
        merge_loop f word first second (j + 1) (new_word ++ [x])
      else merge_loop f word first second j new_word
  end.
(** The while loop, lines 83-131.  [order] is the iteration order of the set of
    pairs. *)
Fixpoint bpe_loop (fuel : nat) (order : list (symbol * symbol) -> list (symbol * symbol)) (merges : list (symbol * symbol))
    (word : list symbol) (pairs : list (symbol * symbol)) : res (list symbol) :=
  match fuel with
  | O => RDiverge
  | S f =>
      match best_pair merges (order pairs) with
      | None => ROk word
      | Some (first, second) =>
          do w <- merge_loop (S (S (length word))) word first second 0 [];
          if zlen w =? 1 then ROk w else bpe_loop f order merges w (get_pairs w)
      end
  end.
(** _bpe, lines 74-134. *)
Definition bpe (order : list (symbol * symbol) -> list (symbol * symbol)) (merges : list (symbol * symbol)) (token : list Z) : res (list symbol) :=
  let word := map (fun c => [c]) token in
  let pairs := get_pairs word in
  match order pairs with
  | [] => ROk [token]
  | _ => bpe_loop (S (length word)) order merges word pairs
  end.

(* ------------------------------------------------------------------ *)
(** ** The Qwen pre-tokenizer: tokenization_qwen3.hpp:19-149

    [L], [D], [S] are iswalpha, iswdigit and iswspace (Unicode.hpp:33-35), left open.
    Simplification: the position in the string is represented by the text behind it;
    a match is returned together with the text from the new position on. *)
Section Pretok.
Variables L D S : Z -> bool.

Fixpoint span (p : Z -> bool) (l : list Z) : list Z * list Z :=
  match l with
  | [] => ([], [])
  | x :: r => if p x then (x :: fst (span p r), snd (span p r)) else ([], l)
  end.
Fixpoint starts_with (p l : list Z) : bool :=
  match p, l with
  | [], _ => true
  | x :: p', y :: l' => (x =? y) && starts_with p' l'
  | _ :: _, [] => false
  end.
(** Line 23: 's 't 're 've 'm 'll 'd *)
Definition contractions : list (list Z) :=
  [[39; 115]; [39; 116]; [39; 114; 101]; [39; 118; 101]; [39; 109]; [39; 108; 108]; [39; 100]].
Definition is_nl (c : Z) : bool := (c =? 13) || (c =? 10).
(** Lines 32-58. *)
Definition rule_letters (str : list Z) : option (list Z * list Z) :=
  match str with
  | [] => None
  | c :: r =>
      let '(prefix, after) := if negb (L c) && negb (D c) && negb (c =? 13) && negb (c =? 10) then ([c], r) else ([], str) in
      match after with
      | x :: _ => if L x then let '(m, rest) := span L after in Some (prefix ++ m, rest) else None
      | [] => None
      end
  end.
(** Lines 60-65. *)
Definition rule_digit (str : list Z) : option (list Z * list Z) :=
  match str with c :: r => if D c then Some ([c], r) else None | [] => None end.
(** Lines 67-96. *)
Definition is_mark (c : Z) : bool := negb (S c) && negb (L c) && negb (D c).
Definition rule_marks (str : list Z) : option (list Z * list Z) :=
  match str with
  | [] => None
  | c :: r =>
      let '(prefix, after) := if c =? 32 then ([c], r) else ([], str) in
      match after with
      | x :: _ => if is_mark x then
                    let '(m, rest) := span is_mark after in
                    let '(nl, rest') := span is_nl rest in
                    Some ((prefix ++ m) ++ nl, rest')
                  else None
      | [] => None
      end
  end.
(** Lines 98-109. *)
Definition rule_newlines (str : list Z) : option (list Z * list Z) :=
  let '(m, rest) := span S str in
  match rest with
  | x :: _ => if is_nl x then let '(nl, rest') := span is_nl rest in Some (m ++ nl, rest') else None
  | [] => None
  end.
(** Lines 111-122. *)
Definition rule_spaces (str : list Z) : option (list Z * list Z) :=
  match str with
  | c :: _ => if S c then
                let '(m, rest) := span S str in
                match rest with
                | [] => Some (m, rest)
                | x :: _ => if S x then Some (m, rest) else None
                end
              else None
  | [] => None
  end.
(** Lines 124-130. *)
Definition rule_rest (str : list Z) : option (list Z * list Z) :=
  match str with c :: _ => if S c then Some (span S str) else None | [] => None end.
Definition orelse {X} (a b : option X) : option X := match a with Some _ => a | None => b end.
(** qwen3TokenizerMatchPattern, lines 19-133. *)
Definition match_pattern (str : list Z) : option (list Z * list Z) :=
  match str with
  | [] => None
  | _ =>
      match find (fun k => starts_with k str) contractions with
      | Some k => Some (k, skipn (length k) str)
      | None => orelse (rule_letters str) (orelse (rule_digit str) (orelse (rule_marks str)
                  (orelse (rule_newlines str) (orelse (rule_spaces str) (rule_rest str)))))
      end
  end.
(** qwen3Regex, lines 135-149: a character that starts no match is stepped over. *)
Fixpoint pretok_loop (fuel : nat) (str : list Z) : res (list (list Z)) :=
  match fuel with
  | O => RDiverge
  | Datatypes.S f =>
      match str with
      | [] => ROk []
      | _ :: r =>
          match match_pattern str with
          | Some (m, rest) => do t <- pretok_loop f rest; ROk (m :: t)
          | None => pretok_loop f r
          end
      end
  end.
Definition pretok (bytes : list Z) : res (list (list Z)) :=
  do w <- utf8_to_wide bytes; pretok_loop (Datatypes.S (length w)) w.

(* ------------------------------------------------------------------ *)
(** ** The tokenizer: tokenization_qwen3.hpp:184-225, BPE.cpp:136-152 *)
Record tokenizer := mkTok {
  tk_special : splitter;
  tk_dict : list (Z * Z);
  tk_inverse : list (Z * Z);
  tk_order : list (symbol * symbol) -> list (symbol * symbol);
  tk_merges : list (symbol * symbol);
  tk_vocab : list (symbol * Z)
}.
(** for (...) { ret.insert(...) }. *)
Fixpoint rmap {X Y} (f : X -> res Y) (l : list X) : res (list Y) :=
  match l with
  | [] => ROk []
  | x :: r => do y <- f x; do t <- rmap f r; ROk (y :: t)
  end.
(** _tokenize, lines 184-199. *)
Definition tokenize_plain (t : tokenizer) (bytes : list Z) : res (list symbol) :=
  do splitted <- pretok bytes;
  do words <- rmap (fun s => bpe (tk_order t) (tk_merges t) (map (lookup0 (tk_dict t)) (wide_to_utf8 s))) splitted;
  ROk (concat words).
(** tokenize, lines 201-213. *)
Definition tokenize (t : tokenizer) (bytes : list Z) : res (list symbol) :=
  do w <- utf8_to_wide bytes;
  do parts <- rmap (fun p => if is_special (tk_special t) p then ROk [p] else tokenize_plain t (wide_to_utf8 p))
                (trie_split (tk_special t) w);
  ROk (concat parts).
(** _lookup_vocab and convert2Ids, BPE.cpp:136-143, tokenization_qwen3.hpp:227-: an
    unknown token gets 0. *)
Definition lookup_vocab (t : tokenizer) (s : symbol) : Z :=
  match find (fun e => sym_eqb (fst e) s) (tk_vocab t) with Some e => snd e | None => 0 end.
(** _lookup_inverse_vocab, BPE.cpp:145-152: the first entry of an id; "" if none. *)
Definition lookup_token (t : tokenizer) (id : Z) : symbol :=
  match find (fun e => snd e =? id) (tk_vocab t) with Some e => fst e | None => [] end.
(** detokenize, lines 217-222: the inverse table's value is cut to a byte. *)
Definition detok_bytes (t : tokenizer) (id : Z) : list Z :=
  map (fun c => to_byte (lookup0 (tk_inverse t) c)) (lookup_token t id).
Definition detokenize (t : tokenizer) (id : Z) : res (list Z) := utf8_to_wide (detok_bytes t id).
End Pretok.
