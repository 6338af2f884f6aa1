(** UTF-8 with validation (utfcpp), the WordPiece tokenizer, BPE over code points, and the two
    tokenizers built on them (ChatTTS, MiniCPM4).
    Sources: /repo/third_party/utfcpp/include/utfcpp/utf8/{core,checked}.h,
    /repo/mllm/preprocessor/tokenizers/{WordPiece,BPEUTF8,AutoTokenizer}.cpp,
    /repo/mllm/models/minicpm_o2_6/tokenization_chattts.cpp, /repo/mllm/models/minicpm4/tokenization_minicpm4.hpp.

    A std::string is the list of its bytes (0..255).  An exception (utf8::exception) is RAbort; an
    exception discards what the function has built, so decoding a whole string first and
    looping over the code points afterwards gives the same result as decoding inside the loop. *)
From Verif Require Import Base DTypeModel ParamModel TensorModel TokModel.
Local Open Scope Z_scope.

(* ------------------------------------------------------------------ *)
(** ** utfcpp *)

(** sequence_length, core.h:135-149. *)
Definition seq_len (lead : Z) : Z :=
  if lead <? 128 then 1
  else if shr lead 5 =? 6 then 2
  else if shr lead 4 =? 14 then 3
  else if shr lead 3 =? 30 then 4
  else 0.
(** is_trail, core.h:104-108. *)
Definition is_trail (b : Z) : bool := shr b 6 =? 2.
(** is_code_point_valid, core.h:120-128. *)
Definition cp_valid (cp : Z) : bool := (cp <=? 1114111) && negb ((55296 <=? cp) && (cp <=? 57343)).
(** is_overlong_sequence, core.h:151-166. *)
Definition overlong (cp len : Z) : bool :=
  if cp <? 128 then negb (len =? 1)
  else if cp <? 2048 then negb (len =? 2)
  else if cp <? 65536 then negb (len =? 3)
  else false.
(** get_sequence_1 .. get_sequence_4, core.h:184-252: the code point and what is left. *)
Definition get_sequence (len : Z) (s : list Z) : res (Z * list Z) :=
  match len, s with
  | 1, b :: r => ROk (b, r)
  | 2, b :: b1 :: r =>
      if is_trail b1 then ROk (band (Z.shiftl b 6) 2047 + band b1 63, r) else RAbort
  | 3, b :: b1 :: b2 :: r =>
      if is_trail b1 && is_trail b2
      then ROk (band (Z.shiftl b 12) 65535 + band (Z.shiftl b1 6) 4095 + band b2 63, r) else RAbort
  | 4, b :: b1 :: b2 :: b3 :: r =>
      if is_trail b1 && is_trail b2 && is_trail b3
      then ROk (band (Z.shiftl b 18) 2097151 + band (Z.shiftl b1 12) 262143 + band (Z.shiftl b2 6) 4095 + band b3 63, r) else RAbort
  | _, _ => RAbort
  end.
(** validate_next, core.h:256-306, and utf8::next, checked.h (throws on every error). *)
Definition utf8_next (s : list Z) : res (Z * list Z) :=
  match s with
  | [] => RAbort
  | lead :: _ =>
      do x <- get_sequence (seq_len lead) s;
      if cp_valid (fst x) && negb (overlong (fst x) (seq_len lead)) then ROk x else RAbort
  end.
(** utf8::append, checked.h:78-84, core.h:363-384. *)
Definition utf8_append (cp : Z) : res (list Z) :=
  if cp_valid cp then
    ROk (if cp <? 128 then [to_byte cp]
         else if cp <? 2048 then [to_byte (bor (shr cp 6) 192); to_byte (bor (band cp 63) 128)]
         else if cp <? 65536 then [to_byte (bor (shr cp 12) 224); to_byte (bor (band (shr cp 6) 63) 128); to_byte (bor (band cp 63) 128)]
         else [to_byte (bor (shr cp 18) 240); to_byte (bor (band (shr cp 12) 63) 128); to_byte (bor (band (shr cp 6) 63) 128); to_byte (bor (band cp 63) 128)])
  else RAbort.
(** utf8to32: while (start < end) *result++ = next(start, end). *)
Fixpoint decode_loop (fuel : nat) (s : list Z) : res (list Z) :=
  match s with
  | [] => ROk []
  | _ => match fuel with
         | O => RDiverge
         | S f => do x <- utf8_next s; do l <- decode_loop f (snd x); ROk (fst x :: l)
         end
  end.
Definition utf8_decode (s : list Z) : res (list Z) := decode_loop (length s) s.
(** utf32to8: append for every code point. *)
Fixpoint utf8_encode (w : list Z) : res (list Z) :=
  match w with
  | [] => ROk []
  | c :: w => do b <- utf8_append c; do r <- utf8_encode w; ROk (b ++ r)
  end.

(* ------------------------------------------------------------------ *)
(** ** WordPiece *)

Definition str := list Z.
Definition str_eqb (a b : str) : bool := if list_eq_dec Z.eq_dec a b then true else false.
Definition str_find {V} (k : str) (m : list (str * V)) : option V := option_map snd (List.find (fun e => str_eqb (fst e) k) m).
(** The members of WordPiece that tokenization uses.  [wp_added] lists added_tokens_ in the
    hash table's iteration order: content and whether it is special. *)
Record wordpiece := mkWp {
  wp_vocab : list (str * Z); wp_inverse : list (Z * str); wp_added : list (str * bool);
  wp_lower : bool; wp_chinese : bool; wp_max : Z; wp_prefix : str; wp_unk : str; wp_unk_id : Z }.

(** is_punctuation, is_whitespace, is_control, is_chinese_char: WordPiece.cpp:325-368. *)
Definition is_punct (c : Z) : bool :=
  ((33 <=? c) && (c <=? 47)) || ((58 <=? c) && (c <=? 64)) || ((91 <=? c) && (c <=? 96)) || ((123 <=? c) && (c <=? 126)).
Definition is_white (c : Z) : bool :=
  (c =? 32) || (c =? 9) || (c =? 10) || (c =? 13) || (c =? 160) || (c =? 5760) || ((8192 <=? c) && (c <=? 8202)) || (c =? 8239) || (c =? 8287) || (c =? 12288).
Definition is_control (c : Z) : bool := (c <? 32) || ((127 <=? c) && (c <=? 159)).
Definition is_chinese (c : Z) : bool :=
  ((19968 <=? c) && (c <=? 40959)) || ((13312 <=? c) && (c <=? 19903)) || ((131072 <=? c) && (c <=? 173791)) ||
  ((173824 <=? c) && (c <=? 177983)) || ((177984 <=? c) && (c <=? 178207)) || ((178208 <=? c) && (c <=? 183983)) ||
  ((63744 <=? c) && (c <=? 64255)) || ((194560 <=? c) && (c <=? 195103)).

(** clean_text, WordPiece.cpp:271-290. *)
Definition clean_cp (c : Z) : list Z :=
  if is_control c then if (c =? 9) || (c =? 10) || (c =? 13) then [32] else [] else [c].
Definition clean_text (s : str) : res str := do w <- utf8_decode s; utf8_encode (flat_map clean_cp w).
(** lowercase, lines 292-303. *)
Definition lower_cp (c : Z) : Z := if (65 <=? c) && (c <=? 90) then c + 32 else c.
Definition lowercase (s : str) : res str := do w <- utf8_decode s; utf8_encode (map lower_cp w).
(** tokenize_chinese_chars, lines 312-330. *)
Definition chinese_cp (c : Z) : list Z := if is_chinese c then [32; c; 32] else [c].
Definition tokenize_chinese (s : str) : res str := do w <- utf8_decode s; utf8_encode (flat_map chinese_cp w).

(** The code points of a string, each with the bytes from start_it to it. *)
Fixpoint slices_loop (fuel : nat) (s : list Z) : res (list (Z * str)) :=
  match s with
  | [] => ROk []
  | _ => match fuel with
         | O => RDiverge
         | S f => do x <- utf8_next s; do l <- slices_loop f (snd x); ROk ((fst x, firstn (length s - length (snd x)) s) :: l)
         end
  end.
Definition slices (s : str) : res (list (Z * str)) := slices_loop (length s) s.
(** current is pushed if not empty. *)
Definition flush (result : list str) (current : str) : list str := match current with [] => result | _ => result ++ [current] end.
(** split_on_punctuation, lines 383-410. *)
Fixpoint punct_loop (l : list (Z * str)) (result : list str) (current : str) : list str :=
  match l with
  | [] => flush result current
  | (c, b) :: l => if is_punct c then punct_loop l (flush result current ++ [b]) [] else punct_loop l result (current ++ b)
  end.
Definition split_punct (s : str) : res (list str) := do l <- slices s; ROk (punct_loop l [] []).
(** whitespace_tokenize, lines 412-436. *)
Fixpoint white_loop (l : list (Z * str)) (result : list str) (current : str) : list str :=
  match l with
  | [] => flush result current
  | (c, b) :: l => if is_white c then white_loop l (flush result current) [] else white_loop l result (current ++ b)
  end.
Definition split_white (s : str) : res (list str) := do l <- slices s; ROk (white_loop l [] []).

(** std::string::find(token, pos), relative to pos; the text from pos on is [s]. *)
Fixpoint search (token s : str) : option nat :=
  if starts_with token s then Some O
  else match s with [] => None | _ :: s => option_map S (search token s) end.
(** The loop over added_tokens_, lines 453-463. *)
Definition earliest_step (s : str) (best : option (nat * str)) (e : str * bool) : option (nat * str) :=
  if snd e then
    match search (fst e) s with
    | Some k => match best with
                | None => Some (k, fst e)
                | Some (k0, _) => if (k <? k0)%nat then Some (k, fst e) else best
                end
    | None => best
    end
  else best.
Definition earliest (added : list (str * bool)) (s : str) : option (nat * str) := fold_left (earliest_step s) added None.
(** split_special_tokens, lines 438-486; [s] is the text from pos on. *)
Fixpoint special_loop (fuel : nat) (added : list (str * bool)) (s : str) : res (list str) :=
  match s with
  | [] => ROk []
  | _ =>
      match fuel with
      | O => RDiverge
      | S f =>
          match earliest added s with
          | None => ROk [s]
          | Some (k, token) =>
              do r <- special_loop f added (skipn (k + length token) s);
              ROk ((match k with O => [] | _ => [firstn k s] end) ++ token :: r)
          end
      end
  end.
Definition split_special (added : list (str * bool)) (s : str) : res (list str) :=
  match added with [] => ROk [s] | _ => special_loop (S (length s)) added s end.
(** is_special_token, lines 488-491. *)
Definition special_token (t : wordpiece) (s : str) : bool := match str_find s (wp_added t) with Some b => b | None => false end.

(** basic_tokenize, lines 182-220 (strip_accents_fn returns its argument). *)
Definition basic_word (t : wordpiece) (token : str) : res (list str) :=
  do token <- (if wp_lower t then lowercase token else ROk token);
  split_punct token.
Definition basic_segment (t : wordpiece) (segment : str) : res (list str) :=
  if special_token t segment then ROk [segment]
  else do tokens <- split_white segment; do l <- rmap (basic_word t) tokens; ROk (concat l).
Definition basic_tokenize (t : wordpiece) (text : str) : res (list str) :=
  do cleaned <- clean_text text;
  do cleaned <- (if wp_chinese t then tokenize_chinese cleaned else ROk cleaned);
  do segments <- split_special (wp_added t) cleaned;
  do l <- rmap (basic_segment t) segments;
  ROk (concat l).

(** The inner loop of wordpiece_tokenize, lines 244-257: the longest piece of [s] (the text
    from start on, of which end = n bytes are tried first) in the vocabulary. *)
Definition in_vocab (t : wordpiece) (s : str) : bool := match str_find s (wp_vocab t) with Some _ => true | None => false end.
Fixpoint longest (t : wordpiece) (first : bool) (s : str) (n : nat) : option (nat * str) :=
  match n with
  | O => None
  | S m =>
      let sub := (if first then [] else wp_prefix t) ++ firstn n s in
      if in_vocab t sub then Some (n, sub) else longest t first s m
  end.
(** The outer loop, lines 239-266; None is is_bad. *)
Fixpoint piece_loop (fuel : nat) (t : wordpiece) (first : bool) (s : str) : res (option (list str)) :=
  match s with
  | [] => ROk (Some [])
  | _ =>
      match fuel with
      | O => RDiverge
      | S f =>
          match longest t first s (length s) with
          | None => ROk None
          | Some (n, sub) => do r <- piece_loop f t false (skipn n s); ROk (option_map (cons sub) r)
          end
      end
  end.
(** wordpiece_tokenize, lines 222-269. *)
Definition wordpiece_tokenize (t : wordpiece) (text : str) : res (list str) :=
  match text with
  | [] => ROk []
  | _ =>
      if wp_max t <? zlen text then ROk [wp_unk t]
      else do r <- piece_loop (length text) t true text;
           ROk (match r with None => [wp_unk t] | Some l => l end)
  end.
(** tokenize, lines 146-160; token2id, id2token, convert_tokens_to_ids: 162-180. *)
Definition wp_tokenize (t : wordpiece) (text : str) : res (list str) :=
  do l <- basic_tokenize t text; do r <- rmap (wordpiece_tokenize t) l; ROk (concat r).
Definition token2id (t : wordpiece) (s : str) : Z := match str_find s (wp_vocab t) with Some i => i | None => wp_unk_id t end.
Definition id2token (t : wordpiece) (i : Z) : str := match assoc i (wp_inverse t) with Some s => s | None => wp_unk t end.

(** initFromVocabFile, lines 16-53: one token a line (carriage returns at the end dropped); a later
    line with the same text replaces the id.  The parameters not listed have their defaults. *)
Fixpoint drop_cr (rev_line : str) : str := match rev_line with 13 :: r => drop_cr r | 10 :: r => drop_cr r | _ => rev_line end.
Definition trim (line : str) : str := rev (drop_cr (rev line)).
Definition vocab_set (k : str) (i : Z) (m : list (str * Z)) : list (str * Z) := (k, i) :: filter (fun e => negb (str_eqb (fst e) k)) m.
Fixpoint vocab_lines (lines : list str) (i : Z) (vocab : list (str * Z)) (inverse : list (Z * str)) : list (str * Z) * list (Z * str) :=
  match lines with
  | [] => (vocab, inverse)
  | l :: lines => vocab_lines lines (i + 1) (vocab_set (trim l) i vocab) ((i, trim l) :: inverse)
  end.
Definition from_vocab_file (lines : list str) (lower : bool) (unk : str) (max : Z) : wordpiece :=
  let '(v, inv) := vocab_lines lines 0 [] [] in
  mkWp v inv [] lower true max [35; 35] unk (match str_find unk v with Some i => i | None => 0 end).

(* ------------------------------------------------------------------ *)
(** ** ChatTTS: tokenization_chattts.cpp *)
Record chattts := mkChat { ct_wp : wordpiece; ct_cls : str; ct_sep : str; ct_pad : str }.
(** encode, lines 35-38. *)
Definition ct_encode (t : chattts) (s : str) : res (list Z) := do l <- wp_tokenize (ct_wp t) s; ROk (map (token2id (ct_wp t)) l).
(** The body of the loops of decode (43-56) and detokenize (66-78). *)
Definition ends_in_space (s : str) : bool := match rev s with 32 :: _ => true | _ => false end.
Definition detok_step (t : chattts) (result token : str) : str :=
  if str_eqb token (ct_cls t) || str_eqb token (ct_sep t) || str_eqb token (ct_pad t) then result
  else match token with
       | 35 :: 35 :: rest => result ++ rest
       | _ => (match result with [] => [] | _ => if ends_in_space result then result else result ++ [32] end) ++ token
       end.
Definition ct_detokenize (t : chattts) (tokens : list str) : str := fold_left (detok_step t) tokens [].
Definition ct_decode (t : chattts) (ids : list Z) : str := ct_detokenize t (map (id2token (ct_wp t)) ids).
(** build_inputs_with_special_tokens, lines 83-112; create_token_type_ids_from_sequences, 114-129. *)
Definition ct_build (t : chattts) (a : list Z) : list Z := token2id (ct_wp t) (ct_cls t) :: a ++ [token2id (ct_wp t) (ct_sep t)].
Definition ct_build2 (t : chattts) (a b : list Z) : list Z :=
  token2id (ct_wp t) (ct_cls t) :: a ++ token2id (ct_wp t) (ct_sep t) :: b ++ [token2id (ct_wp t) (ct_sep t)].
Definition ct_types (a b : list Z) : list Z :=
  match b with
  | [] => repeat 0 (1 + length a + 1)
  | _ => repeat 0 (1 + length a + 1) ++ repeat 1 (length b + 1)
  end.

(* ------------------------------------------------------------------ *)
(** ** BPE over code points and MiniCPM4 *)

(** BPEUTF8::_bpe, BPEUTF8.cpp:72-139: _bpe of BPE.cpp (TokModel.bpe) over code points instead of wide characters; a
    token without pairs is returned as it is. *)
Definition bpe_utf8 (order : list (symbol * symbol) -> list (symbol * symbol)) (merges : list (symbol * symbol)) (token : str) : res (list str) :=
  do cpts <- utf8_decode token;
  match order (get_pairs (map (fun c => [c]) cpts)) with
  | [] => ROk [token]
  | _ => do w <- bpe order merges cpts; rmap utf8_encode w
  end.
(** _lookup_vocab and _lookup_inverse_vocab, BPEUTF8.cpp:141-158; the tables hold code points. *)
Record bpeutf8 := mkBU { bu_order : list (symbol * symbol) -> list (symbol * symbol); bu_merges : list (symbol * symbol);
                         bu_vocab : list (list Z * Z); bu_inverse : list (Z * list Z) }.
Definition bu_lookup (t : bpeutf8) (token : str) : res Z :=
  do c <- utf8_decode token; ROk (match str_find c (bu_vocab t) with Some i => i | None => 0 end).
Definition bu_token (t : bpeutf8) (i : Z) : res str :=
  match assoc i (bu_inverse t) with Some c => utf8_encode c | None => ROk [] end.

(** TrieUTF8::split, AutoTokenizer.cpp:132-222: Trie::split over code points, the pieces encoded again. *)
Definition split_utf8 (x : splitter) (text : str) : res (list str) :=
  do w <- utf8_decode text; rmap utf8_encode (trie_split x w).
Definition is_special_utf8 (x : splitter) (token : str) : res bool := do w <- utf8_decode token; ROk (is_special x w).

(** normalize, tokenization_minicpm4.hpp:36-52. *)
Definition meta : str := [226; 150; 129].
Definition normalize (text : str) : str := meta ++ flat_map (fun c => if c =? 32 then meta else [c]) text.
(** tokenize, lines 86-104. *)
Definition mc_segment (t : bpeutf8) (x : splitter) (segment : str) : res (list str) :=
  do sp <- is_special_utf8 x segment;
  if sp then ROk [segment] else bpe_utf8 (bu_order t) (bu_merges t) (normalize segment).
Definition mc_tokenize (t : bpeutf8) (x : splitter) (text : str) : res (list str) :=
  do segments <- split_utf8 x text;
  do l <- rmap (mc_segment t x) segments;
  ROk (concat l).
(** encode, lines 54-60. *)
Definition mc_encode (t : bpeutf8) (x : splitter) (text : str) : res (list Z) :=
  do l <- mc_tokenize t x text; rmap (bu_lookup t) l.
(** decode_string, lines 155-176 (the same text as decode, 66-83): one leading mark is dropped, all others
    become spaces. *)
Fixpoint unmark (s : str) : str :=
  match s with
  | 226 :: 150 :: 129 :: r => 32 :: unmark r
  | c :: r => c :: unmark r
  | [] => []
  end.
Definition decode_string (s : str) : str := unmark (match s with 226 :: 150 :: 129 :: r => r | _ => s end).
Definition mc_detokenize (tokens : list str) : str := decode_string (concat tokens).
Definition mc_decode (t : bpeutf8) (ids : list Z) : res str := do l <- rmap (bu_token t) ids; ROk (decode_string (concat l)).
