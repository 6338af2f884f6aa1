(** C21-C24, C40, C41: the tokenizers. *)
From Verif Require Import Base DTypeModel ParamModel TensorModel TokModel TokSpec Utf8Proofs BpeProofs TrieProofs PretokProofs.
Local Open Scope Z_scope.

(* ------------------------------------------------------------------ *)
(** ** C21: splitting at special tokens *)

(** Whatever the set of special tokens and the text: the pieces are non-empty and
    their concatenation is the text. *)
Theorem C21_pieces_make_the_text : forall (T : list (list Z)) (text : list Z),
  let ps := trie_split (split_update split_empty T) text in
  concat ps = text /\ Forall (fun p => p <> []) ps.
Proof. intros T text. apply trie_split_concat. Qed.

(** For a token set whose tokens cannot overlap: every piece is a special token or
    contains none, plain text is not cut in two, and every occurrence of a special
    token in the text is a piece of its own at that place. *)
Theorem C21_special_tokens_isolated_partial : forall (T : list (list Z)) (text : list Z), unambiguous T ->
  let ps := trie_split (split_update split_empty T) text in
  Forall (fun p => In p T \/ plain_piece T p) ps /\
  no_two_adjacent (plain_piece T) ps /\
  (forall a t b, text = a ++ t ++ b -> In t T -> exists ps1 ps2, ps = ps1 ++ t :: ps2 /\ concat ps1 = a).
Proof. exact trie_split_clean. Qed.

(** isSpecialToken answers for exactly the words added. *)
Theorem C21_is_special : forall (T : list (list Z)) (w : list Z), w <> [] ->
  (is_special (split_update split_empty T) w = true <-> In w T).
Proof.
  intros T w H. unfold is_special. destruct (in_dec _ w _) as [K|K]; rewrite tokens_update in K by assumption; cbn [split_empty sp_tokens In] in K.
  - split; [intros _|reflexivity]. destruct K as [[]|K]; assumption.
  - split; [discriminate|]. intros J. exfalso. auto.
Qed.

(** With overlapping tokens a piece may contain a special token as a proper part, and
    may fail to be one: with the tokens "abcd" and "b", the text "abXcd" comes back as a
    single piece although "b" occurs in it. *)
Theorem C21_overlapping_tokens_refuted :
  exists T text, ~ Forall (fun p => In p T \/ plain_piece T p) (trie_split (split_update split_empty T) text).
Proof.
  exists [[97; 98; 99; 100]; [98]], [97; 98; 88; 99; 100].
  replace (trie_split _ _) with [[97; 98; 88; 99; 100]] by (vm_compute; reflexivity).
  intros H. inversion H as [|? ? H1 _]; subst. destruct H1 as [H1|[_ H1]].
  - repeat destruct H1 as [H1|H1]; try discriminate. destruct H1.
  - apply (H1 [98]); [right; left; reflexivity|]. exists [97], [88; 99; 100]. reflexivity.
Qed.
(** And a piece boundary may fall inside a special token: with "abcd", "abcdeX" and
    "b", the text "abcdef" is cut after "ab". *)
Theorem C21_token_cut_refuted :
  exists T text a t b, text = a ++ t ++ b /\ In t T /\ ~ In t (trie_split (split_update split_empty T) text) /\
    exists p q, trie_split (split_update split_empty T) text = [p; q] /\ (length a < length p < length a + length t)%nat.
Proof.
  exists [[97; 98; 99; 100]; [97; 98; 99; 100; 101; 88]; [98]], [97; 98; 99; 100; 101; 102], [], [97; 98; 99; 100], [101; 102].
  replace (trie_split _ _) with [[97; 98]; [99; 100; 101; 102]] by (vm_compute; reflexivity).
  split; [reflexivity|]. split; [left; reflexivity|]. split.
  - intros [H|[H|[]]]; discriminate.
  - exists [97; 98], [99; 100; 101; 102]. split; [reflexivity|]. cbn [length]. lia.
Qed.

(** The special tokens of the Qwen3 tokenizer (tokenization_qwen3.hpp:165-181). *)
Definition qwen3_tokens : list (list Z) :=
  [[60; 124; 101; 110; 100; 111; 102; 116; 101; 120; 116; 124; 62];
   [60; 124; 105; 109; 95; 115; 116; 97; 114; 116; 124; 62];
   [60; 124; 105; 109; 95; 101; 110; 100; 124; 62];
   [60; 124; 111; 98; 106; 101; 99; 116; 95; 114; 101; 102; 95; 115; 116; 97; 114; 116; 124; 62];
   [60; 124; 111; 98; 106; 101; 99; 116; 95; 114; 101; 102; 95; 101; 110; 100; 124; 62];
   [60; 124; 98; 111; 120; 95; 115; 116; 97; 114; 116; 124; 62];
   [60; 124; 98; 111; 120; 95; 101; 110; 100; 124; 62];
   [60; 124; 113; 117; 97; 100; 95; 115; 116; 97; 114; 116; 124; 62];
   [60; 124; 113; 117; 97; 100; 95; 101; 110; 100; 124; 62];
   [60; 124; 118; 105; 115; 105; 111; 110; 95; 115; 116; 97; 114; 116; 124; 62];
   [60; 124; 118; 105; 115; 105; 111; 110; 95; 101; 110; 100; 124; 62];
   [60; 124; 118; 105; 115; 105; 111; 110; 95; 112; 97; 100; 124; 62];
   [60; 124; 105; 109; 97; 103; 101; 95; 112; 97; 100; 124; 62];
   [60; 124; 118; 105; 100; 101; 111; 95; 112; 97; 100; 124; 62];
   [60; 116; 104; 105; 110; 107; 62];
   [60; 47; 116; 104; 105; 110; 107; 62]].
Definition unambiguous_check (T : list (list Z)) : bool :=
  forallb (fun t => match t with [] => false | c :: r =>
    forallb (fun u => (if list_eq_dec Z.eq_dec t u then true else negb (starts_with t u)) &&
                      negb (existsb (Z.eqb c) (tl u))) T end) T.
Lemma starts_with_prefix : forall p l, is_prefix p l -> starts_with p l = true.
Proof. induction p as [|x p IH]; intros l [r H]; [reflexivity|]. subst. cbn [app starts_with]. rewrite Z.eqb_refl. cbn [andb]. apply IH. exists r. reflexivity. Qed.
Lemma unambiguous_checked T : unambiguous_check T = true -> unambiguous T.
Proof.
  unfold unambiguous_check. rewrite forallb_forall. intros H. split; [|split].
  - intros t Ht ->. apply H in Ht. discriminate.
  - intros t u Ht Hu P. specialize (H t Ht). destruct t as [|c r]; [discriminate|]. rewrite forallb_forall in H. specialize (H u Hu).
    apply andb_prop in H as [H _]. destruct (list_eq_dec Z.eq_dec (c :: r) u); [assumption|]. rewrite (starts_with_prefix _ _ P) in H. discriminate.
  - intros c r d u Ht Hu Hc. specialize (H _ Ht). cbv beta iota in H. rewrite forallb_forall in H. specialize (H _ Hu). apply andb_prop in H as [_ H].
    apply negb_true_iff in H. cbn [tl] in H. assert (existsb (Z.eqb c) u = true); [|congruence]. apply existsb_exists. exists c. split; [assumption|lia].
Qed.
Theorem C21_qwen3_tokens_unambiguous : unambiguous qwen3_tokens.
Proof. apply unambiguous_checked. vm_compute. reflexivity. Qed.
(** "a<|im_end|><b<think>" *)
Example C21_example : trie_split (split_update split_empty qwen3_tokens)
    ([97] ++ [60; 124; 105; 109; 95; 101; 110; 100; 124; 62] ++ [60; 98] ++ [60; 116; 104; 105; 110; 107; 62])
  = [[97]; [60; 124; 105; 109; 95; 101; 110; 100; 124; 62]; [60; 98]; [60; 116; 104; 105; 110; 107; 62]].
Proof. vm_compute. reflexivity. Qed.

(* ------------------------------------------------------------------ *)
(** ** C22: byte pair encoding *)

(** For every merge list and word, and whatever order the hash set of pairs is walked
    in: encoding ends; the result comes from the single characters by rounds that each
    join all (left to right, non-overlapping) occurrences of the neighbouring pair of
    least rank; no neighbouring pair of the result has a rank; the pieces make up the
    word. *)
Theorem C22_encode : forall order merges word,
  Z.of_nat (length merges) <= 2 ^ 63 - 1 -> (forall ps p, In p (order ps) <-> In p ps) -> word <> [] ->
  exists w, bpe order merges word = ROk w /\
    bpe_rounds merges (map (fun c => [c]) word) w /\
    (forall x y n, neighbours x y w -> ~ has_rank merges (x, y) n) /\
    concat w = word.
Proof.
  intros order merges word Hl Ho Hw. destruct (bpe_ok order merges word Hl Ho Hw) as [w [E [R F]]].
  exists w. split; [assumption|]. split; [assumption|]. split; [assumption|]. rewrite (rounds_concat _ _ _ R). apply concat_singletons.
Qed.
(** The rules leave no choice: any way of applying them to the end gives this result,
    which therefore does not depend on the order in which the pairs are visited. *)
Theorem C22_result_unique : forall order merges word w',
  Z.of_nat (length merges) <= 2 ^ 63 - 1 -> (forall ps p, In p (order ps) <-> In p ps) -> word <> [] ->
  bpe_rounds merges (map (fun c => [c]) word) w' -> (forall x y n, neighbours x y w' -> ~ has_rank merges (x, y) n) ->
  bpe order merges word = ROk w'.
Proof.
  intros order merges word w' Hl Ho Hw R F. destruct (bpe_ok order merges word Hl Ho Hw) as [w [E [R' F']]].
  rewrite E. f_equal. eapply rounds_fun; eauto.
Qed.
Theorem C22_order_irrelevant : forall order order' merges word,
  Z.of_nat (length merges) <= 2 ^ 63 - 1 -> (forall ps p, In p (order ps) <-> In p ps) -> (forall ps p, In p (order' ps) <-> In p ps) ->
  bpe order merges word = bpe order' merges word.
Proof.
  intros order order' merges word Hl Ho Ho'. destruct word as [|c word].
  - assert (E : forall o, (forall ps p, In p (o ps) <-> In p ps) -> o (@nil (symbol * symbol)) = []).
    { intros o H. destruct (o []) as [|p l] eqn:E; [reflexivity|]. exfalso. apply (H [] p). rewrite E. left. reflexivity. }
    unfold bpe. cbn [map get_pairs]. rewrite (E order Ho), (E order' Ho'). reflexivity.
  - destruct (bpe_ok order' merges (c :: word) Hl Ho' ltac:(discriminate)) as [w [E [R F]]]. rewrite E.
    apply C22_result_unique; auto. discriminate.
Qed.
(** The empty word is encoded as one empty piece. *)
Theorem C22_empty_word : forall order merges, order [] = [] -> bpe order merges [] = ROk [[]].
Proof. intros order merges H. unfold bpe. cbn [map get_pairs]. rewrite H. reflexivity. Qed.
(** "aaab" with the merges (a,a), (aa,ab), (a,b): (a,a) first, then (a,b); (aa,ab) then applies. *)
Example C22_example : bpe (fun ps => rev ps) [([97], [97]); ([97; 97], [97; 98]); ([97], [98])] [97; 97; 97; 98] = ROk [[97; 97; 97; 98]].
Proof. vm_compute. reflexivity. Qed.
Example C22_example_left : bpe (fun ps => ps) [([97], [97])] [97; 97; 97; 98] = ROk [[97; 97]; [97]; [98]].
Proof. vm_compute. reflexivity. Qed.

(* ------------------------------------------------------------------ *)
(** ** C23: UTF-8 *)

(** Encoding produces the UTF-8 of RFC 3629 for every code point. *)
Theorem C23_encode : forall w, Forall code_point w -> wide_to_utf8 w = utf8_text w.
Proof. exact wide_to_utf8_ok. Qed.
Theorem C23_decode : forall w, Forall code_point w -> utf8_to_wide (utf8_text w) = ROk w.
Proof. exact decode_ok. Qed.
Theorem C23_round_trip : forall w, Forall code_point w -> utf8_to_wide (wide_to_utf8 w) = ROk w.
Proof. intros w H. rewrite wide_to_utf8_ok by assumption. apply decode_ok. assumption. Qed.
Theorem C23_round_trip_bytes : forall s, well_formed s -> exists w, utf8_to_wide s = ROk w /\ wide_to_utf8 w = s.
Proof. intros s [w [H ->]]. exists w. split; [apply decode_ok; assumption|apply wide_to_utf8_ok; assumption]. Qed.
(** No byte string whatever makes the decoder read outside the string or run on. *)
Theorem C23_decoder_total : forall s, exists w, utf8_to_wide s = ROk w /\ (length w <= length s)%nat.
Proof. exact utf8_to_wide_total. Qed.
(** Distinct texts have distinct encodings. *)
Theorem C23_encode_injective : forall w w', Forall code_point w -> Forall code_point w' -> wide_to_utf8 w = wide_to_utf8 w' -> w = w'.
Proof. intros w w' H H' E. apply C23_round_trip in H, H'. rewrite E in H. rewrite H in H'. injection H'. auto. Qed.
(** Ill-formed input is not reported: a character cut off by the end of the input
    vanishes (what happens to a multi-byte character arriving in two chunks) ... *)
Theorem C23_cut_character_refuted : forall w c k, Forall code_point w -> code_point c -> (0 < k < length (utf8_of c))%nat ->
  utf8_to_wide (utf8_text w ++ firstn k (utf8_of c)) = ROk w.
Proof. exact decode_cut. Qed.
(** ... an overlong form is taken for the character it spells, a continuation byte is
    not checked, and a value above U+10FFFF is dropped on the way back. *)
Theorem C23_ill_formed_refuted :
  (exists s w, ~ well_formed s /\ utf8_to_wide s = ROk w /\ Forall code_point w /\ wide_to_utf8 w <> s) /\
  (exists s c, ~ code_point c /\ utf8_to_wide s = ROk [c] /\ wide_to_utf8 [c] = []).
Proof.
  split.
  - exists [192; 128], [0]. split; [|split; [vm_compute; reflexivity|split; [repeat constructor; unfold code_point; lia|vm_compute; discriminate]]].
    intros [w [H E]]. assert (K : utf8_to_wide [192; 128] = ROk w) by (rewrite E; apply decode_ok; assumption).
    replace (utf8_to_wide [192; 128]) with (ROk [0]) in K by (vm_compute; reflexivity). injection K as <-. discriminate.
  - exists [247; 191; 191; 191], 2097151. split; [unfold code_point; lia|]. split; vm_compute; reflexivity.
Qed.
(** "é€" and a four-byte character *)
Example C23_example : Forall code_point [233; 8364; 128512] /\ wide_to_utf8 [233; 8364; 128512] = [195; 169; 226; 130; 172; 240; 159; 152; 128].
Proof. split; [repeat constructor; unfold code_point; lia|vm_compute; reflexivity]. Qed.

(* ------------------------------------------------------------------ *)
(** ** C24: the byte-level alphabet *)
Theorem C24_total : forall b, is_byte b -> exists c, assoc b byte_dict = Some c /\ 33 <= c <= 323.
Proof. exact dict_total. Qed.
Theorem C24_injective : forall b b' c, is_byte b -> is_byte b' -> assoc b byte_dict = Some c -> assoc b' byte_dict = Some c -> b = b'.
Proof.
  intros b b' c H H' E E'. apply dict_inj; try assumption. rewrite (lookup_byte b H) in E. rewrite (lookup_byte b' H') in E'. congruence.
Qed.
(** The inverse table, whatever order the hash map is walked in, takes every byte
    back. *)
Theorem C24_inverse : forall entries b, Permutation entries byte_dict -> is_byte b ->
  lookup0 (inverse_dict entries) (lookup0 byte_dict b) = b.
Proof. exact inverse_ok. Qed.
(** Printable ASCII stands for itself; no code is a space or a control character. *)
Theorem C24_printable : forall b, 33 <= b <= 126 -> assoc b byte_dict = Some b.
Proof. intros b H. rewrite lookup_byte by (unfold is_byte; lia). rewrite (dict_ascii (fun _ => true) (fun _ => true) (fun _ => true)); auto. Qed.
Example C24_example : assoc 32 byte_dict = Some 288 /\ assoc 10 byte_dict = Some 266 /\ assoc 173 byte_dict = Some 323.
Proof. vm_compute. auto. Qed.

(* ------------------------------------------------------------------ *)
(** ** C40: the tokenizer loses nothing *)

(** The pre-tokenizer's pieces make up the text, for any letter, digit and white-space
    classes in which the space is white space. *)
Theorem C40_pretokenize : forall L D S w, S 32 = true -> Forall code_point w ->
  exists ps, pretok L D S (utf8_text w) = ROk ps /\ concat ps = w /\ Forall (fun p => p <> []) ps.
Proof.
  intros L D S w H32 H. unfold pretok. rewrite decode_ok by assumption. cbn [rbind]. apply pretok_ok; [assumption|lia].
Qed.
(** Tokenizing UTF-8 text ends normally, and the tokens, in order, stand for exactly
    the bytes of the text: a special token for its own UTF-8, another for the bytes its
    characters encode. *)
Theorem C40_tokenize : forall L D S t w, ready t -> S 32 = true -> Forall code_point w ->
  exists parts : list (bool * symbol), tokenize L D S t (utf8_text w) = ROk (map snd parts) /\
    Forall (fun x : bool * symbol => fst x = true -> is_special (tk_special t) (snd x) = true) parts /\
    concat (map (fun x : bool * symbol => if fst x then utf8_text (snd x) else map (lookup0 (tk_inverse t)) (snd x)) parts) = utf8_text w.
Proof. exact tokenize_ok. Qed.
(** If every token produced is in the vocabulary, and ids are unique, then the bytes
    that the ids decode to are the text's. *)
Theorem C40_ids_partial : forall L D S t w, ready t -> S 32 = true -> Forall code_point w ->
  (forall s, is_special (tk_special t) s = true -> Forall plain_ascii s) ->
  NoDup (map snd (tk_vocab t)) ->
  (forall ts s, tokenize L D S t (utf8_text w) = ROk ts -> In s ts -> In s (map fst (tk_vocab t))) ->
  exists ts, tokenize L D S t (utf8_text w) = ROk ts /\
    concat (map (detok_bytes t) (map (lookup_vocab t) ts)) = utf8_text w.
Proof. exact ids_ok. Qed.

(** A tokenizer with no merges and a vocabulary of the 256 byte symbols. *)
Definition byte_tokenizer : tokenizer :=
  mkTok (split_update split_empty qwen3_tokens) byte_dict (inverse_dict byte_dict) (fun ps => ps) []
    (map (fun e => ([snd e], fst e)) byte_dict).
Lemma byte_tokenizer_ready : ready byte_tokenizer.
Proof.
  split; [reflexivity|]. split; [exists byte_dict; split; [apply Permutation_refl|reflexivity]|]. split; [reflexivity|].
  cbn [tk_merges byte_tokenizer length]. vm_compute. discriminate.
Qed.
Definition ascii_letter (c : Z) : bool := ((65 <=? c) && (c <=? 90)) || ((97 <=? c) && (c <=? 122)).
Definition ascii_digit (c : Z) : bool := (48 <=? c) && (c <=? 57).
Definition ascii_space (c : Z) : bool := (c =? 32) || ((9 <=? c) && (c <=? 13)).
(** "it's\n<think>" *)
Example C40_example : tokenize ascii_letter ascii_digit ascii_space byte_tokenizer ([105; 116; 39; 115; 10] ++ [60; 116; 104; 105; 110; 107; 62])
  = ROk ([[105]; [116]; [39]; [115]; [266]] ++ [[60; 116; 104; 105; 110; 107; 62]]).
Proof. vm_compute. reflexivity. Qed.
(** Decoding the ids one at a time, as the chat loop does, loses characters whose
    bytes fall into different tokens: "é" disappears. *)
Theorem C40_detokenize_refuted : exists L D S t w ts, ready t /\ S 32 = true /\ Forall code_point w /\ w <> [] /\
  tokenize L D S t (utf8_text w) = ROk ts /\ (forall s, In s ts -> In s (map fst (tk_vocab t))) /\
  rmap (detokenize t) (map (lookup_vocab t) ts) = ROk [[]; []].
Proof.
  exists ascii_letter, ascii_digit, ascii_space, byte_tokenizer, [233], [[195]; [169]].
  split; [apply byte_tokenizer_ready|]. split; [reflexivity|]. split; [repeat constructor; unfold code_point; lia|]. split; [discriminate|].
  split; [vm_compute; reflexivity|]. split; [|vm_compute; reflexivity].
  assert (K : forall s, existsb (sym_eqb s) (map fst (tk_vocab byte_tokenizer)) = true -> In s (map fst (tk_vocab byte_tokenizer))).
  { intros s H. apply existsb_exists in H as [x [H1 H2]]. apply sym_eqb_eq in H2. rewrite H2. exact H1. }
  intros s [<-|[<-|[]]]; apply K; vm_compute; reflexivity.
Qed.
(** A token missing from the vocabulary silently becomes id 0, which decodes to
    another token. *)
Theorem C40_unknown_token_refuted : exists t s s', ~ In s (map fst (tk_vocab t)) /\ s <> s' /\ lookup_vocab t s = lookup_vocab t s' /\ lookup_token t (lookup_vocab t s) = s'.
Proof.
  exists (mkTok split_empty [] [] (fun ps => ps) [] [([97], 0)]), [98], [97]. split; [intros [H|[]]; discriminate|]. split; [discriminate|].
  split; reflexivity.
Qed.

(* ------------------------------------------------------------------ *)
(** ** C41: the pre-tokenizer and its pattern *)

(** At a position that starts neither an upper-case contraction nor a run of two or
    more white-space characters the hand-written matcher takes what the pattern
    takes. *)
Theorem C41_pattern_partial : forall L D S str, S 32 = true -> (forall c, newline c = true -> S c = true) ->
  (forall a r, str = 39 :: a :: r -> lower a = a) -> (forall a b r, str = 39 :: a :: b :: r -> lower b = b) ->
  (forall a b r, str = a :: b :: r -> S a && S b = false) ->
  match match_pattern L D S str with Some (m, _) => Some m | None => None end = pattern_match L D S str.
Proof.
  intros L D S str H1 H2 H3 H4 H5. rewrite <- (match_agrees L D S str H1 H2 H3 H4 H5). unfold front. destruct (match_pattern L D S str) as [[m r]|]; reflexivity.
Qed.
(** In a run of spaces before a word the pattern leaves the last one for the word; the
    matcher does not.  Line breaks inside white space and upper-case contractions also
    come out differently. *)
Theorem C41_pattern_refuted :
  (exists str, match_pattern ascii_letter ascii_digit ascii_space str = Some ([32; 32], [98]) /\ pattern_match ascii_letter ascii_digit ascii_space str = Some [32]) /\
  (exists str, match_pattern ascii_letter ascii_digit ascii_space str = Some ([10; 32], [98]) /\ pattern_match ascii_letter ascii_digit ascii_space str = Some [10]) /\
  (exists str, match_pattern ascii_letter ascii_digit ascii_space str = Some ([39; 83; 97], []) /\ pattern_match ascii_letter ascii_digit ascii_space str = Some [39; 83]).
Proof.
  split; [exists [32; 32; 98]|split; [exists [10; 32; 98]|exists [39; 83; 97]]]; split; vm_compute; reflexivity.
Qed.
Example C41_example : match_pattern ascii_letter ascii_digit ascii_space [32; 97; 98; 49] = Some ([32; 97; 98], [49]) /\
  pattern_match ascii_letter ascii_digit ascii_space [32; 97; 98; 49] = Some [32; 97; 98].
Proof. split; vm_compute; reflexivity. Qed.
Print Assumptions C21_pieces_make_the_text.
Print Assumptions C21_special_tokens_isolated_partial.
Print Assumptions C21_is_special.
Print Assumptions C21_overlapping_tokens_refuted.
Print Assumptions C21_token_cut_refuted.
Print Assumptions C21_qwen3_tokens_unambiguous.
Print Assumptions C22_encode.
Print Assumptions C22_result_unique.
Print Assumptions C22_order_irrelevant.
Print Assumptions C22_empty_word.
Print Assumptions C23_encode.
Print Assumptions C23_decode.
Print Assumptions C23_round_trip.
Print Assumptions C23_round_trip_bytes.
Print Assumptions C23_decoder_total.
Print Assumptions C23_encode_injective.
Print Assumptions C23_cut_character_refuted.
Print Assumptions C23_ill_formed_refuted.
Print Assumptions C24_total.
Print Assumptions C24_injective.
Print Assumptions C24_inverse.
Print Assumptions C24_printable.
Print Assumptions C40_pretokenize.
Print Assumptions C40_tokenize.
Print Assumptions C40_ids_partial.
Print Assumptions C40_detokenize_refuted.
Print Assumptions C40_unknown_token_refuted.
Print Assumptions C41_pattern_partial.
Print Assumptions C41_pattern_refuted.
