(** Theorems C85-C89: validated UTF-8, WordPiece, ChatTTS, MiniCPM4. *)
From Verif Require Import Base DTypeModel ParamModel TensorModel TokModel TokSpec Utf8Proofs TrieProofs BpeProofs WpModel WpSpec WpUtf8 WpGreedy WpBasic WpChat WpMini PropertiesTok.
Local Open Scope Z_scope.

(* ------------------------------------------------------------------ *)
(** ** C85: UTF-8 is accepted exactly when valid *)
Theorem C85_decode : forall w, Forall scalar w -> utf8_decode (utf8_text w) = ROk w.
Proof. exact decode_text. Qed.
Theorem C85_encode : forall w, Forall scalar w -> utf8_encode w = ROk (utf8_text w).
Proof. exact encode_text. Qed.
Theorem C85_exact : forall s, Forall is_byte s ->
  (valid_utf8 s -> exists w, utf8_decode s = ROk w /\ utf8_encode w = ROk s) /\ (~ valid_utf8 s -> utf8_decode s = RAbort).
Proof.
  intros s B. split.
  - intros (w & S & ->). exists w. split; [apply decode_text, S|apply encode_text, S].
  - intro N. destruct (decode_total s B) as [(w & E)|E]; [|exact E]. exfalso. apply N. exists w. exact (decode_inv s w B E).
Qed.
(** Code points that are no characters are refused. *)
Theorem C85_no_scalar : forall c w, 0 <= c -> ~ scalar c -> Forall scalar w -> utf8_encode (w ++ [c]) = RAbort.
Proof.
  intros c w P N. induction 1 as [|d w S _ IH]; cbn [app utf8_encode].
  - unfold utf8_append. destruct (cp_valid c) eqn:V; [apply (scalar_valid c P) in V; contradiction|reflexivity].
  - rewrite append_ok by exact S. cbn [rbind]. rewrite IH. reflexivity.
Qed.
(** A character occurs in a text only where it was put: searching bytes is searching characters. *)
Theorem C85_search : forall t w a b, Forall scalar t -> t <> [] -> Forall scalar w -> utf8_text w = a ++ utf8_text t ++ b ->
  exists u v, w = u ++ t ++ v /\ a = utf8_text u /\ b = utf8_text v.
Proof. intros t w a b S N W E. exact (occurs_text t S N w a b W E). Qed.
Example C85_overlong : utf8_decode [192; 175] = RAbort /\ utf8_decode [237; 160; 128] = RAbort /\ utf8_decode [226; 130] = RAbort /\ utf8_decode [244; 144; 128; 128] = RAbort /\ utf8_decode [226; 130; 172] = ROk [8364].
Proof. vm_compute. auto. Qed.
Lemma C85_hypotheses : Forall scalar [97; 233; 8364; 128512] /\ utf8_text [97; 233; 8364; 128512] = [97; 195; 169; 226; 130; 172; 240; 159; 152; 128].
Proof. split; [|reflexivity]. repeat (apply Forall_cons; [unfold scalar; lia|]). constructor. Qed.

(* ------------------------------------------------------------------ *)
(** ** C86: one word is cut greedily *)
Definition in_vocabulary (t : wordpiece) (s : list Z) : Prop := In s (map fst (wp_vocab t)).
(** The tokens of a word are its greedy segmentation; if there is none, or the word is too long,
    the unknown token.  There is at most one greedy segmentation. *)
Theorem C86_greedy : forall t word, zlen word <= wp_max t ->
  exists r, wordpiece_tokenize t word = ROk r /\
    (greedy (in_vocabulary t) (wp_prefix t) true word r \/ (forall ps, ~ greedy (in_vocabulary t) (wp_prefix t) true word ps) /\ r = [wp_unk t]).
Proof. intros t word L. destruct (wordpiece_spec t word) as (r & E & S & _). exists r. split; [exact E|]. apply S. left. exact L. Qed.
Theorem C86_long : forall t word, wp_max t < zlen word -> word <> [] -> wordpiece_tokenize t word = ROk [wp_unk t].
Proof. intros t word L N. destruct (wordpiece_spec t word) as (r & E & _ & S). rewrite E, (S L N). reflexivity. Qed.
Theorem C86_unique : forall t first word ps qs, greedy (in_vocabulary t) (wp_prefix t) first word ps -> greedy (in_vocabulary t) (wp_prefix t) first word qs -> ps = qs.
Proof. intros t first word ps qs. apply greedy_fun. Qed.
(** The pieces make up the word, and cut it between characters. *)
Theorem C86_pieces : forall t word ps, greedy (in_vocabulary t) (wp_prefix t) true word ps -> valid_utf8 word ->
  (forall v, in_vocabulary t v -> valid_utf8 v) -> Forall (fun c => 0 <= c < 128) (wp_prefix t) ->
  Forall (in_vocabulary t) ps /\
  exists ls, concat ls = word /\ Forall (fun l => l <> [] /\ valid_utf8 l) ls /\ ps = match ls with [] => [] | l :: r => l :: map (app (wp_prefix t)) r end.
Proof.
  intros t word ps G VW VV PA. split; [exact (greedy_vocab _ _ _ _ _ G)|]. destruct (greedy_chars t true word ps VV PA G VW) as (ls & A & B & C). exists ls. split; [exact A|]. split; [exact B|]. exact C.
Qed.
(** A vocabulary file: the token on line n has id n, and id n is that token. *)
Theorem C86_vocab_file : forall lines lower unk max n l, NoDup (map trim lines) -> nth_error lines n = Some l ->
  token2id (from_vocab_file lines lower unk max) (trim l) = Z.of_nat n /\ id2token (from_vocab_file lines lower unk max) (Z.of_nat n) = trim l.
Proof.
  intros lines lower unk max n l N H. destruct (lines_ids lines 0 [] [] n l N H) as [A B]. unfold from_vocab_file. destruct (vocab_lines lines 0 [] []) as [v inv]. cbn [fst snd] in A, B. unfold token2id, id2token. cbn [wp_vocab wp_inverse wp_unk_id wp_unk].
  change (0 + Z.of_nat n) with (Z.of_nat n) in *. rewrite A, B. split; reflexivity.
Qed.
(** The limit counts bytes, not characters: three characters are too long for a limit of five. *)
Theorem C86_max_refuted : exists t w, Forall scalar w /\ zlen w <= wp_max t /\ in_vocabulary t (utf8_text w) /\ wordpiece_tokenize t (utf8_text w) = ROk [wp_unk t] /\ wp_unk t <> utf8_text w.
Proof.
  exists (mkWp [(utf8_text [8364; 8364; 8364], 1)] [] [] true true 5 [35; 35] [91; 85; 93] 0), [8364; 8364; 8364].
  split; [repeat (apply Forall_cons; [unfold scalar; lia|]); constructor|]. split; [vm_compute; discriminate|]. split; [left; reflexivity|]. split; [reflexivity|vm_compute; discriminate].
Qed.
(** "unable" with the vocabulary un, unab, ##le, ##l: greedy takes "unab". *)
Definition ex_vocab : list (str * Z) := [([117; 110], 1); ([117; 110; 97; 98], 2); ([35; 35; 108; 101], 3); ([35; 35; 108], 4); ([35; 35; 97; 98], 5); ([91; 85; 93], 0); ([33], 6)].
Definition ex_wp (added : list (str * bool)) : wordpiece := mkWp ex_vocab (map (fun e => (snd e, fst e)) ex_vocab) added true true 200 [35; 35] [91; 85; 93] 0.
Example C86_example : wordpiece_tokenize (ex_wp []) [117; 110; 97; 98; 108; 101] = ROk [[117; 110; 97; 98]; [35; 35; 108; 101]] /\
  wordpiece_tokenize (ex_wp []) [117; 110; 120] = ROk [[91; 85; 93]].
Proof. vm_compute. auto. Qed.

(* ------------------------------------------------------------------ *)
(** ** C87: the words of a text *)
(** The special tokens are found from the left in the cleaned text; the rest is cut into words. *)
Theorem C87_words : forall t T w, NoDup (map fst (wp_added t)) -> specials (wp_added t) T -> Forall scalar w ->
  exists segs, leftmost T (cleaned (wp_chinese t) w) segs /\
    basic_tokenize t (utf8_text w) = ROk (flat_map (fun p => if listed T p then [utf8_text p] else map utf8_text (plain_words (wp_lower t) false p)) segs).
Proof.
  intros t T w N S W. destruct (basic_ok t T w N S W) as (segs & L & _ & E). exists segs. split; [exact L|]. rewrite E. f_equal. apply flat_map_ext. intro p. unfold plain_part, listed. destruct (in_dec _ p T); reflexivity.
Qed.
(** What the segments are. *)
Theorem C87_segments : forall T w segs, ~ In [] T -> leftmost T w segs ->
  concat segs = w /\ Forall (fun p => In p T \/ plain_piece T p) segs /\ no_two_adjacent (plain_piece T) segs.
Proof. intros T w segs N L. destruct (leftmost_pieces T w segs N L) as [A B]. split; [exact (leftmost_concat T w segs L)|auto]. Qed.
(** A text without special tokens. *)
Theorem C87_plain : forall t T w, NoDup (map fst (wp_added t)) -> specials (wp_added t) T -> Forall scalar w ->
  (forall u, In u T -> ~ occurs_in u (cleaned (wp_chinese t) w)) ->
  basic_tokenize t (utf8_text w) = ROk (map utf8_text (plain_words (wp_lower t) (wp_chinese t) w)).
Proof. exact basic_plain_free. Qed.
(** Words have no blanks, and punctuation stands alone. *)
Theorem C87_word_shape : forall lower chinese w x, Forall scalar w -> In x (plain_words lower chinese w) ->
  x <> [] /\ ~ In 32 x /\ ((exists c, x = [c]) \/ forall c, In c x -> punctuation c = false).
Proof.
  intros lower chinese w x S H. pose proof (words_proper lower chinese w S) as F. rewrite Forall_forall in F. destruct (F x H) as (A & B & _ & [C|C]); (split; [exact A|]); (split; [exact B|]); [left; exact C|right].
  intros c Hc. rewrite Forall_forall in C. rewrite <- punct_eq. apply C, Hc.
Qed.
(** Text that is no UTF-8 is refused. *)
Theorem C87_invalid : forall t s, Forall is_byte s -> ~ valid_utf8 s -> basic_tokenize t s = RAbort.
Proof. intros t s B N. unfold basic_tokenize, clean_text. rewrite (proj2 (C85_exact s B) N). reflexivity. Qed.
(** If no special token begins another, the order in which the hash table lists them does not matter. *)
Theorem C87_order : forall t added T w, NoDup (map fst (wp_added t)) -> specials (wp_added t) T -> Permutation (wp_added t) added -> prefix_free T -> Forall scalar w ->
  basic_tokenize t (utf8_text w) = basic_tokenize (mkWp (wp_vocab t) (wp_inverse t) added (wp_lower t) (wp_chinese t) (wp_max t) (wp_prefix t) (wp_unk t) (wp_unk_id t)) (utf8_text w).
Proof.
  intros t added T w N S P PF W. set (t' := mkWp _ _ added _ _ _ _ _ _).
  assert (N' : NoDup (map fst (wp_added t'))) by (apply (Permutation_NoDup (Permutation_map fst P)), N).
  assert (S' : specials (wp_added t') T). { destruct S as [S1 S2]. split; [exact S1|]. intro s. rewrite <- S2. cbn [t' wp_added]. split; apply Permutation_in; [symmetry|]; exact P. }
  destruct (C87_words t T w N S W) as (s1 & L1 & E1). destruct (C87_words t' T w N' S' W) as (s2 & L2 & E2). rewrite E1, E2. cbn [t' wp_lower wp_chinese] in *.
  assert (NT : ~ In [] T) by (destruct S as [S1 _]; rewrite Forall_forall in S1; intro H; destruct (S1 [] H); congruence).
  rewrite (leftmost_fun T _ s1 NT PF L1 s2 L2). reflexivity.
Qed.
(** Otherwise it does: with the special tokens "<a" and "<a>", the text "<a>" is one token or two. *)
Theorem C87_order_refuted : exists t added w, NoDup (map fst (wp_added t)) /\ Permutation (wp_added t) added /\ Forall scalar w /\
  basic_tokenize t (utf8_text w) = ROk [[60; 97; 62]] /\
  basic_tokenize (mkWp (wp_vocab t) (wp_inverse t) added (wp_lower t) (wp_chinese t) (wp_max t) (wp_prefix t) (wp_unk t) (wp_unk_id t)) (utf8_text w) = ROk [[60; 97]; [62]].
Proof.
  exists (ex_wp [([60; 97; 62], true); ([60; 97], true)]), [([60; 97], true); ([60; 97; 62], true)], [60; 97; 62].
  split; [apply NoDup_cons; [intros [H|[]]; discriminate|apply NoDup_cons; [intros []|constructor]]|]. split; [apply perm_swap|]. split; [repeat (apply Forall_cons; [unfold scalar; lia|]); constructor|]. split; vm_compute; reflexivity.
Qed.
(** An empty special token: the search never ends. *)
Theorem C87_empty_special_refuted : forall fuel, special_loop fuel [([], true)] [97] = RDiverge.
Proof. induction fuel as [|f IH]; [reflexivity|]. cbn [special_loop]. change (earliest [([], true)] [97]) with (Some (0%nat, @nil Z)). cbn [length Nat.add skipn]. rewrite IH. reflexivity. Qed.
(** A special token with an ideograph or a tab in it is never found: cleaning comes first. *)
Theorem C87_special_lost_refuted : exists t w, specials (wp_added t) [w] /\ NoDup (map fst (wp_added t)) /\
  basic_tokenize t (utf8_text w) = ROk [utf8_text [91]; utf8_text [0x4E2D]; utf8_text [93]].
Proof.
  exists (ex_wp [(utf8_text [91; 0x4E2D; 93], true)]), [91; 0x4E2D; 93]. split; [|split].
  - split; [apply Forall_cons; [|constructor]; split; [discriminate|repeat (apply Forall_cons; [unfold scalar; lia|]); constructor]|]. intro s. split.
    + intros [H|[]]. injection H as <-. exists [91; 0x4E2D; 93]. split; [left|]; reflexivity.
    + intros (c & [<-|[]] & ->). left. reflexivity.
  - apply NoDup_cons; [intros []|constructor].
  - vm_compute. reflexivity.
Qed.
(** "Un,<s>" , tab, "AB" with the special token "<s>": un "," "<s>" ab. *)
Example C87_example : basic_tokenize (ex_wp [([60; 115; 62], true)]) [85; 110; 44; 60; 115; 62; 9; 65; 66] = ROk [[117; 110]; [44]; [60; 115; 62]; [97; 98]] /\
  plain_words true true [85; 110; 44; 9; 65; 0x4E2D; 7; 66] = [[117; 110]; [44]; [97]; [0x4E2D]; [98]].
Proof. vm_compute. auto. Qed.
Lemma C87_hypotheses : specials (wp_added (ex_wp [([60; 115; 62], true)])) [[60; 115; 62]] /\ NoDup (map fst (wp_added (ex_wp [([60; 115; 62], true)]))) /\ prefix_free [[60; 115; 62]] /\ Forall scalar [85; 110; 44; 60; 115; 62; 9; 65; 66].
Proof.
  split; [|split; [apply NoDup_cons; [intros []|constructor]|split]].
  - split; [apply Forall_cons; [|constructor]; split; [discriminate|repeat (apply Forall_cons; [unfold scalar; lia|]); constructor]|]. intro s. split.
    + intros [H|[]]. injection H as <-. exists [60; 115; 62]. split; [left|]; reflexivity.
    + intros (c & [<-|[]] & ->). left. reflexivity.
  - intros a b r [<-|[]] [<-|[]] E. injection E as <-. reflexivity.
  - repeat (apply Forall_cons; [unfold scalar; lia|]). constructor.
Qed.

(* ------------------------------------------------------------------ *)
(** ** C88: ChatTTS, decoding what was encoded *)
(** When every word can be segmented, decoding the ids of a text gives its words, one space between. *)
Theorem C88_round_trip_partial : forall t T w,
  wp_prefix (ct_wp t) = [35; 35] -> NoDup (map fst (wp_added (ct_wp t))) -> specials (wp_added (ct_wp t)) T ->
  (forall s i, str_find s (wp_vocab (ct_wp t)) = Some i -> assoc i (wp_inverse (ct_wp t)) = Some s) ->
  bracketed (ct_cls t) /\ bracketed (ct_sep t) /\ bracketed (ct_pad t) ->
  Forall scalar w -> (forall u, In u T -> ~ occurs_in u (cleaned (wp_chinese (ct_wp t)) w)) ->
  Forall (fun x => zlen (utf8_text x) <= wp_max (ct_wp t) /\ exists ps, greedy (in_vocabulary (ct_wp t)) [35; 35] true (utf8_text x) ps)
    (plain_words (wp_lower (ct_wp t)) (wp_chinese (ct_wp t)) w) ->
  exists ids, ct_encode t (utf8_text w) = ROk ids /\
    ct_decode t ids = unwords (map utf8_text (plain_words (wp_lower (ct_wp t)) (wp_chinese (ct_wp t)) w)).
Proof. exact chat_ok. Qed.
(** The text itself does not come back: case, punctuation and unknown words are lost. *)
Theorem C88_text_refuted : exists t w ids, Forall scalar w /\ ct_encode t (utf8_text w) = ROk ids /\ ct_decode t ids = [117; 110; 32; 33] /\ utf8_text w = [85; 110; 33].
Proof.
  exists (mkChat (ex_wp []) [91; 67; 93] [91; 83; 93] [91; 80; 93]), [85; 110; 33]. eexists. split; [repeat (apply Forall_cons; [unfold scalar; lia|]); constructor|]. vm_compute. repeat split.
Qed.
(** The inputs of a pair and their types have the same length if the second is not empty; types are 0 up to the first
    separator and 1 behind it. *)
Theorem C88_types : forall t a b, b <> [] ->
  length (ct_types a b) = length (ct_build2 t a b) /\
  forall k, (k < length (ct_build2 t a b))%nat -> nth_error (ct_types a b) k = Some (if (k <? length a + 2)%nat then 0 else 1).
Proof.
  intros t a b N. unfold ct_types, ct_build2. destruct b as [|y b]; [congruence|]. cbn [length]. rewrite !app_length. cbn [length]. rewrite !app_length, !repeat_length. cbn [length]. split; [lia|].
  intros k K. destruct (k <? length a + 2)%nat eqn:E; [apply Nat.ltb_lt in E|apply Nat.ltb_ge in E].
  - rewrite nth_error_app1 by (rewrite repeat_length; lia). apply nth_error_repeat. lia.
  - rewrite nth_error_app2 by (rewrite repeat_length; lia). rewrite repeat_length. apply nth_error_repeat. lia.
Qed.
Theorem C88_types_single : forall t a, length (ct_types a []) = length (ct_build t a) /\ Forall (eq 0) (ct_types a []).
Proof.
  intros t a. unfold ct_types, ct_build. rewrite repeat_length. cbn [length]. rewrite app_length. cbn [length]. split; [lia|]. apply Forall_forall. intros x H. symmetry. exact (repeat_spec _ _ _ H).
Qed.
(** With an empty second sequence they do not fit. *)
Theorem C88_types_refuted : forall t a, length (ct_build2 t a []) = S (length (ct_types a [])).
Proof. intros t a. unfold ct_types, ct_build2. rewrite repeat_length. cbn [length]. rewrite app_length. cbn [length app]. lia. Qed.
Definition ex_chat : chattts := mkChat (ex_wp []) [91; 67; 93] [91; 83; 93] [91; 80; 93].
(** "Unable!" + " un" *)
Example C88_example : exists ids, ct_encode ex_chat [85; 110; 97; 98; 108; 101; 33; 9; 117; 110] = ROk ids /\ ids = [2; 3; 6; 1] /\ ct_decode ex_chat ids = [117; 110; 97; 98; 108; 101; 32; 33; 32; 117; 110].
Proof. eexists. vm_compute. repeat split. Qed.
Lemma C88_hypotheses : (forall s i, str_find s (wp_vocab (ct_wp ex_chat)) = Some i -> assoc i (wp_inverse (ct_wp ex_chat)) = Some s) /\
  bracketed (ct_cls ex_chat) /\ bracketed (ct_sep ex_chat) /\ bracketed (ct_pad ex_chat) /\
  Forall (fun x => zlen (utf8_text x) <= wp_max (ct_wp ex_chat) /\ exists ps, greedy (in_vocabulary (ct_wp ex_chat)) [35; 35] true (utf8_text x) ps) (plain_words true true [85; 110; 33]).
Proof.
  split; [|split; [|split; [|split]]]; try (eexists; split; [|reflexivity]; discriminate).
  - intros s i H. apply str_find_in in H. cbn in H. repeat (destruct H as [H|H]; [injection H as <- <-; reflexivity|]). destruct H.
  - assert (E : plain_words true true [85; 110; 33] = [[117; 110]; [33]]) by (vm_compute; reflexivity). rewrite E.
    assert (G : forall x r, wordpiece_tokenize (ct_wp ex_chat) (utf8_text x) = ROk r -> zlen (utf8_text x) <= 200 -> r <> [[91; 85; 93]] ->
      zlen (utf8_text x) <= wp_max (ct_wp ex_chat) /\ exists ps, greedy (in_vocabulary (ct_wp ex_chat)) [35; 35] true (utf8_text x) ps).
    { intros x r R L NU. split; [exact L|]. destruct (C86_greedy (ct_wp ex_chat) (utf8_text x) L) as (r' & R' & [G|[_ U]]); [exists r'; exact G|]. exfalso. apply NU. rewrite R in R'. injection R' as ->. exact U. }
    apply Forall_cons; [apply (G [117; 110] [[117; 110]]); [vm_compute; reflexivity|vm_compute; discriminate|discriminate]|]. apply Forall_cons; [apply (G [33] [[33]]); [vm_compute; reflexivity|vm_compute; discriminate|discriminate]|]. constructor.
Qed.

(* ------------------------------------------------------------------ *)
(** ** C89: MiniCPM4, detokenizing what was tokenized *)
Definition mini_split (T : list (list Z)) : splitter := split_update split_empty T.
Definition merges_fit (t : bpeutf8) : Prop := Z.of_nat (length (bu_merges t)) <= 2 ^ 63 - 1 /\ forall ps p, In p (bu_order t ps) <-> In p ps.
(** The pieces are those of byte pair encoding over the characters (C22). *)
Theorem C89_bpe : forall t u, merges_fit t -> u <> [] -> Forall scalar u ->
  exists w, bpe_utf8 (bu_order t) (bu_merges t) (utf8_text u) = ROk (map utf8_text w) /\ concat w = u /\
    bpe_rounds (bu_merges t) (map (fun c => [c]) u) w /\ (forall x y n, neighbours x y w -> ~ has_rank (bu_merges t) (x, y) n).
Proof. intros t u [L O] N S. exact (bpe_utf8_ok (bu_order t) (bu_merges t) u L O N S). Qed.
(** Any text without U+2581: the text comes back with one more space in front of every plain segment but the first. *)
Theorem C89_detokenize : forall t T w, merges_fit t -> unambiguous T -> Forall scalar w -> ~ In visible_space w ->
  exists toks segs, mc_tokenize t (mini_split T) (utf8_text w) = ROk toks /\ mc_detokenize toks = utf8_text (respaced T segs) /\
    concat segs = w /\ Forall (fun p => In p T \/ plain_piece T p) segs /\ no_two_adjacent (plain_piece T) segs /\
    (forall a u b, w = a ++ u ++ b -> In u T -> exists s1 s2, segs = s1 ++ u :: s2 /\ concat s1 = a).
Proof.
  intros t T w [L O] U S V. destruct (mini_tokens t T L O w S) as (toks & E & C & F). exists (map utf8_text toks), (trie_split (mini_split T) w). split; [exact E|].
  destruct (trie_split_concat (mini_split T) w) as [CC NE]. split; [apply (mini_detok T (trie_split (mini_split T) w) toks); [exact NE|rewrite CC; exact V|exact F|exact C]|].
  split; [exact CC|]. exact (C21_special_tokens_isolated_partial T w U).
Qed.
(** A text without special tokens and without U+2581 comes back. *)
Theorem C89_round_trip : forall t T w, merges_fit t -> unambiguous T -> Forall scalar w -> ~ In visible_space w -> (forall u, In u T -> ~ occurs_in u w) ->
  exists toks, mc_tokenize t (mini_split T) (utf8_text w) = ROk toks /\ mc_detokenize toks = utf8_text w.
Proof.
  intros t T w M U S V NO. destruct (C89_detokenize t T w M U S V) as (toks & segs & E & D & C & F & A & _). exists toks. split; [exact E|]. rewrite D. f_equal.
  assert (FP : Forall (plain_piece T) segs).
  { rewrite Forall_forall in F |- *. intros p Hp. destruct (F p Hp) as [I|P]; [|exact P]. exfalso. apply (NO p I). apply in_split in Hp as (l1 & l2 & ->). rewrite concat_app in C. cbn [concat] in C. exists (concat l1), (concat l2). symmetry. exact C. }
  destruct segs as [|p [|q segs]]; [exact C|cbn [concat respaced flat_map] in *; exact C|]. exfalso. inversion FP as [|? ? P1 FP']; subst. inversion FP' as [|? ? P2 _]; subst. exact (A [] p q segs eq_refl (conj P1 P2)).
Qed.
(** Through ids, when every token is in the vocabulary. *)
Theorem C89_ids : forall t T w, merges_fit t -> unambiguous T -> Forall scalar w -> ~ In visible_space w -> (forall u, In u T -> ~ occurs_in u w) ->
  (forall c, (exists r, bpe_rounds (bu_merges t) (map (fun c => [c]) (visible_space :: map show_space w)) r /\ (forall x y n, neighbours x y r -> ~ has_rank (bu_merges t) (x, y) n) /\ In c r) ->
    exists i, str_find c (bu_vocab t) = Some i /\ assoc i (bu_inverse t) = Some c) ->
  exists ids, mc_encode t (mini_split T) (utf8_text w) = ROk ids /\ mc_decode t ids = ROk (utf8_text w).
Proof.
  intros t T w [L O] U S V NO VOC. destruct (mini_tokens t T L O w S) as (toks & E & C & F). destruct (trie_split_concat (mini_split T) w) as [CC NE].
  assert (SEG : trie_split (mini_split T) w = match w with [] => [] | _ => [w] end).
  { destruct (C21_special_tokens_isolated_partial T w U) as (A & B & _). change (split_update split_empty T) with (mini_split T) in *. revert A B CC NE. generalize (trie_split (mini_split T) w) as segs. intros segs A B CC NE.
    assert (FP : Forall (plain_piece T) segs).
    { rewrite Forall_forall in A |- *. intros p Hp. destruct (A p Hp) as [I|P]; [|exact P]. exfalso. apply (NO p I). apply in_split in Hp as (l1 & l2 & ->). rewrite concat_app in CC. cbn [concat] in CC. exists (concat l1), (concat l2). symmetry. exact CC. }
    destruct segs as [|p [|q segs]].
    - cbn [concat] in CC. subst. reflexivity.
    - cbn [concat] in CC. rewrite app_nil_r in CC. subst. inversion NE as [|? ? NP _]; subst. destruct w; [congruence|reflexivity].
    - exfalso. inversion FP as [|? ? P1 FP']; subst. inversion FP' as [|? ? P2 _]; subst. exact (B [] p q segs eq_refl (conj P1 P2)). }
  assert (D : mc_detokenize (map utf8_text toks) = utf8_text w).
  { rewrite (mini_detok T (trie_split (mini_split T) w) toks NE); [|rewrite CC; exact V|exact F|exact C]. rewrite SEG. destruct w; [reflexivity|]. cbn [respaced flat_map]. rewrite app_nil_r. reflexivity. }
  assert (I : ids_ok t toks).
  { destruct w as [|c0 w0] eqn:EW.
    - assert (E0 : mc_tokenize t (split_update split_empty T) (utf8_text []) = ROk []) by (unfold mc_tokenize, split_utf8; rewrite decode_text by constructor; cbn [rbind]; change (split_update split_empty T) with (mini_split T); rewrite SEG; reflexivity).
      rewrite E0 in E. destruct toks; [constructor|discriminate].
    - rewrite <- EW in *. assert (NW : w <> []) by (rewrite EW; discriminate). assert (SP : listed T w = false).
      { unfold listed. destruct (in_dec _ w T) as [K|K]; [|reflexivity]. exfalso. apply (NO w K). exists [], []. rewrite app_nil_r. reflexivity. }
      assert (SN : Forall scalar (visible_space :: map show_space w)) by (apply Forall_cons; [exact visible_scalar|apply show_scalar, S]).
      destruct (bpe_utf8_ok (bu_order t) (bu_merges t) (visible_space :: map show_space w) L O ltac:(discriminate) SN) as (r & R1 & R2 & R3 & R4).
      assert (TE : toks = r).
      { unfold mc_tokenize, split_utf8 in E. rewrite decode_text in E by exact S. cbn [rbind] in E. change (split_update split_empty T) with (mini_split T) in E. rewrite SEG in E.  rewrite encode_all in E by (apply Forall_cons; [exact S|constructor]). cbn [rbind map rmap] in E.
        unfold mc_segment, is_special_utf8 in E. rewrite decode_text in E by exact S. cbn [rbind] in E. unfold mini_split in E. rewrite (special_iff T w NW), SP in E. rewrite normalize_text in E by exact S. rewrite R1 in E. cbn [rbind concat] in E. rewrite app_nil_r in E.
        assert (RS : Forall (Forall scalar) r) by (apply concat_scalar; rewrite R2; exact SN). assert (EM : map utf8_text r = map utf8_text toks) by congruence. clear - EM F RS. revert r RS EM. induction F as [|a l A _ IH]; intros [|b r] RS EM; try discriminate; [reflexivity|].
        inversion RS; subst. cbn [map] in EM. assert (E1 : utf8_text b = utf8_text a) by congruence. assert (E2 : map utf8_text r = map utf8_text l) by congruence. f_equal; [apply text_inj; [assumption|assumption|symmetry; exact E1]|apply IH; assumption]. }
      subst r. apply Forall_forall. intros c Hc. apply VOC. exists toks. split; [exact R3|]. split; [exact R4|exact Hc]. }
  destruct (mini_ids t T w toks E F I) as (ids & A & B). exists ids. split; [exact A|]. rewrite B, D. reflexivity.
Qed.
(** The tokenizer's own special tokens meet the hypothesis. *)
Definition minicpm4_tokens : list (list Z) :=
  let tok (s : list Z) := [60; 124] ++ s ++ [124; 62] in
  [tok [105; 109; 95; 115; 116; 97; 114; 116]; tok [105; 109; 95; 101; 110; 100]; tok [101; 110; 100; 111; 102; 116; 101; 120; 116];
   tok [116; 111; 111; 108; 95; 99; 97; 108; 108]; tok [101; 120; 101; 99; 117; 116; 101; 95; 115; 116; 97; 114; 116]; tok [101; 120; 101; 99; 117; 116; 101; 95; 101; 110; 100];
   tok [102; 105; 109; 95; 112; 114; 101; 102; 105; 120]; tok [102; 105; 109; 95; 109; 105; 100; 100; 108; 101]; tok [102; 105; 109; 95; 115; 117; 102; 102; 105; 120]].
Theorem C89_tokens_unambiguous : unambiguous minicpm4_tokens.
Proof. apply unambiguous_checked. vm_compute. reflexivity. Qed.
Definition ex_bu : bpeutf8 := mkBU (fun ps => ps) [([visible_space], [97])] [([visible_space; 97], 7); ([98], 8)] [(7, [visible_space; 97]); (8, [98])].
Lemma C89_hypotheses : merges_fit ex_bu /\ Forall scalar [97; 98; 32; 97] /\ ~ In visible_space [97; 98; 32; 97].
Proof. split; [split; [vm_compute; discriminate|intros; reflexivity]|]. split; [repeat (apply Forall_cons; [unfold scalar; lia|]); constructor|]. unfold visible_space. intros H. cbn in H. lia. Qed.
(** "ab a" *)
Example C89_example : mc_tokenize ex_bu (mini_split minicpm4_tokens) [97; 98; 32; 97] = ROk [[226; 150; 129; 97]; [98]; [226; 150; 129; 97]] /\
  mc_encode ex_bu (mini_split minicpm4_tokens) [97; 98; 32; 97] = ROk [7; 8; 7] /\ mc_decode ex_bu [7; 8; 7] = ROk [97; 98; 32; 97].
Proof. vm_compute. auto. Qed.
(** After a special token a space appears that was not in the text. *)
Theorem C89_special_refuted : exists t w toks, merges_fit t /\ Forall scalar w /\ ~ In visible_space w /\
  mc_tokenize t (mini_split minicpm4_tokens) (utf8_text w) = ROk toks /\ mc_detokenize toks = utf8_text ([60; 124; 105; 109; 95; 101; 110; 100; 124; 62] ++ [32; 97]) /\
  w = [60; 124; 105; 109; 95; 101; 110; 100; 124; 62] ++ [97].
Proof.
  exists ex_bu, ([60; 124; 105; 109; 95; 101; 110; 100; 124; 62] ++ [97]). eexists. split; [exact (proj1 C89_hypotheses)|]. split; [cbn [app]; repeat (apply Forall_cons; [unfold scalar; lia|]); constructor|]. split; [unfold visible_space; intro H; cbn in H; lia|]. vm_compute. repeat split.
Qed.
(** U+2581 in the text comes back as a space. *)
Theorem C89_mark_refuted : exists t w toks, merges_fit t /\ Forall scalar w /\ mc_tokenize t (mini_split minicpm4_tokens) (utf8_text w) = ROk toks /\ mc_detokenize toks = utf8_text [98; 32; 98] /\ w = [98; visible_space; 98].
Proof.
  exists ex_bu, [98; visible_space; 98]. eexists. split; [exact (proj1 C89_hypotheses)|]. split; [unfold visible_space; repeat (apply Forall_cons; [unfold scalar; lia|]); constructor|]. vm_compute. repeat split.
Qed.
(** A character outside the vocabulary gets id 0, whatever it is: the ids do not tell which. *)
Theorem C89_unknown_refuted : exists t w w' ids, merges_fit t /\ Forall scalar w /\ Forall scalar w' /\ w <> w' /\
  mc_encode t (mini_split minicpm4_tokens) (utf8_text w) = ROk ids /\ mc_encode t (mini_split minicpm4_tokens) (utf8_text w') = ROk ids.
Proof.
  exists ex_bu, [97; 99], [97; 100]. eexists. split; [exact (proj1 C89_hypotheses)|]. split; [repeat (apply Forall_cons; [unfold scalar; lia|]); constructor|]. split; [repeat (apply Forall_cons; [unfold scalar; lia|]); constructor|]. split; [discriminate|]. vm_compute. split; reflexivity.
Qed.

Print Assumptions C85_decode.
Print Assumptions C85_encode.
Print Assumptions C85_exact.
Print Assumptions C85_no_scalar.
Print Assumptions C85_search.
Print Assumptions C86_greedy.
Print Assumptions C86_long.
Print Assumptions C86_unique.
Print Assumptions C86_pieces.
Print Assumptions C86_vocab_file.
Print Assumptions C86_max_refuted.
Print Assumptions C87_words.
Print Assumptions C87_segments.
Print Assumptions C87_plain.
Print Assumptions C87_word_shape.
Print Assumptions C87_invalid.
Print Assumptions C87_order.
Print Assumptions C87_order_refuted.
Print Assumptions C87_empty_special_refuted.
Print Assumptions C87_special_lost_refuted.
Print Assumptions C88_round_trip_partial.
Print Assumptions C88_text_refuted.
Print Assumptions C88_types.
Print Assumptions C88_types_single.
Print Assumptions C88_types_refuted.
Print Assumptions C89_bpe.
Print Assumptions C89_detokenize.
Print Assumptions C89_round_trip.
Print Assumptions C89_ids.
Print Assumptions C89_tokens_unambiguous.
Print Assumptions C89_special_refuted.
Print Assumptions C89_mark_refuted.
Print Assumptions C89_unknown_refuted.
