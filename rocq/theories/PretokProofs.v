(** The pre-tokenizer and the tokenizer. *)
From Verif Require Import Base DTypeModel ParamModel TensorModel TokModel TokSpec Utf8Proofs BpeProofs TrieProofs.
Local Open Scope Z_scope.

Section Pretok.
Variables L D S : Z -> bool.

Lemma span_app p l : fst (span p l) ++ snd (span p l) = l.
Proof. induction l as [|x l IH]; [reflexivity|]. cbn [span]. destruct (p x); [|reflexivity]. cbn [fst snd app]. f_equal. assumption. Qed.
Lemma span_run p l : fst (span p l) = run p l.
Proof. induction l as [|x l IH]; [reflexivity|]. cbn [span run]. destruct (p x); [|reflexivity]. cbn [fst]. f_equal. assumption. Qed.
Lemma span_ne p x l : p x = true -> fst (span p (x :: l)) <> [].
Proof. intros H. cbn [span]. rewrite H. discriminate. Qed.
Lemma starts_with_app k : forall l, starts_with k l = true -> k ++ skipn (length k) l = l.
Proof.
  induction k as [|x k IH]; intros l H; [reflexivity|]. destruct l as [|y l]; [discriminate|]. cbn [starts_with] in H.
  apply andb_prop in H as [H1 H2]. apply Z.eqb_eq in H1. subst. cbn [app length skipn]. f_equal. auto.
Qed.

(** A match is a non-empty prefix. *)
Definition cuts (str : list Z) (o : option (list Z * list Z)) : Prop :=
  match o with Some (m, rest) => m ++ rest = str /\ m <> [] | None => True end.
Lemma cuts_orelse str a b : cuts str a -> cuts str b -> cuts str (orelse a b).
Proof. destruct a; auto. Qed.
Lemma letters_cuts str : cuts str (rule_letters L D str).
Proof.
  unfold rule_letters. destruct str as [|c r]; [exact I|].
  destruct (negb (L c) && negb (D c) && negb (c =? 13) && negb (c =? 10)).
  - destruct r as [|x r]; [exact I|]. destruct (L x) eqn:E; [|exact I].
    pose proof (span_app L (x :: r)) as A. destruct (span L (x :: r)) as [m rest]. cbn [fst snd] in A. split; [cbn [app]; rewrite A; reflexivity|discriminate].
  - destruct (L c) eqn:E; [|exact I]. pose proof (span_app L (c :: r)) as A. pose proof (span_ne L c r E) as B.
    destruct (span L (c :: r)) as [m rest]. cbn [fst snd] in *. split; assumption.
Qed.
Lemma marks_cuts str : cuts str (rule_marks L D S str).
Proof.
  unfold rule_marks. destruct str as [|c r]; [exact I|].
  assert (G : forall pre after, c :: r = pre ++ after -> cuts (c :: r) (match after with
      | x :: _ => if is_mark L D S x then let '(m, rest) := span (is_mark L D S) after in let '(nl, rest') := span is_nl rest in Some ((pre ++ m) ++ nl, rest') else None
      | [] => None end)).
  { intros pre after E. destruct after as [|x after]; [exact I|]. destruct (is_mark L D S x) eqn:M; [|exact I].
    pose proof (span_app (is_mark L D S) (x :: after)) as A. pose proof (span_ne (is_mark L D S) x after M) as B.
    destruct (span (is_mark L D S) (x :: after)) as [m rest]. cbn [fst snd] in *.
    pose proof (span_app is_nl rest) as C. destruct (span is_nl rest) as [nl rest']. cbn [fst snd] in *.
    split; [rewrite <- !app_assoc, C, A, E; reflexivity|]. destruct pre; [|discriminate]. destruct m; [congruence|discriminate]. }
  destruct (c =? 32).
  - apply (G [c] r). reflexivity.
  - apply (G [] (c :: r)). reflexivity.
Qed.
Lemma newlines_cuts str : cuts str (rule_newlines S str).
Proof.
  unfold rule_newlines. pose proof (span_app S str) as A. destruct (span S str) as [m rest]. cbn [fst snd] in A.
  destruct rest as [|x rest]; [exact I|]. destruct (is_nl x) eqn:E; [|exact I].
  pose proof (span_app is_nl (x :: rest)) as C. pose proof (span_ne is_nl x rest E) as B. destruct (span is_nl (x :: rest)) as [nl rest']. cbn [fst snd] in *.
  split; [rewrite <- app_assoc, C; assumption|]. destruct m; [assumption|discriminate].
Qed.
Lemma match_cuts str : cuts str (match_pattern L D S str).
Proof.
  unfold match_pattern. destruct str as [|c r]; [exact I|].
  destruct (find _ contractions) as [k|] eqn:E.
  { apply find_some in E as [E1 E2]. split; [apply starts_with_app; assumption|].
    repeat destruct E1 as [<-|E1]; try discriminate. destruct E1. }
  repeat apply cuts_orelse.
  - apply letters_cuts.
  - unfold rule_digit. destruct (D c); [|exact I]. split; [reflexivity|discriminate].
  - apply marks_cuts.
  - apply newlines_cuts.
  - unfold rule_spaces. destruct (S c) eqn:Ec; [|exact I]. pose proof (span_app S (c :: r)) as A. pose proof (span_ne S c r Ec) as B.
    destruct (span S (c :: r)) as [m rest]. cbn [fst snd] in *. destruct rest as [|x rest]; [split; assumption|]. destruct (S x); [split; assumption|exact I].
  - unfold rule_rest. destruct (S c) eqn:Ec; [|exact I]. pose proof (span_app S (c :: r)) as A. pose proof (span_ne S c r Ec) as B.
    destruct (span S (c :: r)) as [m rest]. split; assumption.
Qed.
Lemma orelse_none {X} (a b : option X) : orelse a b = None -> a = None /\ b = None.
Proof. destruct a; [discriminate|auto]. Qed.
(** Some rule matches everywhere. *)
Lemma match_some c r : S 32 = true -> match_pattern L D S (c :: r) <> None.
Proof.
  intros H32 H. unfold match_pattern in H. destruct (find _ contractions); [discriminate|].
  apply orelse_none in H as [H1 H]. apply orelse_none in H as [H2 H]. apply orelse_none in H as [H3 H]. apply orelse_none in H as [_ H]. apply orelse_none in H as [_ H7].
  unfold rule_digit in H2. destruct (D c) eqn:ED; [discriminate|].
  unfold rule_rest in H7. destruct (S c) eqn:ES; [discriminate|].
  unfold rule_letters in H1. rewrite ED in H1. cbn [negb] in H1. destruct (L c) eqn:EL; cbn [negb andb] in H1.
  { rewrite EL in H1. destruct (span L (c :: r)). discriminate. }
  unfold rule_marks in H3. destruct (c =? 32) eqn:E32; [apply Z.eqb_eq in E32; subst; congruence|].
  unfold is_mark at 1 in H3. rewrite ES, EL, ED in H3. cbn [negb andb] in H3.
  destruct (span (is_mark L D S) (c :: r)). destruct (span is_nl l0). discriminate.
Qed.
Lemma pretok_ok : S 32 = true -> forall fuel str, (length str < fuel)%nat ->
  exists ps, pretok_loop L D S fuel str = ROk ps /\ concat ps = str /\ Forall (fun p => p <> []) ps.
Proof.
  intros H32. induction fuel as [|f IH]; intros str Hf; [lia|]. cbn [pretok_loop].
  destruct str as [|c r]; [exists []; repeat split; constructor|].
  pose proof (match_cuts (c :: r)) as C. pose proof (match_some c r H32) as NN.
  destruct (match_pattern L D S (c :: r)) as [[m rest]|]; [|congruence]. destruct C as [C1 C2].
  destruct (IH rest) as [ps [E [E1 E2]]].
  { apply (f_equal (@length Z)) in C1. rewrite app_length in C1. destruct m; [congruence|]. cbn [length] in *. lia. }
  rewrite E. cbn [rbind]. exists (m :: ps). split; [reflexivity|]. split; [cbn [concat]; rewrite E1; assumption|constructor; assumption].
Qed.

(** *** Agreement with the pattern, away from upper-case contractions and from runs
    of two or more white-space characters *)
Lemma run_ext p q l : (forall c, p c = q c) -> run p l = run q l.
Proof. intros H. induction l as [|x l IH]; [reflexivity|]. cbn [run]. rewrite H, IH. reflexivity. Qed.
Definition front {X Y} (o : option (X * Y)) : option X := match o with Some p => Some (fst p) | None => None end.
Lemma front_orelse {X Y} (a b : option (X * Y)) : front (orelse a b) = first_of (front a) (front b).
Proof. destruct a; reflexivity. Qed.
Lemma letters_front str : front (rule_letters L D str) = words L D str.
Proof.
  unfold rule_letters, words, opt_then. destruct str as [|c r]; [reflexivity|].
  replace (negb (newline c || L c || D c)) with (negb (L c) && negb (D c) && negb (c =? 13) && negb (c =? 10)).
  2: { unfold newline. destruct (L c), (D c), (c =? 13), (c =? 10); reflexivity. }
  destruct (negb (L c) && negb (D c) && negb (c =? 13) && negb (c =? 10)) eqn:E; cbn [andb].
  - assert (EL : L c = false) by (destruct (L c); [discriminate|reflexivity]).
    destruct r as [|x r]; [cbn [run negb]; rewrite EL; reflexivity|].
    cbn [run]. rewrite EL. destruct (L x) eqn:Ex; cbn [negb]; [|reflexivity].
    cbn [span]. rewrite Ex. cbn [front fst app]. rewrite span_run. reflexivity.
  - cbn [run]. destruct (L c) eqn:Ec; [|reflexivity]. cbn [span]. rewrite Ec. cbn [front fst app]. rewrite span_run. reflexivity.
Qed.
Lemma marks_front str : S 32 = true -> front (rule_marks L D S str) = symbols L D S str.
Proof.
  intros H32. unfold rule_marks, symbols, opt_then. destruct str as [|c r]; [reflexivity|].
  assert (EM : forall x, is_mark L D S x = mark L D S x).
  { intros x. unfold is_mark, mark. destruct (S x), (L x), (D x); reflexivity. }
  assert (G : forall pre after, c :: r = pre ++ after -> front (match after with
      | x :: _ => if is_mark L D S x then let '(m, rest) := span (is_mark L D S) after in let '(nl, rest') := span is_nl rest in Some ((pre ++ m) ++ nl, rest') else None
      | [] => None end) = match run (mark L D S) after with [] => None | m => Some ((pre ++ m) ++ run newline (skipn (length (pre ++ m)) (c :: r))) end).
  { intros pre after E. destruct after as [|x after]; [reflexivity|]. rewrite EM. cbn [run]. destruct (mark L D S x) eqn:M; [|reflexivity].
    pose proof (span_app (is_mark L D S) (x :: after)) as A. pose proof (span_run (is_mark L D S) (x :: after)) as B.
    rewrite (run_ext _ _ _ EM) in B. cbn [run] in B. rewrite M in B.
    destruct (span (is_mark L D S) (x :: after)) as [m rest]. cbn [fst snd] in *. rewrite <- B.
    replace (skipn (length (pre ++ m)) (c :: r)) with rest.
    2: { rewrite E, <- A, app_assoc, skipn_app, skipn_all, Nat.sub_diag. reflexivity. }
    pose proof (span_run is_nl rest) as R. destruct (span is_nl rest) as [nl rest']. cbn [fst front] in *. rewrite R. reflexivity. }
  destruct (c =? 32) eqn:E; cbn [andb].
  - rewrite (G [c] r eq_refl). apply Z.eqb_eq in E. subst c.
    assert (M32 : mark L D S 32 = false) by (unfold mark; rewrite H32; reflexivity).
    cbn [run]. rewrite M32. destruct (run (mark L D S) r); reflexivity.
  - rewrite (G [] (c :: r) eq_refl). cbn [app]. destruct (run (mark L D S) (c :: r)); reflexivity.
Qed.
Lemma contraction_front str : (forall a r, str = 39 :: a :: r -> lower a = a) -> (forall a b r, str = 39 :: a :: b :: r -> lower b = b) ->
  front (match find (fun k => starts_with k str) contractions with Some k => Some (k, skipn (length k) str) | None => None end) = contraction str.
Proof.
  intros HA HB. unfold contractions, contraction.
  destruct str as [|q [|a r]]; [reflexivity| |].
  { cbn [find starts_with]. rewrite !andb_false_r. destruct q as [|p|p]; try reflexivity. do 6 (destruct p as [p|p|]; try reflexivity). }
  destruct (Z.eqb_spec 39 q) as [<-|Nq].
  2: { cbn [find starts_with]. replace (39 =? q) with false by lia. cbn [andb front]. destruct q as [|p|p]; try reflexivity.
       do 6 (destruct p as [p|p|]; try reflexivity; try lia). }
  rewrite (HA a r eq_refl). cbv zeta. cbn [find starts_with]. rewrite Z.eqb_refl. cbn [andb].
  rewrite (Z.eqb_sym 115 a), (Z.eqb_sym 116 a), (Z.eqb_sym 114 a), (Z.eqb_sym 118 a), (Z.eqb_sym 109 a), (Z.eqb_sym 108 a), (Z.eqb_sym 100 a).
  rewrite !andb_true_r.
  destruct (Z.eqb_spec a 115) as [->|N1]; [reflexivity|]. destruct (Z.eqb_spec a 116) as [->|N2]; [reflexivity|]. cbn [orb].
  destruct r as [|b r].
  - rewrite !andb_false_r. destruct (Z.eqb_spec a 109) as [->|N3]; [reflexivity|]. destruct (Z.eqb_spec a 100) as [->|N4]; reflexivity.
  - rewrite (HB a b r eq_refl). rewrite (Z.eqb_sym 101 b), (Z.eqb_sym 108 b). rewrite !andb_true_r.
    destruct (Z.eqb_spec a 114) as [->|N3].
    { cbn [andb]. destruct (Z.eqb_spec b 101) as [->|M1]; [reflexivity|]. reflexivity. }
    destruct (Z.eqb_spec a 118) as [->|N4].
    { cbn [andb]. destruct (Z.eqb_spec b 101) as [->|M1]; reflexivity. }
    cbn [andb orb]. destruct (Z.eqb_spec a 109) as [->|N5]; [reflexivity|].
    destruct (Z.eqb_spec a 108) as [->|N6].
    { cbn [andb]. destruct (Z.eqb_spec b 108) as [->|M1]; reflexivity. }
    cbn [andb]. destruct (Z.eqb_spec a 100) as [->|N7]; reflexivity.
Qed.
Lemma match_agrees str : S 32 = true -> (forall c, newline c = true -> S c = true) ->
  (forall a r, str = 39 :: a :: r -> lower a = a) -> (forall a b r, str = 39 :: a :: b :: r -> lower b = b) ->
  (forall a b r, str = a :: b :: r -> S a && S b = false) ->
  front (match_pattern L D S str) = pattern_match L D S str.
Proof.
  intros H32 HNL HA HB HS. unfold pattern_match. rewrite <- (contraction_front str HA HB).
  unfold match_pattern. destruct str as [|c r]; [reflexivity|].
  destruct (find _ contractions) as [k|]; [reflexivity|]. cbn [front first_of].
  rewrite !front_orelse, letters_front, marks_front by assumption.
  replace (front (rule_digit D (c :: r))) with (digit D (c :: r)) by (unfold digit, rule_digit; destruct (D c); reflexivity).
  destruct (words L D (c :: r)); [reflexivity|]. destruct (digit D (c :: r)); [reflexivity|]. destruct (symbols L D S (c :: r)); [reflexivity|].
  cbn [first_of].
  (* at most one white-space character in front *)
  destruct (S c) eqn:Ec.
  - destruct r as [|b r].
    + unfold rule_newlines, rule_spaces, rule_rest, line_breaks, spaces_not_before, spaces. cbn [span run]. rewrite Ec. cbn [fst snd run upto_last].
      destruct (newline c); reflexivity.
    + assert (Eb : S b = false) by (specialize (HS c b r eq_refl); rewrite Ec in HS; exact HS).
      unfold rule_newlines, rule_spaces, rule_rest, line_breaks, spaces_not_before, spaces. cbn [span run]. rewrite Ec, Eb. cbn [fst snd run upto_last length Nat.eqb removelast].
      assert (Nb : is_nl b = false) by (destruct (is_nl b) eqn:K; [|reflexivity]; apply HNL in K; congruence). rewrite Nb, ?Eb.
      destruct (newline c); reflexivity.
  - unfold rule_newlines, rule_spaces, rule_rest, line_breaks, spaces_not_before, spaces. cbn [span run]. rewrite Ec. cbn [fst snd upto_last].
    assert (Nb : is_nl c = false) by (destruct (is_nl c) eqn:K; [|reflexivity]; apply HNL in K; congruence). rewrite Nb. cbn [length Nat.eqb removelast]. reflexivity.
Qed.

(** *** The tokenizer *)
Definition ready (t : tokenizer) : Prop :=
  tk_dict t = byte_dict /\ (exists entries, Permutation entries byte_dict /\ tk_inverse t = inverse_dict entries) /\
  (forall ps p, In p (tk_order t ps) <-> In p ps) /\ Z.of_nat (length (tk_merges t)) <= 2 ^ 63 - 1.

Lemma utf8_bytes c : code_point c -> Forall is_byte (utf8_of c).
Proof.
  unfold code_point, utf8_of, is_byte. intros H. assert (M : forall x, 0 <= x mod 64 < 64) by (intros; apply Z.mod_pos_bound; reflexivity).
  pose proof (M c). pose proof (M (c / 64)). pose proof (M (c / 4096)).
  assert (0 <= c / 64 /\ (c < 2048 -> c / 64 < 32)) by (split; [apply Z.div_pos; lia|intros; apply Z.div_lt_upper_bound; lia]).
  assert (0 <= c / 4096 /\ (c < 65536 -> c / 4096 < 16)) by (split; [apply Z.div_pos; lia|intros; apply Z.div_lt_upper_bound; lia]).
  assert (0 <= c / 262144 < 5) by (split; [apply Z.div_pos; lia|apply Z.div_lt_upper_bound; lia]).
  destruct (c <? 128) eqn:E1; [repeat constructor; lia|]. destruct (c <? 2048) eqn:E2; [repeat constructor; lia|].
  destruct (c <? 65536) eqn:E3; repeat constructor; lia.
Qed.
Lemma utf8_text_bytes w : Forall code_point w -> Forall is_byte (utf8_text w).
Proof. unfold utf8_text. induction 1; [constructor|]. cbn [map concat]. apply Forall_app. split; [apply utf8_bytes; assumption|assumption]. Qed.
Lemma utf8_text_app a b : utf8_text (a ++ b) = utf8_text a ++ utf8_text b.
Proof. unfold utf8_text. rewrite map_app, concat_app. reflexivity. Qed.
Lemma utf8_text_concat ps : utf8_text (concat ps) = concat (map utf8_text ps).
Proof. induction ps; [reflexivity|]. cbn [concat map]. rewrite utf8_text_app, IHps. reflexivity. Qed.
Lemma utf8_text_ne w : w <> [] -> utf8_text w <> [].
Proof. intros H K. pose proof (utf8_text_length w). rewrite K in H0. destruct w; [congruence|cbn [length] in H0; lia]. Qed.
Lemma back_bytes t l : ready t -> Forall is_byte l -> map (lookup0 (tk_inverse t)) (map (lookup0 (tk_dict t)) l) = l.
Proof.
  intros [-> [[entries [P ->]] _]] H. rewrite map_map. induction H; [reflexivity|]. cbn [map]. rewrite inverse_ok by assumption. f_equal. assumption.
Qed.
Lemma concat_code_points ps : Forall code_point (concat ps) -> Forall (fun p => Forall code_point p) ps.
Proof. induction ps; intros H; [constructor|]. cbn [concat] in H. apply Forall_app in H as [H1 H2]. constructor; auto. Qed.

Lemma words_ok t : ready t -> forall ps, Forall (fun p => Forall code_point p) ps -> Forall (fun p => p <> []) ps ->
  exists ws, rmap (fun s => bpe (tk_order t) (tk_merges t) (map (lookup0 (tk_dict t)) (wide_to_utf8 s))) ps = ROk ws /\
    concat (concat ws) = map (lookup0 (tk_dict t)) (utf8_text (concat ps)).
Proof.
  intros R. induction ps as [|p ps IH]; intros H1 H2; [exists []; split; reflexivity|].
  inversion H1; subst. inversion H2; subst. destruct (IH) as [ws [E1 E2]]; [assumption|assumption|].
  cbn [rmap]. rewrite wide_to_utf8_ok by assumption.
  destruct (bpe_ok (tk_order t) (tk_merges t) (map (lookup0 (tk_dict t)) (utf8_text p))) as [w [Ew [Hw _]]].
  { apply R. } { apply R. } { intros K. apply map_eq_nil in K. apply utf8_text_ne in K; assumption. }
  rewrite Ew. cbn [rbind]. rewrite E1. cbn [rbind]. exists (w :: ws). split; [reflexivity|].
  cbn [concat]. rewrite concat_app, E2, utf8_text_app, map_app. f_equal. apply rounds_concat in Hw. rewrite Hw. apply concat_singletons.
Qed.
Lemma tokenize_plain_ok t w : ready t -> S 32 = true -> Forall code_point w ->
  exists ts, tokenize_plain L D S t (utf8_text w) = ROk ts /\ concat ts = map (lookup0 (tk_dict t)) (utf8_text w).
Proof.
  intros R H32 H. unfold tokenize_plain, pretok. rewrite decode_ok by assumption. cbn [rbind].
  destruct (pretok_ok H32 (Datatypes.S (length w)) w) as [ps [E [E1 E2]]]; [lia|]. rewrite E. cbn [rbind].
  assert (C : Forall (fun p => Forall code_point p) ps) by (apply concat_code_points; rewrite E1; assumption).
  destruct (words_ok t R ps C E2) as [ws [E3 E4]]. rewrite E3. cbn [rbind]. exists (concat ws). split; [reflexivity|]. rewrite E4, E1. reflexivity.
Qed.
(** What a token stands for: a special token itself, another token the bytes behind
    its characters. *)
Definition token_bytes (t : tokenizer) (x : bool * symbol) : list Z :=
  if fst x then utf8_text (snd x) else map (lookup0 (tk_inverse t)) (snd x).
Lemma parts_ok t : ready t -> S 32 = true -> forall ps, Forall (fun p => Forall code_point p) ps ->
  exists parts, rmap (fun p => if is_special (tk_special t) p then ROk [p] else tokenize_plain L D S t (wide_to_utf8 p)) ps = ROk (map (map snd) parts) /\
    Forall (Forall (fun x => fst x = true -> is_special (tk_special t) (snd x) = true)) parts /\
    concat (map (token_bytes t) (concat parts)) = utf8_text (concat ps).
Proof.
  intros R H32. induction ps as [|p ps IH]; intros H; [exists []; repeat split; constructor|].
  inversion H; subst. destruct (IH H3) as [parts [E1 [E2 E3]]]. cbn [rmap].
  destruct (is_special (tk_special t) p) eqn:E.
  - cbn [rbind]. rewrite E1. cbn [rbind]. exists ([(true, p)] :: parts). split; [reflexivity|]. split.
    + constructor; [|assumption]. repeat constructor. intros _. exact E.
    + change (token_bytes t (true, p) ++ concat (map (token_bytes t) (concat parts)) = utf8_text (p ++ concat ps)). rewrite E3, utf8_text_app. reflexivity.
  - rewrite wide_to_utf8_ok by assumption. destruct (tokenize_plain_ok t p R H32 H2) as [ts [F1 F2]]. rewrite F1. cbn [rbind]. rewrite E1. cbn [rbind].
    exists (map (fun s => (false, s)) ts :: parts). split; [|split].
    + cbn [map]. do 2 f_equal. rewrite map_map. cbn [snd]. symmetry. apply map_id.
    + constructor; [|assumption]. apply Forall_forall. intros x Hx. apply in_map_iff in Hx as [s [<- _]]. discriminate.
    + cbn [concat]. transitivity (concat (map (token_bytes t) (map (fun s => (false, s)) ts)) ++ utf8_text (concat ps)).
      { rewrite <- E3, <- concat_app, <- map_app. reflexivity. }
      rewrite utf8_text_app. f_equal. rewrite map_map.
      change (concat (map (map (lookup0 (tk_inverse t))) ts) = utf8_text p).
      rewrite <- concat_map, F2. apply back_bytes; [assumption|]. apply utf8_text_bytes. assumption.
Qed.
Lemma tokenize_ok t w : ready t -> S 32 = true -> Forall code_point w ->
  exists parts, tokenize L D S t (utf8_text w) = ROk (map snd parts) /\
    Forall (fun x => fst x = true -> is_special (tk_special t) (snd x) = true) parts /\
    concat (map (token_bytes t) parts) = utf8_text w.
Proof.
  intros R H32 H. unfold tokenize. rewrite decode_ok by assumption. cbn [rbind].
  destruct (trie_split_concat (tk_special t) w) as [C _].
  destruct (parts_ok t R H32 (trie_split (tk_special t) w)) as [parts [E1 [E2 E3]]].
  { apply concat_code_points. rewrite C. assumption. }
  rewrite E1. cbn [rbind]. exists (concat parts). split; [rewrite concat_map; reflexivity|]. split; [|rewrite E3, C; reflexivity].
  clear E1 E3. induction E2; [constructor|]. cbn [concat]. apply Forall_app. split; assumption.
Qed.
(** Ids. *)
Lemma lookup_back t s : NoDup (map snd (tk_vocab t)) -> In s (map fst (tk_vocab t)) -> lookup_token t (lookup_vocab t s) = s.
Proof.
  intros N H. unfold lookup_vocab, lookup_token.
  destruct (find (fun e => sym_eqb (fst e) s) (tk_vocab t)) as [e|] eqn:E.
  - apply find_some in E as [E1 E2]. apply sym_eqb_eq in E2.
    destruct (find (fun e0 => snd e0 =? snd e) (tk_vocab t)) as [e'|] eqn:F.
    + apply find_some in F as [F1 F2]. apply Z.eqb_eq in F2. rewrite <- E2. f_equal.
      clear - N E1 F1 F2. induction (tk_vocab t) as [|x l IH]; [destruct E1|]. cbn [map] in N. inversion N; subst.
      destruct E1 as [->|E1], F1 as [->|F1]; auto.
      * exfalso. apply H1. rewrite <- F2. apply in_map. assumption.
      * exfalso. apply H1. rewrite F2. apply in_map. assumption.
    + exfalso. apply (find_none _ _ F) in E1. lia.
  - exfalso. apply in_map_iff in H as [e [<- He]]. apply (find_none _ _ E) in He.
    assert (sym_eqb (fst e) (fst e) = true) by (apply sym_eqb_eq; reflexivity). congruence.
Qed.
Definition plain_ascii (c : Z) : Prop := 33 <= c <= 126.
Lemma dict_ascii c : plain_ascii c -> lookup0 byte_dict c = c.
Proof.
  intros H. pose proof (byte_cases (fun b => if (33 <=? b) && (b <=? 126) then lookup0 byte_dict b =? b else true) ltac:(vm_compute; reflexivity) c) as K.
  unfold plain_ascii in H. specialize (K ltac:(lia)). cbv beta in K. replace ((33 <=? c) && (c <=? 126)) with true in K by lia. lia.
Qed.
Lemma inverse_ascii t c : ready t -> plain_ascii c -> lookup0 (tk_inverse t) c = c.
Proof.
  intros [_ [[entries [P ->]] _]] H. rewrite <- (dict_ascii c H) at 1. apply inverse_ok; [assumption|]. unfold plain_ascii, is_byte in *. lia.
Qed.
Lemma utf8_ascii s : Forall plain_ascii s -> utf8_text s = s.
Proof. unfold plain_ascii, utf8_text. induction 1; [reflexivity|]. cbn [map concat]. rewrite IHForall. unfold utf8_of. replace (x <? 128) with true by lia. reflexivity. Qed.

Lemma ids_ok t w : ready t -> S 32 = true -> Forall code_point w ->
  (forall s, is_special (tk_special t) s = true -> Forall plain_ascii s) ->
  NoDup (map snd (tk_vocab t)) ->
  (forall ts s, tokenize L D S t (utf8_text w) = ROk ts -> In s ts -> In s (map fst (tk_vocab t))) ->
  exists ts, tokenize L D S t (utf8_text w) = ROk ts /\
    concat (map (detok_bytes t) (map (lookup_vocab t) ts)) = utf8_text w.
Proof.
  intros R H32 H HS N HV. destruct (tokenize_ok t w R H32 H) as [parts [E1 [E2 E3]]].
  exists (map snd parts). split; [assumption|].
  assert (V : forall x, In x parts -> In (snd x) (map fst (tk_vocab t))).
  { intros x Hx. apply (HV _ _ E1). apply in_map. assumption. }
  assert (B : Forall is_byte (concat (map (token_bytes t) parts))) by (rewrite E3; apply utf8_text_bytes; assumption).
  rewrite <- E3. clear E1 E3 HV. rewrite !map_map. f_equal. 
  induction parts as [|x parts IH]; [reflexivity|]. cbn [map concat] in *. inversion E2 as [|? ? K1 K2]; subst.
  apply Forall_app in B as [B1 B2]. f_equal; [|apply IH; auto]. 2: { intros y Hy. apply V. right. assumption. }
  unfold detok_bytes. rewrite lookup_back; [|assumption|apply V; left; reflexivity].
  unfold token_bytes in *. destruct (fst x) eqn:Ef.
  - specialize (HS (snd x) (K1 ltac:(first [exact Ef|reflexivity]))). rewrite utf8_ascii by assumption. clear - L D S HS R. induction HS as [|c l Hc HS IH]; [reflexivity|]. cbn [map].
    rewrite (inverse_ascii t c R Hc), IH. f_equal. unfold to_byte, plain_ascii in *. apply Z.mod_small. lia.
  - clear - B1. revert B1. generalize (snd x). intros l. induction l as [|c l IH]; intros B1; [reflexivity|].
    cbn [map] in *. inversion B1; subst. f_equal; [|apply IH; assumption]. unfold to_byte, is_byte in *. apply Z.mod_small. lia.
Qed.
End Pretok.
