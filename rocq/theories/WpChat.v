(** ChatTTS: decoding what was encoded. *)
From Verif Require Import Base DTypeModel ParamModel TensorModel TokModel TokSpec Utf8Proofs WpModel WpSpec WpUtf8 WpGreedy WpBasic.
Local Open Scope Z_scope.

(** *** Texts without special tokens *)
Theorem basic_plain_free t T w : NoDup (map fst (wp_added t)) -> specials (wp_added t) T -> Forall scalar w ->
  (forall u, In u T -> ~ occurs_in u (cleaned (wp_chinese t) w)) ->
  basic_tokenize t (utf8_text w) = ROk (map utf8_text (plain_words (wp_lower t) (wp_chinese t) w)).
Proof.
  intros ND TS SW NO. destruct (basic_ok t T w ND TS SW) as (segs & L & S & ->). f_equal.
  assert (X : flat_map (plain_part t T) segs = map utf8_text (plain_words (wp_lower t) false (cleaned (wp_chinese t) w))).
  { inversion L as [E|w0 P E|u t0 v segs0 Ht M L0 E]; subst.
    - reflexivity.
    - cbn [flat_map]. rewrite app_nil_r. unfold plain_part. destruct (in_dec (list_eq_dec Z.eq_dec) (cleaned (wp_chinese t) w) T) as [I|_]; [|reflexivity]. exfalso. apply (NO _ I). exists [], []. rewrite app_nil_r. reflexivity.
    - exfalso. apply (NO t0 Ht). rewrite <- E. exists u, v. reflexivity. }
  rewrite X. f_equal. unfold plain_words. f_equal. rewrite <- cleaned_eq by exact SW. rewrite flat_flat. apply flat_ext_in. intros c H. rewrite Forall_forall in SW. pose proof (scalar_pos c (SW c H)) as P. rewrite <- (cut_spread (wp_lower t) (wp_chinese t) c P).
  apply flat_ext_in. intros d Hd. assert (SD : scalar d) by (pose proof (cleaning_scalar (wp_chinese t) c (SW c H)) as F; rewrite Forall_forall in F; apply F, Hd).
  rewrite <- (cut_spread (wp_lower t) false d (scalar_pos d SD)). unfold cleaning at 1. unfold clean_cp.
  assert (CD : is_control d = false). { pose proof (cleaned_chars (wp_chinese t) [c] (Forall_cons _ (SW c H) (Forall_nil _))) as F. rewrite <- cleaned_eq in F by exact (Forall_cons _ (SW c H) (Forall_nil _)). cbn [flat_map] in F. rewrite app_nil_r in F. rewrite Forall_forall in F. apply F, Hd. }
  rewrite CD. cbn [flat_map]. rewrite app_nil_r. reflexivity.
Qed.

(** *** Words *)
Definition proper_word (x : list Z) : Prop :=
  x <> [] /\ ~ In 32 x /\ Forall scalar x /\ ((exists c, x = [c]) \/ Forall (fun c => is_punct c = false) x).
Lemma lower_punct c : is_punct c = false -> is_punct (to_lower c) = false.
Proof. unfold to_lower. intro H. destruct ((65 <=? c) && (c <=? 90)) eqn:E; [|exact H]. unfold is_punct. lia. Qed.
Lemma W_proper lower ch : forall w cur, Forall scalar w -> ~ In 32 cur -> Forall scalar cur -> Forall (fun c => is_punct c = false) cur ->
  Forall proper_word (W cur (flat_map (spread lower ch) w)).
Proof.
  assert (FL : forall cur, ~ In 32 cur -> Forall scalar cur -> Forall (fun c => is_punct c = false) cur -> Forall proper_word (flushed cur)).
  { intros [|c cur] A B C; [constructor|]. apply Forall_cons; [|constructor]. split; [discriminate|]. split; [exact A|]. split; [exact B|right; exact C]. }
  induction w as [|c w IH]; intros cur SW A B C; cbn [flat_map]; [apply FL; assumption|]. inversion SW as [|? ? SC SW']; subst.
  assert (N : Forall proper_word (flushed cur ++ W [] (flat_map (spread lower ch) w))).
  { apply Forall_app. split; [apply FL; assumption|apply IH; [assumption|intros []|constructor|constructor]]. }
  unfold spread at 1. destruct (line_blank c) eqn:L; [exact N|]. destruct (control c); [apply IH; assumption|]. destruct (blank c) eqn:BL; [exact N|].
  assert (NB : c <> 32) by (intros ->; discriminate BL).
  destruct (punctuation c || ch && ideograph c) eqn:P.
  - cbn [app W]. rewrite Z.eqb_refl. replace (32 =? c) with false by lia. cbn [app W]. apply Forall_app. split; [apply FL; assumption|]. apply Forall_app. split.
    + cbn [flushed]. apply Forall_cons; [|constructor]. split; [discriminate|]. split; [intros [|[]]; congruence|]. split; [apply Forall_cons; [exact SC|constructor]|left; exists c; reflexivity].
    + apply IH; [assumption|intros []|constructor|constructor].
  - cbn [app W]. apply orb_false_iff in P as [P _]. rewrite <- punct_eq in P. assert (SP : scalar (if lower then to_lower c else c) /\ (if lower then to_lower c else c) <> 32 /\ is_punct (if lower then to_lower c else c) = false).
    { destruct lower; [|auto]. split; [apply lower_scalar, SC|]. split; [unfold to_lower; destruct ((65 <=? c) && (c <=? 90)) eqn:E; lia|apply lower_punct, P]. }
    destruct SP as (S1 & S2 & S3). replace (32 =? (if lower then to_lower c else c)) with false by lia.
    apply IH; [assumption| | |]; [intro H; apply in_app_iff in H as [H|[H|[]]]; [exact (A H)|congruence]|apply Forall_app; split; [exact B|apply Forall_cons; [exact S1|constructor]]|apply Forall_app; split; [exact C|apply Forall_cons; [exact S3|constructor]]].
Qed.
Lemma words_proper lower ch w : Forall scalar w -> Forall proper_word (plain_words lower ch w).
Proof. intro S. unfold plain_words. rewrite <- W_words. apply W_proper; [exact S|intros []|constructor|constructor]. Qed.

(** *** Bytes *)
Lemma of_small c : 0 <= c -> (exists b r, utf8_of c = b :: r /\ (b = c /\ r = [] \/ 128 <= b)) /\ (c <> 32 -> ~ In 32 (utf8_of c)).
Proof.
  intro P. unfold utf8_of. destruct (c <? 128) eqn:E1; [split; [exists c, []; auto|intros N [H|[]]; congruence]|].
  destruct (c <? 2048) eqn:E2; [|destruct (c <? 65536) eqn:E3]; (split; [eexists _, _; split; [reflexivity|right; Z.to_euclidean_division_equations; lia]|intros _ H; cbn [In] in H; Z.to_euclidean_division_equations; lia]).
Qed.
Lemma text_no_blank x : Forall scalar x -> ~ In 32 x -> ~ In 32 (utf8_text x).
Proof.
  intros S N H. unfold utf8_text in H. apply in_concat in H as (b & Hb & H). apply in_map_iff in Hb as (c & <- & Hc). rewrite Forall_forall in S. apply (proj2 (of_small c (scalar_pos c (S c Hc)))) in H; [exact H|]. intros ->. exact (N Hc).
Qed.
Lemma text_ne x : x <> [] -> utf8_text x <> [].
Proof. destruct x as [|c x]; [congruence|]. intros _. rewrite text_cons. pose proof (utf8_of_ne c). destruct (utf8_of c); [congruence|discriminate]. Qed.
(** A beginning of a word, if it starts with a punctuation byte, is that byte. *)
Lemma word_head x b p rest : proper_word x -> is_punct b = true -> utf8_text x = (b :: p) ++ rest -> p = [].
Proof.
  intros (NE & _ & S & [(c & ->)|Q]) PB E.
  - rewrite text_one in E. inversion S as [|? ? SC _]; subst. destruct (proj1 (of_small c (scalar_pos c SC))) as (b' & r & U & [[-> ->]|G]); rewrite U in E; cbn [app] in E; injection E as -> E; [destruct p; [reflexivity|discriminate]|].
    unfold is_punct in PB. lia.
  - exfalso. destruct x as [|c x]; [congruence|]. rewrite text_cons in E. inversion S as [|? ? SC _]; subst. inversion Q as [|? ? QC _]; subst. destruct (proj1 (of_small c (scalar_pos c SC))) as (b' & r & U & [[-> ->]|G]); rewrite U in E; cbn [app] in E; injection E as -> E; [congruence|].
    unfold is_punct in PB. lia.
Qed.

(** *** Joining *)
Lemma unwords_snoc l x : l <> [] -> unwords (l ++ [x]) = unwords l ++ [32] ++ x.
Proof.
  induction l as [|a l IH]; [congruence|]. intros _. destruct l as [|b l]; [reflexivity|]. change (unwords ((a :: b :: l) ++ [x])) with (a ++ [32] ++ unwords ((b :: l) ++ [x])). rewrite IH by discriminate.
  change (unwords (a :: b :: l)) with (a ++ [32] ++ unwords (b :: l)). rewrite <- !app_assoc. reflexivity.
Qed.
Definition solid (s : list Z) : Prop := s <> [] /\ ~ In 32 s.
Lemma ends_app s x : solid x -> ends_in_space (s ++ x) = false.
Proof.
  intros [NE N]. unfold ends_in_space. rewrite rev_app_distr. destruct (rev x) as [|b r] eqn:E; [apply (f_equal (@rev Z)) in E; rewrite rev_involutive in E; contradiction|].
  cbn [app]. destruct (Z.eq_dec b 32) as [->|D]; [exfalso; apply N, in_rev; rewrite E; left; reflexivity|]. destruct b as [|[p|p|]|p]; try reflexivity. repeat (destruct p as [p|p|]; try reflexivity). congruence.
Qed.
Lemma ends_unwords l : Forall solid l -> ends_in_space (unwords l) = false.
Proof.
  intro F. destruct l as [|a l] using rev_ind; [reflexivity|]. apply Forall_app in F as [_ F]. inversion F; subst. destruct l as [|b l]; [apply (ends_app [] a); assumption|].
  rewrite unwords_snoc by discriminate. rewrite app_assoc. apply ends_app. assumption.
Qed.
Lemma unwords_nil l : Forall solid l -> unwords l = [] -> l = [].
Proof. destruct l as [|a [|b l]]; intros F E; [reflexivity| |]; inversion F as [|? ? [NE _] _]; subst; cbn [unwords] in E; [contradiction|]. destruct a; [congruence|discriminate]. Qed.

Section Chat.
Variable t : chattts.
Hypothesis BR : bracketed (ct_cls t) /\ bracketed (ct_sep t) /\ bracketed (ct_pad t).
Lemma not_dropped token : (forall y, y <> [] -> token <> 91 :: y) -> str_eqb token (ct_cls t) || str_eqb token (ct_sep t) || str_eqb token (ct_pad t) = false.
Proof.
  intro N. destruct BR as ((y1 & N1 & E1) & (y2 & N2 & E2) & (y3 & N3 & E3)).
  destruct (str_eqb token (ct_cls t)) eqn:A; [apply str_eqb_eq in A; exfalso; apply (N y1 N1); congruence|].
  destruct (str_eqb token (ct_sep t)) eqn:B; [apply str_eqb_eq in B; exfalso; apply (N y2 N2); congruence|].
  destruct (str_eqb token (ct_pad t)) eqn:C; [apply str_eqb_eq in C; exfalso; apply (N y3 N3); congruence|]. reflexivity.
Qed.
Lemma detok_tail : forall r result, fold_left (detok_step t) (map (app [35; 35]) r) result = result ++ concat r.
Proof.
  induction r as [|x r IH]; intro result; cbn [map fold_left concat]; [rewrite app_nil_r; reflexivity|].
  replace (detok_step t result ([35; 35] ++ x)) with (result ++ x); [rewrite IH, app_assoc; reflexivity|]. unfold detok_step. rewrite not_dropped by (intros y _; discriminate). reflexivity.
Qed.
Lemma detok_word V x ps l : proper_word x -> greedy V [35; 35] true (utf8_text x) ps -> Forall solid l ->
  fold_left (detok_step t) ps (unwords l) = unwords (l ++ [utf8_text x]).
Proof.
  intros PX G F. assert (C : exists ls, concat ls = utf8_text x /\ Forall (fun l => l <> []) ls /\ ps = match ls with [] => [] | l :: r => l :: map (app [35; 35]) r end).
  { revert G. generalize (utf8_text x) as s. intros s G.
    assert (H : forall first s ps, greedy V [35; 35] first s ps -> exists ls, concat ls = s /\ Forall (fun l => l <> []) ls /\ ps = match ls with [] => [] | l :: r => ((if first then [] else [35; 35]) ++ l) :: map (app [35; 35]) r end).
    { clear. induction 1 as [first|first p rest ps H1 H2 H3 G (ls & C & F & E)]; [exists []; repeat split; constructor|]. exists (p :: ls). split; [cbn [concat]; rewrite C; reflexivity|]. split; [constructor; assumption|]. f_equal. rewrite E. destruct ls; reflexivity. }
    destruct (H _ _ _ G) as (ls & A & B & C). exists ls. auto. }
  destruct C as (ls & C & NEs & ->). destruct ls as [|p r]; [exfalso; symmetry in C; exact (text_ne x (proj1 PX) C)|]. cbn [concat] in C. cbn [fold_left]. rewrite detok_tail.
  inversion NEs as [|? ? NP _]; subst. destruct p as [|b p]; [congruence|].
  assert (ST : detok_step t (unwords l) (b :: p) = (match unwords l with [] => [] | _ => unwords l ++ [32] end) ++ (b :: p)).
  { unfold detok_step. rewrite not_dropped.
    2:{ intros y NY E. injection E as -> ->. apply NY. apply (word_head x 91 y (concat r) PX eq_refl). symmetry. exact C. }
    assert (NS : forall z, b :: p <> 35 :: 35 :: z).
    { intros z E. injection E as -> ->. pose proof (word_head x 35 (35 :: z) (concat r) PX eq_refl (eq_sym C)). discriminate. }
    assert (E : (match unwords l with [] => [] | _ => if ends_in_space (unwords l) then unwords l else unwords l ++ [32] end) = (match unwords l with [] => [] | _ => unwords l ++ [32] end)).
    { rewrite ends_unwords by exact F. reflexivity. }
    rewrite E. clear E. generalize (match unwords l with [] => [] | _ => unwords l ++ [32] end). intro R.
    destruct b as [|q|q]; try reflexivity. destruct (Z.eq_dec (Z.pos q) 35) as [Q|Q].
    - injection Q as ->. destruct p as [|b2 p]; [reflexivity|]. destruct (Z.eq_dec b2 35) as [->|Q2]; [exfalso; exact (NS p eq_refl)|].
      destruct b2 as [|q2|q2]; try reflexivity. repeat (destruct q2 as [q2|q2|]; try reflexivity). congruence.
    - repeat (destruct q as [q|q|]; try reflexivity). congruence. }
  rewrite ST. destruct l as [|a l].
  - cbn [unwords app]. rewrite <- C. reflexivity.
  - rewrite unwords_snoc by discriminate. rewrite <- C. destruct (unwords (a :: l)) as [|b0 u] eqn:U; [apply unwords_nil in U; [discriminate|exact F]|]. rewrite <- !app_assoc. reflexivity.
Qed.
End Chat.

Definition consistent (t : wordpiece) : Prop := forall s i, str_find s (wp_vocab t) = Some i -> assoc i (wp_inverse t) = Some s.
Lemma greedy_vocab V mark first s ps : greedy V mark first s ps -> Forall V ps.
Proof. induction 1; constructor; assumption. Qed.
Lemma id_token t s : consistent t -> In s (map fst (wp_vocab t)) -> id2token t (token2id t s) = s.
Proof.
  intros C H. unfold id2token, token2id. destruct (str_find s (wp_vocab t)) as [i|] eqn:F; [rewrite (C s i F); reflexivity|]. apply str_find_none in F. contradiction.
Qed.
Theorem chat_ok t T w :
  wp_prefix (ct_wp t) = [35; 35] -> NoDup (map fst (wp_added (ct_wp t))) -> specials (wp_added (ct_wp t)) T -> consistent (ct_wp t) ->
  bracketed (ct_cls t) /\ bracketed (ct_sep t) /\ bracketed (ct_pad t) ->
  Forall scalar w -> (forall u, In u T -> ~ occurs_in u (cleaned (wp_chinese (ct_wp t)) w)) ->
  Forall (fun x => zlen (utf8_text x) <= wp_max (ct_wp t) /\ exists ps, greedy (fun s => In s (map fst (wp_vocab (ct_wp t)))) [35; 35] true (utf8_text x) ps) (plain_words (wp_lower (ct_wp t)) (wp_chinese (ct_wp t)) w) ->
  exists ids, ct_encode t (utf8_text w) = ROk ids /\ ct_decode t ids = unwords (map utf8_text (plain_words (wp_lower (ct_wp t)) (wp_chinese (ct_wp t)) w)).
Proof.
  intros PX ND TS CO BR SW NO FW. unfold ct_encode, wp_tokenize. rewrite (basic_plain_free _ T) by assumption. cbn [rbind].
  pose proof (words_proper (wp_lower (ct_wp t)) (wp_chinese (ct_wp t)) w SW) as PW. revert PW FW. generalize (plain_words (wp_lower (ct_wp t)) (wp_chinese (ct_wp t)) w) as l. intros l PW FW. clear NO SW w ND TS T.
  set (V := fun s => In s (map fst (wp_vocab (ct_wp t)))) in *.
  assert (H : exists pss, rmap (wordpiece_tokenize (ct_wp t)) (map utf8_text l) = ROk pss /\ Forall (Forall V) pss /\
    forall d, Forall solid d -> fold_left (detok_step t) (concat pss) (unwords d) = unwords (d ++ map utf8_text l)).
  { induction l as [|x l IH]; [exists []; split; [reflexivity|]; split; [constructor|]; intros d _; cbn [concat map fold_left]; rewrite app_nil_r; reflexivity|].
    inversion PW as [|? ? PX0 PW']; inversion FW as [|? ? [LX (ps & G)] FW']; subst. destruct (IH PW' FW') as (pss & R & FV & D).
    destruct (wordpiece_spec (ct_wp t) (utf8_text x)) as (r & ER & S1 & _). cbn [map rmap]. rewrite ER. cbn [rbind]. rewrite R. cbn [rbind].
    rewrite PX in S1. destruct (S1 (or_introl LX)) as [G'|[N _]]; [|exfalso; exact (N ps G)]. exists (r :: pss). split; [reflexivity|]. split; [constructor; [exact (greedy_vocab _ _ _ _ _ G')|exact FV]|].
    intros d Fd. cbn [concat]. rewrite fold_left_app. rewrite (detok_word t BR V x r d PX0 G' Fd). rewrite D.
    - rewrite <- app_assoc. reflexivity.
    - apply Forall_app. split; [exact Fd|]. apply Forall_cons; [|constructor]. destruct PX0 as (NE & NB & SX & _). split; [apply text_ne, NE|apply text_no_blank; assumption]. }
  destruct H as (pss & R & FV & D). rewrite R. cbn [rbind]. eexists. split; [reflexivity|]. unfold ct_decode, ct_detokenize. rewrite map_map.
  rewrite (map_ext_in _ (fun s => s)).
  - rewrite map_id. change (@nil Z) with (unwords []). rewrite D by constructor. reflexivity.
  - intros s Hs. apply id_token; [exact CO|]. apply in_concat in Hs as (ps & Hp & Hs). rewrite Forall_forall in FV. specialize (FV ps Hp). rewrite Forall_forall in FV. exact (FV s Hs).
Qed.
