(** WordPiece: cleaning, special tokens, words. *)
From Verif Require Import Base DTypeModel ParamModel TensorModel TokModel TokSpec Utf8Proofs WpModel WpSpec WpUtf8 WpGreedy.
Local Open Scope Z_scope.

(** *** Character classes *)
Lemma punct_eq c : is_punct c = punctuation c.
Proof. unfold is_punct, punctuation, ascii_punctuation. cbn [existsb]. lia. Qed.
Lemma white_eq c : is_white c = blank c.
Proof. unfold is_white, blank. cbn [existsb]. lia. Qed.
Lemma control_eq c : 0 <= c -> is_control c = control c.
Proof. unfold is_control, control, between. cbn [existsb fst snd]. lia. Qed.
Lemma chinese_eq c : is_chinese c = ideograph c.
Proof. unfold is_chinese, ideograph, between. cbn [existsb fst snd]. lia. Qed.
Lemma scalar_pos c : scalar c -> 0 <= c.
Proof. unfold scalar. lia. Qed.

(** *** Cleaning *)
Lemma flat_scalar (g : Z -> list Z) w : (forall c, scalar c -> Forall scalar (g c)) -> Forall scalar w -> Forall scalar (flat_map g w).
Proof. intros G W. induction W as [|c w C _ IH]; [constructor|]. cbn [flat_map]. apply Forall_app. split; [apply G, C|exact IH]. Qed.
Lemma scalar_ascii c : 0 <= c < 128 -> scalar c.
Proof. unfold scalar. lia. Qed.
Lemma clean_scalar c : scalar c -> Forall scalar (clean_cp c).
Proof. intro S. unfold clean_cp. destruct (is_control c); [|exact (Forall_cons _ S (Forall_nil _))]. destruct (_ || _); [|constructor]. apply Forall_cons; [apply scalar_ascii; lia|constructor]. Qed.
Lemma chinese_scalar c : scalar c -> Forall scalar (chinese_cp c).
Proof. intro S. assert (B : scalar 32) by (apply scalar_ascii; lia). unfold chinese_cp. destruct (is_chinese c); repeat (apply Forall_cons || apply Forall_nil); assumption. Qed.
Lemma lower_scalar c : scalar c -> scalar (lower_cp c).
Proof. unfold lower_cp, scalar. intro S. destruct (_ && _) eqn:E; lia. Qed.
Lemma clean_ok w : Forall scalar w -> clean_text (utf8_text w) = ROk (utf8_text (flat_map clean_cp w)).
Proof. intro W. unfold clean_text. rewrite decode_text by exact W. cbn [rbind]. apply encode_text, flat_scalar; [exact clean_scalar|exact W]. Qed.
Lemma chinese_ok w : Forall scalar w -> tokenize_chinese (utf8_text w) = ROk (utf8_text (flat_map chinese_cp w)).
Proof. intro W. unfold tokenize_chinese. rewrite decode_text by exact W. cbn [rbind]. apply encode_text, flat_scalar; [exact chinese_scalar|exact W]. Qed.
Lemma lower_ok w : Forall scalar w -> lowercase (utf8_text w) = ROk (utf8_text (map lower_cp w)).
Proof. intro W. unfold lowercase. rewrite decode_text by exact W. cbn [rbind]. apply encode_text. apply Forall_forall. intros c H. apply in_map_iff in H as (d & <- & H). rewrite Forall_forall in W. apply lower_scalar, W, H. Qed.

(** *** Slices *)
Lemma slices_ok w : Forall scalar w -> slices (utf8_text w) = ROk (map (fun c => (c, utf8_of c)) w).
Proof.
  intro H. unfold slices. assert (G : forall f, (length (utf8_text w) <= f)%nat -> slices_loop f (utf8_text w) = ROk (map (fun c => (c, utf8_of c)) w)); [|apply G; lia].
  induction H as [|c w S _ IH]; intros f F; [destruct f; reflexivity|].
  rewrite text_cons in *. rewrite app_length in F. pose proof (utf8_of_ne c) as NE. pose proof (next_ok c (utf8_text w) S) as N.
  assert (K : firstn (length (utf8_of c ++ utf8_text w) - length (utf8_text w)) (utf8_of c ++ utf8_text w) = utf8_of c).
  { rewrite app_length. replace (length (utf8_of c) + length (utf8_text w) - length (utf8_text w))%nat with (length (utf8_of c)) by lia. rewrite firstn_app, Nat.sub_diag, firstn_all, firstn_O, app_nil_r. reflexivity. }
  remember (utf8_of c ++ utf8_text w) as s eqn:Es. destruct s as [|b s]; [destruct (utf8_of c); [congruence|discriminate]|].
  destruct f as [|f]; [destruct (utf8_of c); [congruence|cbn [length] in F; lia]|]. cbn [slices_loop]. rewrite N. cbn [rbind fst snd].
  rewrite IH; [cbn [rbind]; rewrite K; reflexivity|]. destruct (utf8_of c); [congruence|cbn [length] in F; lia].
Qed.

(** *** Words with a current, unfinished word *)
Definition flushed (cur : list Z) : list (list Z) := match cur with [] => [] | _ => [cur] end.
Fixpoint W (cur l : list Z) : list (list Z) :=
  match l with
  | [] => flushed cur
  | c :: l => if 32 =? c then flushed cur ++ W [] l else W (cur ++ [c]) l
  end.
Lemma fields_ne p l : fields p l <> [].
Proof. destruct l as [|c l]; cbn [fields]; [discriminate|]. destruct (p c); [discriminate|]. destruct (fields p l); discriminate. Qed.
Lemma W_words l : W [] l = words (Z.eqb 32) l.
Proof.
  assert (G : forall l cur, W cur l = filter (fun f => match f with [] => false | _ => true end) (match fields (Z.eqb 32) l with f :: fs => (cur ++ f) :: fs | [] => [] end)).
  { clear. induction l as [|c l IH]; intro cur; cbn [W fields].
    - cbn [filter]. rewrite app_nil_r. destruct cur; reflexivity.
    - destruct (32 =? c).
      + rewrite IH. rewrite app_nil_r. cbn [filter]. pose proof (fields_ne (Z.eqb 32) l). destruct (fields (Z.eqb 32) l) as [|f fs]; [congruence|]. cbn [app]. destruct cur; reflexivity.
      + rewrite IH. pose proof (fields_ne (Z.eqb 32) l). destruct (fields (Z.eqb 32) l) as [|f fs]; [congruence|]. rewrite <- app_assoc. reflexivity. }
  rewrite G. unfold words. pose proof (fields_ne (Z.eqb 32) l). destruct (fields (Z.eqb 32) l) as [|f fs]; [congruence|]. reflexivity.
Qed.
Lemma W_sep : forall a cur b, W cur (a ++ 32 :: b) = W cur a ++ W [] b.
Proof.
  induction a as [|c a IH]; intros cur b; cbn [app W].
  - rewrite Z.eqb_refl. reflexivity.
  - destruct (32 =? c); [rewrite IH, app_assoc; reflexivity|apply IH].
Qed.
(** Splitting the words of a text again. *)
Lemma W_again (g : Z -> list Z) : forall l cur, ~ In 32 cur ->
  concat (map (fun x => W [] (flat_map g x)) (W cur l)) = W [] (flat_map g cur ++ flat_map (fun c => if 32 =? c then [32] else g c) l).
Proof.
  assert (FL : forall cur, concat (map (fun x => W [] (flat_map g x)) (flushed cur)) = W [] (flat_map g cur)).
  { intros [|c cur]; [reflexivity|]. cbn [flushed map concat]. apply app_nil_r. }
  induction l as [|c l IH]; intros cur N; cbn [W flat_map].
  - rewrite app_nil_r. apply FL.
  - destruct (32 =? c) eqn:E.
    + rewrite map_app, concat_app, FL, IH by (intros []). cbn [flat_map app]. rewrite W_sep. reflexivity.
    + rewrite IH; [|intro H; apply in_app_iff in H as [H|[H|[]]]; [exact (N H)|lia]]. rewrite flat_map_app, <- app_assoc. cbn [flat_map]. rewrite app_nil_r. reflexivity.
Qed.
Lemma text_flush res cur : flush res (utf8_text cur) = res ++ map utf8_text (flushed cur).
Proof.
  destruct cur as [|c cur]; [cbn; rewrite app_nil_r; reflexivity|]. cbn [flushed map]. unfold flush. remember (utf8_text (c :: cur)) as s eqn:E. destruct s; [|reflexivity].
  exfalso. rewrite text_cons in E. pose proof (utf8_of_ne c). destruct (utf8_of c); [congruence|discriminate].
Qed.
Lemma text_one c : utf8_text [c] = utf8_of c.
Proof. rewrite text_cons. apply app_nil_r. Qed.
Lemma white_ok : forall l res cur, white_loop (map (fun c => (c, utf8_of c)) l) res (utf8_text cur) = res ++ map utf8_text (W cur (map (fun c => if is_white c then 32 else c) l)).
Proof.
  induction l as [|c l IH]; intros res cur; cbn [map white_loop W].
  - apply text_flush.
  - destruct (is_white c) eqn:E.
    + rewrite Z.eqb_refl, map_app, app_assoc, <- text_flush. apply (IH _ []).
    + replace (32 =? c) with false by (unfold is_white in E; lia). rewrite <- (IH res (cur ++ [c])). rewrite text_app, text_one. reflexivity.
Qed.
Lemma punct_ok : forall l res cur, ~ In 32 l ->
  punct_loop (map (fun c => (c, utf8_of c)) l) res (utf8_text cur) = res ++ map utf8_text (W cur (flat_map (fun c => if is_punct c then [32; c; 32] else [c]) l)).
Proof.
  induction l as [|c l IH]; intros res cur N; cbn [map punct_loop W flat_map].
  - apply text_flush.
  - destruct (is_punct c) eqn:E.
    + cbn [app W]. rewrite Z.eqb_refl. replace (32 =? c) with false by (unfold is_punct in E; lia). cbn [W app]. rewrite ?Z.eqb_refl. cbn [flushed app]. rewrite map_app, app_assoc, <- text_flush. cbn [map].
      rewrite text_one. rewrite (IH _ []) by (intro H; apply N; right; exact H). rewrite <- app_assoc. reflexivity.
    + cbn [app W]. replace (32 =? c) with false by (symmetry; apply Z.eqb_neq; intro H; apply N; left; symmetry; exact H).
      rewrite <- (IH res (cur ++ [c])) by (intro H; apply N; right; exact H). rewrite text_app, text_one. reflexivity.
Qed.
Lemma W_forall (P : Z -> Prop) : forall l cur, Forall P cur -> Forall P l -> Forall (Forall P) (W cur l).
Proof.
  assert (FL : forall cur, Forall P cur -> Forall (Forall P) (flushed cur)) by (intros [|c cur] H; cbn [flushed]; [apply Forall_nil|apply Forall_cons; [exact H|apply Forall_nil]]).
  induction l as [|c l IH]; intros cur C L; cbn [W]; [apply FL, C|]. inversion L; subst. destruct (32 =? c).
  - apply Forall_app. split; [apply FL, C|apply IH; [constructor|assumption]].
  - apply IH; [apply Forall_app; split; [exact C|apply Forall_cons; [assumption|constructor]]|assumption].
Qed.
Lemma W_no_sep : forall l cur, ~ In 32 cur -> Forall (fun x => ~ In 32 x) (W cur l).
Proof.
  assert (FL : forall cur, ~ In 32 cur -> Forall (fun x => ~ In 32 x) (flushed cur)) by (intros [|c cur] H; cbn [flushed]; [apply Forall_nil|apply Forall_cons; [exact H|apply Forall_nil]]).
  induction l as [|c l IH]; intros cur C; cbn [W]; [apply FL, C|]. destruct (32 =? c) eqn:E.
  - apply Forall_app. split; [apply FL, C|apply IH; intros []].
  - apply IH. intro H. apply in_app_iff in H as [H|[H|[]]]; [exact (C H)|lia].
Qed.
Lemma rmap_ok {X Y} (f : X -> res Y) (g : X -> Y) l : (forall x, In x l -> f x = ROk (g x)) -> rmap f l = ROk (map g l).
Proof. induction l as [|x l IH]; intro H; [reflexivity|]. cbn [rmap map]. rewrite (H x) by (left; reflexivity). cbn [rbind]. rewrite IH by (intros y Hy; apply H; right; exact Hy). reflexivity. Qed.

(** One segment without special tokens. *)
Definition cut (lower : bool) (c : Z) : list Z := if is_punct c then [32; c; 32] else [if lower then lower_cp c else c].
Lemma segment_ok t w : Forall scalar w -> special_token t (utf8_text w) = false ->
  basic_segment t (utf8_text w) = ROk (map utf8_text (W [] (flat_map (fun c => if is_white c then [32] else cut (wp_lower t) c) w))).
Proof.
  intros S NS. unfold basic_segment. rewrite NS. unfold split_white. rewrite slices_ok by exact S. cbn [rbind]. change (@nil Z) with (utf8_text []) at 1. rewrite white_ok. cbn [app].
  set (l := map (fun c => if is_white c then 32 else c) w).
  assert (SL : Forall scalar l). { unfold l. apply Forall_forall. intros c H. apply in_map_iff in H as (d & <- & H). rewrite Forall_forall in S. destruct (is_white d); [apply scalar_ascii; lia|apply S, H]. }
  pose proof (W_forall scalar l [] (Forall_nil _) SL) as F1. pose proof (W_no_sep l [] (fun H => H)) as F2.
  assert (B : forall x, In x (W [] l) -> basic_word t (utf8_text x) = ROk (map utf8_text (W [] (flat_map (cut (wp_lower t)) x)))).
  { intros x Hx. rewrite Forall_forall in F1, F2. specialize (F1 x Hx). specialize (F2 x Hx). unfold basic_word.
    assert (E : (if wp_lower t then lowercase (utf8_text x) else @ROk str (utf8_text x)) = ROk (utf8_text (if wp_lower t then map lower_cp x else x))) by (destruct (wp_lower t); [apply lower_ok, F1|reflexivity]).
    rewrite E. cbn [rbind]. unfold split_punct. rewrite slices_ok.
    2:{ destruct (wp_lower t); [|exact F1]. apply Forall_forall. intros c H. apply in_map_iff in H as (d & <- & H). rewrite Forall_forall in F1. apply lower_scalar, F1, H. }
    cbn [rbind]. change (@nil Z) with (utf8_text []) at 1. rewrite punct_ok.
    2:{ destruct (wp_lower t); [|exact F2]. intro H. apply in_map_iff in H as (d & E1 & H). unfold lower_cp in E1. destruct (_ && _) eqn:E2 in E1; [lia|]. subst. exact (F2 H). }
    cbn [app]. do 3 f_equal. destruct (wp_lower t).
    - rewrite flat_map_concat_map, map_map, <- flat_map_concat_map. apply flat_map_ext. intro c. unfold cut. replace (is_punct (lower_cp c)) with (is_punct c); [destruct (is_punct c) eqn:Q; [|reflexivity]; unfold lower_cp; replace ((65 <=? c) && (c <=? 90)) with false by (unfold is_punct in Q; lia); reflexivity|].
      unfold lower_cp. destruct (_ && _) eqn:Q; [|reflexivity]. unfold is_punct. lia.
    - apply flat_map_ext. intro c. reflexivity. }
  rewrite (rmap_ok _ (fun s => match utf8_decode s with ROk x => map utf8_text (W [] (flat_map (cut (wp_lower t)) x)) | _ => [] end)).
  2:{ intros s Hs. apply in_map_iff in Hs as (x & <- & Hx). rewrite (B x Hx). rewrite Forall_forall in F1. rewrite decode_text by (apply F1, Hx). reflexivity. }
  cbn [rbind]. f_equal. rewrite map_map.
  rewrite (map_ext_in _ (fun x => map utf8_text (W [] (flat_map (cut (wp_lower t)) x)))) by (intros x Hx; rewrite Forall_forall in F1; rewrite decode_text by (apply F1, Hx); reflexivity).
  rewrite <- (map_map (fun x => W [] (flat_map (cut (wp_lower t)) x)) (map utf8_text)), <- concat_map. f_equal. rewrite W_again by (intros []). cbn [flat_map app]. f_equal.
  unfold l. rewrite flat_map_concat_map, map_map, <- flat_map_concat_map. apply flat_map_ext. intro c. destruct (is_white c) eqn:Q; [reflexivity|]. replace (32 =? c) with false by (unfold is_white in Q; lia). reflexivity.
Qed.
Lemma flat_flat {A B C} (g : B -> list C) (f : A -> list B) l : flat_map g (flat_map f l) = flat_map (fun a => flat_map g (f a)) l.
Proof. induction l as [|a l IH]; [reflexivity|]. cbn [flat_map]. rewrite flat_map_app, IH. reflexivity. Qed.
Lemma flat_ext_in {A B} (f g : A -> list B) l : (forall x, In x l -> f x = g x) -> flat_map f l = flat_map g l.
Proof. induction l as [|a l IH]; intro H; [reflexivity|]. cbn [flat_map]. rewrite (H a) by (left; reflexivity). rewrite IH by (intros x Hx; apply H; right; exact Hx). reflexivity. Qed.
Definition cleaning (chinese : bool) (c : Z) : list Z := if chinese then flat_map chinese_cp (clean_cp c) else clean_cp c.
Lemma cleaning_scalar ch c : scalar c -> Forall scalar (cleaning ch c).
Proof. intro S. unfold cleaning. destruct ch; [apply flat_scalar; [exact chinese_scalar|apply clean_scalar, S]|apply clean_scalar, S]. Qed.
Lemma cleaned_eq ch w : Forall scalar w -> flat_map (cleaning ch) w = cleaned ch w.
Proof.
  intro S. unfold cleaned. apply flat_ext_in. intros c H. rewrite Forall_forall in S. pose proof (scalar_pos c (S c H)) as P. rewrite <- control_eq by exact P.
  unfold cleaning, clean_cp, line_blank. cbn [existsb]. destruct (is_control c) eqn:E.
  - destruct ((c =? 9) || (c =? 10) || (c =? 13)) eqn:L; replace ((c =? 9) || ((c =? 10) || ((c =? 13) || false))) with ((c =? 9) || (c =? 10) || (c =? 13)) by lia; rewrite L; destruct ch; reflexivity.
  - replace ((c =? 9) || ((c =? 10) || ((c =? 13) || false))) with false by (unfold is_control in E; lia). destruct ch; [|reflexivity]. cbn [flat_map andb]. rewrite app_nil_r. unfold chinese_cp. rewrite chinese_eq. destruct (ideograph c); reflexivity.
Qed.
(** Cutting a cleaned text; cleaning first or not makes no difference. *)
Lemma cut_spread lower ch c : 0 <= c -> flat_map (fun c => if is_white c then [32] else cut lower c) (cleaning ch c) = spread lower ch c.
Proof.
  intro P. unfold cleaning, clean_cp, spread, line_blank. cbn [existsb]. rewrite <- control_eq by exact P. rewrite <- punct_eq, <- chinese_eq, <- white_eq.
  destruct (is_control c) eqn:E.
  - destruct ((c =? 9) || (c =? 10) || (c =? 13)) eqn:L; replace ((c =? 9) || ((c =? 10) || ((c =? 13) || false))) with ((c =? 9) || (c =? 10) || (c =? 13)) by lia; rewrite L; destruct ch; reflexivity.
  - replace ((c =? 9) || ((c =? 10) || ((c =? 13) || false))) with false by (unfold is_control in E; lia).
    assert (A : forall x, is_chinese x = true -> is_white x = false /\ is_punct x = false /\ lower_cp x = x).
    { intros x Hx. unfold is_chinese in Hx. unfold is_white, is_punct, lower_cp. repeat split; try lia. replace ((65 <=? x) && (x <=? 90)) with false by lia. reflexivity. }
    assert (LO : forall x, lower_cp x = to_lower x) by reflexivity.
    destruct ch; cbn [andb].
    + cbn [flat_map]. rewrite app_nil_r. unfold chinese_cp. destruct (is_chinese c) eqn:H.
      * destruct (A c H) as (A1 & A2 & A3). cbn [flat_map app]. change (is_white 32) with true. cbn beta iota. rewrite A1. unfold cut. rewrite A2, A3. cbn [app orb]. destruct lower; reflexivity.
      * cbn [flat_map]. rewrite app_nil_r. destruct (is_white c); [reflexivity|]. unfold cut. destruct (is_punct c); cbn [orb]; [reflexivity|]. destruct lower; reflexivity.
    + cbn [flat_map]. rewrite app_nil_r. destruct (is_white c); [reflexivity|]. unfold cut. destruct (is_punct c); cbn [orb]; [reflexivity|]. destruct lower; reflexivity.
Qed.
(** *** Special tokens *)
Lemma starts_iff p : forall l, starts_with p l = true <-> exists r, l = p ++ r.
Proof.
  induction p as [|x p IH]; intro l; cbn [starts_with]; [split; [exists l; reflexivity|reflexivity]|]. destruct l as [|y l]; [split; [discriminate|intros (r & H); discriminate]|].
  rewrite andb_true_iff, IH. split.
  - intros (E & r & ->). apply Z.eqb_eq in E. subst. exists r. reflexivity.
  - intros (r & E). injection E as -> ->. split; [apply Z.eqb_refl|exists r; reflexivity].
Qed.
Lemma search_some tok : forall s k, search tok s = Some k -> (k <= length s)%nat /\ starts_with tok (skipn k s) = true /\ forall j, (j < k)%nat -> starts_with tok (skipn j s) = false.
Proof.
  induction s as [|c s IH]; intros k H; cbn [search] in H.
  - destruct (starts_with tok []) eqn:E; [|discriminate]. injection H as <-. repeat split; [cbn; lia|exact E|intros; lia].
  - destruct (starts_with tok (c :: s)) eqn:E; [injection H as <-; repeat split; [cbn; lia|exact E|intros; lia]|].
    destruct (search tok s) as [m|]; [|discriminate]. injection H as <-. destruct (IH m eq_refl) as (I1 & I2 & I3). repeat split; [cbn [length]; lia|exact I2|].
    intros [|j] Hj; [exact E|]. cbn [skipn]. apply I3. lia.
Qed.
Lemma search_none tok : forall s, search tok s = None -> forall j, starts_with tok (skipn j s) = true -> (length s < j)%nat.
Proof.
  induction s as [|c s IH]; intros H j Hj; cbn [search] in H.
  - destruct (starts_with tok []) eqn:E; [discriminate|]. destruct j; cbn [skipn] in Hj; congruence.
  - destruct (starts_with tok (c :: s)) eqn:E; [discriminate|]. destruct (search tok s); [discriminate|]. destruct j as [|j]; [cbn [skipn] in Hj; congruence|]. cbn [skipn length] in *. specialize (IH eq_refl j Hj). lia.
Qed.
(** The best token so far. *)
Definition best_of (T : str -> Prop) (s : str) (b : option (nat * str)) : Prop :=
  match b with
  | None => forall u, T u -> search u s = None
  | Some (k, u) => T u /\ search u s = Some k /\ forall v j, T v -> search v s = Some j -> (k <= j)%nat
  end.
Lemma earliest_best added s : best_of (fun u => In (u, true) added) s (earliest added s).
Proof.
  unfold earliest. assert (G : forall l b (T : str -> Prop), best_of T s b -> best_of (fun u => T u \/ In (u, true) l) s (fold_left (earliest_step s) l b)).
  { induction l as [|[u sp] l IH]; intros b T B; cbn [fold_left].
    - destruct b as [[k v]|]; cbn [best_of In] in *.
      + destruct B as (B1 & B2 & B3). split; [left; exact B1|]. split; [exact B2|]. intros x j [H|[]]. apply B3, H.
      + intros x [H|[]]. apply B, H.
    - assert (B' : best_of (fun x => T x \/ (x = u /\ sp = true)) s (earliest_step s b (u, sp))).
      { unfold earliest_step. cbn [fst snd]. destruct sp.
        - destruct (search u s) as [k|] eqn:E.
          + destruct b as [[k0 v]|]; cbn [best_of] in *.
            * destruct B as (B1 & B2 & B3). destruct (k <? k0)%nat eqn:L; cbn [best_of].
              -- split; [right; auto|]. split; [exact E|]. intros x j [H|[-> _]] S; [specialize (B3 x j H S)|assert (j = k) by congruence]; apply Nat.ltb_lt in L; lia.
              -- split; [left; exact B1|]. split; [exact B2|]. intros x j [H|[-> _]] S; [exact (B3 x j H S)|assert (j = k) by congruence]. apply Nat.ltb_ge in L. lia.
            * split; [right; auto|]. split; [exact E|]. intros x j [H|[-> _]] S; [rewrite (B x H) in S; discriminate|assert (j = k) by congruence; lia].
          + destruct b as [[k0 v]|]; cbn [best_of] in *.
            * destruct B as (B1 & B2 & B3). split; [left; exact B1|]. split; [exact B2|]. intros x j [H|[-> _]] S; [exact (B3 x j H S)|congruence].
            * intros x [H|[-> _]]; [apply B, H|exact E].
        - destruct b as [[k0 v]|]; cbn [best_of] in *.
          + destruct B as (B1 & B2 & B3). split; [left; exact B1|]. split; [exact B2|]. intros x j [H|[_ H]] S; [exact (B3 x j H S)|discriminate].
          + intros x [H|[_ H]]; [apply B, H|discriminate]. }
      specialize (IH _ _ B'). destruct (fold_left (earliest_step s) l (earliest_step s b (u, sp))) as [[k v]|]; cbn [best_of] in *.
      + destruct IH as (I1 & I2 & I3). split; [|split; [exact I2|]].
        * destruct I1 as [[I1|[-> ->]]|I1]; [left; exact I1|right; left; reflexivity|right; right; exact I1].
        * intros x j [H|[H|H]] S; [apply (I3 x j); [left; left; exact H|exact S]|injection H as -> ->; apply (I3 x j); [left; right; auto|exact S]|apply (I3 x j); [right; exact H|exact S]].
      + intros x [H|[H|H]]; [apply IH; left; left; exact H|injection H as -> ->; apply IH; left; right; auto|apply IH; right; exact H]. }
  assert (B0 : best_of (fun _ => False) s None) by (intros u []). specialize (G added None _ B0). destruct (fold_left _ added None) as [[k u]|]; cbn [best_of] in *.
  - destruct G as (G1 & G2 & G3). split; [destruct G1 as [[]|G1]; exact G1|]. split; [exact G2|]. intros v j H. apply G3. right. exact H.
  - intros u H. apply G. right. exact H.
Qed.

Lemma text_len w : (length w <= length (utf8_text w))%nat.
Proof. induction w as [|c w IH]; [cbn; lia|]. rewrite text_cons, app_length. pose proof (utf8_of_ne c). destruct (utf8_of c); [congruence|]. cbn [length]. lia. Qed.
Lemma special_loop_ok added T : specials added T -> forall f w, Forall scalar w -> (length w < f)%nat ->
  exists segs, special_loop f added (utf8_text w) = ROk (map utf8_text segs) /\ leftmost T w segs /\ Forall (Forall scalar) segs.
Proof.
  intros [TS TA]. rewrite Forall_forall in TS. induction f as [|f IH]; intros w S L; [lia|].
  destruct w as [|c0 w0]; [exists []; split; [reflexivity|]; split; [apply left_end|constructor]|]. remember (c0 :: w0) as w eqn:Ew.
  assert (NE : utf8_text w <> []). { rewrite Ew, text_cons. pose proof (utf8_of_ne c0). destruct (utf8_of c0); [congruence|discriminate]. }
  assert (START : forall t' a b, In t' T -> w = a ++ t' ++ b -> starts_with (utf8_text t') (skipn (length (utf8_text a)) (utf8_text w)) = true).
  { intros t' a b _ EO. apply starts_iff. exists (utf8_text b). rewrite EO, !text_app. rewrite skipn_app, skipn_all, Nat.sub_diag. reflexivity. }
  assert (ADD : forall t', In t' T -> In (utf8_text t', true) added) by (intros t' H; apply TA; exists t'; auto).
  cbn [special_loop]. destruct (utf8_text w) as [|b0 s0] eqn:Es; [congruence|]. rewrite <- Es in *. pose proof (earliest_best added (utf8_text w)) as B. destruct (earliest added (utf8_text w)) as [[k tok]|]; cbn [best_of] in B.
  - destruct B as (B1 & B2 & B3). apply TA in B1 as (c & Hc & ->). destruct (TS c Hc) as [NC SC].
    destruct (search_some _ _ _ B2) as (K1 & K2 & K3). apply starts_iff in K2 as (r & K2).
    assert (E : utf8_text w = firstn k (utf8_text w) ++ utf8_text c ++ r) by (rewrite <- K2, firstn_skipn; reflexivity).
    destruct (occurs_text c SC NC w _ _ S E) as (u & v & EW & EU & EV).
    assert (EL : length (utf8_text u) = k) by (rewrite <- EU, firstn_length; lia).
    assert (SK : skipn (k + length (utf8_text c)) (utf8_text w) = utf8_text v).
    { rewrite EW, !text_app, app_assoc. replace (k + length (utf8_text c))%nat with (length (utf8_text u ++ utf8_text c)) by (rewrite app_length; lia).
      rewrite skipn_app, skipn_all, Nat.sub_diag. reflexivity. }
    rewrite SK. assert (SU : Forall scalar u /\ Forall scalar v) by (rewrite EW in S; apply Forall_app in S as [SU S]; apply Forall_app in S as [_ SV]; auto).
    destruct SU as [SU SV]. assert (LC : (1 <= length c)%nat) by (destruct c; [congruence|cbn; lia]).
    assert (LV : (length v < f)%nat) by (rewrite EW, !app_length in L; lia).
    destruct (IH v SV LV) as (segs & I1 & I2 & I3). rewrite I1. cbn [rbind].
    exists (unless_empty u ++ c :: segs). split.
    + f_equal. rewrite map_app. cbn [map]. f_equal. destruct k as [|k].
      * destruct u as [|x u]; [reflexivity|]. rewrite text_cons, app_length in EL. pose proof (utf8_of_ne x). destruct (utf8_of x); [congruence|discriminate].
      * rewrite EU. destruct u as [|x u]; [discriminate|reflexivity].
    + split.
      * rewrite EW. apply left_special; [exact Hc| |exact I2]. intros t' a b Ht EO. rewrite <- EW in EO. pose proof (START t' a b Ht EO) as P. pose proof (ADD t' Ht) as Q.
        assert (KA : (k <= length (utf8_text a))%nat).
        { destruct (search (utf8_text t') (utf8_text w)) as [j|] eqn:SJ.
          - pose proof (B3 _ _ Q SJ). destruct (search_some _ _ _ SJ) as (_ & _ & M). destruct (Nat.lt_ge_cases (length (utf8_text a)) j) as [J|J]; [rewrite M in P by exact J; discriminate|lia].
          - pose proof (search_none _ _ SJ _ P) as LL. rewrite EO, !text_app, !app_length in LL. lia. }
        destruct (Nat.le_gt_cases (length u) (length a)) as [G|G]; [exact G|exfalso].
        assert (PU : a = firstn (length a) u).
        { assert (X : firstn (length a) w = a) by (rewrite EO, firstn_app, Nat.sub_diag, firstn_all, firstn_O, app_nil_r; reflexivity). rewrite <- X at 1. rewrite EW, firstn_app. replace (length a - length u)%nat with O by lia. rewrite firstn_O, app_nil_r. reflexivity. }
        assert (DU : u = a ++ skipn (length a) u) by (rewrite PU at 1; symmetry; apply firstn_skipn).
        pose proof (f_equal (fun z => length (utf8_text z)) DU) as LU. cbn beta in LU. rewrite text_app, app_length in LU. pose proof (text_len (skipn (length a) u)) as LS. rewrite skipn_length in LS. lia.
      * apply Forall_app. split; [destruct u; [constructor|apply Forall_cons; [exact SU|constructor]]|]. apply Forall_cons; assumption.
  - exists [w]. split; [reflexivity|]. split; [|apply Forall_cons; [exact S|constructor]]. apply left_plain. split; [rewrite Ew; discriminate|]. intros t Ht (a & b & EO).
    pose proof (search_none _ _ (B _ (ADD t Ht)) _ (START t a b Ht EO)) as LL. rewrite EO, !text_app, !app_length in LL. lia.
Qed.
Lemma leftmost_concat T w segs : leftmost T w segs -> concat segs = w.
Proof. induction 1 as [|w _|u t v segs _ _ _ IH]; [reflexivity|apply app_nil_r|]. rewrite concat_app. cbn [concat]. rewrite IH. f_equal. destruct u; [reflexivity|apply app_nil_r]. Qed.
Lemma leftmost_pieces T w segs : ~ In [] T -> leftmost T w segs -> Forall (fun p => In p T \/ plain_piece T p) segs /\ no_two_adjacent (plain_piece T) segs.
Proof.
  intro NT. assert (plain_not_special : forall p, In p T -> ~ plain_piece T p).
  { intros p H [_ N]. apply (N p H). exists [], []. rewrite app_nil_r. reflexivity. }
  induction 1 as [|w P|u t v segs Ht M _ [IH1 IH2]].
  - split; [constructor|intros a x y b E; destruct a; discriminate].
  - split; [apply Forall_cons; [right; exact P|constructor]|intros a x y b E; destruct a as [|z [|]]; discriminate].
  - assert (N2 : no_two_adjacent (plain_piece T) (t :: segs)).
    { intros a x y b E [P1 P2]. destruct a as [|z a]; cbn [app] in E; [injection E as <- _; exact (plain_not_special _ Ht P1)|]. injection E as _ E. exact (IH2 a x y b E (conj P1 P2)). }
    split.
    + apply Forall_app. split; [|apply Forall_cons; [left; exact Ht|exact IH1]]. destruct u as [|c u]; [constructor|]. apply Forall_cons; [right|constructor]. split; [discriminate|].
      intros t' Ht' (a & b & EO). specialize (M t' a (b ++ t ++ v) Ht'). rewrite EO in M. rewrite !app_length, <- !app_assoc in M. specialize (M eq_refl). destruct t' as [|]; [exact (NT Ht')|]. cbn [length] in M. lia.
    + destruct u as [|c u]; [exact N2|]. intros a x y b E [P1 P2]. cbn [unless_empty app] in E. destruct a as [|z a]; cbn [app] in E; [injection E as _ <- _; exact (plain_not_special _ Ht P2)|]. injection E as _ E. exact (N2 a x y b E (conj P1 P2)).
Qed.
(** Which tokens are found is determined when none is the beginning of another. *)
Lemma app_same_length {A} (a b c d : list A) : a ++ b = c ++ d -> length a = length c -> a = c /\ b = d.
Proof. revert c. induction a as [|x a IH]; intros [|y c] E L; try discriminate; [auto|]. cbn [app length] in *. injection E as -> E. destruct (IH c E ltac:(lia)) as [-> ->]. auto. Qed.
Lemma prefix_free_same T a b r s : prefix_free T -> In a T -> In b T -> a ++ r = b ++ s -> a = b.
Proof.
  intros PF A B E. assert (G : forall a b r s, In a T -> In b T -> a ++ r = b ++ s -> (length a <= length b)%nat -> a = b).
  { clear - PF. intros a b r s A B E L. assert (X : b = a ++ skipn (length a) b).
    { pose proof (f_equal (firstn (length a)) E) as F. rewrite !firstn_app, Nat.sub_diag, firstn_all, firstn_O, app_nil_r in F. replace (length a - length b)%nat with O in F by lia. rewrite firstn_O, app_nil_r in F. rewrite F at 1. symmetry. apply firstn_skipn. }
    pose proof (PF a b _ A B X) as R. rewrite R, app_nil_r in X. auto. }
  destruct (Nat.le_ge_cases (length a) (length b)) as [L|L]; [exact (G _ _ _ _ A B E L)|symmetry; symmetry in E; exact (G _ _ _ _ B A E L)].
Qed.
Lemma leftmost_fun T w s1 : ~ In [] T -> prefix_free T -> leftmost T w s1 -> forall s2, leftmost T w s2 -> s1 = s2.
Proof.
  intros NT PF. induction 1 as [|w P|u t v segs Ht M _ IH]; intros s2 H2.
  - inversion H2 as [|w P E|u t v segs Ht M _ E]; subst; [reflexivity|destruct P; congruence|]. destruct u, t; try discriminate. contradiction.
  - inversion H2 as [E|w0 P0 E|u t v segs Ht M _ E]; subst; [destruct P; congruence|reflexivity|]. exfalso. apply (proj2 P t Ht). exists u, v. reflexivity.
  - remember (u ++ t ++ v) as w eqn:Ew. destruct H2 as [|w P|u' t' v' segs' Ht' M' H2].
    + destruct u, t; try discriminate. contradiction.
    + exfalso. apply (proj2 P t Ht). exists u, v. exact Ew.
    + pose proof (M t' u' v' Ht' ltac:(first [exact Ew|symmetry; exact Ew|congruence])) as L1. pose proof (M' t u v Ht ltac:(first [exact Ew|symmetry; exact Ew|congruence])) as L2.
      destruct (app_same_length u (t ++ v) u' (t' ++ v')) as [-> E2]; [congruence|lia|]. pose proof (prefix_free_same T t t' v v' PF Ht Ht' E2) as ->. apply app_inv_head in E2 as ->. rewrite (IH segs' H2). reflexivity.
Qed.
Lemma special_token_ok t T p : NoDup (map fst (wp_added t)) -> specials (wp_added t) T -> Forall scalar p ->
  (special_token t (utf8_text p) = true <-> In p T).
Proof.
  intros ND [TS TA] SP. unfold special_token. split.
  - destruct (str_find (utf8_text p) (wp_added t)) as [b|] eqn:F; [|discriminate]. intros ->. apply str_find_in in F. apply TA in F as (c & Hc & E). rewrite Forall_forall in TS.
    rewrite (text_inj p c SP (proj2 (TS c Hc)) E). exact Hc.
  - intro H. rewrite (str_find_nodup (utf8_text p) (wp_added t) true ND); [reflexivity|]. apply TA. exists p. auto.
Qed.

Lemma cleaned_chars ch w : Forall scalar w -> Forall (fun c => is_control c = false) (cleaned ch w).
Proof.
  intro S. rewrite <- cleaned_eq by exact S. apply Forall_forall. intros c H. apply in_flat_map in H as (d & _ & H). unfold cleaning in H.
  assert (G : In c (clean_cp d) -> is_control c = false). { unfold clean_cp. destruct (is_control d) eqn:E; [destruct (_ || _); intros []; [subst; reflexivity|contradiction]|intros [<-|[]]; exact E]. }
  destruct ch; [|apply G, H]. apply in_flat_map in H as (e & He & H). unfold chinese_cp in H. assert (Q : is_control e = false) by (clear G H; unfold clean_cp in He; destruct (is_control d) eqn:E; [destruct (_ || _); destruct He as []; [subst; reflexivity|contradiction]|destruct He as [<-|[]]; exact E]).
  destruct (is_chinese e); cbn [In] in H; destruct H as [<-|H]; try exact Q; try reflexivity; try contradiction. destruct H as [<-|[<-|[]]]; [exact Q|reflexivity].
Qed.
Lemma segment_words lower p : Forall scalar p -> Forall (fun c => is_control c = false) p ->
  W [] (flat_map (fun c => if is_white c then [32] else cut lower c) p) = plain_words lower false p.
Proof.
  intros S C. unfold plain_words. rewrite <- W_words. f_equal. apply flat_ext_in. intros c H. rewrite Forall_forall in S, C. rewrite <- (cut_spread lower false c (scalar_pos c (S c H))).
  unfold cleaning, clean_cp. rewrite (C c H). cbn [flat_map]. rewrite app_nil_r. reflexivity.
Qed.
Definition plain_part (t : wordpiece) (T : list (list Z)) (p : list Z) : list str :=
  if in_dec (list_eq_dec Z.eq_dec) p T then [utf8_text p] else map utf8_text (plain_words (wp_lower t) false p).
Theorem basic_ok t T w : NoDup (map fst (wp_added t)) -> specials (wp_added t) T -> Forall scalar w ->
  exists segs, leftmost T (cleaned (wp_chinese t) w) segs /\ Forall (Forall scalar) segs /\ basic_tokenize t (utf8_text w) = ROk (flat_map (plain_part t T) segs).
Proof.
  intros ND TS SW. unfold basic_tokenize. rewrite clean_ok by exact SW. cbn [rbind].
  assert (E : (if wp_chinese t then tokenize_chinese (utf8_text (flat_map clean_cp w)) else @ROk str (utf8_text (flat_map clean_cp w))) = ROk (utf8_text (flat_map (cleaning (wp_chinese t)) w))).
  { unfold cleaning. destruct (wp_chinese t); [|reflexivity]. rewrite chinese_ok by (apply flat_scalar; [exact clean_scalar|exact SW]). rewrite flat_flat. reflexivity. }
  rewrite E. cbn [rbind]. clear E. pose proof (cleaned_chars (wp_chinese t) w SW) as NC. rewrite <- cleaned_eq in * by exact SW. set (cw := flat_map (cleaning (wp_chinese t)) w) in *.
  assert (SC : Forall scalar cw) by (apply flat_scalar; [apply cleaning_scalar|exact SW]).
  assert (SEG : forall p, Forall scalar p -> Forall (fun c => is_control c = false) p -> basic_segment t (utf8_text p) = ROk (plain_part t T p)).
  { intros p SP CP. unfold plain_part. destruct (in_dec (list_eq_dec Z.eq_dec) p T) as [I|N].
    - unfold basic_segment. rewrite (proj2 (special_token_ok t T p ND TS SP) I). reflexivity.
    - rewrite <- segment_words by assumption. apply segment_ok; [exact SP|]. destruct (special_token t (utf8_text p)) eqn:Q; [|reflexivity]. exfalso. apply N. apply (special_token_ok t T p ND TS SP), Q. }
  assert (FIN : forall segs, Forall (Forall scalar) segs -> Forall (Forall (fun c => is_control c = false)) segs -> rmap (basic_segment t) (map utf8_text segs) = ROk (map (plain_part t T) segs)).
  { induction 1 as [|p segs P _ IH]; intro H; [reflexivity|]. inversion H; subst. cbn [map rmap]. rewrite (SEG p) by assumption. cbn [rbind]. rewrite IH by assumption. reflexivity. }
  unfold split_special. destruct (wp_added t) as [|e added] eqn:EA.
  - assert (TN : T = []). { destruct TS as [_ TA]. destruct T as [|c T]; [reflexivity|]. exfalso. destruct (proj2 (TA (utf8_text c))) as []. exists c. split; [left|]; reflexivity. }
    cbn [rbind]. destruct cw as [|c0 cw0] eqn:EW.
    + exists []. split; [apply left_end|]. split; [constructor|]. cbn [rmap]. pose proof (SEG [] (Forall_nil _) (Forall_nil _)) as Q. change (utf8_text []) with (@nil Z) in Q. change (utf8_text []) with (@nil Z). rewrite Q. cbn [rbind flat_map concat]. rewrite app_nil_r.
      unfold plain_part. rewrite TN. cbn. reflexivity.
    + rewrite <- EW in *. exists [cw]. split; [apply left_plain; split; [rewrite EW; discriminate|rewrite TN; intros t0 []]|]. split; [apply Forall_cons; [exact SC|constructor]|].
      cbn [rmap]. rewrite (SEG cw SC NC). cbn [rbind concat flat_map]. reflexivity.
  - rewrite <- EA in *. destruct (special_loop_ok (wp_added t) T TS (S (length (utf8_text cw))) cw SC) as (segs & I1 & I2 & I3); [pose proof (text_len cw); lia|].
    rewrite I1. cbn [rbind]. exists segs. split; [exact I2|]. split; [exact I3|]. rewrite FIN; [cbn [rbind]; rewrite flat_map_concat_map; reflexivity|exact I3|].
    apply leftmost_concat in I2. rewrite <- I2 in NC. clear - NC. induction segs as [|p segs IH]; [constructor|]. cbn [concat] in NC. apply Forall_app in NC as [S1 S2]. constructor; [exact S1|apply IH, S2].
Qed.
(** Without special tokens: the words of the text. *)
Theorem basic_plain t w : Forall (fun e => snd e = false) (wp_added t) -> NoDup (map fst (wp_added t)) -> Forall scalar w ->
  basic_tokenize t (utf8_text w) = ROk (map utf8_text (plain_words (wp_lower t) (wp_chinese t) w)).
Proof.
  intros NS ND SW. assert (TS : specials (wp_added t) []).
  { split; [constructor|]. intro s. split; [|intros (c & [] & _)]. intro H. rewrite Forall_forall in NS. specialize (NS _ H). discriminate. }
  destruct (basic_ok t [] w ND TS SW) as (segs & L & S & ->). f_equal. pose proof (leftmost_concat _ _ _ L) as C.
  assert (X : flat_map (plain_part t []) segs = map utf8_text (plain_words (wp_lower t) false (cleaned (wp_chinese t) w))).
  { inversion L as [E|w0 P E|u t0 v segs0 Ht]; subst; [reflexivity| |destruct Ht]. cbn [flat_map]. rewrite app_nil_r. reflexivity. }
  rewrite X. f_equal. unfold plain_words. f_equal. rewrite <- cleaned_eq by exact SW. rewrite flat_flat. apply flat_ext_in. intros c H. rewrite Forall_forall in SW. pose proof (scalar_pos c (SW c H)) as P. rewrite <- (cut_spread (wp_lower t) (wp_chinese t) c P).
  apply flat_ext_in. intros d Hd. assert (SD : scalar d) by (pose proof (cleaning_scalar (wp_chinese t) c (SW c H)) as F; rewrite Forall_forall in F; apply F, Hd).
  rewrite <- (cut_spread (wp_lower t) false d (scalar_pos d SD)). unfold cleaning at 1. unfold clean_cp.
  assert (CD : is_control d = false). { pose proof (cleaned_chars (wp_chinese t) [c] (Forall_cons _ (SW c H) (Forall_nil _))) as F. rewrite <- cleaned_eq in F by exact (Forall_cons _ (SW c H) (Forall_nil _)). cbn [flat_map] in F. rewrite app_nil_r in F. rewrite Forall_forall in F. apply F, Hd. }
  rewrite CD. cbn [flat_map]. rewrite app_nil_r. reflexivity.
Qed.
