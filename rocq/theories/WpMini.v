(** BPE over code points and MiniCPM4: detokenizing what was tokenized. *)
From Verif Require Import Base DTypeModel ParamModel TensorModel TokModel TokSpec Utf8Proofs TrieProofs BpeProofs WpModel WpSpec WpUtf8 WpGreedy WpBasic WpChat.
Local Open Scope Z_scope.

Lemma visible_scalar : scalar visible_space.
Proof. unfold scalar, visible_space. lia. Qed.
Lemma meta_text : utf8_of visible_space = meta.
Proof. reflexivity. Qed.
Lemma show_scalar w : Forall scalar w -> Forall scalar (map show_space w).
Proof. intro S. apply Forall_forall. intros c H. apply in_map_iff in H as (d & <- & H). rewrite Forall_forall in S. unfold show_space. destruct (d =? 32); [exact visible_scalar|apply S, H]. Qed.
Lemma hide_scalar w : Forall scalar w -> Forall scalar (map hide_space w).
Proof. intro S. apply Forall_forall. intros c H. apply in_map_iff in H as (d & <- & H). rewrite Forall_forall in S. unfold hide_space. destruct (d =? visible_space); [apply scalar_ascii; lia|apply S, H]. Qed.
Lemma flat_id (f : Z -> list Z) s : (forall b, In b s -> f b = [b]) -> flat_map f s = s.
Proof. induction s as [|b s IH]; intro H; [reflexivity|]. cbn [flat_map]. rewrite (H b) by (left; reflexivity). rewrite IH by (intros x Hx; apply H; right; exact Hx). reflexivity. Qed.
Lemma normalize_text w : Forall scalar w -> normalize (utf8_text w) = utf8_text (visible_space :: map show_space w).
Proof.
  intro S. unfold normalize. rewrite text_cons, meta_text. f_equal. induction S as [|c w SC _ IH]; [reflexivity|]. cbn [map]. rewrite !text_cons, flat_map_app, IH. f_equal.
  unfold show_space. destruct (c =? 32) eqn:E.
  - apply Z.eqb_eq in E. subst. reflexivity.
  - apply flat_id. intros b Hb. destruct (b =? 32) eqn:B; [|reflexivity]. apply Z.eqb_eq in B. subst. exfalso. apply (proj2 (of_small c (scalar_pos c SC))); [lia|exact Hb].
Qed.

(** *** Marks become spaces again *)
Lemma unmark_other b r : b <> 226 -> unmark (b :: r) = b :: unmark r.
Proof. intro N. cbn [unmark]. destruct b as [|q|q]; try reflexivity. do 8 (destruct q as [q|q|]; try reflexivity). congruence. Qed.
Lemma unmark_not b1 b2 r : ~ (b1 = 150 /\ b2 = 129) -> unmark (226 :: b1 :: b2 :: r) = 226 :: unmark (b1 :: b2 :: r).
Proof.
  intro N. destruct (Z.eq_dec b1 150) as [->|N1].
  - destruct b2 as [|q|q]; try reflexivity. do 8 (destruct q as [q|q|]; try reflexivity). exfalso. apply N. auto.
  - destruct b1 as [|q|q]; try reflexivity. do 8 (destruct q as [q|q|]; try reflexivity). congruence.
Qed.
Lemma unmark_char c r : scalar c -> c <> visible_space -> unmark (utf8_of c ++ r) = utf8_of c ++ unmark r.
Proof.
  intros S N. unfold scalar in S. unfold visible_space in N. unfold utf8_of.
  pose proof (Z.mod_pos_bound c 64 ltac:(lia)) as M1. pose proof (Z.mod_pos_bound (c / 64) 64 ltac:(lia)) as M2. pose proof (Z.mod_pos_bound (c / 4096) 64 ltac:(lia)) as M3.
  destruct (c <? 128) eqn:E1; [cbn [app]; apply unmark_other; lia|].
  destruct (c <? 2048) eqn:E2.
  { assert (A : 192 + c / 64 <> 226) by (Z.to_euclidean_division_equations; lia). cbn [app]. rewrite unmark_other by exact A. rewrite unmark_other by lia. reflexivity. }
  destruct (c <? 65536) eqn:E3.
  - cbn [app]. destruct (Z.eq_dec (c / 4096) 2) as [A|A].
    + replace (224 + c / 4096) with 226 by lia. rewrite unmark_not. 2:{ intros [B C]. apply N. clear - A B C. Z.to_euclidean_division_equations. lia. }
      rewrite unmark_other by lia. rewrite unmark_other by lia. reflexivity.
    + rewrite unmark_other by lia. rewrite unmark_other by lia. rewrite unmark_other by lia. reflexivity.
  - assert (A : 240 + c / 262144 <> 226) by (Z.to_euclidean_division_equations; lia). cbn [app]. rewrite unmark_other by exact A. rewrite unmark_other by lia. rewrite unmark_other by lia. rewrite unmark_other by lia. reflexivity.
Qed.
Lemma unmark_text w : Forall scalar w -> unmark (utf8_text w) = utf8_text (map hide_space w).
Proof.
  induction 1 as [|c w S _ IH]; [reflexivity|]. cbn [map]. rewrite !text_cons. unfold hide_space at 1. destruct (c =? visible_space) eqn:E.
  - apply Z.eqb_eq in E. subst. rewrite meta_text. cbn [app meta]. cbn [unmark]. rewrite IH. reflexivity.
  - rewrite unmark_char by (try exact S; lia). rewrite IH. reflexivity.
Qed.
Lemma strip_eq s : (match s with 226 :: 150 :: 129 :: r => r | _ => s end) = if starts_with meta s then skipn 3 s else s.
Proof.
  assert (Q : forall (x a : Z) (u v : list Z), match x with 226 => u | _ => v end = if x =? 226 then u else v).
  { intros x _ u v. destruct (Z.eqb_spec x 226) as [->|N]; [reflexivity|]. destruct x as [|q|q]; try reflexivity. do 8 (destruct q as [q|q|]; try reflexivity). congruence. }
  assert (Q2 : forall (x : Z) (u v : list Z), match x with 150 => u | _ => v end = if x =? 150 then u else v).
  { intros x u v. destruct (Z.eqb_spec x 150) as [->|N]; [reflexivity|]. destruct x as [|q|q]; try reflexivity. do 8 (destruct q as [q|q|]; try reflexivity). congruence. }
  assert (Q3 : forall (x : Z) (u v : list Z), match x with 129 => u | _ => v end = if x =? 129 then u else v).
  { intros x u v. destruct (Z.eqb_spec x 129) as [->|N]; [reflexivity|]. destruct x as [|q|q]; try reflexivity. do 8 (destruct q as [q|q|]; try reflexivity). congruence. }
  destruct s as [|a s]; [reflexivity|]. rewrite (Q a 0). cbn [starts_with meta]. destruct (Z.eqb_spec 226 a) as [<-|N]; [|replace (a =? 226) with false by lia; reflexivity]. rewrite ?Z.eqb_refl. cbn [andb].
  destruct s as [|b s]; [reflexivity|]. rewrite Q2. destruct (Z.eqb_spec 150 b) as [<-|N]; [|replace (b =? 150) with false by lia; reflexivity]. rewrite ?Z.eqb_refl. cbn [andb].
  destruct s as [|c s]; [reflexivity|]. rewrite Q3. destruct (Z.eqb_spec 129 c) as [<-|N]; [|replace (c =? 129) with false by lia; reflexivity]. reflexivity.
Qed.
Lemma decode_string_text w : Forall scalar w ->
  decode_string (utf8_text w) = utf8_text (map hide_space (match w with c :: r => if c =? visible_space then r else w | [] => [] end)).
Proof.
  intro S. unfold decode_string. rewrite strip_eq. destruct w as [|c w]; [reflexivity|]. inversion S as [|? ? SC SW]; subst. destruct (c =? visible_space) eqn:E.
  - apply Z.eqb_eq in E. subst. rewrite text_cons, meta_text. change (starts_with meta (meta ++ utf8_text w)) with true. cbn [meta app skipn]. apply unmark_text, SW.
  - assert (F : starts_with meta (utf8_text (c :: w)) = false); [|rewrite F; apply unmark_text, S].
    destruct (starts_with meta (utf8_text (c :: w))) eqn:F; [|reflexivity]. exfalso. apply starts_iff in F as (r & F). rewrite <- meta_text in F.
    assert (F' : utf8_text (c :: w) = utf8_text [visible_space] ++ r) by (rewrite F, text_one; reflexivity).
    destruct (prefix_text [visible_space] (Forall_cons _ visible_scalar (Forall_nil _)) (c :: w) r S F') as (b & B & _). injection B as -> _. rewrite Z.eqb_refl in E. discriminate.
Qed.

(** *** Pairs over code points *)
Lemma encode_all ws : Forall (Forall scalar) ws -> rmap utf8_encode ws = ROk (map utf8_text ws).
Proof. induction 1 as [|w ws W _ IH]; [reflexivity|]. cbn [rmap map]. rewrite encode_text by exact W. cbn [rbind]. rewrite IH. reflexivity. Qed.
Lemma concat_scalar (ws : list (list Z)) : Forall scalar (concat ws) -> Forall (Forall scalar) ws.
Proof. induction ws as [|w ws IH]; intro H; [constructor|]. cbn [concat] in H. apply Forall_app in H as [A B]. constructor; [exact A|apply IH, B]. Qed.
Theorem bpe_utf8_ok order merges u : Z.of_nat (length merges) <= 2 ^ 63 - 1 -> (forall ps p, In p (order ps) <-> In p ps) -> u <> [] -> Forall scalar u ->
  exists w, bpe_utf8 order merges (utf8_text u) = ROk (map utf8_text w) /\ concat w = u /\ bpe_rounds merges (map (fun c => [c]) u) w /\ finished merges w.
Proof.
  intros L O NE S. destruct (bpe_ok order merges u L O NE) as (w & E & R & F). exists w. pose proof (rounds_concat _ _ _ R) as C. rewrite concat_singletons in C. split; [|auto].
  unfold bpe_utf8. rewrite decode_text by exact S. cbn [rbind]. unfold bpe in *. destruct (order (get_pairs (map (fun c => [c]) u))) as [|p ps] eqn:Q.
  - destruct u as [|c [|d u]]; [congruence| |].
    + assert (w = [[c]]) by congruence. subst w. reflexivity.
    + exfalso. assert (I : In ([c], [d]) (order (get_pairs (map (fun c => [c]) (c :: d :: u))))) by (apply O; left; reflexivity). rewrite Q in I. destruct I.
  - rewrite E. cbn [rbind]. apply encode_all, concat_scalar. rewrite C. exact S.
Qed.

(** *** MiniCPM4 *)
Section Mini.
Variables (t : bpeutf8) (T : list (list Z)).
Let x := split_update split_empty T.
Hypothesis (LM : Z.of_nat (length (bu_merges t)) <= 2 ^ 63 - 1) (OO : forall ps p, In p (bu_order t ps) <-> In p ps) (NT : ~ In [] T).
Definition seg_text (p : list Z) : list Z := if listed T p then p else visible_space :: map show_space p.
Lemma special_iff p : p <> [] -> is_special x p = listed T p.
Proof.
  intro NE. unfold is_special, listed, x. destruct (in_dec _ p _) as [K|K]; rewrite tokens_update in K by exact NE; cbn [split_empty sp_tokens In] in K; destruct (in_dec _ p T) as [J|J]; try reflexivity; tauto.
Qed.
Lemma segment_mini p : p <> [] -> Forall scalar p ->
  exists toks, mc_segment t x (utf8_text p) = ROk (map utf8_text toks) /\ concat toks = seg_text p /\ Forall (Forall scalar) toks.
Proof.
  intros NE S. unfold mc_segment, is_special_utf8. rewrite decode_text by exact S. cbn [rbind]. rewrite special_iff by exact NE. unfold seg_text. destruct (listed T p).
  - exists [p]. split; [reflexivity|]. split; [apply app_nil_r|apply Forall_cons; [exact S|constructor]].
  - rewrite normalize_text by exact S. assert (SN : Forall scalar (visible_space :: map show_space p)) by (apply Forall_cons; [exact visible_scalar|apply show_scalar, S]).
    destruct (bpe_utf8_ok (bu_order t) (bu_merges t) (visible_space :: map show_space p) LM OO ltac:(discriminate) SN) as (w & E & C & _). exists w. split; [exact E|]. split; [exact C|]. apply concat_scalar. rewrite C. exact SN.
Qed.
Theorem mini_tokens w : Forall scalar w ->
  exists toks, mc_tokenize t x (utf8_text w) = ROk (map utf8_text toks) /\ concat toks = flat_map seg_text (trie_split x w) /\ Forall (Forall scalar) toks.
Proof.
  intro S. unfold mc_tokenize, split_utf8. rewrite decode_text by exact S. cbn [rbind]. destruct (trie_split_concat x w) as [C NE]. assert (SS : Forall (Forall scalar) (trie_split x w)) by (apply concat_scalar; rewrite C; exact S).
  rewrite encode_all by exact SS. cbn [rbind]. clear C S. revert NE SS. generalize (trie_split x w) as segs. intros segs NE SS.
  assert (H : exists l, rmap (mc_segment t x) (map utf8_text segs) = ROk (map (map utf8_text) l) /\ concat (concat l) = flat_map seg_text segs /\ Forall (Forall (Forall scalar)) l).
  { induction segs as [|p segs IH]; [exists []; repeat split; constructor|]. inversion NE as [|? ? N1 N2]; inversion SS as [|? ? S1 S2]; subst. destruct (IH N2 S2) as (l & E & C & F). destruct (segment_mini p N1 S1) as (toks & E1 & C1 & F1).
    exists (toks :: l). cbn [map rmap]. rewrite E1. cbn [rbind]. rewrite E. cbn [rbind concat flat_map]. rewrite concat_app, C1, C. split; [reflexivity|]. split; [reflexivity|]. constructor; assumption. }
  destruct H as (l & E & C & F). rewrite E. cbn [rbind]. exists (concat l). rewrite concat_map. split; [reflexivity|]. split; [exact C|]. clear - F. induction F as [|a l A _ IH]; [constructor|]. cbn [concat]. apply Forall_app. auto.
Qed.
Lemma hide_show p : ~ In visible_space p -> map hide_space (map show_space p) = p.
Proof.
  intro N. rewrite map_map. rewrite <- (map_id p) at 2. apply map_ext_in. intros c H. unfold hide_space, show_space. destruct (c =? 32) eqn:E; [apply Z.eqb_eq in E; subst; reflexivity|].
  destruct (c =? visible_space) eqn:V; [apply Z.eqb_eq in V; subst; contradiction|reflexivity].
Qed.
Lemma hide_none p : ~ In visible_space p -> map hide_space p = p.
Proof. intro N. rewrite <- (map_id p) at 2. apply map_ext_in. intros c H. unfold hide_space. destruct (c =? visible_space) eqn:V; [apply Z.eqb_eq in V; subst; contradiction|reflexivity]. Qed.
Lemma text_concat ws : concat (map utf8_text ws) = utf8_text (concat ws).
Proof. induction ws as [|w ws IH]; [reflexivity|]. cbn [map concat]. rewrite text_app, IH. reflexivity. Qed.
Lemma mini_detok segs toks : Forall (fun p => p <> []) segs -> ~ In visible_space (concat segs) -> Forall (Forall scalar) toks -> concat toks = flat_map seg_text segs ->
  mc_detokenize (map utf8_text toks) = utf8_text (respaced T segs).
Proof.
  intros NE NV FS C. unfold mc_detokenize. rewrite text_concat, C. rewrite decode_string_text.
  2:{ rewrite <- C. clear - FS. induction FS as [|a l A _ IH]; [constructor|]. cbn [concat]. apply Forall_app. auto. }
  clear C FS toks. f_equal.
  assert (R : forall segs, ~ In visible_space (concat segs) -> map hide_space (flat_map seg_text segs) = flat_map (fun q => if listed T q then q else 32 :: q) segs).
  { clear. induction segs as [|p segs IH]; intro NV; [reflexivity|]. cbn [concat] in NV. rewrite in_app_iff in NV. cbn [flat_map]. rewrite map_app, IH by tauto. f_equal. unfold seg_text. destruct (listed T p); [apply hide_none; tauto|].
    cbn [map]. rewrite hide_show by tauto. reflexivity. }
  destruct segs as [|p segs]; [reflexivity|]. cbn [concat] in NV. rewrite in_app_iff in NV. cbn [flat_map respaced]. inversion NE as [|? ? NP _]; subst. assert (SP : seg_text p = if listed T p then p else visible_space :: map show_space p) by reflexivity. rewrite SP. clear SP. destruct (listed T p).
  - destruct p as [|c p]; [congruence|]. cbn [app]. replace (c =? visible_space) with false by (symmetry; apply Z.eqb_neq; intros ->; apply NV; left; left; reflexivity).
    transitivity (map hide_space ((c :: p) ++ flat_map seg_text segs)); [reflexivity|]. rewrite map_app, (hide_none (c :: p)), (R segs) by tauto. reflexivity.
  - cbn [app]. rewrite Z.eqb_refl. rewrite map_app, (hide_show p), (R segs) by tauto. reflexivity.
Qed.

(** Ids. *)
Definition ids_ok (toks : list (list Z)) : Prop := Forall (fun c => exists i, str_find c (bu_vocab t) = Some i /\ assoc i (bu_inverse t) = Some c) toks.
Lemma mini_ids w toks : mc_tokenize t x (utf8_text w) = ROk (map utf8_text toks) -> Forall (Forall scalar) toks -> ids_ok toks ->
  exists ids, mc_encode t x (utf8_text w) = ROk ids /\ mc_decode t ids = ROk (mc_detokenize (map utf8_text toks)).
Proof.
  intros E S I. unfold mc_encode. rewrite E. cbn [rbind]. clear E.
  assert (H : exists ids, rmap (bu_lookup t) (map utf8_text toks) = ROk ids /\ rmap (bu_token t) ids = ROk (map utf8_text toks)).
  { induction I as [|c toks (i & F1 & F2) _ IH]; [exists []; split; reflexivity|]. inversion S as [|? ? S1 S2]; subst. destruct (IH S2) as (ids & A & B). exists (i :: ids). cbn [map rmap].
    unfold bu_lookup at 1. rewrite decode_text by exact S1. cbn [rbind]. rewrite F1, A. cbn [rbind]. unfold bu_token at 1. rewrite F2, encode_text by exact S1. cbn [rbind]. rewrite B. split; reflexivity. }
  destruct H as (ids & A & B). exists ids. split; [exact A|]. unfold mc_decode. rewrite B. reflexivity.
Qed.
End Mini.
