(** The prompt's sections, their bounds, and the rows put there. *)
From Verif Require Import Base DTypeModel ParamModel TensorModel VlModel VlProofs CpmModel CpmSpec CpmSlice.
From Verif Require AotModel AotProofs AotGraph.
Local Open Scope nat_scope.

(** ** Sections of a token list *)
Record sect := mkSect { x_txt : list Z; x_s : Z; x_e : Z }.
Definition body (u : Z) (n : nat) (x : sect) : list Z := x_txt x ++ x_s x :: repeat u n ++ [x_e x].
Definition layout (u : Z) (n : nat) (l : list sect) : list Z := flat_map (body u n) l.
(** Where section [i] begins, if the first begins at offset [o]. *)
Fixpoint place (n : nat) (o : nat) (l : list sect) (i : nat) : nat :=
  match l with
  | [] => o
  | x :: r => match i with O => o + length (x_txt x) | S j => place n (o + length (x_txt x) + n + 2) r j end
  end.
Lemma body_len u n x : length (body u n x) = length (x_txt x) + n + 2.
Proof. unfold body. rewrite app_length. cbn [length]. rewrite app_length, repeat_length. cbn [length]. lia. Qed.
Lemma place_step n : forall l o i, S i < length l -> exists x, nth_error l (S i) = Some x /\ place n o l (S i) = place n o l i + n + 2 + length (x_txt x).
Proof.
  induction l as [|x l IH]; intros o i H; [cbn in H; lia|]. destruct i as [|i].
  - cbn [place nth_error]. destruct l as [|y l]; [cbn in H; lia|]. exists y. split; [reflexivity|]. cbn [place]. lia.
  - cbn [nth_error]. destruct (IH (o + length (x_txt x) + n + 2) i ltac:(cbn in H; lia)) as (y & Ey & P). exists y. split; [exact Ey|]. exact P.
Qed.
Lemma place_mono n l o : forall i j, i < j -> j < length l -> place n o l i + n + 2 <= place n o l j.
Proof.
  intros i j H. induction H as [|j H IH]; intro L.
  - destruct (place_step n l o i L) as (x & _ & P). lia.
  - destruct (place_step n l o j L) as (x & _ & P). specialize (IH ltac:(lia)). lia.
Qed.
Lemma layout_nth u n tail : forall l o front i x, length front = o -> nth_error l i = Some x ->
  nth_error (front ++ layout u n l ++ tail) (place n o l i) = Some (x_s x) /\
  (forall k, k < n -> nth_error (front ++ layout u n l ++ tail) (place n o l i + 1 + k) = Some u) /\
  nth_error (front ++ layout u n l ++ tail) (place n o l i + 1 + n) = Some (x_e x).
Proof.
  induction l as [|y l IH]; intros o front i x Hf Hx; [destruct i; discriminate|]. destruct i as [|i].
  - cbn in Hx. injection Hx as ->. cbn [place].
    assert (El : front ++ layout u n (x :: l) ++ tail = (front ++ x_txt x) ++ x_s x :: repeat u n ++ x_e x :: layout u n l ++ tail).
    { change (layout u n (x :: l)) with ((x_txt x ++ x_s x :: repeat u n ++ [x_e x]) ++ layout u n l). repeat (rewrite <- app_assoc; cbn [app]). reflexivity. }
    rewrite El. clear El.
    assert (Lf : length (front ++ x_txt x) = o + length (x_txt x)) by (rewrite app_length; lia). rewrite <- Lf. clear Lf. set (A := front ++ x_txt x). clearbody A.
    split; [rewrite nth_error_app2 by lia; rewrite Nat.sub_diag; reflexivity|]. split.
    + intros k Hk. rewrite nth_error_app2 by lia. replace (length A + 1 + k - length A) with (S k) by lia. cbn [nth_error]. rewrite nth_error_app1 by (rewrite repeat_length; exact Hk).
      rewrite (nth_error_nth' _ u) by (rewrite repeat_length; exact Hk). f_equal. apply nth_repeat.
    + rewrite nth_error_app2 by lia. replace (length A + 1 + n - length A) with (S n) by lia. cbn [nth_error]. rewrite nth_error_app2 by (rewrite repeat_length; lia).
      rewrite repeat_length, Nat.sub_diag. reflexivity.
  - cbn [nth_error] in Hx. destruct (IH (o + length (x_txt y) + n + 2) (front ++ body u n y) i x) as (H1 & H2 & H3); [rewrite app_length, body_len; lia|exact Hx|].
    cbn [place layout flat_map]. fold (layout u n l). rewrite <- app_assoc in H1, H3. rewrite <- app_assoc. split; [exact H1|]. split; [|exact H3].
    intros k Hk. specialize (H2 k Hk). rewrite <- app_assoc in H2. exact H2.
Qed.

(** ** Positions *)
Lemma positions_app p : forall l i m, positions_from p i (l ++ m) = positions_from p i l ++ positions_from p (i + length l) m.
Proof.
  induction l as [|x l IH]; intros i m; cbn [app positions_from length]; [rewrite Nat.add_0_r; reflexivity|]. rewrite IH, app_assoc. do 2 f_equal. lia.
Qed.
Lemma positions_none p : forall l i, (forall x, In x l -> p x = false) -> positions_from p i l = [].
Proof. induction l as [|x l IH]; intros i H; [reflexivity|]. cbn. rewrite (H x (or_introl eq_refl)), IH; [reflexivity|]. intros y Hy. apply H. right. exact Hy. Qed.
Lemma positions_in p : forall l i q, In q (positions_from p i l) <-> exists x, i <= q /\ nth_error l (q - i) = Some x /\ p x = true.
Proof.
  induction l as [|x l IH]; intros i q; cbn [positions_from].
  - split; [intros []|]. intros (x & _ & H & _). destruct (q - i); discriminate.
  - rewrite in_app_iff, IH. split.
    + intros [H|(y & Hq & Hy & Py)].
      * destruct (p x) eqn:Px; [|destruct H]. destruct H as [<-|[]]. exists x. rewrite Nat.sub_diag. auto.
      * exists y. split; [lia|]. replace (q - i) with (S (q - S i)) by lia. auto.
    + intros (y & Hq & Hy & Py). destruct (Nat.eq_dec q i) as [->|N].
      * rewrite Nat.sub_diag in Hy. cbn in Hy. injection Hy as ->. rewrite Py. left. left. reflexivity.
      * right. exists y. split; [lia|]. replace (q - i) with (S (q - S i)) in Hy by lia. auto.
Qed.
Section Marks.
Context (pS pE : Z -> bool) (u : Z) (n : nat).
Definition good (x : sect) : Prop :=
  (forall t, In t (x_txt x) -> pS t = false /\ pE t = false) /\ pS (x_s x) = true /\ pE (x_s x) = false /\ pE (x_e x) = true /\ pS (x_e x) = false.
Hypothesis Hu : pS u = false /\ pE u = false.
Lemma body_marks x o : good x -> positions_from pS o (body u n x) = [o + length (x_txt x)] /\ positions_from pE o (body u n x) = [o + length (x_txt x) + 1 + n].
Proof.
  intros (T & S1 & S2 & E1 & E2). unfold body. rewrite !positions_app, !(positions_none _ (x_txt x)) by (intros y Hy; apply T; exact Hy). cbn [app positions_from]. rewrite S1, S2.
  rewrite !positions_app, !(positions_none _ (repeat u n)) by (intros y Hy; apply repeat_spec in Hy; subst; apply Hu). cbn [app positions_from]. rewrite E1, E2, repeat_length. cbn [app].
  split; [reflexivity|]. f_equal. lia.
Qed.
Lemma layout_marks : forall l o, Forall good l ->
  positions_from pS o (layout u n l) = map (place n o l) (seq 0 (length l)) /\
  positions_from pE o (layout u n l) = map (fun i => place n o l i + 1 + n) (seq 0 (length l)).
Proof.
  induction l as [|x l IH]; intros o G; [split; reflexivity|]. cbn [layout flat_map]. fold (layout u n l). rewrite !positions_app, body_len.
  destruct (body_marks x o (Forall_inv G)) as [-> ->]. destruct (IH (o + (length (x_txt x) + n + 2)) (Forall_inv_tail G)) as [-> ->].
  cbn [length seq map app place]. rewrite <- seq_shift, !map_map, !Nat.add_assoc. split; reflexivity.
Qed.
End Marks.

(** ** The text of the prompt as sections *)
Lemma tok_from ids bpe : forall t run s r, tokenize_from ids bpe run (t ++ Special s :: r) = tokenize_from ids bpe run t ++ ids s :: tokenize ids bpe r.
Proof.
  induction t as [|[s0|c] t IH]; intros run s r; cbn [app tokenize_from].
  - reflexivity.
  - rewrite IH. rewrite <- app_assoc. reflexivity.
  - rewrite IH. reflexivity.
Qed.
Lemma tok_special ids bpe t s r : tokenize ids bpe (t ++ Special s :: r) = tokenize ids bpe t ++ ids s :: tokenize ids bpe r.
Proof. apply tok_from. Qed.
Lemma tok_head ids bpe s r : tokenize ids bpe (Special s :: r) = ids s :: tokenize ids bpe r.
Proof. reflexivity. Qed.
Lemma tok_unks ids bpe n r : tokenize ids bpe (unks n ++ r) = repeat (ids SUnk) n ++ tokenize ids bpe r.
Proof. induction n as [|n IH]; [reflexivity|]. cbn [unks repeat app]. rewrite tok_head. unfold unks in IH. rewrite IH. reflexivity. Qed.
Lemma tok_chars ids bpe : forall cs run, tokenize_from ids bpe run (map Char cs) = match run ++ cs with [] => [] | r => bpe r end.
Proof.
  induction cs as [|c cs IH]; intro run; cbn [map tokenize_from]; [rewrite app_nil_r; destruct run; reflexivity|]. rewrite IH, <- app_assoc. reflexivity.
Qed.
Lemma tok_slice ids bpe n t r : tokenize ids bpe (t ++ slice_placeholder n ++ r) =
  body (ids SUnk) n (mkSect (tokenize ids bpe t) (ids SSlice) (ids SSliceEnd)) ++ tokenize ids bpe r.
Proof.
  unfold slice_placeholder. cbn [app]. rewrite tok_special. unfold body. cbn [x_txt x_s x_e]. rewrite <- !app_assoc. cbn [app].
  rewrite tok_unks, tok_head. rewrite <- !app_assoc. reflexivity.
Qed.
(** One line of slices. *)
Definition plain (ids : special -> Z) : sect := mkSect [] (ids SSlice) (ids SSliceEnd).
Lemma tok_line ids bpe n r : forall m, tokenize ids bpe (concat (repeat (slice_placeholder n) m) ++ r) =
  layout (ids SUnk) n (repeat (plain ids) m) ++ tokenize ids bpe r.
Proof.
  induction m as [|m IH]; [reflexivity|]. cbn [repeat concat layout flat_map]. rewrite <- app_assoc. assert (E := tok_slice ids bpe n [] (concat (repeat (slice_placeholder n) m) ++ r)).
  cbn [app] in E. rewrite E, IH, <- app_assoc. reflexivity.
Qed.
Definition later (ids : special -> Z) (nl : list Z) : sect := mkSect nl (ids SSlice) (ids SSliceEnd).
Definition line_sects (ids : special -> Z) (bpe : list Z -> list Z) (cols i : nat) : list sect :=
  match cols with O => [] | S c => (if 0 <? i then later ids (bpe [10%Z]) else plain ids) :: repeat (plain ids) c end.
Lemma tok_lines ids bpe n r cols : 1 <= cols -> forall rows i, tokenize ids bpe (join_lines i (repeat (concat (repeat (slice_placeholder n) cols)) rows) ++ r) =
  layout (ids SUnk) n (flat_map (line_sects ids bpe cols) (seq i rows)) ++ tokenize ids bpe r.
Proof.
  intros Hc rows. induction rows as [|rows IH]; intro i; [reflexivity|]. destruct cols as [|c]; [lia|].
  cbn [repeat join_lines seq flat_map]. unfold layout. rewrite flat_map_app. fold (layout (ids SUnk) n). fold (layout (ids SUnk) n). rewrite <- !app_assoc. cbn [concat repeat]. rewrite <- !app_assoc.
  specialize (IH (S i)). rewrite tok_slice. cbn [concat repeat] in IH.
  set (rest := join_lines (S i) (repeat (slice_placeholder n ++ concat (repeat (slice_placeholder n) c)) rows) ++ r) in *.
  rewrite tok_line, IH. cbn [line_sects layout flat_map]. rewrite <- !app_assoc. f_equal.
  destruct (0 <? i); reflexivity.
Qed.
(** All sections of the prompt. *)
Definition first_sect (ids : special -> Z) (bpe : list Z -> list Z) (pre : text) : sect :=
  mkSect (tokenize ids bpe pre ++ ids SIdStart :: bpe [48%Z] ++ [ids SIdEnd]) (ids SImage) (ids SImageEnd).
Definition sects (ids : special -> Z) (bpe : list Z -> list Z) (pre : text) (g : option (nat * nat)) : list sect :=
  first_sect ids bpe pre :: match g with None => [] | Some g => flat_map (line_sects ids bpe (fst g)) (seq 0 (snd g)) end.
Lemma tok_prompt ids bpe n pre post g : match g with Some g => 1 <= fst g | None => True end ->
  tokenize ids bpe (prompt_text n pre post g) = layout (ids SUnk) n (sects ids bpe pre g) ++ tokenize ids bpe (Char 10%Z :: post).
Proof.
  intro Hg. unfold prompt_text, image_placeholder. cbn [map app]. rewrite <- !app_assoc. cbn [app]. rewrite tok_special.
  assert (E : forall r, tokenize ids bpe (Char 48%Z :: Special SIdEnd :: r) = bpe [48%Z] ++ ids SIdEnd :: tokenize ids bpe r) by reflexivity.
  rewrite E, tok_head, tok_unks, tok_head. clear E.
  unfold sects. cbn [layout flat_map]. unfold first_sect, body at 1. cbn [x_txt x_s x_e]. repeat (rewrite <- !app_assoc; cbn [app]).
  do 7 f_equal.
  destruct g as [g|]; [|reflexivity]. unfold get_grid_placeholder. rewrite tok_lines by exact Hg. reflexivity.
Qed.
Lemma sects_len ids bpe pre g : match g with Some g => 1 <= fst g | None => True end -> length (sects ids bpe pre g) = 1 + slices g.
Proof.
  intro H. unfold sects. cbn [length]. destruct g as [[c r]|]; [|reflexivity]. cbn [fst snd slices] in *.
  assert (E : forall l, length (flat_map (line_sects ids bpe c) l) = length l * c).
  { induction l as [|i l IH]; [reflexivity|]. cbn [flat_map length]. rewrite app_length, IH. destruct c; [lia|]. cbn [line_sects length]. rewrite repeat_length. lia. }
  rewrite E, seq_length. lia.
Qed.
Lemma tok_no_marks ids bpe s0 : vocabulary ids bpe -> forall t run, (forall s, In (Special s) t -> s <> s0) -> forall x, In x (tokenize_from ids bpe run t) -> x <> ids s0.
Proof.
  intros [Inj B]. induction t as [|[s|c] t IH]; intros run H x Hx; cbn [tokenize_from] in Hx.
  - destruct run; [destruct Hx|eapply B; exact Hx].
  - apply in_app_or in Hx. destruct Hx as [Hx|[<-|Hx]].
    + destruct run; [destruct Hx|eapply B; exact Hx].
    + intro E. apply Inj in E. apply (H s); [left; reflexivity|exact E].
    + apply (IH []); [intros s' Hs; apply H; right; exact Hs|exact Hx].
  - apply (IH (run ++ [c])); [intros s' Hs; apply H; right; exact Hs|exact Hx].
Qed.
Definition is_start (ids : special -> Z) (x : Z) : bool := ((x =? ids SImage) || (x =? ids SSlice))%Z.
Definition is_end (ids : special -> Z) (x : Z) : bool := ((x =? ids SImageEnd) || (x =? ids SSliceEnd))%Z.
Lemma not_mark ids x : (forall s, section_mark s = true -> x <> ids s) -> is_start ids x = false /\ is_end ids x = false.
Proof.
  intro H. unfold is_start, is_end. assert (A := H SImage eq_refl). assert (B := H SSlice eq_refl). assert (C := H SImageEnd eq_refl). assert (D := H SSliceEnd eq_refl). lia.
Qed.
Lemma sects_good ids bpe pre g : vocabulary ids bpe -> no_sections pre -> Forall (good (is_start ids) (is_end ids)) (sects ids bpe pre g).
Proof.
  intros V P. assert (Vi := proj1 V). assert (Vb := proj2 V).
  assert (Ne : forall s s', s <> s' -> (ids s =? ids s')%Z = false) by (intros s s' N; apply Z.eqb_neq; intro E; apply N, Vi, E).
  assert (Gs : forall txt, (forall x, In x txt -> is_start ids x = false /\ is_end ids x = false) -> good (is_start ids) (is_end ids) (mkSect txt (ids SSlice) (ids SSliceEnd))).
  { intros txt Ht. unfold good. cbn [x_txt x_s x_e]. split; [exact Ht|]. unfold is_start, is_end. rewrite !Z.eqb_refl, !Ne by discriminate. auto. }
  unfold sects. constructor.
  - unfold good, first_sect. cbn [x_txt x_s x_e]. split; [|unfold is_start, is_end; rewrite !Z.eqb_refl, !Ne by discriminate; auto].
    intros x Hx. apply not_mark. intros s Hs. apply in_app_or in Hx. destruct Hx as [Hx|[<-|Hx]].
    + eapply tok_no_marks; [exact V| |exact Hx]. intros s' Hs' ->. rewrite (P s Hs') in Hs. discriminate.
    + intro E. apply Vi in E. subst s. discriminate.
    + apply in_app_or in Hx. destruct Hx as [Hx|[<-|[]]]; [eapply Vb; exact Hx|]. intro E. apply Vi in E. subst s. discriminate.
  - destruct g as [[c r]|]; [|constructor]. cbn [fst snd]. apply Forall_forall. intros x Hx. apply in_flat_map in Hx as (i & _ & Hx). destruct c as [|c]; [destruct Hx|]. cbn [line_sects] in Hx.
    destruct Hx as [<-|Hx].
    + destruct (0 <? i); apply Gs; [|intros y []]. intros y Hy. apply not_mark. intros s _. eapply Vb. exact Hy.
    + apply repeat_spec in Hx. subst x. apply Gs. intros y [].
Qed.

(** ** Merging *)
Lemma combine_app {A B} : forall (a a' : list A) (b b' : list B), length a = length b -> combine (a ++ a') (b ++ b') = combine a b ++ combine a' b'.
Proof. induction a as [|x a IH]; intros a' [|y b] b' H; try discriminate; [reflexivity|]. cbn. rewrite IH by (cbn in H; lia). reflexivity. Qed.
Lemma combine_maps {X A B} (f : X -> A) (g : X -> B) l : combine (map f l) (map g l) = map (fun x => (f x, g x)) l.
Proof. induction l; cbn; congruence. Qed.
Lemma bounds_nth ids bpe n pre post g : vocabulary ids bpe -> no_sections pre -> match g with Some g => 1 <= fst g | None => True end ->
  forall i, i < 1 + slices g -> nth_error (calc_bounds ids (tokenize ids bpe (prompt_text n pre post g))) i = Some (place n 0 (sects ids bpe pre g) i, place n 0 (sects ids bpe pre g) i + 1 + n).
Proof.
  intros V P Hg i Hi. unfold calc_bounds. rewrite tok_prompt by exact Hg. fold (is_start ids). fold (is_end ids).
  change (fun x => ((x =? ids SImage) || (x =? ids SSlice))%Z) with (is_start ids). change (fun x => ((x =? ids SImageEnd) || (x =? ids SSliceEnd))%Z) with (is_end ids).
  assert (Hu : is_start ids (ids SUnk) = false /\ is_end ids (ids SUnk) = false).
  { apply not_mark. intros s Hs E. apply (proj1 V) in E. subst s. discriminate. }
  rewrite !positions_app. destruct (layout_marks (is_start ids) (is_end ids) (ids SUnk) n Hu (sects ids bpe pre g) 0 (sects_good ids bpe pre g V P)) as [-> ->].
  rewrite combine_app by (rewrite !map_length; reflexivity). rewrite combine_maps. rewrite nth_error_app1 by (rewrite map_length, seq_length, sects_len by exact Hg; lia).
  rewrite nth_error_map_seq by (rewrite sects_len by exact Hg; lia). reflexivity.
Qed.
Lemma merge_ok {R} (rows : list R) vision bounds (pos : nat -> nat) n : Forall (fun v => length v = n) vision ->
  (forall i, i < length vision -> nth_error bounds i = Some (pos i, pos i + 1 + n)) -> (forall i, i < length vision -> pos i + 1 + n < length rows) ->
  (forall i j, i < j -> j < length vision -> pos i + n + 2 <= pos j) ->
  exists out, merge_vision rows vision bounds = ROk out /\ length out = length rows /\
    (forall i v k r, nth_error vision i = Some v -> nth_error v k = Some r -> nth_error out (pos i + 1 + k) = Some r) /\
    (forall p, (forall i k, i < length vision -> k < n -> p <> pos i + 1 + k) -> nth_error out p = nth_error rows p).
Proof.
  intros Fv Hb Hin Hm. unfold merge_vision.
  set (ws := flat_map (fun i => match nth_error vision i with Some v => copies (pos i + 1) v 0 n | None => [] end) (seq 0 (length vision))).
  assert (D : does (for_up (length vision) 0 (fun i rows => do b <- rd bounds i; do v <- rd vision i; merge_one rows v (fst b + 1) (snd b - 1))) ws).
  { unfold ws. apply does_loop. intros i Hi. destruct (nth_error vision i) as [v|] eqn:Ev; [|apply nth_error_None in Ev; lia].
    eapply does_ext; [intro o; rewrite (rd_ok _ _ _ (Hb i ltac:(lia))), (rd_ok _ _ _ Ev); cbn [rbind fst snd]; reflexivity|].
    assert (Lv : length v = n) by (rewrite Forall_forall in Fv; apply Fv; eapply nth_error_In; exact Ev).
    unfold merge_one. replace (Nat.min (pos i + 1 + n - 1 + 1 - (pos i + 1)) (length v)) with n by lia.
    apply (does_memcpy (pos i + 1) v 0 n). lia. }
  assert (In1 : forall p r, In (p, r) ws <-> exists i v k, nth_error vision i = Some v /\ nth_error v k = Some r /\ p = pos i + 1 + k).
  { intros p r. unfold ws. rewrite in_loop. split.
    - intros (i & Hi & X). destruct (nth_error vision i) as [v|] eqn:Ev; [|destruct X]. apply copies_in in X as (k & Hk & -> & Hr). exists i, v, k. auto.
    - intros (i & v & k & Ev & Er & ->). exists i. split; [assert (Y : nth_error vision i <> None) by congruence; apply nth_error_Some in Y; lia|]. rewrite Ev. apply copies_in.
      exists k. assert (Lv : length v = n) by (rewrite Forall_forall in Fv; apply Fv; eapply nth_error_In; exact Ev). assert (Y : nth_error v k <> None) by congruence. apply nth_error_Some in Y. split; [lia|]. auto. }
  assert (Bd : forall i v k (r : R), nth_error vision i = Some v -> nth_error v k = Some r -> i < length vision /\ k < n).
  { intros i v k r Ev Er. assert (Y : nth_error vision i <> None) by congruence. apply nth_error_Some in Y. assert (Y2 : nth_error v k <> None) by congruence. apply nth_error_Some in Y2.
    rewrite Forall_forall in Fv. rewrite (Fv v (nth_error_In _ _ Ev)) in Y2. auto. }
  destruct (put_all_ok ws rows) as (out & E & Lo & V & O).
  - intros p r X. apply In1 in X as (i & v & k & Ev & Er & ->). destruct (Bd i v k r Ev Er) as [Bi Bk]. specialize (Hin i Bi). lia.
  - intros p r r' X X'. apply In1 in X as (i & v & k & Ev & Er & ->). apply In1 in X' as (i' & v' & k' & Ev' & Er' & Ep). destruct (Bd i v k r Ev Er) as [Bi Bk]. destruct (Bd i' v' k' r' Ev' Er') as [Bi' Bk'].
    assert (i = i') by (destruct (Nat.lt_trichotomy i i') as [L|[L|L]]; [specialize (Hm i i' L Bi'); lia|exact L|specialize (Hm i' i L Bi); lia]). subst i'. assert (k = k') by lia. subst k'. congruence.
  - exists out. split; [apply D; exact E|]. split; [exact Lo|]. split.
    + intros i v k r Ev Er. apply V. apply In1. exists i, v, k. auto.
    + intros p Hp. apply O. intros r X. apply In1 in X as (i & v & k & Ev & Er & ->). destruct (Bd i v k r Ev Er) as [Bi Bk]. apply (Hp i k Bi Bk). reflexivity.
Qed.
