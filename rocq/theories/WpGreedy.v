(** WordPiece: greedy longest match, ids. *)
From Verif Require Import Base DTypeModel ParamModel TensorModel TokModel TokSpec Utf8Proofs WpModel WpSpec WpUtf8.
Local Open Scope Z_scope.

Lemma str_eqb_eq a b : str_eqb a b = true <-> a = b.
Proof. unfold str_eqb. destruct (list_eq_dec Z.eq_dec a b); split; congruence. Qed.
Lemma str_eqb_refl a : str_eqb a a = true.
Proof. apply str_eqb_eq. reflexivity. Qed.
Lemma str_find_in {V} k (m : list (str * V)) v : str_find k m = Some v -> In (k, v) m.
Proof.
  unfold str_find. destruct (List.find _ m) as [[a b]|] eqn:F; [|discriminate]. intro H. injection H as <-. apply find_some in F as [I E].
  apply str_eqb_eq in E. cbn [fst] in E. subst. exact I.
Qed.
Lemma str_find_none {V} k (m : list (str * V)) : str_find k m = None <-> ~ In k (map fst m).
Proof.
  unfold str_find. destruct (List.find _ m) as [[a b]|] eqn:F; cbn [option_map].
  - split; [discriminate|]. intro N. exfalso. apply N. apply find_some in F as [I E]. apply str_eqb_eq in E. cbn [fst] in E. subst. apply in_map_iff. exists (k, b). auto.
  - split; [|reflexivity]. intros _ I. apply in_map_iff in I as ([a b] & E & I). cbn [fst] in E. subst a. pose proof (find_none _ _ F _ I) as K. cbn [fst] in K. rewrite str_eqb_refl in K. discriminate.
Qed.
Lemma str_find_nodup {V} k (m : list (str * V)) v : NoDup (map fst m) -> In (k, v) m -> str_find k m = Some v.
Proof.
  intros N I. destruct (str_find k m) as [u|] eqn:F.
  - apply str_find_in in F. f_equal. clear - N I F. induction m as [|[a b] m IH]; [destruct I|]. cbn [map fst] in N. inversion N as [|? ? N1 N2]; subst.
    assert (K : forall x, In (k, x) m -> In k (map fst m)) by (intros x Hx; apply in_map_iff; exists (k, x); auto).
    destruct F as [F|F], I as [I|I]; try congruence.
    + injection F as -> ->. exfalso. exact (N1 (K _ I)).
    + injection I as -> ->. exfalso. exact (N1 (K _ F)).
    + exact (IH N2 I F).
  - exfalso. apply str_find_none in F. apply F. apply in_map_iff. exists (k, v). auto.
Qed.
Lemma in_vocab_iff t s : in_vocab t s = true <-> In s (map fst (wp_vocab t)).
Proof.
  unfold in_vocab. destruct (str_find s (wp_vocab t)) as [v|] eqn:F.
  - split; [intros _|reflexivity]. apply str_find_in in F. apply in_map_iff. exists (s, v). auto.
  - split; [discriminate|]. intro I. apply str_find_none in F. contradiction.
Qed.

Section Greedy.
Variable t : wordpiece.
Let V (s : list Z) : Prop := In s (map fst (wp_vocab t)).
Definition pre (first : bool) : str := if first then [] else wp_prefix t.

Lemma longest_spec first s : forall n, (n <= length s)%nat ->
  match longest t first s n with
  | Some (m, sub) => (1 <= m <= n)%nat /\ sub = pre first ++ firstn m s /\ V sub /\ forall k, (m < k <= n)%nat -> ~ V (pre first ++ firstn k s)
  | None => forall k, (1 <= k <= n)%nat -> ~ V (pre first ++ firstn k s)
  end.
Proof.
  induction n as [|n IH]; intro L; cbn [longest]; [intros k Hk; lia|].
  change (if first then [] else wp_prefix t) with (pre first). destruct (in_vocab t (pre first ++ firstn (S n) s)) eqn:E.
  - split; [lia|]. split; [reflexivity|]. split; [apply in_vocab_iff, E|]. intros k Hk. lia.
  - assert (N : ~ V (pre first ++ firstn (S n) s)) by (intro K; apply in_vocab_iff in K; congruence).
    specialize (IH ltac:(lia)). destruct (longest t first s n) as [[m sub]|].
    + destruct IH as (H1 & H2 & H3 & H4). split; [lia|]. split; [exact H2|]. split; [exact H3|]. intros k Hk. destruct (Nat.eq_dec k (S n)) as [->|]; [exact N|apply H4; lia].
    + intros k Hk. destruct (Nat.eq_dec k (S n)) as [->|]; [exact N|apply IH; lia].
Qed.
(** The next piece of a greedy segmentation. *)
Lemma greedy_inv first s ps : s <> [] -> greedy V (wp_prefix t) first s ps ->
  exists p rest ps', s = p ++ rest /\ p <> [] /\ ps = (pre first ++ p) :: ps' /\ V (pre first ++ p) /\
    (forall q r, p ++ rest = q ++ r -> (length p < length q)%nat -> ~ V (pre first ++ q)) /\ greedy V (wp_prefix t) false rest ps'.
Proof. intros NE G. destruct G as [|f p rest ps' H1 H2 H3 H4]; [congruence|]. exists p, rest, ps'. repeat split; assumption. Qed.
Lemma piece_loop_spec : forall f first s, (length s <= f)%nat ->
  exists r, piece_loop f t first s = ROk r /\
    match r with Some ps => greedy V (wp_prefix t) first s ps | None => forall ps, ~ greedy V (wp_prefix t) first s ps end.
Proof.
  induction f as [|f IH]; intros first s L.
  - destruct s; [|cbn in L; lia]. exists (Some []). split; [reflexivity|constructor].
  - destruct s as [|c s]; [exists (Some []); split; [reflexivity|constructor]|]. cbn [piece_loop]. remember (c :: s) as w eqn:W.
    assert (NE : w <> []) by (rewrite W; discriminate). pose proof (longest_spec first w (length w) (le_n _)) as LS.
    destruct (longest t first w (length w)) as [[m sub]|].
    + destruct LS as (Hm & -> & HV & HL). destruct (IH false (skipn m w)) as (r & E & R); [rewrite skipn_length; lia|]. rewrite E. cbn [rbind]. eexists. split; [reflexivity|].
      assert (MAX : forall q r0, firstn m w ++ skipn m w = q ++ r0 -> (length (firstn m w) < length q)%nat -> ~ V (pre first ++ q)).
      { intros q r0 E0 Lq. rewrite firstn_skipn in E0. rewrite firstn_length in Lq. assert (Q : q = firstn (length q) w) by (rewrite E0, firstn_app, Nat.sub_diag, firstn_all, firstn_O, app_nil_r; reflexivity).
        rewrite Q. apply HL. apply (f_equal (@length Z)) in E0. rewrite app_length in E0. lia. }
      assert (NEm : firstn m w <> []). { intro Z0. apply (f_equal (@length Z)) in Z0. rewrite firstn_length in Z0. destruct w; [congruence|]. cbn [length] in *. lia. }
      destruct r as [ps|]; cbn [option_map].
      * rewrite <- (firstn_skipn m w) at 1. unfold pre. apply greedy_piece; [exact NEm|exact HV|exact MAX|exact R].
      * intros ps G. destruct (greedy_inv _ _ _ NE G) as (p & rest & ps' & E1 & H1 & E2 & H2 & H3 & H4).
        assert (P : p = firstn m w /\ rest = skipn m w).
        { assert (LP : length p = m).
          { assert (length p <= length w)%nat by (rewrite E1, app_length; lia). assert (FP : p = firstn (length p) w) by (rewrite E1, firstn_app, Nat.sub_diag, firstn_all, firstn_O, app_nil_r; reflexivity).
            destruct (Nat.lt_trichotomy (length p) m) as [Q|[Q|Q]]; [|exact Q|].
            - exfalso. apply (H3 (firstn m w) (skipn m w)); [rewrite firstn_skipn; symmetry; exact E1|rewrite firstn_length; lia|exact HV].
            - exfalso. apply (HL (length p)); [lia|]. rewrite <- FP. exact H2. }
          rewrite E1, <- LP. split; [rewrite firstn_app, Nat.sub_diag, firstn_all, firstn_O, app_nil_r; reflexivity|rewrite skipn_app, skipn_all, Nat.sub_diag; reflexivity]. }
        destruct P as [-> ->]. exact (R _ H4).
    + exists None. split; [reflexivity|]. intros ps G. destruct (greedy_inv _ _ _ NE G) as (p & rest & ps' & E1 & H1 & E2 & H2 & H3 & H4).
      apply (LS (length p)); [rewrite E1, app_length; destruct p; [congruence|cbn [length]; lia]|].
      replace (firstn (length p) w) with p; [exact H2|]. rewrite E1, firstn_app, Nat.sub_diag, firstn_all, firstn_O, app_nil_r. reflexivity.
Qed.
Lemma greedy_fun first s ps qs : greedy V (wp_prefix t) first s ps -> greedy V (wp_prefix t) first s qs -> ps = qs.
Proof.
  intro G. revert qs. induction G as [first|first p rest ps H1 H2 H3 G IH]; intros qs Q.
  - destruct qs as [|q qs]; [reflexivity|]. exfalso. remember [] as s eqn:S. remember (q :: qs) as l eqn:L. destruct Q as [|f p rest ps' K _ _ _]; [discriminate|]. destruct p; [congruence|discriminate].
  - assert (NE : p ++ rest <> []) by (destruct p; [congruence|discriminate]). destruct (greedy_inv _ _ _ NE Q) as (p' & rest' & qs' & E1 & K1 & -> & K2 & K3 & K4).
    assert (p = p').
    { destruct (Nat.lt_trichotomy (length p) (length p')) as [Q1|[Q1|Q1]].
      - exfalso. exact (H3 p' rest' E1 Q1 K2).
      - apply (f_equal (firstn (length p))) in E1. rewrite firstn_app, Nat.sub_diag, firstn_all, firstn_O, app_nil_r, Q1, firstn_app, Nat.sub_diag, firstn_all, firstn_O, app_nil_r in E1. exact E1.
      - exfalso. exact (K3 p rest (eq_sym E1) Q1 H2). }
    subst p'. apply app_inv_head in E1. subst rest'. rewrite (IH _ K4). reflexivity.
Qed.
Lemma greedy_concat first s ps : greedy V (wp_prefix t) first s ps ->
  exists ls, concat ls = s /\ Forall (fun l => l <> []) ls /\
    ps = match ls with [] => [] | l :: r => (pre first ++ l) :: map (app (wp_prefix t)) r end.
Proof.
  induction 1 as [first|first p rest ps H1 H2 H3 G (ls & C & F & E)]; [exists []; repeat split; constructor|].
  exists (p :: ls). split; [cbn [concat]; rewrite C; reflexivity|]. split; [constructor; assumption|]. f_equal. rewrite E. destruct ls; reflexivity.
Qed.

Theorem wordpiece_spec word :
  exists r, wordpiece_tokenize t word = ROk r /\
   (zlen word <= wp_max t \/ word = [] -> (greedy V (wp_prefix t) true word r \/ ((forall ps, ~ greedy V (wp_prefix t) true word ps) /\ r = [wp_unk t]))) /\
   (wp_max t < zlen word -> word <> [] -> r = [wp_unk t]).
Proof.
  unfold wordpiece_tokenize. destruct word as [|c w]; [exists []; split; [reflexivity|]; split; [intros _; left; constructor|congruence]|].
  remember (c :: w) as word eqn:W. destruct (wp_max t <? zlen word) eqn:M.
  - exists [wp_unk t]. split; [reflexivity|]. split; [intros [H|H]; [lia|subst; discriminate]|reflexivity].
  - destruct (piece_loop_spec (length word) true word (le_n _)) as (r & E & R). rewrite E. cbn [rbind]. eexists. split; [reflexivity|]. split; [|lia]. intros _.
    destruct r as [ps|]; [left; exact R|right; split; [exact R|reflexivity]].
Qed.
(** Pieces of valid UTF-8 are whole characters, if the vocabulary is UTF-8 and the prefix ASCII. *)
Lemma greedy_chars first s ps : (forall v, V v -> valid_utf8 v) -> Forall (fun c => 0 <= c < 128) (wp_prefix t) ->
  greedy V (wp_prefix t) first s ps -> valid_utf8 s ->
  exists ls, concat ls = s /\ Forall (fun l => l <> [] /\ valid_utf8 l) ls /\ ps = match ls with [] => [] | l :: r => (pre first ++ l) :: map (app (wp_prefix t)) r end.
Proof.
  intros VU PA. induction 1 as [first|first p rest ps H1 H2 H3 G IH]; intro S; [exists []; repeat split; constructor|].
  assert (A : Forall scalar (pre first) /\ utf8_text (pre first) = pre first).
  { assert (K : forall l, Forall (fun c => 0 <= c < 128) l -> Forall scalar l /\ utf8_text l = l).
    { induction 1 as [|c l C _ [I1 I2]]; [split; [constructor|reflexivity]|]. split; [constructor; [unfold scalar; lia|exact I1]|]. rewrite text_cons, I2. unfold utf8_of. replace (c <? 128) with true by lia. reflexivity. }
    unfold pre. destruct first; apply K; [constructor|exact PA]. }
  destruct A as [A1 A2]. destruct (VU _ H2) as (v & V1 & V2). change (if first then [] else wp_prefix t) with (pre first) in V2. symmetry in V2. rewrite <- A2 in V2.
  destruct (prefix_text (pre first) A1 v p V1 V2) as (b & -> & ->). apply Forall_app in V1 as [_ B].
  destruct S as (w & W & E). symmetry in E. destruct (prefix_text b B w rest W E) as (u & -> & ->). apply Forall_app in W as [_ U].
  destruct (IH ltac:(exists u; auto)) as (ls & C & F & E2). exists (utf8_text b :: ls). split; [cbn [concat]; rewrite C; reflexivity|]. split; [constructor; [split; [exact H1|exists b; auto]|exact F]|].
  f_equal. rewrite E2. destruct ls; reflexivity.
Qed.
End Greedy.

(** *** Ids *)
Lemma find_set k i v k' : str_find k' (vocab_set k i v) = if str_eqb k k' then Some i else str_find k' v.
Proof.
  unfold str_find, vocab_set. cbn [List.find fst]. destruct (str_eqb k k') eqn:E; [reflexivity|]. f_equal.
  induction v as [|[a b] v IH]; [reflexivity|]. cbn [filter fst]. destruct (str_eqb a k) eqn:A; cbn [negb].
  - rewrite IH. cbn [List.find fst]. apply str_eqb_eq in A. subst a. rewrite E. reflexivity.
  - cbn [List.find fst]. destruct (str_eqb a k'); [reflexivity|exact IH].
Qed.
Lemma assoc_cons {V} k v (m : list (Z * V)) k' : assoc k' ((k, v) :: m) = if k =? k' then Some v else assoc k' m.
Proof. unfold assoc. cbn [List.find fst]. destruct (k =? k') eqn:E1; destruct (k' =? k) eqn:E2; try reflexivity; lia. Qed.
Lemma lines_keep : forall lines i v inv,
  (forall k, ~ In k (map trim lines) -> str_find k (fst (vocab_lines lines i v inv)) = str_find k v) /\
  (forall x, x < i -> assoc x (snd (vocab_lines lines i v inv)) = assoc x inv).
Proof.
  induction lines as [|l lines IH]; intros i v inv; cbn [vocab_lines]; [split; reflexivity|].
  destruct (IH (i + 1) (vocab_set (trim l) i v) ((i, trim l) :: inv)) as [I1 I2]. split.
  - intros k N. cbn [map In] in N. rewrite I1 by tauto. rewrite find_set. destruct (str_eqb (trim l) k) eqn:E; [apply str_eqb_eq in E; tauto|reflexivity].
  - intros x Hx. rewrite I2 by lia. rewrite assoc_cons. destruct (i =? x) eqn:E; [lia|reflexivity].
Qed.
Lemma lines_ids : forall lines i v inv n l, NoDup (map trim lines) -> nth_error lines n = Some l ->
  str_find (trim l) (fst (vocab_lines lines i v inv)) = Some (i + Z.of_nat n) /\ assoc (i + Z.of_nat n) (snd (vocab_lines lines i v inv)) = Some (trim l).
Proof.
  induction lines as [|k lines IH]; intros i v inv n l N H; [destruct n; discriminate|]. cbn [map] in N. inversion N as [|? ? N1 N2]; subst. cbn [vocab_lines].
  destruct n as [|n]; cbn [nth_error] in H.
  - injection H as ->. destruct (lines_keep lines (i + 1) (vocab_set (trim l) i v) ((i, trim l) :: inv)) as [K1 K2].
    rewrite K1 by exact N1. rewrite K2 by lia. rewrite find_set, str_eqb_refl, assoc_cons. replace (i =? i + Z.of_nat 0) with true by lia. split; [f_equal; lia|reflexivity].
  - destruct (IH (i + 1) (vocab_set (trim k) i v) ((i, trim k) :: inv) n l N2 H) as [K1 K2]. replace (i + Z.of_nat (S n)) with (i + 1 + Z.of_nat n) by lia. split; assumption.
Qed.
