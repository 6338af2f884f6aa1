(** Histories of insertions. *)
From Verif Require Import Base RadixModel RadixSpec RadixProofs RadixMore.
Local Open Scope Z_scope.

Lemma insert_kids t e q vals t' : insert t e q vals = Some t' ->
  nkids t' = ins_forest e q (firstn (length q) vals) (nkids t) /\ (length q <= length vals)%nat.
Proof.
  unfold insert. destruct q as [|a q].
  - intro H; injection H as <-. cbn. split; [reflexivity | lia].
  - destruct (Nat.ltb_spec (length vals) (length (a :: q))) as [H|H]; [discriminate|].
    intro E; injection E as <-. split; [|exact H]. destruct t as [k x v cs]. rewrite ins_eq.
    cbn [nkids]. destruct (pick e (a :: q) cs); reflexivity.
Qed.

Lemma run_inserts_snoc t h x : run_inserts t (h ++ [x]) =
  match run_inserts t h with Some t' => insert t' (e_extra x) (e_toks x) (e_vals x) | None => None end.
Proof.
  revert t; induction h as [|y h IH]; intro t; cbn [app run_inserts].
  - destruct (insert t _ _ _); reflexivity.
  - destruct (insert t (e_extra y) _ _); [apply IH | reflexivity].
Qed.

Lemma tree_after_wf h t : tree_after h t -> wf (nkids t).
Proof.
  revert t; induction h as [|x h IH] using rev_ind; intros t H; unfold tree_after in *.
  - injection H as <-. apply wf_nil.
  - rewrite run_inserts_snoc in H. destruct (run_inserts empty_tree h) as [t0|] eqn:E; [|discriminate].
    apply insert_kids in H as (-> & L). apply ins_forest_wf; [now apply IH|]. rewrite firstn_length. lia.
Qed.

Definition spec (h : list entry) (e : Z) (w : list (Z * col)) : Prop :=
  stored_prefix h e (map fst w) /\
  forall i, (i < length w)%nat -> exists x, introduced_by h e (firstn (S i) (map fst w)) x /\
     exists c, nth_error (e_vals x) i = Some c /\ nth_error (map snd w) i = Some c.

Definition hinv (h : list entry) (cs : list node) : Prop :=
  wf cs /\
  (forall e w, stored e cs w -> w <> [] -> spec h e w) /\
  (forall e u, stored_prefix h e u -> u <> [] -> exists w, map fst w = u /\ stored e cs w).

Lemma hinv_clean h cs e q : hinv h cs -> clean_query h e q -> clean e q cs.
Proof.
  intros (_ & I1 & _) C w S. destruct w as [|a w].
  - intros p x ra y rb _ H. destruct p; discriminate.
  - destruct (I1 e _ S) as ((x & Hx & He & P) & _); [discriminate|].
    eapply parts_cleanly_prefix; [exact P | now apply C].
Qed.

Lemma introduced_snoc h e u x y : introduced_by h e u x -> introduced_by (h ++ [y]) e u x.
Proof. intros (h1 & h2 & -> & H). exists h1, (h2 ++ [y]). split; [now rewrite <- app_assoc | exact H]. Qed.
Lemma stored_prefix_snoc h e u y : stored_prefix h e u -> stored_prefix (h ++ [y]) e u.
Proof. intros (x & Hx & H). exists x. split; [apply in_app_iff; auto | exact H]. Qed.
Lemma spec_snoc h e w y : spec h e w -> spec (h ++ [y]) e w.
Proof.
  intros (H1 & H2). split; [now apply stored_prefix_snoc|].
  intros i Hi. destruct (H2 i Hi) as (x & Hx & H). exists x. split; [now apply introduced_snoc | exact H].
Qed.

Lemma ideal_toks cs e q vals : wf cs -> length vals = length q -> map fst (ideal cs e q vals) = q.
Proof.
  intros W L. unfold ideal. rewrite map_app, found_toks by exact W.
  rewrite map_fst_combine by (rewrite !skipn_length; lia). apply firstn_skipn.
Qed.

Lemma nth_error_firstn_lt {A} n (l : list A) i : (i < n)%nat -> nth_error (firstn n l) i = nth_error l i.
Proof. revert n i; induction l as [|x l IH]; intros [|n] [|i] H; cbn; try reflexivity; try lia. apply IH; lia. Qed.
Lemma nth_error_skipn_ {A} n (l : list A) i : nth_error (skipn n l) i = nth_error l (n + i).
Proof. revert l; induction n as [|n IH]; intros [|x l]; cbn; try reflexivity; [now destruct i | apply IH]. Qed.

Lemma prefix_short {A} (a b c : list A) : prefix a (b ++ c) -> (length a <= length b)%nat -> prefix a b.
Proof.
  intros P L. destruct (prefix_cases _ _ _ P) as [P'|(u & -> & _)]; [exact P'|].
  rewrite app_length in L. destruct u; [rewrite app_nil_r; apply prefix_refl | cbn [length] in L; lia].
Qed.

Lemma hinv_step h cs x : hinv h cs -> clean_query h (e_extra x) (e_toks x) ->
  (length (e_toks x) <= length (e_vals x))%nat ->
  hinv (h ++ [x]) (ins_forest (e_extra x) (e_toks x) (firstn (length (e_toks x)) (e_vals x)) cs).
Proof.
  intros HI CQ LV. pose proof (hinv_clean h cs _ _ HI CQ) as C. pose proof HI as (W & I1 & I2).
  destruct x as [e q vals0]. cbn [e_extra e_toks e_vals] in *.
  set (vals := firstn (length q) vals0).
  assert (L : length vals = length q) by (unfold vals; rewrite firstn_length; lia).
  destruct q as [|t q].
  { split; [exact W|]. split.
    - intros e' w S N. apply spec_snoc. now apply I1.
    - intros e' u (y & Hy & He & P) N. apply in_app_iff in Hy as [Hy|[<-|[]]].
      + apply I2; [exists y; auto | exact N].
      + destruct P as (z & P). cbn in P. destruct u; [easy | discriminate]. }
  assert (W' : wf (ins_forest e (t :: q) vals cs)) by now apply ins_forest_wf.
  pose proof (ins_stored (Node [] 0 [] cs) e t q vals W C L) as ST. cbn [nkids] in ST.
  pose proof (ins_stored_other (Node [] 0 [] cs) e t q vals W) as SO. cbn [nkids] in SO.
  pose proof (search_sound (Node [] 0 [] cs) e (t :: q) W C) as (SS1 & SS2). cbn [nkids] in SS1, SS2.
  pose proof (ideal_toks cs e (t :: q) vals W L) as IT.
  pose proof (found_len cs e (t :: q) W) as FL.
  split; [exact W'|]. split.
  - intros e' w S N. destruct (Z.eq_dec e' e) as [->|Ne].
    2:{ apply spec_snoc, I1; [|exact N]. now apply SO in S. }
    apply ST in S as [S|P]; [now apply spec_snoc, I1|].
    assert (PT : prefix (map fst w) (t :: q)).
    { destruct P as (z & P). rewrite <- IT, P, map_app. now exists (map fst z). }
    split; [exists (mkEntry e (t :: q) vals0); split; [apply in_app_iff; right; now left | split; [reflexivity | exact PT]]|].
    intros i Hi.
    assert (Efi : firstn (S i) (map fst w) = firstn (S i) (t :: q)).
    { destruct PT as (z & PT). rewrite PT, firstn_app. rewrite map_length.
      replace (S i - length w)%nat with O by lia. cbn [firstn]. now rewrite app_nil_r. }
    destruct (Nat.lt_ge_cases i (slen cs e (t :: q))) as [Hs|Hs].
    + (* already stored *)
      assert (Pw : prefix (firstn (S i) w) (found cs e (t :: q))).
      { pose proof (prefix_trans _ _ _ (prefix_firstn (S i) w) P) as P'. unfold ideal in P'.
        apply prefix_short with (1 := P'). rewrite firstn_length, FL. lia. }
      assert (Sw : stored e cs (firstn (S i) w)).
      { eapply stored_prefix_closed; [apply SS1|exact Pw]. intro Z0. apply (f_equal (@length _)) in Z0. rewrite FL in Z0. cbn [length] in Z0. lia. }
      destruct (I1 e _ Sw) as (_ & Hlab).
      { intro Z0. apply (f_equal (@length _)) in Z0. rewrite firstn_length in Z0. cbn [length] in Z0. lia. }
      destruct (Hlab i) as (y & Hy & c & Hc1 & Hc2); [rewrite firstn_length; lia|].
      exists y. rewrite <- firstn_map, firstn_firstn, Nat.min_id in Hy. split; [now apply introduced_snoc|].
      exists c. split; [exact Hc1|]. rewrite <- firstn_map, nth_error_firstn_lt in Hc2 by lia. exact Hc2.
    + (* new *)
      exists (mkEntry e (t :: q) vals0). split.
      * exists h, []. split; [reflexivity|]. split; [reflexivity|]. rewrite Efi. split; [apply prefix_firstn|].
        intro SP. destruct (I2 e _ SP) as (w' & Hw' & Sw'); [discriminate|].
        assert (P' : prefix w' (found cs e (t :: q))) by (apply SS2; [exact Sw' | rewrite Hw'; apply prefix_firstn]).
        apply prefix_len in P'. rewrite FL in P'. apply (f_equal (@length Z)) in Hw'. rewrite map_length in Hw'.
        rewrite <- Efi in Hw'. rewrite firstn_length, map_length in Hw'. lia.
      * cbn [e_vals].
        assert (Hn : nth_error (map snd w) i = nth_error vals i).
        { destruct P as (z & P). apply (f_equal (map snd)) in P. unfold ideal in P.
          rewrite !map_app, map_snd_combine in P by (rewrite !skipn_length; lia).
          assert (Hn : nth_error (map snd w ++ map snd z) i = nth_error (map snd w) i) by (apply nth_error_app1; now rewrite map_length).
          rewrite <- Hn, <- P, nth_error_app2 by (rewrite map_length, FL; lia).
          rewrite nth_error_skipn_, map_length, FL. f_equal. lia. }
        assert (Hv : nth_error vals i = nth_error vals0 i).
        { unfold vals. apply nth_error_firstn_lt. apply prefix_len in PT. rewrite map_length in PT. lia. }
        destruct (nth_error vals0 i) as [c|] eqn:Ec.
        -- exists c. split; [reflexivity|]. now rewrite Hn, Hv.
        -- exfalso. apply nth_error_None in Ec. apply prefix_len in PT. rewrite map_length in PT. lia.
  - intros e' u (y & Hy & He & P) N. apply in_app_iff in Hy as [Hy|[<-|[]]].
    + destruct (I2 e' u) as (w & Hw & S); [exists y; auto | exact N|]. exists w. split; [exact Hw|].
      destruct (Z.eq_dec e' e) as [->|Ne]; [apply ST; now left | now apply SO].
    + cbn [e_extra e_toks] in *. subst e'. exists (firstn (length u) (ideal cs e (t :: q) vals)). split.
      * rewrite <- firstn_map, IT. destruct P as (z & ->). now rewrite firstn_app, Nat.sub_diag, firstn_all, app_nil_r.
      * apply ST. right. apply prefix_firstn.
Qed.

Lemma clean_history_snoc h x : clean_history (h ++ [x]) -> clean_history h /\ clean_query h (e_extra x) (e_toks x).
Proof.
  intro H. split.
  - intros h1 y h2 E. apply (H h1 y (h2 ++ [x])). now rewrite E, <- app_assoc.
  - apply (H h x []). reflexivity.
Qed.

Lemma hinv_reach h t : tree_after h t -> clean_history h -> hinv h (nkids t).
Proof.
  revert t; induction h as [|x h IH] using rev_ind; intros t H C; unfold tree_after in *.
  - injection H as <-. split; [apply wf_nil|]. split.
    + intros e w S _. now apply stored_nil in S.
    + intros e u (y & [] & _).
  - rewrite run_inserts_snoc in H. destruct (run_inserts empty_tree h) as [t0|] eqn:E; [|discriminate].
    apply clean_history_snoc in C as (C1 & C2).
    apply insert_kids in H as (-> & L). apply hinv_step; auto.
Qed.

Lemma search_slen t e q : r_matched (search t e q) = slen (nkids t) e q.
Proof. unfold search, slen, plen. cbn [r_matched]. now rewrite search_path_kids. Qed.
Lemma search_saddr t e q : r_addrs (search t e q) = saddr (nkids t) e q.
Proof. unfold search, saddr, paddr. cbn [r_addrs]. now rewrite search_path_kids. Qed.

(** Main results *)
Lemma search_sizes_all h t e q : tree_after h t ->
  (r_matched (search t e q) <= length q)%nat /\ length (r_addrs (search t e q)) = r_matched (search t e q) /\
  (r_success (search t e q) = true <-> (0 < r_matched (search t e q))%nat).
Proof.
  intro H. rewrite search_slen, search_saddr.
  destruct (search_sizes t e q (tree_after_wf _ _ H)) as (H1 & H2). split; [exact H1|]. split; [exact H2|].
  rewrite <- search_slen. unfold search. cbn [r_success r_matched]. apply Nat.ltb_lt.
Qed.

Lemma search_genuine h t e q : tree_after h t -> clean_history h -> clean_query h e q ->
  (0 < r_matched (search t e q))%nat -> stored_prefix h e (firstn (r_matched (search t e q)) q).
Proof.
  intros H CH CQ N. pose proof (hinv_reach _ _ H CH) as HI. pose proof HI as (W & I1 & I2).
  pose proof (hinv_clean _ _ _ _ HI CQ) as C. destruct (search_sound t e q W C) as (S1 & _).
  rewrite search_slen in *. pose proof (found_len (nkids t) e q W) as FL.
  assert (NE : found (nkids t) e q <> []) by (intro Z0; rewrite Z0 in FL; cbn [length] in FL; lia).
  destruct (I1 e _ (S1 NE) NE) as (SP & _). now rewrite found_toks in SP.
Qed.

Lemma search_longest h t e q u : tree_after h t -> clean_history h -> clean_query h e q ->
  prefix u q -> stored_prefix h e u -> (length u <= r_matched (search t e q))%nat.
Proof.
  intros H CH CQ P SP. pose proof (hinv_reach _ _ H CH) as HI. pose proof HI as (W & I1 & I2).
  pose proof (hinv_clean _ _ _ _ HI CQ) as C. destruct (search_sound t e q W C) as (_ & S2).
  destruct u as [|a u]; [cbn; lia|].
  destruct (I2 e _ SP) as (w & Hw & Sw); [discriminate|].
  assert (P' : prefix w (found (nkids t) e q)) by (apply S2; [exact Sw | now rewrite Hw]).
  apply prefix_len in P'. rewrite found_len in P' by exact W. rewrite search_slen, <- Hw, map_length. exact P'.
Qed.

Lemma search_addresses h t e q i : tree_after h t -> clean_history h -> clean_query h e q ->
  (i < r_matched (search t e q))%nat ->
  exists x c, introduced_by h e (firstn (S i) q) x /\
    nth_error (e_vals x) i = Some c /\ nth_error (r_addrs (search t e q)) i = Some c.
Proof.
  intros H CH CQ Hi. pose proof (hinv_reach _ _ H CH) as HI. pose proof HI as (W & I1 & I2).
  pose proof (hinv_clean _ _ _ _ HI CQ) as C. destruct (search_sound t e q W C) as (S1 & _).
  rewrite search_slen in *. rewrite search_saddr. pose proof (found_len (nkids t) e q W) as FL.
  assert (NE : found (nkids t) e q <> []) by (intro Z0; rewrite Z0 in FL; cbn [length] in FL; lia).
  destruct (I1 e _ (S1 NE) NE) as (_ & HL). destruct (HL i) as (x & Hx & c & Hc1 & Hc2); [lia|].
  exists x, c. rewrite found_toks, firstn_firstn in Hx by exact W.
  rewrite Nat.min_l in Hx by lia. split; [exact Hx|]. split; [exact Hc1|].
  unfold found in Hc2. rewrite map_snd_combine in Hc2; [exact Hc2|].
  destruct (search_sizes t e q W). rewrite firstn_length. lia.
Qed.

Lemma within_wf t n : wf (nkids t) -> within t n -> wf (nkids n).
Proof. intros W H. induction H as [|n c H IH Hc]; [exact W|]. destruct (wf_in _ _ IH Hc) as (_ & _ & Wc & _). exact Wc. Qed.
