(** Search and insertion against the set of stored strings. *)
From Verif Require Import Base RadixModel RadixSpec RadixProofs.
Local Open Scope Z_scope.

Definition edge (c : node) : list (Z * col) := combine (ntoks c) (nvals c).

(** [stored e cs w]: the labelled string [w] can be read from the forest [cs] under extra key [e]. *)
Inductive stored (e : Z) : list node -> list (Z * col) -> Prop :=
| st_edge cs c w r : In c cs -> nextra c = e -> edge c = w ++ r -> stored e cs w
| st_deep cs c w : In c cs -> nextra c = e -> stored e (nkids c) w -> stored e cs (edge c ++ w).

Lemma map_fst_combine {A B} (a : list A) (b : list B) : length b = length a -> map fst (combine a b) = a.
Proof. revert b; induction a as [|x a IH]; intros [|y b]; cbn; try discriminate; try reflexivity. intro H; f_equal; auto. Qed.
Lemma map_snd_combine {A B} (a : list A) (b : list B) : length b = length a -> map snd (combine a b) = b.
Proof. revert b; induction a as [|x a IH]; intros [|y b]; cbn; try discriminate; try reflexivity. intro H; f_equal; auto. Qed.
Lemma combine_app {A B} (a a' : list A) (b b' : list B) : length a = length b ->
  combine (a ++ a') (b ++ b') = combine a b ++ combine a' b'.
Proof. revert b; induction a as [|x a IH]; intros [|y b]; cbn; try discriminate; try reflexivity. intro H; f_equal; auto. Qed.
Lemma combine_firstn_ {A B} n (a : list A) (b : list B) : combine (firstn n a) (firstn n b) = firstn n (combine a b).
Proof. revert a b; induction n as [|n IH]; intros [|x a] [|y b]; cbn; try reflexivity; try (destruct (firstn n b); reflexivity).
  - f_equal; auto. Qed.
Lemma combine_skipn_ {A B} n (a : list A) (b : list B) : length a = length b -> combine (skipn n a) (skipn n b) = skipn n (combine a b).
Proof. revert a b; induction n as [|n IH]; intros [|x a] [|y b]; cbn; try reflexivity; try discriminate. intro; auto. Qed.

Lemma skipn_add {A} a b (l : list A) : skipn (a + b) l = skipn b (skipn a l).
Proof. revert l; induction a as [|a IH]; intros [|x l]; cbn; try reflexivity; [now rewrite skipn_nil | apply IH]. Qed.

Definition plen (p : list (nat * list col)) : nat := fold_right (fun x s => (fst x + s)%nat) O p.
Definition paddr (p : list (nat * list col)) : list col := concat (map snd p).
Definition slen (cs : list node) e q := plen (search_path (Node [] 0 [] cs) e q).
Definition saddr (cs : list node) e q := paddr (search_path (Node [] 0 [] cs) e q).

Lemma search_path_kids n e q : search_path n e q = search_path (Node [] 0 [] (nkids n)) e q.
Proof. rewrite !search_path_eq. reflexivity. Qed.

Lemma slen_eq cs e q : slen cs e q =
  match q with [] => O | _ :: _ => match pick e q cs with None => O
    | Some (_, c, _) => (ml e q c + slen (nkids c) e (skipn (ml e q c) q))%nat end end.
Proof.
  unfold slen. rewrite search_path_eq. destruct q as [|t q]; [reflexivity|].
  cbn [nkids]. destruct (pick e (t :: q) cs) as [[[p c] s]|]; [|reflexivity].
  cbn [plen fold_right fst]. rewrite (search_path_kids c). reflexivity.
Qed.
Lemma saddr_eq cs e q : saddr cs e q =
  match q with [] => [] | _ :: _ => match pick e q cs with None => []
    | Some (_, c, _) => firstn (ml e q c) (nvals c) ++ saddr (nkids c) e (skipn (ml e q c) q) end end.
Proof.
  unfold saddr. rewrite search_path_eq. destruct q as [|t q]; [reflexivity|].
  cbn [nkids]. destruct (pick e (t :: q) cs) as [[[p c] s]|]; [|reflexivity].
  unfold paddr at 1. cbn [map snd concat]. rewrite (search_path_kids c). reflexivity.
Qed.

Lemma ml_le e q c : (ml e q c <= length q)%nat /\ (ml e q c <= length (ntoks c))%nat.
Proof. unfold matched_length. destruct (e =? nextra c); [apply common_le | lia]. Qed.

(** For every well-formed tree: the result never exceeds the query and carries one column per matched token. *)
Lemma search_sizes n : forall e q, wf (nkids n) ->
  (slen (nkids n) e q <= length q)%nat /\ length (saddr (nkids n) e q) = slen (nkids n) e q.
Proof.
  induction n as [k x v cs IH] using node_ind'. intros e q W. cbn [nkids] in *.
  rewrite slen_eq, saddr_eq. destruct q as [|t q]; [cbn; lia|].
  destruct (pick e (t :: q) cs) as [[[p c] s]|] eqn:E; [|cbn; lia].
  destruct (pick_some _ _ _ _ _ _ E) as (-> & M & _).
  destruct (wf_in _ _ W (in_elt c p s)) as (N & Lc & Wc & Xc).
  rewrite Forall_forall in IH. destruct (IH c (in_elt c p s) e (skipn (ml e (t :: q) c) (t :: q)) Wc) as (H1 & H2).
  pose proof (ml_le e (t :: q) c). rewrite app_length, H2, firstn_length. rewrite skipn_length in H1. lia.
Qed.

(** ** Clean queries *)
Definition clean (e : Z) (q : list Z) (cs : list node) : Prop :=
  forall w, stored e cs w -> parts_cleanly q (map fst w).

Lemma parts_cleanly_app p a b : parts_cleanly (p ++ a) (p ++ b) <-> parts_cleanly a b.
Proof.
  split.
  - intros H p' x ra y rb -> -> N. apply (H (p ++ p') x ra y rb); [now rewrite app_assoc..|exact N].
  - intros H p' x ra y rb Ha Hb N. 
    assert (exists p'', p' = p ++ p'' /\ a = p'' ++ x :: ra /\ b = p'' ++ y :: rb) as (p'' & -> & -> & ->).
    { clear H. revert p' Ha Hb. induction p as [|z p IH]; intros p' Ha Hb; [exists p'; auto|].
      destruct p' as [|z' p']; cbn in *.
      - injection Ha as -> _. injection Hb as -> _. easy.
      - injection Ha as -> Ha. injection Hb as Hb. destruct (IH p' Ha Hb) as (p'' & -> & Ha' & Hb'). exists p''; auto. }
    apply (H p'' x ra y rb); auto.
Qed.

Lemma parts_cleanly_prefix q b b' : prefix b' b -> parts_cleanly q b -> parts_cleanly q b'.
Proof.
  intros (c & ->) H p x ra y rb Ha Hb N Hi. apply (H p x ra y (rb ++ c)); auto.
  - rewrite Hb, <- app_assoc. reflexivity.
  - apply in_app_iff; auto.
Qed.

Lemma edge_toks c : length (nvals c) = length (ntoks c) -> map fst (edge c) = ntoks c.
Proof. intro H. unfold edge. now apply map_fst_combine. Qed.

(** Matching child, full edge. *)
Lemma ml_split e q c : nextra c = e -> let m := ml e q c in
  q = firstn m (ntoks c) ++ skipn m q /\
  (skipn m q = [] \/ skipn m (ntoks c) = [] \/
   exists x q' y k', skipn m q = x :: q' /\ skipn m (ntoks c) = y :: k' /\ x <> y).
Proof.
  intros <-. unfold matched_length. rewrite Z.eqb_refl. cbv zeta.
  destruct (common_split q (ntoks c)) as (ra & rb & Ha & Hb & -> & -> & Hd). auto.
Qed.

Lemma stored_head cs e w t q : wf cs -> stored e cs w -> prefix (map fst w) (t :: q) -> w <> [] ->
  exists c, In c cs /\ nextra c = e /\ (0 < ml e (t :: q) c)%nat /\
   ((exists r, edge c = w ++ r) \/ exists w', w = edge c ++ w' /\ stored e (nkids c) w').
Proof.
  intros W S (u & P) NE. inversion S as [? c ? r Hc He Hw|? c w' Hc He Hw]; subst; exists c.
  - destruct (wf_in _ _ W Hc) as (N & Lc & Wc & Xc).
    split; [exact Hc|]. split; [reflexivity|]. split; [|left; eauto].
    apply ml_pos; [exact N|]. split; [reflexivity|].
    pose proof (edge_toks c Lc) as Et. rewrite Hw, map_app in Et.
    destruct w as [|[a b] w]; [easy|]. cbn in *. injection P as -> P. rewrite <- Et. cbn. eauto.
  - destruct (wf_in _ _ W Hc) as (N & Lc & Wc & Xc).
    split; [exact Hc|]. split; [reflexivity|]. split; [|right; eauto].
    apply ml_pos; [exact N|]. split; [reflexivity|].
    rewrite map_app, edge_toks in P by exact Lc. destruct (ntoks c) as [|y k]; [easy|]. cbn in *. injection P as -> P. eauto.
Qed.

Lemma clean_deep e q c cs : In c cs -> nextra c = e -> length (nvals c) = length (ntoks c) ->
  clean e (ntoks c ++ q) cs -> clean e q (nkids c).
Proof.
  intros Hc He L H w S. specialize (H (edge c ++ w) (st_deep e cs c w Hc He S)).
  rewrite map_app, edge_toks in H by exact L. now apply parts_cleanly_app in H.
Qed.

(** When the query leaves an edge in its middle, no child of that node can match a clean query. *)
Lemma clean_stops cs e t q c x q' y k' : wf cs -> In c cs -> nextra c = e -> clean e (t :: q) cs ->
  skipn (ml e (t :: q) c) (t :: q) = x :: q' -> skipn (ml e (t :: q) c) (ntoks c) = y :: k' -> x <> y ->
  pick e (x :: q') (nkids c) = None.
Proof.
  intros W Hc He C Hq Hk N.
  destruct (pick e (x :: q') (nkids c)) as [[[p d] s]|] eqn:E; [exfalso|reflexivity].
  destruct (pick_some _ _ _ _ _ _ E) as (Hkids & M & _).
  destruct (wf_in _ _ W Hc) as (Nc & Lc & Wc & Xc).
  assert (Hd : In d (nkids c)) by (rewrite Hkids; apply in_elt).
  destruct (wf_in _ _ Wc Hd) as (Nd & Ld & Wd & Xd).
  pose proof (proj1 (ml_pos _ _ _ Nd) M) as (Ed & r & Hr). injection Hr as Hx _.
  assert (S : stored e cs (edge c ++ edge d)).
  { apply st_deep; auto. eapply st_edge with (c := d) (r := []); auto. now rewrite app_nil_r. }
  specialize (C _ S). rewrite map_app, !edge_toks in C by assumption.
  set (m := ml e (t :: q) c) in *.
  destruct (ml_split e (t :: q) c He) as (Hs & _). fold m in Hs.
  apply (C (firstn m (ntoks c)) x q' y (k' ++ ntoks d)).
  - rewrite Hs at 1. now rewrite Hq.
  - rewrite <- (firstn_skipn m (ntoks c)) at 1. rewrite Hk, <- app_assoc. reflexivity.
  - exact N.
  - apply in_app_iff. right. destruct (ntoks d); [easy|]. cbn in Hx. subst; now left.
Qed.

Definition found cs e q : list (Z * col) := combine (firstn (slen cs e q) q) (saddr cs e q).

Lemma found_len cs e q : wf cs -> length (found cs e q) = slen cs e q.
Proof.
  intro W. destruct (search_sizes (Node [] 0 [] cs) e q W) as (H1 & H2). cbn [nkids] in *.
  unfold found. rewrite combine_length, firstn_length, H2. lia.
Qed.
Lemma found_toks cs e q : wf cs -> map fst (found cs e q) = firstn (slen cs e q) q.
Proof.
  intro W. destruct (search_sizes (Node [] 0 [] cs) e q W) as (H1 & H2). cbn [nkids] in *.
  apply map_fst_combine. rewrite firstn_length, H2. lia.
Qed.

(** The search step, on labelled strings, for a clean query. *)
Lemma found_eq cs e t q p c s : wf cs -> pick e (t :: q) cs = Some (p, c, s) ->
  found cs e (t :: q) = firstn (ml e (t :: q) c) (edge c) ++ found (nkids c) e (skipn (ml e (t :: q) c) (t :: q)).
Proof.
  intros W E. destruct (pick_some _ _ _ _ _ _ E) as (Hcs & M & _).
  assert (Hc : In c cs) by (rewrite Hcs; apply in_elt).
  destruct (wf_in _ _ W Hc) as (N & Lc & Wc & Xc).
  pose proof (proj1 (ml_pos _ _ _ N) M) as (Ee & _).
  unfold found. rewrite slen_eq, saddr_eq, E. cbv beta iota.
  set (m := ml e (t :: q) c) in *. pose proof (ml_le e (t :: q) c) as Hle. fold m in Hle.
  destruct (ml_split e (t :: q) c Ee) as (Hs & _). fold m in Hs.
  set (q' := skipn m (t :: q)) in *.
  assert (Lf : length (firstn m (ntoks c)) = m) by (rewrite firstn_length; lia).
  rewrite Hs at 1. rewrite firstn_app, Lf. replace (m + slen (nkids c) e q' - m)%nat with (slen (nkids c) e q') by lia.
  rewrite (firstn_all2 (firstn m (ntoks c))) by (rewrite Lf; lia).
  rewrite combine_app by (rewrite !firstn_length; lia).
  rewrite combine_firstn_. reflexivity.
Qed.

Lemma found_none cs e q : pick e q cs = None -> found cs e q = [].
Proof. intro E. unfold found. rewrite slen_eq. destruct q as [|t q]; [reflexivity|]. rewrite E. reflexivity. Qed.

Lemma firstn_edge_full c m : (length (ntoks c) <= m)%nat -> firstn m (edge c) = edge c.
Proof. intro H. apply firstn_all2. unfold edge. rewrite combine_length. lia. Qed.

Lemma skipn_nil_iff {A} m (l : list A) : skipn m l = [] <-> (length l <= m)%nat.
Proof.
  split; [|apply skipn_all2]. intro H. apply (f_equal (@length A)) in H. rewrite skipn_length in H. cbn in H. lia.
Qed.

(** Three ways a query can go through its matching child. *)
Lemma through_child cs e t q p c s : wf cs -> clean e (t :: q) cs -> pick e (t :: q) cs = Some (p, c, s) ->
  let m := ml e (t :: q) c in let q' := skipn m (t :: q) in
  (m = length (ntoks c) /\ t :: q = ntoks c ++ q' /\ clean e q' (nkids c) /\
     found cs e (t :: q) = edge c ++ found (nkids c) e q') \/
  ((m < length (ntoks c))%nat /\ q' = [] /\ found cs e (t :: q) = firstn m (edge c)) \/
  ((m < length (ntoks c))%nat /\ pick e q' (nkids c) = None /\ found cs e (t :: q) = firstn m (edge c) /\
     exists x q'' y k', q' = x :: q'' /\ skipn m (ntoks c) = y :: k' /\ x <> y).
Proof.
  intros W C E m q'. pose proof (found_eq cs e t q p c s W E) as F. fold m q' in F.
  destruct (pick_some _ _ _ _ _ _ E) as (Hcs & M & _).
  assert (Hc : In c cs) by (rewrite Hcs; apply in_elt).
  destruct (wf_in _ _ W Hc) as (N & Lc & Wc & Xc).
  pose proof (proj1 (ml_pos _ _ _ N) M) as (Ee & _).
  pose proof (ml_le e (t :: q) c) as Hle. fold m in Hle.
  destruct (ml_split e (t :: q) c Ee) as (Hs & Hd). fold m q' in Hs, Hd.
  destruct (Nat.eq_dec m (length (ntoks c))) as [Em|Em].
  - left. split; [exact Em|].
    assert (Hq : t :: q = ntoks c ++ q') by (rewrite Hs at 1; rewrite firstn_all2 by lia; reflexivity).
    split; [exact Hq|]. split.
    + rewrite Hq in C. now apply (clean_deep e q' c cs).
    + rewrite F, firstn_edge_full by lia. reflexivity.
  - right. destruct Hd as [Hd|[Hd|(x & q'' & y & k' & H1 & H2 & H3)]].
    + left. split; [lia|]. split; [exact Hd|]. rewrite F, Hd.
      replace (found (nkids c) e []) with (@nil (Z * col)) by reflexivity. now rewrite app_nil_r.
    + exfalso. apply skipn_nil_iff in Hd. lia.
    + right. split; [lia|].
      assert (PN : pick e q' (nkids c) = None).
      { rewrite H1. apply (clean_stops cs e t q c x q'' y k' W Hc Ee C); auto. }
      split; [exact PN|]. split; [|exists x, q'', y, k'; auto].
      rewrite F, (found_none _ _ _ PN). now rewrite app_nil_r.
Qed.

Lemma prefix_nil {A} (l : list A) : prefix [] l.
Proof. now exists l. Qed.
Lemma prefix_refl {A} (l : list A) : prefix l l.
Proof. exists []. now rewrite app_nil_r. Qed.
Lemma prefix_app {A} (p a b : list A) : prefix a b -> prefix (p ++ a) (p ++ b).
Proof. intros (c & ->). exists c. now rewrite app_assoc. Qed.
Lemma prefix_app_inv {A} (p a b : list A) : prefix (p ++ a) (p ++ b) -> prefix a b.
Proof. intros (c & H). exists c. rewrite <- app_assoc in H. now apply app_inv_head in H. Qed.
Lemma prefix_firstn {A} n (l : list A) : prefix (firstn n l) l.
Proof. exists (skipn n l). symmetry; apply firstn_skipn. Qed.
Lemma prefix_of_firstn {A} (a l : list A) n : prefix a l -> (length a <= n)%nat -> prefix a (firstn n l).
Proof. intros (c & ->) H. exists (firstn (n - length a) c). rewrite firstn_app, firstn_all2 by exact H. reflexivity. Qed.
Lemma prefix_trans {A} (a b c : list A) : prefix a b -> prefix b c -> prefix a c.
Proof. intros (x & ->) (y & ->). exists (x ++ y). now rewrite app_assoc. Qed.
Lemma prefix_len {A} (a b : list A) : prefix a b -> (length a <= length b)%nat.
Proof. intros (c & ->). rewrite app_length. lia. Qed.
Lemma prefix_cases {A} (a b c : list A) : prefix a (b ++ c) -> prefix a b \/ exists a', a = b ++ a' /\ prefix a' c.
Proof.
  revert a. induction b as [|x b IH]; intros a (d & H).
  - right. exists a. split; [reflexivity | now exists d].
  - destruct a as [|y a]; [left; apply prefix_nil|]. cbn in H. injection H as -> H.
    destruct (IH a) as [(z & ->)|(a' & -> & P)]; [now exists d | left; now exists z|].
    right. exists a'. auto.
Qed.

(** What search finds is stored, and it is the longest stored string agreeing with the query. *)
Lemma search_sound n : forall e q, wf (nkids n) -> clean e q (nkids n) ->
  (found (nkids n) e q <> [] -> stored e (nkids n) (found (nkids n) e q)) /\
  (forall w, stored e (nkids n) w -> prefix (map fst w) q -> prefix w (found (nkids n) e q)).
Proof.
  induction n as [k x v cs IH] using node_ind'. intros e q W C. cbn [nkids] in *.
  destruct q as [|t q].
  { split; [intro H; now contradiction H|]. intros w S (u & P).
    destruct w; [apply prefix_nil | discriminate]. }
  destruct (pick e (t :: q) cs) as [[[p c] s]|] eqn:E.
  2:{ rewrite (found_none _ _ _ E). split; [easy|]. intros w S P.
      destruct w as [|a w]; [apply prefix_nil|].
      destruct (stored_head cs e (a :: w) t q W S P) as (c & Hc & _ & M & _); [discriminate|].
      rewrite (pick_none _ _ _ E c Hc) in M. lia. }
  destruct (pick_some _ _ _ _ _ _ E) as (Hcs & M & _).
  assert (Hc : In c cs) by (rewrite Hcs; apply in_elt).
  destruct (wf_in _ _ W Hc) as (N & Lc & Wc & Xc).
  pose proof (proj1 (ml_pos _ _ _ N) M) as (Ee & _).
  rewrite Forall_forall in IH. specialize (IH c Hc).
  set (m := ml e (t :: q) c) in *.
  pose proof (ml_split e (t :: q) c Ee) as (Hs & _). fold m in Hs.
  assert (HD : forall w, stored e cs w -> prefix (map fst w) (t :: q) -> w <> [] ->
     (exists r, edge c = w ++ r) \/ (exists w', w = edge c ++ w' /\ stored e (nkids c) w')).
  { intros w S P NE. destruct (stored_head cs e w t q W S P NE) as (d & Hd & _ & Md & H).
    assert (d = c) as -> by exact (one_child_matches cs e (t :: q) d c W Hd Hc Md M). exact H. }
  destruct (through_child cs e t q p c s W C E) as [(Em & Hq & C' & F)|[(Em & Hq & F)|(Em & PN & F & xx & q'' & y & k' & Hq & Hk & Nxy)]];
    fold m in Em; try fold m in Hq; try fold m in F.
  - destruct (IH e _ Wc C') as (I1 & I2). fold m in I1, I2. fold m in F. rewrite F. split.
    + intros _. destruct (found (nkids c) e (skipn m (t :: q))) as [|a l] eqn:Ef.
      * apply (st_edge e cs c (edge c ++ []) []); auto. now rewrite !app_nil_r.
      * apply st_deep; auto. apply I1. discriminate.
    + intros w S P. destruct w as [|a w]; [apply prefix_nil|].
      destruct (HD _ S P) as [(r & Hr)|(w' & Hw' & S')]; [discriminate| |].
      * exists (r ++ found (nkids c) e (skipn m (t :: q))). now rewrite Hr, app_assoc.
      * rewrite Hw'. apply prefix_app. apply I2; [exact S'|].
        rewrite Hw', map_app, edge_toks, Hq in P by exact Lc. now apply prefix_app_inv in P.
  - assert (FS : firstn m (edge c) = firstn m (combine (ntoks c) (nvals c))) by reflexivity.
    rewrite F. split.
    + intros _. apply (st_edge e cs c _ (skipn m (edge c))); auto. symmetry; apply firstn_skipn.
    + intros w S P. destruct w as [|a w]; [apply prefix_nil|].
      assert (Lq : length (t :: q) = m).
      { apply skipn_nil_iff in Hq. pose proof (ml_le e (t :: q) c). fold m in H. lia. }
      pose proof (prefix_len _ _ P) as Lw. rewrite map_length, Lq in Lw.
      destruct (HD _ S P) as [(r & Hr)|(w' & Hw' & S')]; [discriminate| |].
      * apply prefix_of_firstn; [now exists r | exact Lw].
      * exfalso. rewrite Hw', app_length in Lw. unfold edge in Lw. rewrite combine_length in Lw. lia.
  - rewrite F. split.
    + intros _. apply (st_edge e cs c _ (skipn m (edge c))); auto. symmetry; apply firstn_skipn.
    + intros w S P. destruct w as [|a w]; [apply prefix_nil|].
      assert (PP : forall u, prefix u (ntoks c) -> prefix u (t :: q) -> (length u <= m)%nat).
      { intros u Hu1 Hu2. fold m in Hk, Hq.
        destruct (Nat.le_gt_cases (length u) m) as [G|G]; [exact G|exfalso]. apply Nxy.
        rewrite <- (firstn_skipn m (ntoks c)), Hk in Hu1. rewrite Hs, Hq in Hu2.
        assert (Lf : length (firstn m (ntoks c)) = m) by (rewrite firstn_length; lia).
        destruct (prefix_cases _ _ _ Hu1) as [Hp|(u1 & -> & Hp1)]; [apply prefix_len in Hp; lia|].
        apply prefix_app_inv in Hu2. destruct u1 as [|b u1]; [rewrite app_nil_r in G; lia|].
        destruct Hp1 as (z1 & Hp1), Hu2 as (z2 & Hu2). cbn in *. congruence. }
      destruct (HD _ S P) as [(r & Hr)|(w' & Hw' & S')]; [discriminate| |].
      * apply prefix_of_firstn; [now exists r|]. rewrite <- (map_length fst). apply PP; [|exact P].
        rewrite <- (edge_toks c Lc), Hr, map_app. eexists; reflexivity.
      * exfalso. rewrite Hw', map_app, edge_toks in P by exact Lc.
        assert (length (ntoks c) <= m)%nat; [|lia]. apply PP; [apply prefix_refl|].
        eapply prefix_trans; [|exact P]. eexists; reflexivity.
Qed.

(** ** Insertion *)
Definition ideal cs e q vals : list (Z * col) :=
  found cs e q ++ combine (skipn (slen cs e q) q) (skipn (slen cs e q) vals).

Lemma stored_nil_inv e cs : stored e cs [] -> exists c, In c cs /\ nextra c = e.
Proof. intro S. inversion S; subst; eauto. Qed.

Lemma stored_prefix_closed e cs w u : stored e cs w -> prefix u w -> stored e cs u.
Proof.
  intro S. revert u. induction S as [cs c w r Hc He Hw|cs c w Hc He S IH]; intros u (z & Hu).
  - subst w. apply (st_edge e cs c u (z ++ r)); auto. now rewrite Hw, app_assoc.
  - destruct (prefix_cases u (edge c) w) as [(r & Hr)|(u' & -> & Hp)]; [now exists z| |].
    + apply (st_edge e cs c u r); auto.
    + apply st_deep; auto.
Qed.

Lemma stored_app e a b w : stored e (a ++ b) w <-> stored e a w \/ stored e b w.
Proof.
  split.
  - intro S. inversion S as [? c ? r Hc He Hw|? c w' Hc He Hw]; subst;
      apply in_app_iff in Hc as [Hc|Hc].
    + left. exact (st_edge _ a c w r Hc eq_refl Hw).
    + right. exact (st_edge _ b c w r Hc eq_refl Hw).
    + left. now apply st_deep.
    + right. now apply st_deep.
  - intros [S|S]; inversion S as [? c ? r Hc He Hw|? c w' Hc He Hw]; subst.
    + eapply st_edge; [apply in_app_iff; left; exact Hc | reflexivity | exact Hw].
    + apply st_deep; [apply in_app_iff; left; exact Hc | reflexivity | exact Hw].
    + eapply st_edge; [apply in_app_iff; right; exact Hc | reflexivity | exact Hw].
    + apply st_deep; [apply in_app_iff; right; exact Hc | reflexivity | exact Hw].
Qed.

Lemma stored_cons e c l w : stored e (c :: l) w <-> stored e [c] w \/ stored e l w.
Proof. apply (stored_app e [c] l w). Qed.

Lemma stored_one e c w : stored e [c] w <->
  nextra c = e /\ (prefix w (edge c) \/ exists w', w = edge c ++ w' /\ stored e (nkids c) w').
Proof.
  split.
  - intro S. inversion S as [? d ? r Hd He Hw|? d w' Hd He Hw]; subst; destruct Hd as [->|[]];
      (split; [reflexivity|]); [left; now exists r | right; eauto].
  - intros (He & [(r & Hr)|(w' & -> & S)]); [apply (st_edge e _ c w r) | apply st_deep]; auto; now left.
Qed.

Lemma stored_nil e w : ~ stored e [] w.
Proof. intro S. inversion S as [? c ? r Hc|? c w' Hc]; subst; destruct Hc. Qed.

(** Insertion adds exactly the prefixes of the found string continued with the new addresses. *)
Lemma ins_stored n : forall e t q vals, wf (nkids n) -> clean e (t :: q) (nkids n) -> length vals = length (t :: q) ->
  forall w, stored e (ins_forest e (t :: q) vals (nkids n)) w <->
            stored e (nkids n) w \/ prefix w (ideal (nkids n) e (t :: q) vals).
Proof.
  induction n as [k x v cs IH] using node_ind'. intros e t q vals W C L w. cbn [nkids] in *.
  unfold ins_forest.
  destruct (pick e (t :: q) cs) as [[[p c] s]|] eqn:E.
  2:{ unfold ideal. rewrite (found_none _ _ _ E), slen_eq, E. cbn [skipn app].
      rewrite stored_app, stored_one. cbn [nextra nkids]. unfold edge; cbn [ntoks nvals].
      split; [intros [S|(_ & [P|(w' & _ & S)])]; [now left | now right | now apply stored_nil in S]|].
      intros [S|P]; [now left|]. right. split; [reflexivity | now left]. }
  destruct (pick_some _ _ _ _ _ _ E) as (Hcs & M & _). cbv zeta.
  assert (Hc : In c cs) by (rewrite Hcs; apply in_elt).
  destruct (wf_in _ _ W Hc) as (N & Lc & Wc & Xc).
  pose proof (proj1 (ml_pos _ _ _ N) M) as (Ee & _).
  rewrite Forall_forall in IH. specialize (IH c Hc).
  pose proof (ml_le e (t :: q) c) as Hle.
  pose proof (ml_split e (t :: q) c Ee) as (Hs & _).
  assert (LN : slen cs e (t :: q) = (ml e (t :: q) c + slen (nkids c) e (skipn (ml e (t :: q) c) (t :: q)))%nat)
    by (rewrite slen_eq, E; reflexivity).
  destruct (through_child cs e t q p c s W C E) as [(Em & Hq & C' & F)|[(Em & Hq & F)|(Em & PN & F & xx & q'' & y & k' & Hq & Hk & Nxy)]];
  set (m := ml e (t :: q) c) in *.
  (* it suffices to compare the child alone *)
  all: assert (G : (stored e [ins c m e (skipn m (t :: q)) (skipn m vals)] w <->
                    stored e [c] w \/ prefix w (ideal cs e (t :: q) vals)) ->
       (stored e (p ++ ins c m e (skipn m (t :: q)) (skipn m vals) :: s) w <->
        stored e cs w \/ prefix w (ideal cs e (t :: q) vals)))
      by (intro G; rewrite Hcs at 1; rewrite !stored_app, (stored_cons e _ s), (stored_cons e c s), G; tauto);
    apply G; clear G.
  - destruct (skipn m (t :: q)) as [|t' q'] eqn:Eq'.
    + assert (I : ideal cs e (t :: q) vals = edge c).
      { unfold ideal. rewrite F, LN. rewrite slen_eq. replace (skipn (m + 0) (t :: q)) with (@nil Z) by (rewrite Nat.add_0_r; auto).
        cbn [combine]. rewrite app_nil_r. unfold found. rewrite slen_eq. cbn. now rewrite app_nil_r. }
      rewrite I. destruct c as [ck_ cx cv_ ccs]. rewrite ins_eq.
      split; [now left|]. intros [S|P]; [exact S|]. apply stored_one. split; [exact Ee | now left].
    + assert (Lv : length (skipn m vals) = length (t' :: q')) by (rewrite <- Eq', !skipn_length; congruence).
      specialize (IH e t' q' (skipn m vals) Wc C' Lv).
      assert (I : ideal cs e (t :: q) vals = edge c ++ ideal (nkids c) e (t' :: q') (skipn m vals)).
      { unfold ideal. rewrite F, LN, <- app_assoc. f_equal. f_equal. rewrite !skipn_add, Eq'. reflexivity. }
      assert (In' : ins c m e (t' :: q') (skipn m vals) = Node (ntoks c) (nextra c) (nvals c) (ins_forest e (t' :: q') (skipn m vals) (nkids c))).
      { destruct c as [ck_ cx cv_ ccs]. rewrite ins_eq. cbn [ntoks nextra nvals nkids] in *.
        destruct (pick e (t' :: q') ccs); [reflexivity|].
        replace (m <? length ck_)%nat with false by (symmetry; apply Nat.ltb_ge; lia). rewrite andb_false_r. reflexivity. }
      rewrite In', I, !stored_one. cbn [nextra nkids]. change (edge (Node (ntoks c) (nextra c) (nvals c) (ins_forest e (t' :: q') (skipn m vals) (nkids c)))) with (edge c).
      split.
      * intros (He & [P|(w' & -> & S)]); [left; split; auto|].
        apply IH in S as [S|P]; [left; split; [exact He|]; right; eauto|]. right. now apply prefix_app.
      * intros [(He & [P|(w' & -> & S)])|P].
        -- split; auto.
        -- split; [exact He|]. right. exists w'. split; [reflexivity|]. apply IH. now left.
        -- split; [exact Ee|]. destruct (prefix_cases _ _ _ P) as [P'|(w' & -> & P')]; [now left|].
           right. exists w'. split; [reflexivity|]. apply IH. now right.
  - rewrite Hq. assert (I : ideal cs e (t :: q) vals = firstn m (edge c)).
    { unfold ideal. rewrite F, LN, Hq, slen_eq, Nat.add_0_r, Hq. cbn [combine]. now rewrite app_nil_r. }
    rewrite I. destruct c as [ck_ cx cv_ ccs]. rewrite ins_eq.
    split; [now left|]. intros [S|P]; [exact S|]. apply stored_one. split; [exact Ee|]. left.
    eapply prefix_trans; [exact P | apply prefix_firstn].
  - rewrite Hq in *. assert (Lv : length (skipn m vals) = length (xx :: q'')) by (rewrite <- Hq, !skipn_length; congruence).
    assert (I : ideal cs e (t :: q) vals = firstn m (edge c) ++ combine (xx :: q'') (skipn m vals)).
    { unfold ideal. rewrite F, LN, slen_eq, PN, Nat.add_0_r, Hq. reflexivity. }
    rewrite I. destruct c as [ck_ cx cv_ ccs]. cbn [ntoks nextra nvals nkids] in *. rewrite ins_eq, PN.
    replace (0 <? m)%nat with true by (symmetry; apply Nat.ltb_lt; lia).
    replace (m <? length ck_)%nat with true by (symmetry; apply Nat.ltb_lt; lia). cbn [andb].
    rewrite !stored_one. cbn [nextra nkids].
    set (lower := Node (skipn m ck_) cx (skipn m cv_) ccs).
    assert (Eu : forall l, edge (Node (firstn m ck_) cx (firstn m cv_) l) = firstn m (combine ck_ cv_))
      by (intro l; unfold edge; cbn [ntoks nvals]; apply combine_firstn_).
    assert (El : edge lower = skipn m (combine ck_ cv_))
      by (unfold edge, lower; cbn [ntoks nvals]; apply combine_skipn_; lia).
    rewrite Eu. repeat (change (edge (Node ck_ cx cv_ ccs)) with (combine ck_ cv_)). set (E0 := combine ck_ cv_) in *.
    assert (E0s : E0 = firstn m E0 ++ skipn m E0) by (symmetry; apply firstn_skipn).
    split.
    + intros (He & [P|(w' & -> & S)]).
      * left. split; [exact He|]. left. eapply prefix_trans; [exact P | apply prefix_firstn].
      * rewrite stored_cons, !stored_one in S. cbn [nextra nkids] in S. rewrite El in S.
        destruct S as [(_ & [P|(w'' & -> & S)])|(_ & [P|(w'' & _ & S)])].
        -- left. split; [exact He|]. left. rewrite E0s at 2. now apply prefix_app.
        -- left. split; [exact He|]. right. exists w''. split; [|exact S]. now rewrite app_assoc, <- E0s.
        -- right. now apply prefix_app.
        -- now apply stored_nil in S.
    + intros [(He & [P|(w' & -> & S)])|P].
      * split; [exact He|]. rewrite E0s in P. destruct (prefix_cases _ _ _ P) as [P'|(w' & -> & P')]; [now left|].
        right. exists w'. split; [reflexivity|]. rewrite stored_cons, stored_one. cbn [nextra]. rewrite El. left. auto.
      * split; [exact He|]. right. exists (skipn m E0 ++ w'). split; [now rewrite app_assoc, <- E0s|].
        rewrite stored_cons, stored_one. cbn [nextra nkids]. rewrite El. left. split; [exact He|]. right. eauto.
      * split; [exact Ee|]. destruct (prefix_cases _ _ _ P) as [P'|(w' & -> & P')]; [now left|].
        right. exists w'. split; [reflexivity|]. rewrite stored_cons, (stored_one _ (Node (xx :: q'') _ _ _)). cbn [nextra].
        right. split; [reflexivity|]. left. exact P'.
Qed.

Lemma ins_stored_other n : forall e t q vals, wf (nkids n) -> forall e' w, e' <> e ->
  stored e' (ins_forest e (t :: q) vals (nkids n)) w <-> stored e' (nkids n) w.
Proof.
  destruct n as [k x v cs]. intros e t q vals W e' w Ne. cbn [nkids] in *.
  unfold ins_forest. destruct (pick e (t :: q) cs) as [[[p c] s]|] eqn:E.
  - destruct (pick_some _ _ _ _ _ _ E) as (Hcs & M & _). cbv zeta.
    assert (Hc : In c cs) by (rewrite Hcs; apply in_elt).
    destruct (wf_in _ _ W Hc) as (N & Lc & Wc & Xc).
    pose proof (proj1 (ml_pos _ _ _ N) M) as (Ee & _).
    rewrite Hcs, !stored_app, (stored_cons _ (ins _ _ _ _ _)), (stored_cons _ c), !stored_one.
    assert (nextra (ins c (ml e (t :: q) c) e (skipn (ml e (t :: q) c) (t :: q)) (skipn (ml e (t :: q) c) vals)) = nextra c)
      as -> by (exact (f_equal fst (ins_head _ _ _ _ _ N))).
    assert (nextra c = e' <-> False) by (split; [congruence | easy]). tauto.
  - rewrite stored_app, stored_one. cbn [nextra]. assert (e = e' <-> False) by (split; [congruence | easy]). tauto.
Qed.
