(** Histories of promotions and evictions: no address is released twice. *)
From Verif Require Import Base RadixModel RadixSpec RadixProofs RadixMore RadixHist EvictProofs EvictSpec.
Local Open Scope Z_scope.

Fixpoint cols (n : node) : list col := match n with Node _ _ v cs => v ++ flat_map cols cs end.
Definition colsf (cs : list node) : list col := flat_map cols cs.
Lemma cols_eq n : cols n = nvals n ++ colsf (nkids n).
Proof. destruct n; reflexivity. Qed.

Lemma colsf_app a b : colsf (a ++ b) = colsf a ++ colsf b.
Proof. apply flat_map_app. Qed.
Lemma colsf_cons a b : colsf (a :: b) = cols a ++ colsf b.
Proof. reflexivity. Qed.

Lemma ins_cols n : forall e q vals, wf (nkids n) -> length vals = length q ->
  Permutation (colsf (ins_forest e q vals (nkids n))) (colsf (nkids n) ++ skipn (slen (nkids n) e q) vals).
Proof.
  induction n as [k x v cs IH] using node_ind'. intros e q vals W L. cbn [nkids] in *.
  unfold ins_forest. destruct q as [|t q].
  { rewrite slen_eq. destruct vals; [|discriminate]. cbn [skipn]. now rewrite app_nil_r. }
  rewrite slen_eq. destruct (pick e (t :: q) cs) as [[[p c] s]|] eqn:E.
  2:{ rewrite colsf_app. cbn [skipn]. rewrite colsf_cons. cbn [cols flat_map]. unfold colsf at 2. cbn [flat_map].
      now rewrite !app_nil_r. }
  destruct (pick_some _ _ _ _ _ _ E) as (Hcs & M & _). cbv zeta.
  assert (Hc : In c cs) by (rewrite Hcs; apply in_elt).
  destruct (wf_in _ _ W Hc) as (N & Lc & Wc & Xc).
  rewrite Forall_forall in IH. specialize (IH c Hc e).
  set (m := ml e (t :: q) c) in *. set (q' := skipn m (t :: q)) in *. set (v' := skipn m vals) in *.
  assert (Lv : length v' = length q') by (unfold v', q'; rewrite !skipn_length; congruence).
  specialize (IH q' v' Wc Lv).
  assert (HC : Permutation (cols (ins c m e q' v')) (cols c ++ skipn (slen (nkids c) e q') v')).
  { destruct c as [ck_ cx cv_ ccs]. cbn [ntoks nextra nvals nkids] in *. rewrite ins_eq.
    destruct q' as [|t' q''] eqn:Eq'.
    { destruct v'; [|discriminate]. rewrite slen_eq. cbn [skipn]. now rewrite app_nil_r. }
    destruct (pick e (t' :: q'') ccs) as [pp|] eqn:E2.
    - rewrite !cols_eq; cbn [nvals nkids]. rewrite IH, app_assoc. reflexivity.
    - destruct ((0 <? m)%nat && (m <? length ck_)%nat).
      + rewrite slen_eq, E2. cbn [skipn]. rewrite !cols_eq; cbn [nvals nkids]. rewrite !colsf_cons, !cols_eq; cbn [nvals nkids].
        unfold colsf at 2 3; cbn [flat_map]. rewrite !app_nil_r. rewrite !app_assoc.
        rewrite firstn_skipn. reflexivity.
      + rewrite !cols_eq; cbn [nvals nkids]. rewrite IH, app_assoc. reflexivity. }
  rewrite Hcs, !colsf_app, !colsf_cons, HC.
  replace (skipn (m + slen (nkids c) e q') vals) with (skipn (slen (nkids c) e q') v') by (unfold v'; now rewrite skipn_add).
  rewrite <- !app_assoc. apply Permutation_app_head, Permutation_app_head, Permutation_app_comm.
Qed.

Lemma livek_app l a b : livek l (a ++ b) = livek l a ++ livek l b.
Proof. apply flat_map_app. Qed.
Lemma livev_app l a b : livev l (a ++ b) = livev l a ++ livev l b.
Proof. apply flat_map_app. Qed.

Lemma live_cut l k v : livek l (cut l k v) = livek l (skipn k v) /\ livev l (cut l k v) = livev l (skipn k v).
Proof.
  unfold cut. rewrite livek_app, livev_app.
  assert (G : forall a, livek l (map (set_invalid l) a) = [] /\ livev l (map (set_invalid l) a) = []).
  { induction a as [|c a (IH1 & IH2)]; [auto|]. unfold livek, livev in *. cbn [map flat_map set_invalid ck cv].
    rewrite IH1, IH2, !nth_upd_nth, Nat.eqb_refl. cbn [andb]. 
    assert (H : forall x : list Z, (if (l <? length x)%nat then invalid else nth l x invalid) = invalid).
    { intro x. destruct (Nat.ltb_spec l (length x)); [reflexivity|]. now apply nth_overflow. }
    rewrite !H. auto. }
  destruct (G (firstn k v)) as (-> & ->). auto.
Qed.

Lemma live_cut_other l j k v : j <> l -> livek j (cut l k v) = livek j v /\ livev j (cut l k v) = livev j v.
Proof.
  intro H. pose proof (livek_cut_other j l k v (length v) H) as (H1 & H2).
  rewrite (firstn_all2 (cut l k v)), (firstn_all2 v) in H1, H2 by (rewrite ?cut_len; lia). auto.
Qed.

Lemma evict_node_cols n : forall e q w l,
  let '(n', fk, fv, cnt) := evict_node n e q w l in
  nvals n' = nvals n /\
  Permutation (livek l (colsf (nkids n))) (livek l (colsf (nkids n')) ++ fk) /\
  Permutation (livev l (colsf (nkids n))) (livev l (colsf (nkids n')) ++ fv) /\
  forall j, j <> l -> livek j (colsf (nkids n')) = livek j (colsf (nkids n)) /\
                      livev j (colsf (nkids n')) = livev j (colsf (nkids n)).
Proof.
  induction n as [k x v cs IH] using node_ind'. intros e q w l. rewrite evict_node_eq.
  assert (Triv : v = v /\ Permutation (livek l (colsf cs)) (livek l (colsf cs) ++ []) /\
    Permutation (livev l (colsf cs)) (livev l (colsf cs) ++ []) /\
    forall j, j <> l -> livek j (colsf cs) = livek j (colsf cs) /\ livev j (colsf cs) = livev j (colsf cs)).
  { rewrite !app_nil_r. auto. }
  destruct q as [|t q]; [exact Triv|].
  destruct (pick e (t :: q) cs) as [[[p c] s]|] eqn:E; [|exact Triv]. clear Triv.
  destruct (pick_some _ _ _ _ _ _ E) as (Hcs & M & _). cbv zeta.
  assert (Hc : In c cs) by (rewrite Hcs; apply in_elt).
  rewrite Forall_forall in IH. specialize (IH c Hc e (skipn (ml e (t :: q) c) (t :: q)) w l).
  set (m := ml e (t :: q) c) in *. set (q' := skipn m (t :: q)) in *.
  destruct (evict_node c e q' w l) as [[[c' fk] fv] cnt]. destruct IH as (Hv & Hk & Hv' & Ho).
  assert (FIN : forall c'' fk2 fv2,
     Permutation (livek l (cols c)) (livek l (cols c'') ++ fk2) ->
     Permutation (livev l (cols c)) (livev l (cols c'') ++ fv2) ->
     (forall j, j <> l -> livek j (cols c'') = livek j (cols c) /\ livev j (cols c'') = livev j (cols c)) ->
     v = v /\
     Permutation (livek l (colsf cs)) (livek l (colsf (p ++ c'' :: s)) ++ fk2) /\
     Permutation (livev l (colsf cs)) (livev l (colsf (p ++ c'' :: s)) ++ fv2) /\
     forall j, j <> l -> livek j (colsf (p ++ c'' :: s)) = livek j (colsf cs) /\
                      livev j (colsf (p ++ c'' :: s)) = livev j (colsf cs)).
  { intros c'' fk2 fv2 H1 H2 H3. rewrite Hcs. rewrite !colsf_app, !colsf_cons, !livek_app, !livev_app, H1, H2.
    split; [reflexivity|]. rewrite <- !app_assoc. split; [|split].
    - apply Permutation_app_head, Permutation_app_head, Permutation_app_comm.
    - apply Permutation_app_head, Permutation_app_head, Permutation_app_comm.
    - intros j Hj. rewrite !livek_app, !livev_app. destruct (H3 j Hj) as (-> & ->). auto. }
  unfold evict_here. destruct (w <? cnt + m)%nat.
  - cbv zeta. unfold evict_cols. cbv beta iota. cbn [nvals nkids]. rewrite Hv.
    set (ek := Nat.min m (cnt + m - w)).
    fold (cut l ek (nvals c)). fold (livek l (firstn ek (nvals c))). fold (livev l (firstn ek (nvals c))).
    apply FIN.
    + rewrite !cols_eq. unfold upd_node; cbn [nvals nkids]. rewrite !livek_app, Hk.
      destruct (live_cut l ek (nvals c)) as (-> & _).
      rewrite <- (firstn_skipn ek (nvals c)) at 1. rewrite livek_app.
      set (a := livek l (firstn ek (nvals c))). set (b := livek l (skipn ek (nvals c))).
      set (d := livek l (colsf (nkids c'))). rewrite <- !app_assoc.
      rewrite (Permutation_app_comm a). rewrite <- !app_assoc. reflexivity.
    + rewrite !cols_eq. unfold upd_node; cbn [nvals nkids]. rewrite !livev_app, Hv'.
      destruct (live_cut l ek (nvals c)) as (_ & ->).
      rewrite <- (firstn_skipn ek (nvals c)) at 1. rewrite livev_app.
      set (a := livev l (firstn ek (nvals c))). set (b := livev l (skipn ek (nvals c))).
      set (d := livev l (colsf (nkids c'))). rewrite <- !app_assoc.
      rewrite (Permutation_app_comm a). rewrite <- !app_assoc. reflexivity.
    + intros j Hj. rewrite !cols_eq. unfold upd_node; cbn [nvals nkids]. rewrite !livek_app, !livev_app.
      destruct (live_cut_other l j ek (nvals c) Hj) as (-> & ->). destruct (Ho j Hj) as (-> & ->). auto.
  - cbn [nvals nkids]. apply FIN.
    + rewrite !cols_eq, Hv, !livek_app, Hk, app_assoc. reflexivity.
    + rewrite !cols_eq, Hv, !livev_app, Hv', app_assoc. reflexivity.
    + intros j Hj. rewrite !cols_eq, Hv, !livek_app, !livev_app. destruct (Ho j Hj) as (-> & ->). auto.
Qed.

Lemma evict_layer_cols t q w l :
  let '(t', fk, fv) := evict_layer t q w l in
  Permutation (livek l (colsf (nkids t))) (livek l (colsf (nkids t')) ++ fk) /\
  Permutation (livev l (colsf (nkids t))) (livev l (colsf (nkids t')) ++ fv) /\
  forall j, j <> l -> livek j (colsf (nkids t')) = livek j (colsf (nkids t)) /\
                      livev j (colsf (nkids t')) = livev j (colsf (nkids t)).
Proof.
  unfold evict_layer. destruct (w <? r_matched (search t 0 q))%nat.
  - pose proof (evict_node_cols t 0 q w l) as H. destruct (evict_node t 0 q w l) as [[[t' fk] fv] cnt]. apply H.
  - rewrite !app_nil_r. auto.
Qed.

Lemma freedk_app l a b : freedk l (a ++ b) = freedk l a ++ freedk l b.
Proof. apply flat_map_app. Qed.
Lemma freedv_app l a b : freedv l (a ++ b) = freedv l a ++ freedv l b.
Proof. apply flat_map_app. Qed.

Lemma evict_layers_cols slide : forall t q w l,
  let '(t', fs) := evict_layers t q w l slide in
  forall j, Permutation (livek j (colsf (nkids t))) (livek j (colsf (nkids t')) ++ freedk j fs) /\
            Permutation (livev j (colsf (nkids t))) (livev j (colsf (nkids t')) ++ freedv j fs).
Proof.
  induction slide as [|b r IH]; intros t q w l; cbn [evict_layers].
  - intro j. cbn [freedk freedv flat_map]. rewrite !app_nil_r. auto.
  - destruct b.
    + pose proof (evict_layer_cols t q w l) as SS. destruct (evict_layer t q w l) as [[t1 fk1] fv1].
      specialize (IH t1 q w (S l)). destruct (evict_layers t1 q w (S l) r) as [t2 f2].
      destruct SS as (S1 & S2 & S3). intro j. destruct (IH j) as (I1 & I2).
      rewrite freedk_app, freedv_app. unfold freedk at 1, freedv at 1. cbn [flat_map fst snd]. rewrite !app_nil_r.
      destruct (Nat.eqb_spec l j) as [->|N].
      * rewrite S1, S2, I1, I2. rewrite <- !app_assoc.
        split; apply Permutation_app_head, Permutation_app_comm.
      * destruct (S3 j) as (H1 & H2); [congruence|]. rewrite <- H1, <- H2. cbn [app]. auto.
    + specialize (IH t q w (S l)). destruct (evict_layers t q w (S l) r) as [t2 f2]. exact IH.
Qed.

Lemma evict_cols_all t q w slide :
  let '(t', fs) := evict t q w slide in
  forall j, Permutation (livek j (colsf (nkids t))) (livek j (colsf (nkids t')) ++ freedk j fs) /\
            Permutation (livev j (colsf (nkids t))) (livev j (colsf (nkids t')) ++ freedv j fs).
Proof.
  unfold evict. destruct (length q <=? w)%nat.
  - intro j. cbn [freedk freedv flat_map]. rewrite !app_nil_r. auto.
  - apply evict_layers_cols.
Qed.

Lemma livek_perm l a b : Permutation a b -> Permutation (livek l a) (livek l b) /\ Permutation (livev l a) (livev l b).
Proof. intro H. split; now apply Permutation_flat_map. Qed.

Lemma prun_inv w slide ops : forall t log, pc_run w slide (empty_tree, []) ops = Some (t, log) ->
  wf (nkids t) /\
  forall j, (exists d, Permutation (givenk j ops) (livek j (colsf (nkids t)) ++ freedk j log ++ d)) /\
            (exists d, Permutation (givenv j ops) (livev j (colsf (nkids t)) ++ freedv j log ++ d)).
Proof.
  induction ops as [|o ops IH] using rev_ind; intros t log H.
  - injection H as <- <-. split; [apply wf_nil|]. intro j. split; exists []; constructor.
  - assert (R : forall s, pc_run w slide s (ops ++ [o]) = match pc_run w slide s ops with Some s' => pc_step w slide s' o | None => None end).
    { clear. induction ops as [|a ops IH]; intro s; cbn [app pc_run].
      - destruct (pc_step w slide s o); reflexivity.
      - destruct (pc_step w slide s a); [apply IH | reflexivity]. }
    rewrite R in H. destruct (pc_run w slide (empty_tree, []) ops) as [[t0 log0]|] eqn:E; [|discriminate].
    destruct (IH t0 log0 eq_refl) as (W & HP). clear IH R.
    assert (GK : forall j, givenk j (ops ++ [o]) = givenk j ops ++ givenk j [o]) by (intro; apply flat_map_app).
    assert (GV : forall j, givenv j (ops ++ [o]) = givenv j ops ++ givenv j [o]) by (intro; apply flat_map_app).
    destruct o as [e q vals|q]; cbn [pc_step fst snd] in H.
    + destruct (insert t0 e q vals) as [t1|] eqn:I; [|discriminate]. injection H as <- <-.
      apply insert_kids in I as (-> & L). set (v := firstn (length q) vals).
      assert (Lv : length v = length q) by (unfold v; rewrite firstn_length; lia).
      split; [now apply ins_forest_wf|]. intro j.
      pose proof (ins_cols t0 e q v W Lv) as P. destruct (livek_perm j _ _ P) as (P1 & P2).
      rewrite livek_app in P1. rewrite livev_app in P2. destruct (HP j) as ((d1 & H1) & (d2 & H2)).
      set (n := slen (nkids t0) e q) in *. split.
      * exists (d1 ++ livek j (firstn n v) ++ livek j (skipn (length q) vals)).
        rewrite GK. replace (givenk j [PPromote e q vals]) with (livek j vals) by (unfold givenk; cbn [flat_map]; now rewrite app_nil_r).
        rewrite H1, P1.
        replace (livek j vals) with (livek j (firstn n v) ++ livek j (skipn n v) ++ livek j (skipn (length q) vals))
          by (rewrite app_assoc, <- livek_app, firstn_skipn; unfold v; now rewrite <- livek_app, firstn_skipn).
        set (a := livek j (colsf (nkids t0))). set (b := freedk j log0).
        set (x := livek j (firstn n v)). set (y := livek j (skipn n v)). set (z := livek j (skipn (length q) vals)).
        rewrite <- !app_assoc. apply Permutation_app_head.
        rewrite (app_assoc x y z), (Permutation_app_comm x y), <- (app_assoc y x z).
        rewrite (app_assoc b d1), (app_assoc (b ++ d1) y).  rewrite (Permutation_app_comm (b ++ d1) y).
        rewrite <- !app_assoc. reflexivity.
      * exists (d2 ++ livev j (firstn n v) ++ livev j (skipn (length q) vals)).
        rewrite GV. replace (givenv j [PPromote e q vals]) with (livev j vals) by (unfold givenv; cbn [flat_map]; now rewrite app_nil_r).
        rewrite H2, P2.
        replace (livev j vals) with (livev j (firstn n v) ++ livev j (skipn n v) ++ livev j (skipn (length q) vals))
          by (rewrite app_assoc, <- livev_app, firstn_skipn; unfold v; now rewrite <- livev_app, firstn_skipn).
        set (a := livev j (colsf (nkids t0))). set (b := freedv j log0).
        set (x := livev j (firstn n v)). set (y := livev j (skipn n v)). set (z := livev j (skipn (length q) vals)).
        rewrite <- !app_assoc. apply Permutation_app_head.
        rewrite (app_assoc x y z), (Permutation_app_comm x y), <- (app_assoc y x z).
        rewrite (app_assoc b d2), (app_assoc (b ++ d2) y).  rewrite (Permutation_app_comm (b ++ d2) y).
        rewrite <- !app_assoc. reflexivity.
    + pose proof (evict_cols_all t0 q w slide) as P. pose proof (evict_spec t0 q w slide W) as S.
      destruct (evict t0 q w slide) as [t1 fs]. injection H as <- <-. cbv zeta in S. destruct S as (W' & _).
      split; [exact W'|]. intro j. destruct (P j) as (P1 & P2). destruct (HP j) as ((d1 & H1) & (d2 & H2)).
      rewrite GK, GV, freedk_app, freedv_app. unfold givenk at 2, givenv at 2. cbn [flat_map]. rewrite !app_nil_r. split; [exists d1|exists d2].
      * rewrite H1, P1. rewrite <- !app_assoc. apply Permutation_app_head.
        rewrite !app_assoc. apply Permutation_app_tail, Permutation_app_comm.
      * rewrite H2, P2. rewrite <- !app_assoc. apply Permutation_app_head.
        rewrite !app_assoc. apply Permutation_app_tail, Permutation_app_comm.
Qed.

Lemma NoDup_app_parts {A} (a b : list A) : NoDup (a ++ b) -> NoDup a /\ NoDup b /\ forall x, In x a -> ~ In x b.
Proof.
  induction a as [|x a IH]; cbn [app]; intro H; [split; [constructor | split; [exact H | intros x []]]|].
  inversion H as [|? ? Hn Hl]; subst. destruct (IH Hl) as (H1 & H2 & H3). rewrite in_app_iff in Hn.
  split; [constructor; tauto|]. split; [exact H2|]. intros y [<-|Hy]; [tauto | now apply H3].
Qed.

Lemma never_freed_twice w slide ops t log j : pc_run w slide (empty_tree, []) ops = Some (t, log) ->
  (NoDup (givenk j ops) -> NoDup (freedk j log) /\ forall a, In a (freedk j log) -> In a (givenk j ops)) /\
  (NoDup (givenv j ops) -> NoDup (freedv j log) /\ forall a, In a (freedv j log) -> In a (givenv j ops)).
Proof.
  intro H. apply prun_inv in H as (_ & H). destruct (H j) as ((d1 & H1) & (d2 & H2)). split.
  - intro N. apply (Permutation_NoDup H1) in N. apply NoDup_app_parts in N as (_ & N & _).
    apply NoDup_app_parts in N as (N & _). split; [exact N|].
    intros a Ha. apply (Permutation_in a (Permutation_sym H1)). rewrite !in_app_iff. auto.
  - intro N. apply (Permutation_NoDup H2) in N. apply NoDup_app_parts in N as (_ & N & _).
    apply NoDup_app_parts in N as (N & _). split; [exact N|].
    intros a Ha. apply (Permutation_in a (Permutation_sym H2)). rewrite !in_app_iff. auto.
Qed.

(** No released address is returned by a later search. *)
Lemma saddr_in n : forall e q c, wf (nkids n) -> In c (saddr (nkids n) e q) -> In c (colsf (nkids n)).
Proof.
  induction n as [k x v cs IH] using node_ind'. intros e q c W. cbn [nkids] in *. rewrite saddr_eq.
  destruct q as [|t q]; [intros []|]. destruct (pick e (t :: q) cs) as [[[p d] s]|] eqn:E; [|intros []].
  destruct (pick_some _ _ _ _ _ _ E) as (Hcs & M & _).
  assert (Hd : In d cs) by (rewrite Hcs; apply in_elt).
  destruct (wf_in _ _ W Hd) as (_ & _ & Wd & _).
  rewrite Forall_forall in IH. intro Hi. apply in_flat_map. exists d. split; [exact Hd|]. rewrite cols_eq, in_app_iff.
  apply in_app_iff in Hi as [Hi|Hi].
  - left. rewrite <- (firstn_skipn (ml e (t :: q) d)). apply in_app_iff. now left.
  - right. eapply IH; eauto.
Qed.

Lemma in_livek j c l : In c l -> nth j (ck c) invalid <> invalid -> In (nth j (ck c) invalid) (livek j l).
Proof. intros H N. apply in_flat_map. exists c. split; [exact H|]. unfold freed_of. destruct (Z.eqb_spec (nth j (ck c) invalid) invalid); [easy | now left]. Qed.
Lemma in_livev j c l : In c l -> nth j (cv c) invalid <> invalid -> In (nth j (cv c) invalid) (livev j l).
Proof. intros H N. apply in_flat_map. exists c. split; [exact H|]. unfold freed_of. destruct (Z.eqb_spec (nth j (cv c) invalid) invalid); [easy | now left]. Qed.

Lemma freed_not_found w slide ops t log j e q c : pc_run w slide (empty_tree, []) ops = Some (t, log) ->
  In c (r_addrs (search t e q)) ->
  (NoDup (givenk j ops) -> nth j (ck c) invalid <> invalid -> ~ In (nth j (ck c) invalid) (freedk j log)) /\
  (NoDup (givenv j ops) -> nth j (cv c) invalid <> invalid -> ~ In (nth j (cv c) invalid) (freedv j log)).
Proof.
  intros H Hc. apply prun_inv in H as (W & H). destruct (H j) as ((d1 & H1) & (d2 & H2)).
  rewrite search_saddr in Hc. apply saddr_in in Hc; [|exact W]. split; intros N NI Hf.
  - apply (Permutation_NoDup H1) in N. apply NoDup_app_parts in N as (_ & _ & N).
    apply (N (nth j (ck c) invalid)); [now apply in_livek | apply in_app_iff; now left].
  - apply (Permutation_NoDup H2) in N. apply NoDup_app_parts in N as (_ & _ & N).
    apply (N (nth j (cv c) invalid)); [now apply in_livev | apply in_app_iff; now left].
Qed.

Lemma nth_error_ext {A} (a b : list A) : (forall i, nth_error a i = nth_error b i) -> a = b.
Proof.
  revert b; induction a as [|x a IH]; intros [|y b] H; try reflexivity; try (specialize (H O); discriminate).
  f_equal; [specialize (H O); cbn in H; congruence | apply IH; intro i; exact (H (S i))].
Qed.

Lemma search_eta t e q : search t e q = mkRes (0 <? r_matched (search t e q))%nat (r_matched (search t e q)) (r_addrs (search t e q)).
Proof. reflexivity. Qed.

(** Evicting again releases nothing and changes no search result of this query. *)
Lemma evict_again t q w slide : wf (nkids t) ->
  let '(t1, _) := evict t q w slide in
  let '(t2, fs) := evict t1 q w slide in
  (forall j fk fv, In (j, fk, fv) fs -> fk = [] /\ fv = []) /\ search t2 0 q = search t1 0 q.
Proof.
  intro W. pose proof (evict_spec t q w slide W) as S1. destruct (evict t q w slide) as [t1 fs1]. cbv zeta in S1.
  destruct S1 as (W1 & N1 & A1 & _). pose proof (evict_spec t1 q w slide W1) as S2.
  destruct (evict t1 q w slide) as [t2 fs2]. cbv zeta in S2. destruct S2 as (W2 & N2 & A2 & P2 & _).
  rewrite N1 in *.
  set (k := (r_matched (search t 0 q) - w)%nat) in *. set (A := r_addrs (search t 0 q)) in *.
  assert (Inv : forall j, nth j slide false = true -> livek j (firstn k (cuts (sliding 0 slide) k A)) = [] /\ livev j (firstn k (cuts (sliding 0 slide) k A)) = []).
  { intros j Hj.
    assert (G : forall c, In c (firstn k (cuts (sliding 0 slide) k A)) -> nth j (ck c) invalid = invalid /\ nth j (cv c) invalid = invalid).
    { intros c Hc. apply In_nth_error in Hc as (i & Hi).
      assert (Li : (i < k)%nat). { assert (i < length (firstn k (cuts (sliding 0 slide) k A)))%nat by (apply nth_error_Some; congruence). rewrite firstn_length in H. lia. }
      rewrite nth_error_firstn_lt, nth_error_cuts in Hi by exact Li. destruct (nth_error A i) as [c0|]; [|discriminate].
      replace (i <? k)%nat with true in Hi by (symmetry; now apply Nat.ltb_lt). injection Hi as <-.
      assert (Hs : In j (sliding 0 slide)) by (apply sliding_ge; rewrite Nat.sub_0_r; split; [lia | exact Hj]).
      clear - Hs. revert c0. induction (sliding 0 slide) as [|x ls IH]; intro c0; [destruct Hs|].
      change (inv_all (x :: ls) c0) with (inv_all ls (set_invalid x c0)).
      destruct (in_dec Nat.eq_dec j ls) as [Hi|Hi]; [now apply IH|]. destruct Hs as [->|Hs]; [|easy]. clear IH.
      assert (E : forall c, nth j (ck c) invalid = invalid /\ nth j (cv c) invalid = invalid -> nth j (ck (inv_all ls c)) invalid = invalid /\ nth j (cv (inv_all ls c)) invalid = invalid).
      { induction ls as [|y ls IHl]; intros c Hc; [exact Hc|]. change (inv_all (y :: ls) c) with (inv_all ls (set_invalid y c)).
        cbn [In] in Hi. apply IHl; [tauto|]. destruct (set_invalid_other j y c) as (-> & ->); [intro; subst; tauto | exact Hc]. }
      apply E. cbn [set_invalid ck cv]. rewrite !nth_upd_nth, Nat.eqb_refl. cbn [andb].
      destruct (Nat.ltb_spec j (length (ck c0))), (Nat.ltb_spec j (length (cv c0))); rewrite ?nth_overflow by assumption; auto. }
    assert (F : forall l, (forall c, In c l -> nth j (ck c) invalid = invalid /\ nth j (cv c) invalid = invalid) -> livek j l = [] /\ livev j l = []).
    { induction l as [|c l IHl]; intro Hl; [auto|]. unfold livek, livev in *. cbn [flat_map].
      destruct (Hl c) as (-> & ->); [now left|]. destruct IHl as (-> & ->); [intros; apply Hl; now right | auto]. }
    apply F, G. }
  rewrite A1 in *. split.
  - intros j fk fv Hi. destruct (P2 _ _ _ Hi) as (Hj & Q1 & Q2). destruct (Inv j Hj) as (E1 & E2). rewrite E1 in Q1. rewrite E2 in Q2.
    split; now apply Permutation_nil, Permutation_sym.
  - assert (EA : r_addrs (search t2 0 q) = r_addrs (search t1 0 q)).
    { rewrite A2, A1. clear. unfold cuts.
      assert (Idem : forall ls v i, nth_error (cuts ls k (cuts ls k v)) i = nth_error (cuts ls k v) i).
      { intros ls v i. rewrite !nth_error_cuts. destruct (nth_error v i) as [c|]; [|reflexivity]. f_equal.
        destruct (i <? k)%nat; [|reflexivity].
        assert (U : forall x (l : list Z), upd_nth x (fun _ => invalid) (upd_nth x (fun _ => invalid) l) = upd_nth x (fun _ => invalid) l)
          by (induction x; intros [|a l]; cbn; f_equal; auto).
        assert (UC : forall x y (l : list Z), upd_nth x (fun _ => invalid) (upd_nth y (fun _ => invalid) l) = upd_nth y (fun _ => invalid) (upd_nth x (fun _ => invalid) l))
          by (induction x; intros [|y] [|a l]; cbn; f_equal; auto).
        assert (Com : forall x ls c, inv_all ls (set_invalid x c) = set_invalid x (inv_all ls c)).
        { intros x l2. induction l2 as [|y l2 IH]; intro c2; [reflexivity|].
          change (inv_all (y :: l2) (set_invalid x c2)) with (inv_all l2 (set_invalid y (set_invalid x c2))).
          change (inv_all (y :: l2) c2) with (inv_all l2 (set_invalid y c2)). rewrite <- IH. f_equal.
          unfold set_invalid; cbn [ck cv]. now rewrite (UC y x (ck c2)), (UC y x (cv c2)). }
        induction ls as [|x ls IH]; [reflexivity|].
        change (inv_all (x :: ls) c) with (inv_all ls (set_invalid x c)).
        change (inv_all (x :: ls) (inv_all ls (set_invalid x c))) with (inv_all ls (set_invalid x (inv_all ls (set_invalid x c)))).
        rewrite !Com, IH. unfold set_invalid; cbn [ck cv]. now rewrite !U. }
      apply nth_error_ext. intro i. apply Idem. }
    rewrite (search_eta t2), (search_eta t1), EA, N2, N1. reflexivity.
Qed.
