(** C05, C06: the prefix tree; C32: sliding-window eviction. *)
From Verif Require Import Base RadixModel RadixSpec RadixProofs RadixMore RadixHist EvictSpec EvictProofs EvictHist.
Local Open Scope Z_scope.

(** C05. For histories and queries that part cleanly, a reported match is a prefix of a stored sequence.
    Missing: without the restriction the statement is false, see the refutation below. *)
Theorem C05_match_is_stored_partial : forall h t e q,
  tree_after h t -> clean_history h -> clean_query h e q ->
  (0 < r_matched (search t e q))%nat ->
  exists x, In x h /\ e_extra x = e /\ prefix (firstn (r_matched (search t e q)) q) (e_toks x).
Proof. intros h t e q H1 H2 H3 H4. exact (search_genuine h t e q H1 H2 H3 H4). Qed.

(** For every history whatsoever: the match is no longer than the query and one address column is returned per token. *)
Theorem C05_match_sizes : forall h t e q, tree_after h t ->
  (r_matched (search t e q) <= length q)%nat /\ length (r_addrs (search t e q)) = r_matched (search t e q) /\
  (r_success (search t e q) = true <-> (0 < r_matched (search t e q))%nat).
Proof. exact search_sizes_all. Qed.

(** For every history: the result does not depend on the order in which a node's children are visited. *)
Theorem C05_child_order_irrelevant : forall h t n e q c d, tree_after h t -> within t n ->
  In c (nkids n) -> In d (nkids n) ->
  (0 < matched_length e q (nextra c) (ntoks c))%nat -> (0 < matched_length e q (nextra d) (ntoks d))%nat -> c = d.
Proof. intros h t n e q c d H Hn. apply one_child_matches. exact (within_wf t n (tree_after_wf h t H) Hn). Qed.

(** C06. Longest match. *)
Theorem C06_longest_partial : forall h t e q u,
  tree_after h t -> clean_history h -> clean_query h e q ->
  prefix u q -> stored_prefix h e u -> (length u <= r_matched (search t e q))%nat.
Proof. exact search_longest. Qed.

(** C06. The addresses are those of the entry that first stored the prefix. *)
Theorem C06_addresses_partial : forall h t e q i,
  tree_after h t -> clean_history h -> clean_query h e q ->
  (i < r_matched (search t e q))%nat ->
  exists x c, introduced_by h e (firstn (S i) q) x /\
    nth_error (e_vals x) i = Some c /\ nth_error (r_addrs (search t e q)) i = Some c.
Proof. exact search_addresses. Qed.

(** Witness data: one layer, K and V addresses equal. *)
Definition wc (z : Z) : col := mkCol [z] [z].
Definition we (k : list Z) (v : list Z) : entry := mkEntry 0 k (map wc v).

Definition run_check (h : list entry) (P : node -> bool) : bool :=
  match run_inserts empty_tree h with Some t => P t | None => false end.
Lemma run_check_ok h P : run_check h P = true -> exists t, tree_after h t /\ P t = true.
Proof. unfold run_check, tree_after. destruct (run_inserts empty_tree h) as [t|]; [eauto | discriminate]. Qed.

(** C05 is false of the code in general: after storing [1,2,3,4] and [1,2,3,4,5], a search for [1,2,5] reports three
    matched tokens although no stored sequence begins with [1,2,5] (RadixTree.cpp:118-140 goes on into the children of a
    node of whose edge only a part matched). *)
Theorem C05_false_match_refuted : exists h t q,
  tree_after h t /\ clean_history h /\ r_matched (search t 0 q) = 3%nat /\ length q = 3%nat /\
  ~ exists x, In x h /\ prefix (firstn 3 q) (e_toks x).
Proof.
  destruct (run_check_ok [we [1;2;3;4] [11;12;13;14]; we [1;2;3;4;5] [21;22;23;24;25]]
     (fun t => (r_matched (search t 0 [1;2;5]%Z) =? 3)%nat)) as (t & Ht & Hm); [vm_compute; reflexivity|].
  eexists; exists t, [1;2;5]. split; [exact Ht|]. split; [|split; [now apply Nat.eqb_eq in Hm | split; [reflexivity|]]].
  - intros h1 x h2 E y Hy _ p a ra b rb Ha Hb N.
    destruct h1 as [|z h1]; [destruct Hy|]. injection E as <- E. destruct h1 as [|z h1].
    + injection E as <- _. destruct Hy as [<-|[]]. cbn in Ha, Hb. exfalso.
      destruct p as [|p1 [|p2 [|p3 [|p4 p]]]]; cbn in Ha, Hb; injection Ha; injection Hb; intros; subst; try easy.
      destruct p; discriminate.
    + injection E as <- E. destruct h1; discriminate.
  - intros (x & Hx & (c & P)). cbn in Hx. destruct Hx as [<-|[<-|[]]]; discriminate.
Qed.

(** C06 is false of the code in general: storing [1,2,5,6] after the two sequences above attaches token 6 below
    [1,2,3,4,5], so the never stored [1,2,3,4,5,6] is reported as fully matched with the address of another text, and the
    search for [1,2,5,6] returns the address of token 5 after [1,2,3,4]. *)
Theorem C06_wrong_addresses_refuted : exists h t,
  tree_after h t /\ h = [we [1;2;3;4] [11;12;13;14]; we [1;2;3;4;5] [21;22;23;24;25]; we [1;2;5;6] [31;32;33;34]] /\
  r_matched (search t 0 [1;2;3;4;5;6]) = 6%nat /\
  r_addrs (search t 0 [1;2;3;4;5;6]) = map wc [11;12;13;14;25;34] /\
  r_addrs (search t 0 [1;2;5;6]) = map wc [11;12;25;34].
Proof.
  exists [we [1;2;3;4] [11;12;13;14]; we [1;2;3;4;5] [21;22;23;24;25]; we [1;2;5;6] [31;32;33;34]].
  eexists. split; [vm_compute; reflexivity|]. split; [reflexivity|].
  split; [vm_compute; reflexivity|]. split; vm_compute; reflexivity.
Qed.

(** The hypotheses are met by non-trivial histories: four branching sequences in two name spaces. *)
Example C05_C06_nonvacuous : exists h t,
  h = [we [1;2;3;4] [11;12;13;14]; we [1;2;7] [21;22;23]; mkEntry 9 [1;2;8] (map wc [31;32;33]); we [1;2;3;4;5;6] [41;42;43;44;45;46]] /\
  tree_after h t /\ clean_history h /\ clean_query h 0 [1;2;3;9] /\
  r_matched (search t 0 [1;2;3;9]) = 3%nat /\ r_addrs (search t 0 [1;2;3;4;5]) = map wc [11;12;13;14;45].
Proof.
  exists [we [1;2;3;4] [11;12;13;14]; we [1;2;7] [21;22;23]; mkEntry 9 [1;2;8] (map wc [31;32;33]); we [1;2;3;4;5;6] [41;42;43;44;45;46]].
  eexists. split; [reflexivity|]. split; [vm_compute; reflexivity|].
  assert (D : forall a b, parts_cleanly a b <-> (forallb (fun i => negb (existsb (Z.eqb (nth i a (-1))) (skipn (S i) b)))
     (filter (fun i => (common a b =? i)%nat) (seq 0 (Nat.min (length a) (length b))))) = true).
  { intros a b. split.
    - intro H. apply forallb_forall. intros i Hi. apply filter_In in Hi as (Hs & Hi). apply Nat.eqb_eq in Hi.
      apply in_seq in Hs. apply negb_true_iff. destruct (existsb _ _) eqn:Ex; [|reflexivity]. exfalso.
      apply existsb_exists in Ex as (z & Hz & Ez). apply Z.eqb_eq in Ez. subst z.
      destruct (common_split a b) as (ra & rb & Ha & Hb & Hra & Hrb & Hd). rewrite Hi in *.
      destruct Hd as [Hd|[Hd|(x & ra' & y & rb' & H1 & H2 & H3)]].
      + rewrite Hra in Hd. apply skipn_nil_iff in Hd. lia.
      + rewrite Hrb in Hd. apply skipn_nil_iff in Hd. lia.
      + apply (H (firstn i b) x ra' y rb'); [rewrite Ha at 1; now rewrite H1 | rewrite Hb at 1; now rewrite H2 | exact H3|].
        assert (nth i a (-1) = x) as En.
        { rewrite Ha, H1, app_nth2; rewrite firstn_length; [|lia]. replace (i - Nat.min i (length b))%nat with O by lia. reflexivity. }
        rewrite En in Hz. replace (S i) with (i + 1)%nat in Hz by lia. rewrite skipn_add, <- Hrb, H2 in Hz. exact Hz.
    - intros H p x ra y rb -> -> N Hin. rewrite forallb_forall in H.
      assert (Hc : common (p ++ x :: ra) (p ++ y :: rb) = length p).
      { rewrite common_app. cbn [common]. destruct (Z.eqb_spec x y); [easy | lia]. }
      specialize (H (length p)). rewrite filter_In, in_seq, !app_length, Hc, Nat.eqb_refl in H. cbn [length] in H.
      assert (A : ((0 <= length p < 0 + Nat.min (length p + S (length ra)) (length p + S (length rb))) /\ true = true)%nat) by (split; [lia | reflexivity]).
      apply H in A. apply negb_true_iff in A. apply Bool.not_true_iff_false in A. apply A.
      apply existsb_exists. exists x. split.
      + replace (S (length p)) with (length p + 1)%nat by lia. rewrite skipn_add, skipn_app, skipn_all, Nat.sub_diag. exact Hin.
      + rewrite app_nth2, Nat.sub_diag by lia. apply Z.eqb_refl. }
  split; [|split; [|split; vm_compute; reflexivity]].
  - intros h1 x h2 E y Hy He. apply D.
    destruct h1 as [|? h1]; [destruct Hy|]. injection E as <- E.
    destruct h1 as [|? h1]; [injection E as <- _; destruct Hy as [<-|[]]; vm_compute; reflexivity|]. injection E as <- E.
    destruct h1 as [|? h1]; [injection E as <- _; destruct Hy as [<-|[<-|[]]]; vm_compute; reflexivity|]. injection E as <- E.
    destruct h1 as [|? h1]; [injection E as <- _; destruct Hy as [<-|[<-|[<-|[]]]]; vm_compute; reflexivity|]. injection E as <- E.
    destruct h1; discriminate.
  - intros y Hy He. apply D. cbn in Hy. destruct Hy as [<-|[<-|[<-|[<-|[]]]]]; vm_compute; reflexivity.
Qed.

(** ** C32 *)

(** Evicting on [q] keeps the matched length; of the [n] matched tokens the first [n - w] lose their addresses in the
    sliding-window layers, everything else is untouched.  For every history, query, window and set of layers. *)
Theorem C32_keeps_exactly_the_window : forall w slide ops t log q t' fs,
  pc_run w slide (empty_tree, []) ops = Some (t, log) -> evict t q w slide = (t', fs) ->
  let n := r_matched (search t 0 q) in
  r_matched (search t' 0 q) = n /\ length (r_addrs (search t' 0 q)) = n /\
  forall i c, nth_error (r_addrs (search t 0 q)) i = Some c ->
    exists c', nth_error (r_addrs (search t' 0 q)) i = Some c' /\
      forall l, (l < length (ck c))%nat -> (l < length (cv c))%nat ->
        let out := nth l slide false && (i <? n - w)%nat in
        nth_error (ck c') l = (if out then Some invalid else nth_error (ck c) l) /\
        nth_error (cv c') l = (if out then Some invalid else nth_error (cv c) l).
Proof.
  intros w slide ops t log q t' fs H E n. apply prun_inv in H as (W & _).
  pose proof (evict_spec t q w slide W) as S. rewrite E in S. cbv zeta in S. destruct S as (W' & N1 & A1 & _).
  split; [exact N1|]. split.
  - rewrite search_saddr. rewrite (proj2 (search_sizes t' 0 q W')), <- search_slen. exact N1.
  - intros i c Hc. rewrite A1, nth_error_cuts, Hc. eexists. split; [reflexivity|].
    intros l L1 L2. cbv zeta. fold n. destruct (i <? n - w)%nat; [|now rewrite andb_false_r].
    rewrite andb_true_r, <- sliding_existsb. now apply inv_all_nth.
Qed.

(** Exactly the valid addresses outside the window are released, once, in every sliding-window layer and in no other. *)
Theorem C32_releases_exactly_outside : forall w slide ops t log q t' fs,
  pc_run w slide (empty_tree, []) ops = Some (t, log) -> evict t q w slide = (t', fs) ->
  let n := r_matched (search t 0 q) in
  let outside := firstn (n - w) (r_addrs (search t 0 q)) in
  (forall l, nth l slide false = true ->
     Permutation (freedk l fs) (flat_map (fun c => valid (nth l (ck c) invalid)) outside) /\
     Permutation (freedv l fs) (flat_map (fun c => valid (nth l (cv c) invalid)) outside)) /\
  (forall l, nth l slide false = false -> freedk l fs = [] /\ freedv l fs = []).
Proof.
  intros w slide ops t log q t' fs H E n outside. apply prun_inv in H as (W & _).
  pose proof (evict_spec t q w slide W) as S. rewrite E in S. cbv zeta in S. destruct S as (_ & _ & _ & P & ND & HL).
  assert (G : forall l (f : rlog), (forall j fk fv, In (j, fk, fv) f -> j <> l) -> freedk l f = [] /\ freedv l f = []).
  { intros l f Hf. induction f as [|[[j fk] fv] f IH]; [auto|]. unfold freedk, freedv in *. cbn [flat_map fst snd].
    destruct (Nat.eqb_spec j l) as [->|_]; [exfalso; apply (Hf l fk fv); [now left | reflexivity]|].
    apply IH. intros j' a b Hi. apply (Hf j' a b). now right. }
  split.
  - intros l Hl. destruct (Nat.lt_ge_cases w n) as [Hw|Hw].
    + specialize (HL Hw). assert (Hi : In l (sliding 0 slide)) by (apply sliding_ge; rewrite Nat.sub_0_r; split; [lia | exact Hl]).
      rewrite <- HL in Hi. apply in_map_iff in Hi as ([[j fk] fv] & Hj & Hi). cbn in Hj. subst j.
      destruct (P _ _ _ Hi) as (_ & P1 & P2).
      assert (freedk l fs = fk /\ freedv l fs = fv) as (-> & ->); [|split; assumption].
      clear - Hi ND G. induction fs as [|[[j a] b] fs IH]; [destruct Hi|]. cbn [map fst] in ND. inversion ND as [|? ? Hn Hr]; subst.
      unfold freedk, freedv. cbn [flat_map fst snd]. fold (freedk l fs) (freedv l fs). destruct Hi as [Hi|Hi].
      * injection Hi as -> -> ->. rewrite Nat.eqb_refl. destruct (G l fs) as (-> & ->); [|now rewrite !app_nil_r].
        intros j' x y Hj ->. apply Hn. apply in_map_iff. exists (l, x, y). auto.
      * destruct (Nat.eqb_spec j l) as [->|_]; [|now apply IH].
        exfalso; apply Hn. apply in_map_iff. exists (l, fk, fv). auto.
    + assert (Z0 : outside = []) by (unfold outside; replace (n - w)%nat with O by lia; reflexivity). rewrite Z0. cbn [flat_map].
      assert (fs_nil : forall j fk fv, In (j, fk, fv) fs -> fk = [] /\ fv = []).
      { intros j fk fv Hi. destruct (P _ _ _ Hi) as (_ & P1 & P2). fold n outside in P1, P2. rewrite Z0 in P1, P2.
        split; now apply Permutation_nil, Permutation_sym. }
      assert (freedk l fs = [] /\ freedv l fs = []) as (-> & ->); [|split; constructor].
      clear - fs_nil. induction fs as [|[[j a] b] fs IH]; [auto|]. unfold freedk, freedv in *. cbn [flat_map fst snd].
      destruct (fs_nil j a b) as (-> & ->); [now left|]. destruct (j =? l)%nat; cbn [app]; apply IH; intros; eapply fs_nil; right; eauto.
  - intros l Hl. apply G. intros j fk fv Hi ->. destruct (P _ _ _ Hi) as (Hs & _). congruence.
Qed.

(** Evicting the same sequence again releases nothing and changes nothing. *)
Theorem C32_evict_again_releases_nothing : forall w slide ops t log q,
  pc_run w slide (empty_tree, []) ops = Some (t, log) ->
  let '(t1, _) := evict t q w slide in
  let '(t2, fs) := evict t1 q w slide in
  (forall l fk fv, In (l, fk, fv) fs -> fk = [] /\ fv = []) /\ search t2 0 q = search t1 0 q.
Proof. intros w slide ops t log q H. apply prun_inv in H as (W & _). exact (evict_again t q w slide W). Qed.

(** Over a whole history of promotions and evictions with pairwise different addresses, no address is released twice and
    only promoted addresses are released. *)
Theorem C32_never_released_twice : forall w slide ops t log l,
  pc_run w slide (empty_tree, []) ops = Some (t, log) ->
  (NoDup (givenk l ops) -> NoDup (freedk l log) /\ forall a, In a (freedk l log) -> In a (givenk l ops)) /\
  (NoDup (givenv l ops) -> NoDup (freedv l log) /\ forall a, In a (freedv l log) -> In a (givenv l ops)).
Proof. exact never_freed_twice. Qed.

(** A released address is never returned by a later search. *)
Theorem C32_released_never_found : forall w slide ops t log l e q c,
  pc_run w slide (empty_tree, []) ops = Some (t, log) -> In c (r_addrs (search t e q)) ->
  (NoDup (givenk l ops) -> nth l (ck c) invalid <> invalid -> ~ In (nth l (ck c) invalid) (freedk l log)) /\
  (NoDup (givenv l ops) -> nth l (cv c) invalid <> invalid -> ~ In (nth l (cv c) invalid) (freedv l log)).
Proof. exact freed_not_found. Qed.

(** Two layers, the second sliding with window 2. *)
Definition wc2 (z : Z) : col := mkCol [z; z + 100] [z + 200; z + 300].
Example C32_nonvacuous :
  match pc_run 2 [false; true] (empty_tree, [])
     [PPromote 0 [1;2;3] (map wc2 [1;2;3]); PPromote 0 [1;2;3;4;5] (map wc2 [6;7;8;9;10]); PEvict [1;2;3;4;5]] with
  | Some (t, log) => log = [(1%nat, [101; 102; 103], [301; 302; 303])] /\
       map (fun c => nth 1 (ck c) 0) (r_addrs (search t 0 [1;2;3;4;5])) = [invalid; invalid; invalid; 109; 110] /\
       map (fun c => nth 0 (ck c) 0) (r_addrs (search t 0 [1;2;3;4;5])) = [1; 2; 3; 9; 10]
  | None => False
  end.
Proof. vm_compute. repeat split. Qed.

Print Assumptions C05_match_is_stored_partial.
Print Assumptions C05_match_sizes.
Print Assumptions C05_child_order_irrelevant.
Print Assumptions C06_longest_partial.
Print Assumptions C06_addresses_partial.
Print Assumptions C05_false_match_refuted.
Print Assumptions C06_wrong_addresses_refuted.
Print Assumptions C32_keeps_exactly_the_window.
Print Assumptions C32_releases_exactly_outside.
Print Assumptions C32_evict_again_releases_nothing.
Print Assumptions C32_never_released_twice.
Print Assumptions C32_released_never_found.
