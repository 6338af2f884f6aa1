(** Proofs about sliding-window eviction. *)
From Verif Require Import Base RadixModel RadixSpec RadixProofs RadixMore RadixHist.
Local Open Scope Z_scope.

Definition upd_node (n : node) (v : list col) : node := Node (ntoks n) (nextra n) v (nkids n).

(** The eviction step on one matched child, given what happened below it. *)
Definition evict_here (c' : node) (m w l : nat) (fk fv : list Z) (cnt : nat) : node * list Z * list Z * nat :=
  if (w <? cnt + m)%nat
  then let k := Nat.min m (cnt + m - w) in
       let '(v', fk', fv') := evict_cols l k (nvals c') in
       (upd_node c' v', fk ++ fk', fv ++ fv', (cnt + m)%nat)
  else (c', fk, fv, (cnt + m)%nat).

Lemma evict_node_eq k x v cs e q w l :
  evict_node (Node k x v cs) e q w l =
  match q with
  | [] => (Node k x v cs, [], [], O)
  | _ :: _ =>
      match pick e q cs with
      | None => (Node k x v cs, [], [], O)
      | Some (p, c, s) =>
          let m := ml e q c in
          let '(c', fk, fv, cnt) := evict_node c e (skipn m q) w l in
          let '(c'', fk', fv', cnt') := evict_here c' m w l fk fv cnt in
          (Node k x v (p ++ c'' :: s), fk', fv', cnt')
      end
  end.
Proof.
  destruct q as [|t q]; [reflexivity|]. cbn [evict_node].
  set (G := fix go (ls : list node) : list node * list Z * list Z * nat := _).
  assert (HG : forall ls, G ls = match pick e (t :: q) ls with
     | None => (ls, [], [], O)
     | Some (p, c, s) =>
          let m := ml e (t :: q) c in
          let '(c', fk, fv, cnt) := evict_node c e (skipn m (t :: q)) w l in
          let '(c'', fk', fv', cnt') := evict_here c' m w l fk fv cnt in
          (p ++ c'' :: s, fk', fv', cnt') end).
  { induction ls as [|c r IH]; [reflexivity|]. cbn [pick]. unfold G at 1. fold G.
    destruct (Nat.eqb_spec (ml e (t :: q) c) 0) as [E|E].
    - rewrite IH. destruct (pick e (t :: q) r) as [[[p d] s]|]; [|reflexivity].
      cbv zeta. destruct (evict_node d e _ w l) as [[[c' fk] fv] cnt].
      destruct (evict_here _ _ _ _ _ _ _) as [[[c'' fk'] fv'] cnt']. reflexivity.
    - cbv zeta. destruct (evict_node c e _ w l) as [[[c' fk] fv] cnt].
      unfold evict_here, upd_node. cbv zeta.
      destruct (w <? cnt + ml e (t :: q) c)%nat; [|reflexivity].
      destruct (evict_cols _ _ _) as [[v' fk'] fv']. reflexivity. }
  rewrite HG. destruct (pick e (t :: q) cs) as [[[p c] s]|]; [|reflexivity].
  cbv zeta. destruct (evict_node c e _ w l) as [[[c' fk] fv] cnt].
  destruct (evict_here _ _ _ _ _ _ _) as [[[c'' fk'] fv'] cnt']. reflexivity.
Qed.

(** What eviction to the last [w] of [N] columns does to the addresses of a path. *)
Definition cut (l : nat) (k : nat) (v : list col) : list col := map (set_invalid l) (firstn k v) ++ skipn k v.
Definition livek (l : nat) (v : list col) : list Z := flat_map (fun c => freed_of (nth l (ck c) invalid)) v.
Definition livev (l : nat) (v : list col) : list Z := flat_map (fun c => freed_of (nth l (cv c) invalid)) v.

Lemma cut_len l k v : length (cut l k v) = length v.
Proof. unfold cut. rewrite app_length, map_length, firstn_length, skipn_length. lia. Qed.
Lemma cut_0 l v : cut l 0 v = v.
Proof. reflexivity. Qed.
Lemma cut_app l k a b : cut l k (a ++ b) = cut l k a ++ cut l (k - length a) b.
Proof.
  unfold cut. rewrite firstn_app, skipn_app, map_app.
  destruct (Nat.le_gt_cases k (length a)) as [H|H].
  - replace (k - length a)%nat with O by lia. cbn [firstn skipn map app]. now rewrite app_nil_r, <- app_assoc.
  - rewrite (skipn_all2 a) by lia. cbn [app]. now rewrite app_nil_r, <- app_assoc.
Qed.
Lemma cut_firstn l k m v : (k <= m)%nat -> firstn m (cut l k v) = cut l k (firstn m v).
Proof.
  intro H. unfold cut. destruct (Nat.le_gt_cases (length v) k) as [G|G].
  - rewrite (firstn_all2 v) by lia. rewrite (skipn_all2 v) by lia.
    rewrite (firstn_all2 (firstn m v)) by (rewrite firstn_length; lia).
    rewrite (skipn_all2 (firstn m v)) by (rewrite firstn_length; lia).
    rewrite !app_nil_r, firstn_map. reflexivity.
  - rewrite firstn_app, map_length, firstn_length, Nat.min_l by lia.
    rewrite (firstn_all2 (map _ _)) by (rewrite map_length, firstn_length; lia).
    rewrite firstn_firstn, Nat.min_l by lia. f_equal.
    rewrite skipn_firstn_comm. reflexivity.
Qed.

Definition esame (a b : node) : Prop := ntoks a = ntoks b /\ nextra a = nextra b /\ length (nvals a) = length (nvals b).

Lemma pick_replace e q p c c' s : pick e q (p ++ c :: s) = Some (p, c, s) -> esame c c' ->
  pick e q (p ++ c' :: s) = Some (p, c', s).
Proof.
  intros E (T & X & _). induction p as [|d p IH]; cbn [app pick] in *.
  - rewrite <- T, <- X. destruct (ml e q c =? 0)%nat; [|reflexivity].
    destruct (pick e q s) as [[[? ?] ?]|]; discriminate.
  - destruct (ml e q d =? 0)%nat.
    + destruct (pick e q (p ++ c :: s)) as [[[p' d'] s']|]; [|discriminate].
      injection E as -> -> ->. rewrite IH; reflexivity.
    + discriminate.
Qed.

Lemma evict_node_spec n : forall e q w l, wf (nkids n) ->
  let '(n', fk, fv, cnt) := evict_node n e q w l in
  let N := slen (nkids n) e q in let A := saddr (nkids n) e q in
  cnt = N /\ ntoks n' = ntoks n /\ nextra n' = nextra n /\ nvals n' = nvals n /\ wf (nkids n') /\
  (forall d, In d (nkids n') -> In (nextra d) (map nextra (nkids n))) /\
  slen (nkids n') e q = N /\ saddr (nkids n') e q = cut l (N - w) A /\
  Permutation fk (livek l (firstn (N - w) A)) /\ Permutation fv (livev l (firstn (N - w) A)).
Proof.
  induction n as [k x v cs IH] using node_ind'. intros e q w l W. rewrite evict_node_eq.
  cbn [nkids] in W.
  assert (Triv : slen cs e q = O -> saddr cs e q = [] ->
    let N := slen cs e q in let A := saddr cs e q in
    O = N /\ k = k /\ x = x /\ v = v /\ wf cs /\
    (forall d, In d cs -> In (nextra d) (map nextra cs)) /\
    slen cs e q = N /\ saddr cs e q = cut l (N - w) A /\
    Permutation [] (livek l (firstn (N - w) A)) /\ Permutation [] (livev l (firstn (N - w) A))).
  { intros -> ->. cbv zeta. rewrite Nat.sub_0_l. 
    split; [reflexivity|]. split; [reflexivity|]. split; [reflexivity|]. split; [reflexivity|]. split; [exact W|].
    split; [intros; now apply in_map|]. split; [reflexivity|]. split; [reflexivity|]. split; constructor. }
  destruct q as [|t q].
  { cbn [nkids ntoks nextra nvals]. apply Triv; reflexivity. }
  destruct (pick e (t :: q) cs) as [[[p c] s]|] eqn:E.
  2:{ cbn [nkids ntoks nextra nvals]. apply Triv; [rewrite slen_eq, E | rewrite saddr_eq, E]; reflexivity. }
  clear Triv. cbv zeta.
  destruct (pick_some _ _ _ _ _ _ E) as (Hcs & M & _).
  assert (Hc : In c cs) by (rewrite Hcs; apply in_elt).
  destruct (wf_in _ _ W Hc) as (Nc & Lc & Wc & Xc).
  rewrite Forall_forall in IH. specialize (IH c Hc e (skipn (ml e (t :: q) c) (t :: q)) w l Wc).
  pose proof (ml_le e (t :: q) c) as Hm.
  set (m := ml e (t :: q) c) in *. set (q' := skipn m (t :: q)) in *.
  destruct (evict_node c e q' w l) as [[[c' fk] fv] cnt]. cbv zeta in IH.
  destruct IH as (Hcnt & Ht & Hx & Hv & Wc' & HX & Hs & Ha & Hfk & Hfv).
  set (N' := slen (nkids c) e q') in *. set (A' := saddr (nkids c) e q') in *.
  assert (LA' : length A' = N') by (apply (search_sizes c e q' Wc)).
  (* the common end *)
  assert (FIN : forall c'' ek, esame c c'' -> nkids c'' = nkids c' ->
     nvals c'' = cut l ek (nvals c) -> ek = Nat.min m (N' + m - w) ->
     forall fk2 fv2, fk2 = livek l (firstn ek (nvals c)) -> fv2 = livev l (firstn ek (nvals c)) ->
     wf (p ++ c'' :: s) /\
     (forall d, In d (p ++ c'' :: s) -> In (nextra d) (map nextra cs)) /\
     slen (p ++ c'' :: s) e (t :: q) = slen cs e (t :: q) /\
     saddr (p ++ c'' :: s) e (t :: q) = cut l (slen cs e (t :: q) - w) (saddr cs e (t :: q)) /\
     Permutation (fk ++ fk2) (livek l (firstn (slen cs e (t :: q) - w) (saddr cs e (t :: q)))) /\
     Permutation (fv ++ fv2) (livev l (firstn (slen cs e (t :: q) - w) (saddr cs e (t :: q))))).
  { intros c'' ek (E1 & E2 & E3) Kd Vd Eek fk2 fv2 Hfk2 Hfv2.
    assert (PK : pick e (t :: q) (p ++ c'' :: s) = Some (p, c'', s)).
    { apply pick_replace with (c := c); [now rewrite <- Hcs | split; [exact E1 | split; [exact E2 | exact E3]]]. }
    assert (Mc'' : ml e (t :: q) c'' = m) by (unfold m; now rewrite E1, E2).
    assert (SL : slen cs e (t :: q) = (m + N')%nat) by (rewrite slen_eq, E; reflexivity).
    assert (SA : saddr cs e (t :: q) = firstn m (nvals c) ++ A') by (rewrite saddr_eq, E; reflexivity).
    assert (Lfm : length (firstn m (nvals c)) = m) by (rewrite firstn_length; lia).
    assert (Key : firstn (m + N' - w) (firstn m (nvals c) ++ A') = firstn ek (nvals c) ++ firstn (N' - w) A').
    { rewrite firstn_app, firstn_firstn, Lfm. rewrite Eek.
      replace (Nat.min (m + N' - w) m) with (Nat.min m (N' + m - w)) by lia.
      f_equal. destruct (Nat.le_gt_cases w N').
      - f_equal. lia.
      - replace (m + N' - w - m)%nat with O by lia. replace (N' - w)%nat with O by lia. reflexivity. }
    split.
    { rewrite Hcs in W. apply (wf_replace p c c'' s W); [unfold headkey; now rewrite E1, E2|].
      rewrite <- E1, <- E2, <- E3, Kd. split; [exact Nc|]. split; [exact Lc|]. split; [exact Wc'|].
      intros d Hd. specialize (HX d Hd). apply in_map_iff in HX as (d' & <- & Hd'). now apply Xc. }
    split.
    { intros d Hd. rewrite Hcs, map_app. cbn [map]. apply in_app_iff in Hd as [Hd|[<-|Hd]]; apply in_app_iff.
      - left; now apply in_map.
      - right; left; auto.
      - right; right; now apply in_map. }
    split; [rewrite slen_eq, PK, Mc'', Kd, SL; fold q'; now rewrite Hs|].
    split.
    { rewrite saddr_eq, PK, Mc'', Kd, SL, SA, Vd. fold q'. rewrite Ha. rewrite cut_app, Lfm. 
      rewrite cut_firstn by lia. f_equal.
      - rewrite Eek. destruct (Nat.le_gt_cases m (m + N' - w)).
        + unfold cut. rewrite !(firstn_all2 (firstn m (nvals c))) by (rewrite Lfm; lia).
          rewrite !(skipn_all2 (firstn m (nvals c))) by (rewrite Lfm; lia). reflexivity.
        + f_equal. lia.
      - destruct (Nat.le_gt_cases w N').
        + f_equal. lia.
        + replace (m + N' - w - m)%nat with O by lia. replace (N' - w)%nat with O by lia. reflexivity. }
    rewrite SL, SA, Key. unfold livek, livev in *. rewrite !flat_map_app. subst fk2 fv2.
    rewrite Hfk, Hfv. split; apply Permutation_app_comm. }
  unfold evict_here. subst cnt.
  destruct (Nat.ltb_spec w (N' + m)) as [Hw|Hw].
  - cbv zeta. unfold evict_cols. cbv beta iota.
    destruct (FIN (upd_node c' (cut l (Nat.min m (N' + m - w)) (nvals c'))) (Nat.min m (N' + m - w))) with
      (fk2 := livek l (firstn (Nat.min m (N' + m - w)) (nvals c)))
      (fv2 := livev l (firstn (Nat.min m (N' + m - w)) (nvals c))) as (F1 & F2 & F3 & F4 & F5 & F6); auto.
    + unfold esame, upd_node; cbn [ntoks nextra nvals]. rewrite cut_len, Hv, Ht, Hx. auto.
    + unfold upd_node; cbn [nvals]. now rewrite Hv.
    + cbn [nkids ntoks nextra nvals].
      fold (cut l (Nat.min m (N' + m - w)) (nvals c')). fold (livek l (firstn (Nat.min m (N' + m - w)) (nvals c'))).
      fold (livev l (firstn (Nat.min m (N' + m - w)) (nvals c'))). rewrite Hv in *.
      split; [rewrite slen_eq, E; fold m q' N'; lia|]. split; [reflexivity|]. split; [reflexivity|]. split; [reflexivity|].
      split; [exact F1|]. split; [exact F2|]. split; [exact F3|]. split; [exact F4|]. split; [exact F5 | exact F6].
  - destruct (FIN c' O) with (fk2 := @nil Z) (fv2 := @nil Z) as (F1 & F2 & F3 & F4 & F5 & F6); auto.
    + unfold esame. rewrite Ht, Hx, Hv. auto.
    + lia.
    + cbn [nkids ntoks nextra nvals]. rewrite app_nil_r in F5, F6.
      split; [rewrite slen_eq, E; fold m q' N'; lia|]. split; [reflexivity|]. split; [reflexivity|]. split; [reflexivity|].
      split; [exact F1|]. split; [exact F2|]. split; [exact F3|]. split; [exact F4|]. split; [exact F5 | exact F6].
Qed.

Lemma evict_layer_spec t q w l : wf (nkids t) ->
  let '(t', fk, fv) := evict_layer t q w l in
  let N := r_matched (search t 0 q) in let A := r_addrs (search t 0 q) in
  wf (nkids t') /\ r_matched (search t' 0 q) = N /\ r_addrs (search t' 0 q) = cut l (N - w) A /\
  Permutation fk (livek l (firstn (N - w) A)) /\ Permutation fv (livev l (firstn (N - w) A)).
Proof.
  intro W. unfold evict_layer. rewrite search_slen, search_saddr.
  destruct (Nat.ltb_spec w (slen (nkids t) 0 q)) as [H|H].
  - pose proof (evict_node_spec t 0 q w l W) as S. destruct (evict_node t 0 q w l) as [[[t' fk] fv] cnt].
    cbv zeta in *. destruct S as (_ & _ & _ & _ & W' & _ & S1 & S2 & S3 & S4).
    rewrite search_slen, search_saddr. auto.
  - cbv zeta. rewrite search_slen, search_saddr. replace (slen (nkids t) 0 q - w)%nat with O by lia.
    split; [exact W|]. split; [reflexivity|]. split; [reflexivity|]. split; constructor.
Qed.

(** ** All layers *)
Definition cuts (ls : list nat) (k : nat) (v : list col) : list col := fold_left (fun v l => cut l k v) ls v.

Fixpoint sliding (l : nat) (slide : list bool) : list nat :=
  match slide with [] => [] | b :: r => (if b then [l] else []) ++ sliding (S l) r end.

Lemma sliding_ge l slide x : In x (sliding l slide) <-> (l <= x)%nat /\ nth (x - l) slide false = true.
Proof.
  revert l; induction slide as [|b r IH]; intro l; cbn [sliding].
  - split; [intros []|]. intros (_ & H). destruct (x - l)%nat; discriminate.
  - rewrite in_app_iff, IH. split.
    + intros [H|(H1 & H2)].
      * destruct b; [|destruct H]. destruct H as [<-|[]]. rewrite Nat.sub_diag. auto.
      * split; [lia|]. replace (x - l)%nat with (S (x - S l)) by lia. exact H2.
    + intros (H1 & H2). destruct (Nat.eq_dec x l) as [->|].
      * rewrite Nat.sub_diag in H2. cbn in H2. subst b. left; now left.
      * right. split; [lia|]. replace (x - l)%nat with (S (x - S l)) in H2 by lia. exact H2.
Qed.

Lemma set_invalid_other l l' c : l <> l' ->
  nth l (ck (set_invalid l' c)) invalid = nth l (ck c) invalid /\ nth l (cv (set_invalid l' c)) invalid = nth l (cv c) invalid.
Proof. intro H. cbn [set_invalid ck cv]. rewrite !nth_upd_nth. destruct (Nat.eqb_spec l' l) as [->|]; [easy|]. cbn [andb]. auto. Qed.

Lemma livek_cut_other l l' k v j : l <> l' ->
  livek l (firstn j (cut l' k v)) = livek l (firstn j v) /\ livev l (firstn j (cut l' k v)) = livev l (firstn j v).
Proof.
  intro H. unfold cut. 
  assert (G : forall i, livek l (firstn i (map (set_invalid l') (firstn k v) ++ skipn k v)) = livek l (firstn i (firstn k v ++ skipn k v)) /\
     livev l (firstn i (map (set_invalid l') (firstn k v) ++ skipn k v)) = livev l (firstn i (firstn k v ++ skipn k v))).
  { generalize (firstn k v) as a, (skipn k v) as b. induction a as [|c a IH]; intros b [|i]; cbn [map app firstn]; auto.
    unfold livek, livev in *. cbn [flat_map]. destruct (set_invalid_other l l' c H) as (-> & ->).
    destruct (IH b i) as (-> & ->). auto. }
  rewrite (firstn_skipn k v) in G. apply G.
Qed.

Lemma evict_layers_spec slide : forall t q w l, wf (nkids t) ->
  let '(t', fs) := evict_layers t q w l slide in
  let N := r_matched (search t 0 q) in let A := r_addrs (search t 0 q) in
  wf (nkids t') /\ r_matched (search t' 0 q) = N /\ r_addrs (search t' 0 q) = cuts (sliding l slide) (N - w) A /\
  map (fun f => fst (fst f)) fs = sliding l slide /\
  (forall j fk fv, In (j, fk, fv) fs ->
     Permutation fk (livek j (firstn (N - w) A)) /\ Permutation fv (livev j (firstn (N - w) A))).
Proof.
  induction slide as [|b r IH]; intros t q w l W; cbn [evict_layers sliding].
  - cbv zeta. split; [exact W|]. split; [reflexivity|]. split; [reflexivity|]. split; [reflexivity|]. intros j fk fv [].
  - destruct b.
    + pose proof (evict_layer_spec t q w l W) as S. destruct (evict_layer t q w l) as [[t1 fk1] fv1].
      cbv zeta in S. destruct S as (W1 & N1 & A1 & P1 & P2).
      specialize (IH t1 q w (S l) W1). destruct (evict_layers t1 q w (S l) r) as [t2 f2].
      cbv zeta in *. destruct IH as (W2 & N2 & A2 & M2 & P3).
      split; [exact W2|]. split; [congruence|]. cbn [app cuts fold_left]. rewrite A2, N1, A1.
      split; [reflexivity|]. cbn [map fst]. split; [now rewrite M2|].
      intros j fk fv [H|H].
      * injection H as <- <- <-. auto.
      * assert (Hj : (S l <= j)%nat).
        { assert (In j (sliding (S l) r)) as Hi by (rewrite <- M2; apply in_map_iff; exists (j, fk, fv); auto).
          apply sliding_ge in Hi. lia. }
        destruct (P3 _ _ _ H) as (Q1 & Q2). rewrite N1, A1 in Q1, Q2.
        destruct (livek_cut_other j l (r_matched (search t 0 q) - w) (r_addrs (search t 0 q)) (r_matched (search t 0 q) - w)) as (E1 & E2); [lia|].
        rewrite E1 in Q1. rewrite E2 in Q2. auto.
    + specialize (IH t q w (S l) W). destruct (evict_layers t q w (S l) r) as [t2 f2]. exact IH.
Qed.

Lemma evict_spec t q w slide : wf (nkids t) ->
  let '(t', fs) := evict t q w slide in
  let N := r_matched (search t 0 q) in let A := r_addrs (search t 0 q) in
  wf (nkids t') /\ r_matched (search t' 0 q) = N /\ r_addrs (search t' 0 q) = cuts (sliding 0 slide) (N - w) A /\
  (forall j fk fv, In (j, fk, fv) fs -> nth j slide false = true /\
     Permutation fk (livek j (firstn (N - w) A)) /\ Permutation fv (livev j (firstn (N - w) A))) /\
  NoDup (map (fun f => fst (fst f)) fs) /\
  ((w < N)%nat -> map (fun f => fst (fst f)) fs = sliding 0 slide).
Proof.
  intro W. unfold evict. destruct (Nat.leb_spec (length q) w) as [H|H].
  - cbv zeta. pose proof (search_sizes t 0 q W) as (S1 & _). rewrite search_slen.
    replace (slen (nkids t) 0 q - w)%nat with O by lia.
    split; [exact W|]. split; [reflexivity|]. split.
    + generalize (r_addrs (search t 0 q)) as A. induction (sliding 0 slide) as [|l ls IH]; intro A; [reflexivity|].
      cbn [cuts fold_left]. rewrite cut_0. apply IH.
    + split; [intros j fk fv []|]. split; [constructor|]. lia.
  - pose proof (evict_layers_spec slide t q w 0 W) as S. destruct (evict_layers t q w 0 slide) as [t' fs].
    cbv zeta in *. destruct S as (W' & S1 & S2 & S3 & S4).
    split; [exact W'|]. split; [exact S1|]. split; [exact S2|]. split; [|split; [|auto]].
    + intros j fk fv Hi. split; [|eauto].
      assert (In j (sliding 0 slide)) as Hj by (rewrite <- S3; apply in_map_iff; exists (j, fk, fv); auto).
      apply sliding_ge in Hj as (_ & Hj). now rewrite Nat.sub_0_r in Hj.
    + rewrite S3. generalize O as l. clear. intro l. revert l. induction slide as [|b r IH]; intro l; cbn [sliding]; [constructor|].
      destruct b; cbn [app]; [|apply IH]. constructor; [|apply IH]. rewrite sliding_ge. lia.
Qed.

Lemma nth_error_cut l k v i : nth_error (cut l k v) i =
  match nth_error v i with Some c => Some (if (i <? k)%nat then set_invalid l c else c) | None => None end.
Proof.
  unfold cut. revert k i; induction v as [|c v IH]; intros k i.
  - rewrite firstn_nil, skipn_nil. destruct i; reflexivity.
  - destruct k as [|k]; cbn [firstn skipn map app].
    + destruct i; [reflexivity|]. cbn [nth_error]. destruct (nth_error v i); reflexivity.
    + destruct i as [|i]; [reflexivity|]. cbn [nth_error]. rewrite IH. reflexivity.
Qed.

Definition inv_all (ls : list nat) (c : col) : col := fold_left (fun c l => set_invalid l c) ls c.

Lemma nth_error_cuts ls k v i : nth_error (cuts ls k v) i =
  match nth_error v i with Some c => Some (if (i <? k)%nat then inv_all ls c else c) | None => None end.
Proof.
  revert v; induction ls as [|l ls IH]; intro v; cbn [cuts fold_left inv_all].
  - destruct (nth_error v i); [|reflexivity]. destruct (i <? k)%nat; reflexivity.
  - unfold cuts in IH. rewrite IH, nth_error_cut. destruct (nth_error v i) as [c|]; [|reflexivity].
    destruct (i <? k)%nat; reflexivity.
Qed.

Lemma upd_nth_len {A} n (f : A -> A) l : length (upd_nth n f l) = length l.
Proof. revert n; induction l as [|x l IH]; intros [|n]; cbn; auto. Qed.

Lemma inv_all_nth ls c l : (l < length (ck c))%nat -> (l < length (cv c))%nat ->
  nth_error (ck (inv_all ls c)) l = (if existsb (Nat.eqb l) ls then Some invalid else nth_error (ck c) l) /\
  nth_error (cv (inv_all ls c)) l = (if existsb (Nat.eqb l) ls then Some invalid else nth_error (cv c) l).
Proof.
  revert c; induction ls as [|x ls IH]; intros c H1 H2; [auto|]. change (inv_all (x :: ls) c) with (inv_all ls (set_invalid x c)). cbn [existsb].
  destruct (IH (set_invalid x c)) as (-> & ->); [cbn [set_invalid ck]; rewrite upd_nth_len; exact H1 | cbn [set_invalid cv]; rewrite upd_nth_len; exact H2|].
  destruct (existsb (Nat.eqb l) ls); [rewrite orb_true_r; auto|]. rewrite orb_false_r.
  cbn [set_invalid ck cv].
  assert (G : forall v : list Z, (l < length v)%nat -> nth_error (upd_nth x (fun _ => invalid) v) l = if (l =? x)%nat then Some invalid else nth_error v l).
  { clear. revert x; induction l as [|l IHl]; intros [|x] [|a v] H; cbn in *; try lia; try reflexivity.
    - apply (IHl x v). lia. }
  split; apply G; assumption.
Qed.

Lemma sliding_existsb l slide : existsb (Nat.eqb l) (sliding 0 slide) = nth l slide false.
Proof.
  apply Bool.eq_iff_eq_true. rewrite existsb_exists. split.
  - intros (x & Hx & E). apply Nat.eqb_eq in E as <-. apply sliding_ge in Hx as (_ & H). now rewrite Nat.sub_0_r in H.
  - intro H. exists l. split; [apply sliding_ge; rewrite Nat.sub_0_r; split; [lia | exact H] | apply Nat.eqb_refl].
Qed.
