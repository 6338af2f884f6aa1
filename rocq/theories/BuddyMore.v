From Verif Require Import Base BuddyModel BuddyProofs BuddySpec.
Local Open Scope Z_scope.

Lemma pairwise_nth {A} (R : A -> A -> Prop) l :
  (forall a b, R a b -> R b a) -> pairwise R l ->
  forall i j a b, i <> j -> nth_error l i = Some a -> nth_error l j = Some b -> R a b.
Proof.
  intros Hs H; induction H as [|x l Hx H IH]; intros i j a b Hij Ha Hb.
  - destruct i; discriminate.
  - rewrite Forall_forall in Hx. destruct i as [|i], j as [|j]; simpl in *; try contradiction.
    + injection Ha as <-. apply Hx. eapply nth_error_In; eauto.
    + injection Hb as <-. apply Hs. apply Hx. eapply nth_error_In; eauto.
    + apply (IH i j); auto; congruence.
Qed.

Lemma pairwise_map {A B} (f : A -> B) (R : B -> B -> Prop) l :
  pairwise (fun a b => R (f a) (f b)) l -> pairwise R (map f l).
Proof.
  induction 1 as [|x l Hx H IH]; simpl; constructor; auto.
  rewrite Forall_map. exact Hx.
Qed.

Lemma pairwise_map_inv {A B} (f : A -> B) (R : B -> B -> Prop) l :
  pairwise R (map f l) -> pairwise (fun a b => R (f a) (f b)) l.
Proof.
  induction l as [|x l IH]; simpl; intro H; constructor; inversion H as [|? ? Hx Hr]; subst; auto.
  rewrite Forall_map in Hx. exact Hx.
Qed.

Lemma rdisj_sym a b : ranges_disjoint a b -> ranges_disjoint b a.
Proof. unfold ranges_disjoint; tauto. Qed.

Lemma reach_inv base mn mx con cs ops p :
  (mn <= 29)%nat -> reachable base mn mx con cs ops p -> PoolInv p.
Proof.
  intros H29 (p0 & Hi & Hr). eapply run_inv; [|exact Hr]. eapply init_inv; eauto.
Qed.

Lemma inv_no_overlap p : PoolInv p ->
  no_overlap (map live_range (lives p) ++ map cached_range (cached p)).
Proof.
  intros (HI & _ & _). unfold no_overlap. apply pairwise_nth; [exact rdisj_sym|].
  apply PI_pairwise in HI. unfold held in HI.
  assert (E : map live_range (lives p) ++ map cached_range (cached p) =
              map cached_range (map (fun l => (lseg l, lblk l)) (lives p) ++ cached p)).
  { rewrite map_app, map_map. reflexivity. }
  rewrite E. apply pairwise_map. exact HI.
Qed.

Lemma no_overlap_app_l a b : no_overlap (a ++ b) -> no_overlap a.
Proof.
  intros H i j x y Hij Hx Hy. apply (H i j x y Hij);
    rewrite nth_error_app1; auto; apply nth_error_Some; congruence.
Qed.

Lemma inv_live_in_seg p l : PoolInv p -> In l (lives p) ->
  exists s o, In s (segs p) /\ range_inside (live_range l) (seg_range s) /\
    lreq l <= r_len (live_range l) /\ r_len (live_range l) = 2 ^ Z.of_nat o /\
    (r_lo (live_range l) - sptr s) mod (2 ^ Z.of_nat o) = 0.
Proof.
  intros (HI & Hreq & _) Hl.
  assert (Hh : In (lseg l, lblk l) (held p)).
  { unfold held. apply in_or_app; left. apply in_map_iff. exists l; auto. }
  destruct (PI_in_seg _ _ _ _ HI Hh) as (s & Hs & Es & Hw & Hc). simpl in *.
  exists s, (border (lblk l)). pose proof (wfb_range _ _ _ _ Hw) as Hr.
  rewrite Forall_forall in Hreq. specialize (Hreq l Hl).
  destruct Hw as (_ & Hsz & q & _ & Hq & _).
  unfold range_inside, live_range, seg_range; simpl. rewrite Hc. fold (pow2 (border (lblk l))).
  split; [exact Hs|split; [exact Hr|split; [exact Hreq|split; [exact Hsz|]]]].
  rewrite Hq. replace (sptr s + q * pow2 (border (lblk l)) - sptr s) with (q * pow2 (border (lblk l))) by lia.
  apply Z.mod_mul. pose proof (pow2_pos (border (lblk l))); lia.
Qed.

Lemma inv_segs_disjoint p : PoolInv p -> no_overlap (map seg_range (segs p)).
Proof.
  intros ((_ & _ & H & _) & _). unfold no_overlap. apply pairwise_nth; [exact rdisj_sym|].
  apply pairwise_map. exact H.
Qed.

Lemma sum_total l : sumsz l = total (map bsize l).
Proof. induction l as [|b r IH]; [reflexivity|]. rewrite sumsz_cons, IH. reflexivity. Qed.

Lemma taken_sel p s :
  map r_len (taken_of p s) = map bsize (sel (sptr s) (held p)).
Proof.
  unfold taken_of, sel, held. rewrite filter_app, !map_app, !map_map. f_equal.
  induction (lives p) as [|l r IH]; simpl; auto.
  destruct (lseg l =? sptr s); simpl; [f_equal|]; exact IH.
Qed.

Lemma inv_conservation p s : PoolInv p -> In s (segs p) ->
  total (map r_len (free_blocks s)) + total (map r_len (taken_of p s)) = scap s /\
  sused s = total (map r_len (taken_of p s)).
Proof.
  intros ((_ & _ & _ & H & _) & _) Hs. rewrite Forall_forall in H. destruct (H s Hs) as [_ Hi].
  destruct Hi as (Hc & _ & _ & _ & (_ & _ & _ & _ & Hsum) & Hu).
  rewrite taken_sel, <- sum_total. unfold free_blocks. rewrite map_map. simpl.
  rewrite <- sum_total. rewrite sumsz_app in Hsum. rewrite Hu, Hc. auto.
Qed.

Lemma inv_all_free p s : PoolInv p -> lives p = [] -> cached p = [] -> In s (segs p) ->
  free_blocks s = [seg_range s] /\ sused s = 0.
Proof.
  intros ((_ & _ & _ & H & _) & _) Hl Hca Hs. rewrite Forall_forall in H. destruct (H s Hs) as [_ Hi].
  unfold held in Hi. rewrite Hl, Hca in Hi. simpl in Hi.
  destruct Hi as (Hc & _ & _ & _ & HC & Hu).
  destruct (all_free_single _ _ _ _ HC) as (b & E & Hp & Hz & _).
  unfold free_blocks, seg_range. rewrite E. simpl. rewrite Hp, Hz, Hc. split; [reflexivity|exact Hu].
Qed.

(** find_order succeeds when some list in range is non-empty *)
Lemma find_order_complete fuel : forall fl mn mx cur k,
  (cur <= k <= mx)%nat -> (mn <= cur)%nat -> nth (k - mn) fl [] <> [] -> (k < cur + fuel)%nat ->
  exists c, find_order fuel fl mn mx cur = Some c.
Proof.
  induction fuel as [|f IH]; intros fl mn mx cur k Hk Hmn Hne Hf; [lia|]. simpl.
  destruct (Nat.ltb_spec mx cur); [lia|].
  destruct (nth (cur - mn) fl []) as [|b r] eqn:E; [|eauto].
  assert (k <> cur) by (intros ->; rewrite E in Hne; contradiction).
  eapply IH with (k := k); auto; lia.
Qed.

Lemma sumsz_nonneg base mn mx L : Forall (wfb base mn mx) L -> 0 <= sumsz L.
Proof.
  induction 1 as [|b r Hb H IH]; [cbn; lia|]. rewrite sumsz_cons. apply wfb_pos in Hb. lia.
Qed.

Lemma SInv_used_nonneg s U : SInv s U -> 0 <= sused s.
Proof.
  intros (_ & _ & _ & _ & (Hw & _) & Hu). apply Forall_app in Hw. rewrite Hu.
  eapply sumsz_nonneg. apply Hw.
Qed.

Lemma try_seg_not_large s U size : SInv s U -> try_seg s size <> TTooLarge.
Proof.
  intros HS H. pose proof (SInv_used_nonneg _ _ HS) as Hu. destruct HS as (Hc & _).
  unfold try_seg in H. destruct (Z.ltb_spec (scap s - sused s) (Z.max size (pow2 (smin s)))) as [Hz|Hz]; [discriminate|].
  destruct (Nat.ltb_spec (smax s) (log2_ceil (Z.max size (pow2 (smin s))))) as [Hy|Hy].
  - pose proof (pow2_pos (smin s)).
    destruct (log2_ceil_spec (Z.max size (pow2 (smin s)))) as [_ Hl]; [lia|].
    specialize (Hl (smax s)). lia.
  - destruct (find_order _ _ _ _ _); [|discriminate].
    destruct (nth _ _ _); [discriminate|]. destruct (split_loop _ _ _ _). discriminate.
Qed.

Lemma nth_upd_same {A} i (f : A -> A) l d : (i < length l)%nat -> nth i (upd_nth i f l) d = f (nth i l d).
Proof.
  intro H. rewrite nth_upd_nth. rewrite Nat.eqb_refl. destruct (Nat.ltb_spec i (length l)); [reflexivity|lia].
Qed.

Lemma try_fresh_ok base mn mx size :
  (mn <= mx)%nat -> Z.max size (pow2 mn) <= pow2 mx ->
  exists s' b, try_seg (fresh_seg base (pow2 mx) mn mx) size = TGot s' b.
Proof.
  intros Hm Hsz. unfold try_seg. set (s := fresh_seg base (pow2 mx) mn mx).
  change (scap s) with (pow2 mx). change (sused s) with 0. change (smin s) with mn. change (smax s) with mx.
  destruct (Z.ltb_spec (pow2 mx - 0) (Z.max size (pow2 mn))) as [Hz|Hz]; [lia|].
  pose proof (pow2_pos mn) as Hp.
  destruct (log2_ceil_spec (Z.max size (pow2 mn))) as [_ Hl]; [lia|]. specialize (Hl mx Hsz).
  destruct (Nat.ltb_spec mx (log2_ceil (Z.max size (pow2 mn)))) as [Hy|Hy]; [lia|].
  assert (Hnth : nth (mx - mn) (sfree s) [] <> []).
  { unfold s, fresh_seg; cbn [sfree]. rewrite nth_upd_same by (rewrite repeat_length; lia).
    destruct (nth _ _ _); discriminate. }
  destruct (find_order_complete (S mx) (sfree s) mn mx (Nat.max (log2_ceil (Z.max size (pow2 mn))) mn) mx) as (c & Ec);
    try lia; auto.
  rewrite Ec. apply find_order_spec in Ec. destruct Ec as [_ Hne].
  destruct (nth (c - mn) (sfree s) []) as [|b0 rest]; [contradiction|].
  destruct (split_loop _ _ _ _) as [fl b']. eauto.
Qed.

Lemma try_segs_succeeds ss size :
  (forall s, In s ss -> try_seg s size <> TTooLarge) ->
  (exists s s' b, In s ss /\ try_seg s size = TGot s' b) ->
  exists ss' sg b, try_segs ss size = AGot ss' sg b.
Proof.
  induction ss as [|s r IH]; intros Hn (s0 & s' & b & Hin & Hg); [destruct Hin|]. simpl.
  destruct (try_seg s size) as [| |s1 b1] eqn:E.
  - destruct IH as (ss' & sg & b' & E').
    + intros t Ht; apply Hn; right; auto.
    + destruct Hin as [->|Hin]; [congruence|]. eauto.
    + rewrite E'. eauto.
  - exfalso. eapply Hn; [left; reflexivity|exact E].
  - eauto.
Qed.

Lemma try_segs_not_large ss size :
  (forall s, In s ss -> try_seg s size <> TTooLarge) -> try_segs ss size <> ATooLarge.
Proof.
  induction ss as [|s r IH]; intros Hn; simpl; [discriminate|].
  destruct (try_seg s size) as [| |s1 b1] eqn:E; try discriminate.
  - specialize (IH (fun t Ht => Hn t (or_intror Ht))). destruct (try_segs r size); try discriminate; congruence.
  - exfalso. eapply Hn; [left; reflexivity|exact E].
Qed.

Lemma PI_not_large mn ss H size : PI mn ss H -> forall s, In s ss -> try_seg s size <> TTooLarge.
Proof.
  intros (_ & _ & _ & H3 & _) s Hs. rewrite Forall_forall in H3. destruct (H3 s Hs) as [_ Hi].
  eapply try_seg_not_large; eauto.
Qed.

(** ** Termination of a request: at most 30 segments are requested from the backend. *)
Lemma alloc_terminates answers : forall mn ss H size o,
  PI mn ss H -> size <= 2 ^ 29 -> (exists s, In s ss /\ (o <= smax s)%nat) ->
  (1 <= length answers)%nat -> (30 <= o + length answers)%nat ->
  (exists r, alloc_buddy answers mn ss size = Ok r) \/ alloc_buddy answers mn ss size = NullSegment \/
  alloc_buddy answers mn ss size = BackendOverlap.
Proof.
  induction answers as [|a more IH]; intros mn ss H size o HI Hsz Ho Hlen H30; [simpl in Hlen; lia|].
  cbn [alloc_buddy].
  pose proof (try_segs_not_large ss size (PI_not_large _ _ _ size HI)) as Hnl.
  destruct (try_segs ss size) as [| |ss' sg b] eqn:Et; [|contradiction|left; eauto].
  destruct (a =? 0); [right; left; reflexivity|].
  destruct (range_free a (new_cap ss) ss) eqn:Er; [|right; right; reflexivity].
  pose proof (PI_expand _ _ _ _ HI Er) as HI'.
  destruct HI as (Hmn & Hne & _ & H3 & _).
  destruct (new_cap_pow2 ss Hne) as (om & Eo & Hom). rewrite Eo in *. rewrite log2_ceil_pow2 in *.
  set (no := Nat.min (S om) 29) in *. set (ns := fresh_seg a (pow2 no) mn no) in *.
  destruct Ho as (s0 & Hs0 & Hos0).
  assert (Hmn' : (mn <= no)%nat).
  { rewrite Forall_forall in H3. destruct (H3 s0 Hs0) as [Em (_ & Hm & _)]. specialize (Hom s0 Hs0). lia. }
  assert (Hin : In ns (insert_seg ns ss)) by (rewrite (insert_seg_perm ns ss); left; auto).
  destruct (Z_le_gt_dec (Z.max size (pow2 mn)) (pow2 no)) as [Hfit|Hnofit].
  - destruct (try_fresh_ok a mn no size Hmn' Hfit) as (s' & b & Hg).
    destruct (try_segs_succeeds (insert_seg ns ss) size (PI_not_large _ _ _ size HI')) as (ss' & sg & b' & E); [eauto|].
    left. destruct more; cbn [alloc_buddy]; rewrite E; eauto.
  - assert (Hno : (no < 29)%nat).
    { destruct (le_lt_dec 29 no) as [Hl|]; [|auto]. exfalso.
      assert (pow2 29 <= pow2 no) by (apply pow2_le; auto). assert (pow2 mn <= pow2 29) by (apply pow2_le; auto).
      change (2 ^ 29) with (pow2 29) in Hsz. lia. }
    simpl in Hlen, H30. specialize (Hom s0 Hs0).
    apply (IH mn (insert_seg ns ss) H size (S o)); auto.
    + exists ns. split; auto. change (smax ns) with no. lia.
    + lia.
    + lia.
Qed.

(** ** A request above 512 MB that fits no existing segment is never answered. *)
Lemma big_skip s size : 0 <= sused s -> scap s < size -> try_seg s size = TSkip.
Proof.
  intros Hu Hc. unfold try_seg.
  destruct (Z.ltb_spec (scap s - sused s) (Z.max size (pow2 (smin s)))); [reflexivity|lia].
Qed.

Lemma big_none ss size : (forall s, In s ss -> 0 <= sused s /\ scap s < size) -> try_segs ss size = ANone.
Proof.
  induction ss as [|s r IH]; intro H; simpl; [reflexivity|].
  destruct (H s (or_introl eq_refl)). rewrite big_skip by auto.
  rewrite IH; auto. intros t Ht; apply H; right; auto.
Qed.

Lemma big_never mn size answers : forall ss,
  2 ^ 29 < size -> (forall s, In s ss -> 0 <= sused s /\ scap s < size) ->
  alloc_buddy answers mn ss size = Waiting \/ alloc_buddy answers mn ss size = NullSegment \/
  alloc_buddy answers mn ss size = BackendOverlap.
Proof.
  induction answers as [|a more IH]; intros ss Hsz Hs; cbn [alloc_buddy]; rewrite (big_none ss size Hs).
  - left; reflexivity.
  - destruct (a =? 0); [tauto|]. destruct (range_free a (new_cap ss) ss); [|tauto].
    apply IH; auto. intros s Hin. rewrite (insert_seg_perm _ ss) in Hin. destruct Hin as [<-|Hin]; auto.
    unfold fresh_seg; simpl. unfold new_cap. lia.
Qed.

Lemma big_waits mn size n : forall base ss,
  2 ^ 29 < size -> 0 < base -> ss <> [] ->
  (forall s, In s ss -> 0 <= sused s /\ scap s < size /\ sptr s + scap s <= base) ->
  alloc_buddy (windows base n) mn ss size = Waiting.
Proof.
  induction n as [|n IH]; intros base ss Hsz Hb Hne Hs; cbn [windows alloc_buddy];
    rewrite (big_none ss size) by (intros s Hin; specialize (Hs s Hin); tauto).
  - reflexivity.
  - destruct (Z.eqb_spec base 0); [lia|].
    assert (Hr : range_free base (new_cap ss) ss = true).
    { unfold range_free. apply forallb_forall. intros s Hin. specialize (Hs s Hin). lia. }
    rewrite Hr. apply IH; auto; try lia.
    + intro E. pose proof (insert_seg_perm (fresh_seg base (new_cap ss) mn (log2_ceil (new_cap ss))) ss) as HP.
      rewrite E in HP. apply Permutation_nil_cons in HP. exact HP.
    + intros s Hin. rewrite (insert_seg_perm _ ss) in Hin. destruct Hin as [<-|Hin].
      * unfold fresh_seg; simpl. unfold new_cap. lia.
      * specialize (Hs s Hin). lia.
Qed.

(** ** Pool-level statements *)
Lemma pool_alloc_answers p uid size answers :
  PoolInv p -> 0 <= size <= 2 ^ 29 -> ~ In uid (map luid (lives p)) -> (30 <= length answers)%nat ->
  (exists p' l, pool_alloc p uid size answers = Ok p' /\ lives p' = lives p ++ [l] /\ luid l = uid /\ lreq l = size)
  \/ pool_alloc p uid size answers = NullSegment \/ pool_alloc p uid size answers = BackendOverlap.
Proof.
  intros (HI & _ & _) Hsz Hfresh Hlen. unfold pool_alloc.
  destruct (existsb (fun l => luid l =? uid) (lives p)) eqn:Eex.
  { exfalso. apply existsb_exists in Eex. destruct Eex as (l & Hl & El). apply Hfresh.
    apply in_map_iff. exists l. split; auto. apply Z.eqb_eq; exact El. }
  destruct (if use_cache p size then _ else None) as [[sg b]|].
  { left. eexists. eexists. split; [reflexivity|]. simpl. auto. }
  assert (Hne : exists s, In s (segs p) /\ (0 <= smax s)%nat).
  { destruct HI as (_ & Hne & _). destruct (segs p) as [|s r]; [contradiction|]. exists s. split; [left; auto|lia]. }
  destruct (alloc_terminates answers (pmin p) (segs p) (held p) size 0 HI) as [[[[ss sg] b] E]|[E|E]]; auto; try lia.
  - rewrite E. left. eexists. eexists. split; [reflexivity|]. simpl. auto.
  - rewrite E. auto.
  - rewrite E. auto.
Qed.

Lemma alloc_exact_size p uid size answers p1 o :
  PoolInv p -> size = 2 ^ Z.of_nat o -> (pmin p <= o)%nat ->
  pool_alloc p uid size answers = Ok p1 ->
  exists l, lives p1 = lives p ++ [l] /\ luid l = uid /\ lreq l = size /\ bsize (lblk l) = size /\
            pcset p1 = pcset p /\ pcacheon p1 = pcacheon p.
Proof.
  intros (HI & _ & _) Hsz Ho H. fold (pow2 o) in Hsz. unfold pool_alloc in H.
  destruct (existsb _ _); [discriminate|].
  destruct (if use_cache p size then _ else None) as [[sg b]|] eqn:Eh.
  - destruct (use_cache p size); [|discriminate]. apply find_some in Eh. destruct Eh as [_ Eh].
    apply Z.eqb_eq in Eh. injection H as <-. exists (mkLive uid size sg b). simpl in *. auto 7.
  - destruct (alloc_buddy answers (pmin p) (segs p) size) as [[[ss sg] b]| | | | | |] eqn:Ea; try discriminate.
    injection H as <-. destruct (alloc_buddy_spec _ _ _ _ _ _ _ _ HI Ea) as (HI' & _ & Hb).
    destruct (PI_in_seg _ _ _ (sg, b) HI' ltac:(left; reflexivity)) as (s & _ & _ & (_ & Hbs & _) & _).
    simpl in Hbs. exists (mkLive uid size sg b). simpl.
    assert (Hm : Z.max size (pow2 (pmin p)) = pow2 o).
    { rewrite Hsz. apply Z.max_l. apply pow2_le; auto. }
    rewrite Hm, log2_ceil_pow2 in Hb. replace (Nat.max o (pmin p)) with o in Hb by lia.
    rewrite Hb in Hbs. split; [reflexivity|split; [reflexivity|split; [reflexivity|split; [congruence|auto]]]].
Qed.

Lemma cache_reuse p u1 u2 size a1 a2 p1 p2 o :
  PoolInv p -> size = 2 ^ Z.of_nat o -> (pmin p <= o)%nat ->
  pcacheon p = true -> In size (pcset p) ->
  pool_alloc p u1 size a1 = Ok p1 -> pool_free p1 u1 = Ok p2 -> ~ In u2 (map luid (lives p2)) ->
  exists p3, pool_alloc p2 u2 size a2 = Ok p3 /\ segs p3 = segs p2 /\
             length (cached p3) = pred (length (cached p2)).
Proof.
  intros HP Hsz Ho Hon Hin HA HF Hfresh.
  destruct (alloc_exact_size _ _ _ _ _ _ HP Hsz Ho HA) as (l & El & Eu & Er & Ez & Ec & Eo).
  assert (Hnotin : existsb (fun l => luid l =? u1) (lives p) = false).
  { unfold pool_alloc in HA. destruct (existsb _ _); [discriminate|reflexivity]. }
  unfold pool_free in HF.
  assert (Hfind : find (fun l => luid l =? u1) (lives p1) = Some l).
  { rewrite El. clear -Hnotin Eu. induction (lives p) as [|x r IH]; simpl.
    - rewrite Eu, Z.eqb_refl. reflexivity.
    - simpl in Hnotin. destruct (luid x =? u1); [discriminate|]. apply IH; auto. }
  rewrite Hfind in HF.
  assert (Huse : forall q, pcset q = pcset p -> pcacheon q = pcacheon p -> use_cache q size = true).
  { intros q E1 E2. unfold use_cache. rewrite E1, E2, Hon. simpl. unfold zmem. apply existsb_exists.
    exists size. split; auto. apply Z.eqb_refl. }
  rewrite Er in HF. rewrite (Huse p1 Ec Eo) in HF. injection HF as <-.
  unfold pool_alloc. clear Hnotin.
  destruct (existsb _ _) eqn:Eex.
  { exfalso. apply existsb_exists in Eex. destruct Eex as (x & Hx & Ex). apply Hfresh.
    apply in_map_iff. exists x. split; auto. apply Z.eqb_eq; exact Ex. }
  rewrite Huse by (simpl; auto). cbn [cached].
  destruct (find (fun c : Z * blk => bsize (snd c) =? size) (cached p1 ++ [(lseg l, lblk l)])) as [[sg b]|] eqn:Ef.
  - eexists. split; [reflexivity|]. split; [reflexivity|].
    pose proof (remove_first_perm _ _ _ Ef) as HPp. apply Permutation_length in HPp. simpl in *. lia.
  - exfalso. pose proof (find_none _ _ Ef (lseg l, lblk l)) as Hn. simpl in Hn.
    assert (In (lseg l, lblk l) (cached p1 ++ [(lseg l, lblk l)])) as Hi by (apply in_or_app; right; left; auto).
    apply Hn in Hi. apply Z.eqb_neq in Hi. contradiction.
Qed.

(** Evaluation helpers for concrete histories (used by the examples and witnesses). *)
Definition history base cap mn mx con cs ops : outcome pool :=
  match pool_init base cap mn mx con cs with Some p0 => run p0 ops | None => UB end.

Lemma history_check base mn mx con cs ops (P : pool -> bool) :
  match history base (2 ^ Z.of_nat mx) mn mx con cs ops with Ok p => P p | _ => false end = true ->
  exists p, reachable base mn mx con cs ops p /\ P p = true.
Proof.
  unfold history, reachable. destruct (pool_init base (2 ^ Z.of_nat mx) mn mx con cs) as [p0|]; [|discriminate].
  destruct (run p0 ops) as [p| | | | | |] eqn:E; try discriminate. intro H. exists p. split; [|exact H].
  exists p0. auto.
Qed.
