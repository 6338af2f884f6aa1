(** The invariant of the memory manager and its consequences. *)
From Verif Require Import Base BuddyModel BuddyProofs BuddySpec BuddyMore MemModel MemSpec MemProofs.
Local Open Scope Z_scope.

Definition is_large (c : config) (s : storage) : bool := alloc_size (c_align c) (s_size s) >=? c_threshold c.
Definition has_ptr (s : storage) : bool := negb (s_ptr s =? 0).
(** pointers of the large storages with memory *)
Definition large_ptrs (c : config) (l : list storage) : list Z := map s_ptr (filter (fun s => has_ptr s && is_large c s) l).
(** uuids of the small storages with memory *)
Definition small_uids (c : config) (l : list storage) : list Z := map s_uid (filter (fun s => has_ptr s && negb (is_large c s)) l).

(** [L]: pointers to blocks that no storage holds any more. *)
Record MInv (c : config) (L : list Z) (D : list dblk) (m : manager) : Prop := mkMInv {
  i_pool : PoolInv (m_pool m);
  i_min : pmin (m_pool m) = c_min c;
  i_heap : HInv D (m_heap m) (m_mem m);
  i_segs : Forall (backed D) (segs (m_pool m));
  i_own : Permutation (map d_p2 D) (map sptr (segs (m_pool m)) ++ large_ptrs c (m_storages m) ++ L);
  i_large : forall s, In s (m_storages m) -> has_ptr s = true -> is_large c s = true ->
            s_ptr s mod c_align c = 0 /\ exists d, In d D /\ d_p2 d = s_ptr s /\ d_req d = s_size s;
  i_small : forall s, In s (m_storages m) -> has_ptr s = true -> is_large c s = false ->
            exists l, In l (lives (m_pool m)) /\ luid l = s_uid s /\ bptr (lblk l) = s_ptr s /\ lreq l = alloc_size (c_align c) (s_size s);
  i_lives : Permutation (map luid (lives (m_pool m))) (small_uids c (m_storages m));
  i_uids : NoDup (map s_uid (m_storages m));
  i_next : Forall (fun s => s_uid s < m_next m /\ 0 <= s_size s) (m_storages m) }.

Lemma sane_align c : sane c -> exists k, 4 <= k <= 6 /\ c_align c = 2 ^ k.
Proof. intros ([E|[E|E]] & _); rewrite E; [exists 4|exists 5|exists 6]; split; reflexivity || lia. Qed.
Lemma sane_size c size : sane c -> 0 <= size -> size <= alloc_size (c_align c) size.
Proof. intros Hc Hs. destruct (sane_align c Hc) as (k & Hk & ->). destruct (alloc_size_bounds k size) as [[H _] _]; lia. Qed.

(* ---------------- where storages are ---------------- *)
Lemma live_wf p l : PoolInv p -> In l (lives p) -> exists s, In s (segs p) /\ sptr s = lseg l /\
  wfb (sptr s) (smin s) (smax s) (lblk l) /\ scap s = pow2 (smax s) /\ smin s = pmin p /\ lreq l <= bsize (lblk l).
Proof.
  intros (HI & Hreq & _) Hl.
  assert (Hh : In (lseg l, lblk l) (held p)) by (apply in_or_app; left; apply in_map_iff; exists l; auto).
  destruct (PI_in_seg _ _ _ _ HI Hh) as (s & Hs & Es & Hw & Hc). exists s. cbn [fst snd] in *. rewrite Forall_forall in Hreq.
  repeat split; auto; try apply Hw. destruct HI as (_ & _ & _ & HF & _). rewrite Forall_forall in HF. apply HF, Hs.
Qed.
(** Every storage with memory lies in a block of malloc, above its header. *)
Lemma storage_inside c L D m s : sane c -> MInv c L D m -> In s (m_storages m) -> has_ptr s = true ->
  exists d, In d D /\ d_p2 d <= s_ptr s /\ s_ptr s + s_size s <= d_p2 d + d_req d /\
    (is_large c s = true -> s_ptr s = d_p2 d) /\ (is_large c s = false -> In (d_p2 d) (map sptr (segs (m_pool m)))).
Proof.
  intros Hc I Hs Hp. pose proof (i_next _ _ _ _ I) as HN. rewrite Forall_forall in HN. destruct (HN s Hs) as [_ Hsz].
  destruct (is_large c s) eqn:El.
  - destruct (i_large _ _ _ _ I s Hs Hp El) as (_ & d & Hd & E1 & E2). exists d. repeat split; auto; try lia; discriminate.
  - destruct (i_small _ _ _ _ I s Hs Hp El) as (l & Hl & _ & E1 & E2).
    destruct (live_wf _ _ (i_pool _ _ _ _ I) Hl) as (sg & Hsg & _ & Hw & Hcap & _ & Hr).
    pose proof (i_segs _ _ _ _ I) as HB. rewrite Forall_forall in HB. destruct (HB sg Hsg) as (_ & d & Hd & B1 & B2).
    pose proof (wfb_range _ _ _ _ Hw) as [W1 W2]. pose proof (sane_size c _ Hc Hsz).
    exists d. split; [exact Hd|]. split; [lia|]. split; [lia|]. split; [discriminate|]. intros _. rewrite B1. apply in_map, Hsg.
Qed.
Lemma d_p2_nodup D h m : HInv D h m -> NoDup (map d_p2 D).
Proof.
  intros (_ & HW & HF). induction HW as [|d r Hd HW IH]; [constructor|]. inversion HF; subst. cbn [map]. constructor; [|auto].
  intro Hin. apply in_map_iff in Hin. destruct Hin as (e & Ee & He). rewrite Forall_forall in *.
  specialize (Hd e He). destruct H1 as (A1 & A2 & A3 & A4 & _). destruct (H2 e He) as (B1 & B2 & B3 & B4 & _).
  unfold ddisj in Hd. lia.
Qed.
Lemma d_p2_inj D h m a b : HInv D h m -> In a D -> In b D -> d_p2 a = d_p2 b -> a = b.
Proof.
  intros H Ha Hb E. pose proof H as (_ & HW & HF). rewrite Forall_forall in HF.
  destruct (HF a Ha) as (A1 & A2 & A3 & A4 & _). destruct (HF b Hb) as (B1 & B2 & B3 & B4 & _).
  destruct (ddisj_in D a b HW Ha Hb) as [?|[N|N]]; [assumption|lia|lia].
Qed.
Lemma filter_map_nodup {A B} (f : A -> B) q l a b : NoDup (map f (filter q l)) -> In a l -> In b l -> q a = true -> q b = true -> f a = f b -> a = b.
Proof.
  induction l as [|x r IH]; intros ND Ha Hb Qa Qb E; [contradiction|]. cbn [filter] in ND.
  destruct Ha as [->|Ha], Hb as [->|Hb]; auto.
  - rewrite Qa in ND. cbn [map] in ND. inversion ND as [|? ? N _]; subst. destruct N. rewrite E. apply in_map, filter_In. auto.
  - rewrite Qb in ND. cbn [map] in ND. inversion ND as [|? ? N _]; subst. destruct N. rewrite <- E. apply in_map, filter_In. auto.
  - apply IH; auto. destruct (q x); [cbn [map] in ND; inversion ND; assumption|exact ND].
Qed.
Lemma nodup_app_parts {A} (a b : list A) : NoDup (a ++ b) -> NoDup a /\ NoDup b /\ forall x, In x a -> In x b -> False.
Proof.
  induction a as [|x a IH]; cbn [app]; intro H; [split; [constructor|split; [exact H|intros y []]]|].
  inversion H as [|? ? N H']; subst. destruct (IH H') as (H1 & H2 & H3). split; [|split; [exact H2|]].
  - constructor; auto. intro Hx. apply N, in_or_app. auto.
  - intros y [->|Hy] Hy'; [apply N, in_or_app; auto|eauto].
Qed.
Lemma storages_disjoint c L D m s t : sane c -> MInv c L D m ->
  In s (m_storages m) -> In t (m_storages m) -> s_uid s <> s_uid t -> has_ptr s = true -> has_ptr t = true ->
  s_ptr s + s_size s <= s_ptr t \/ s_ptr t + s_size t <= s_ptr s.
Proof.
  intros Hc I Hs Ht Hne Ps Pt.
  pose proof (d_p2_nodup _ _ _ (i_heap _ _ _ _ I)) as ND. eapply Permutation_NoDup in ND; [|exact (i_own _ _ _ _ I)].
  apply nodup_app_parts in ND. destruct ND as (_ & ND & Dis). apply nodup_app_parts in ND. destruct ND as (NDl & _ & _).
  destruct (storage_inside c L D m s Hc I Hs Ps) as (d & Hd & A1 & A2 & A3 & A4).
  destruct (storage_inside c L D m t Hc I Ht Pt) as (e & He & B1 & B2 & B3 & B4).
  pose proof (i_heap _ _ _ _ I) as (_ & HW & HF). rewrite Forall_forall in HF.
  destruct (HF d Hd) as (X1 & X2 & X3 & X4 & _). destruct (HF e He) as (Y1 & Y2 & Y3 & Y4 & _).
  destruct (ddisj_in D d e HW Hd He) as [<-|[N|N]]; [|lia|lia].
  assert (InL : forall u, In u (m_storages m) -> has_ptr u = true -> is_large c u = true -> In (s_ptr u) (large_ptrs c (m_storages m))).
  { intros u Hu Pu Lu. apply in_map_iff. exists u. split; [reflexivity|]. apply filter_In. rewrite Pu, Lu. auto. }
  destruct (is_large c s) eqn:Es, (is_large c t) eqn:Et.
  - exfalso. apply Hne. f_equal. eapply (filter_map_nodup s_ptr); [exact NDl|exact Hs|exact Ht|cbn beta; rewrite Ps, Es; reflexivity|cbn beta; rewrite Pt, Et; reflexivity|].
    rewrite A3, B3 by reflexivity. reflexivity.
  - exfalso. apply (Dis (d_p2 d)); [apply B4; reflexivity|]. apply in_or_app; left. rewrite <- A3 by reflexivity. apply InL; auto.
  - exfalso. apply (Dis (d_p2 d)); [apply A4; reflexivity|]. apply in_or_app; left. rewrite <- B3 by reflexivity. apply InL; auto.
  - destruct (i_small _ _ _ _ I s Hs Ps Es) as (l & Hl & U1 & E1 & E2).
    destruct (i_small _ _ _ _ I t Ht Pt Et) as (k & Hk & U2 & F1 & F2).
    assert (Hlk : l <> k) by congruence.
    pose proof (inv_no_overlap _ (i_pool _ _ _ _ I)) as NO. apply no_overlap_app_l in NO.
    apply In_nth_error in Hl. destruct Hl as [i Hi]. apply In_nth_error in Hk. destruct Hk as [j Hj].
    assert (Hij : i <> j) by congruence.
    specialize (NO i j (live_range l) (live_range k) Hij). rewrite !nth_error_map, Hi, Hj in NO. specialize (NO eq_refl eq_refl).
    unfold ranges_disjoint, live_range in NO. cbn [r_lo r_len] in NO.
    destruct (live_wf _ _ (i_pool _ _ _ _ I) (nth_error_In _ _ Hi)) as (_ & _ & _ & _ & _ & _ & R1).
    destruct (live_wf _ _ (i_pool _ _ _ _ I) (nth_error_In _ _ Hj)) as (_ & _ & _ & _ & _ & _ & R2).
    pose proof (i_next _ _ _ _ I) as HN. rewrite Forall_forall in HN. destruct (HN s Hs) as [_ S1]. destruct (HN t Ht) as [_ S2].
    pose proof (sane_size c _ Hc S1). pose proof (sane_size c _ Hc S2). lia.
Qed.
Lemma storage_aligned c L D m s : sane c -> MInv c L D m -> In s (m_storages m) -> has_ptr s = true -> s_ptr s mod c_align c = 0.
Proof.
  intros Hc I Hs Hp. destruct (is_large c s) eqn:El; [apply (i_large _ _ _ _ I s Hs Hp El)|].
  destruct (i_small _ _ _ _ I s Hs Hp El) as (l & Hl & _ & E1 & _).
  destruct (live_wf _ _ (i_pool _ _ _ _ I) Hl) as (sg & Hsg & _ & Hw & _ & Hmin & _).
  pose proof (i_segs _ _ _ _ I) as HB. rewrite Forall_forall in HB. destruct (HB sg Hsg) as (B0 & _).
  destruct Hw as (Ho & _ & q & _ & Hq & _). destruct (sane_align c Hc) as (k & Hk & ->).
  rewrite <- E1, Hq. destruct Hc as (_ & Hmn & _). rewrite (i_min _ _ _ _ I) in Hmin.
  assert (Ek : pow2 (border (lblk l)) = 2 ^ (Z.of_nat (border (lblk l)) - k) * 2 ^ k).
  { unfold pow2. rewrite <- Z.pow_add_r by lia. f_equal. lia. }
  rewrite Ek. rewrite Z.mul_assoc. assert (0 < 2 ^ k) by (apply Z.pow_pos_nonneg; lia).
  rewrite Z.mod_add by lia. change 4096 with (2 ^ 12) in B0. apply Z.mod_divide in B0; [|lia]. destruct B0 as [z ->].
  replace (2 ^ 12) with (2 ^ (12 - k) * 2 ^ k) by (rewrite <- Z.pow_add_r by lia; f_equal; lia).
  rewrite Z.mul_assoc. apply Z.mod_mul. lia.
Qed.
