(** Every operation keeps the invariant of the memory manager. *)
From Verif Require Import Base BuddyModel BuddyProofs BuddySpec BuddyMore MemModel MemSpec MemProofs MemInv.
Local Open Scope Z_scope.

Lemma find_split m uid s : find_storage m uid = Some s -> NoDup (map s_uid (m_storages m)) ->
  exists l1 l2, m_storages m = l1 ++ s :: l2 /\ s_uid s = uid /\
    (forall f, map (fun t => if s_uid t =? uid then f t else t) (m_storages m) = l1 ++ f s :: l2) /\
    filter (fun t => negb (s_uid t =? s_uid s)) (m_storages m) = l1 ++ l2.
Proof.
  intros F ND. unfold find_storage in F. apply find_some in F. destruct F as [Hs Hu]. apply Z.eqb_eq in Hu. subst uid.
  apply in_split in Hs. destruct Hs as (l1 & l2 & E). exists l1, l2. rewrite E in *. rewrite map_app in ND. cbn [map] in ND.
  apply NoDup_remove in ND. destruct ND as [_ ND].
  assert (K : forall l, (forall t, In t l -> s_uid t <> s_uid s) ->
     (forall f, map (fun t => if s_uid t =? s_uid s then f t else t) l = l) /\ filter (fun t => negb (s_uid t =? s_uid s)) l = l).
  { induction l as [|t l IH]; intro H; [split; reflexivity|]. destruct IH as [I1 I2]; [intros; apply H; right; assumption|].
    assert (s_uid t <> s_uid s) by (apply H; left; reflexivity). cbn [map filter].
    destruct (Z.eqb_spec (s_uid t) (s_uid s)); [contradiction|]. cbn [negb]. rewrite I2. split; [intro f; rewrite I1|]; reflexivity. }
  assert (N1 : forall t, In t l1 -> s_uid t <> s_uid s).
  { intros t Ht Et. apply ND, in_or_app. left. rewrite <- Et. apply in_map, Ht. }
  assert (N2 : forall t, In t l2 -> s_uid t <> s_uid s).
  { intros t Ht Et. apply ND, in_or_app. right. rewrite <- Et. apply in_map, Ht. }
  destruct (K l1 N1) as [A1 A2]. destruct (K l2 N2) as [B1 B2].
  split; [reflexivity|]. split; [reflexivity|]. split.
  - intro f. rewrite map_app. cbn [map]. rewrite Z.eqb_refl, A1, B1. reflexivity.
  - rewrite filter_app. cbn [filter]. rewrite Z.eqb_refl. cbn [negb]. rewrite A2, B2. reflexivity.
Qed.
Definition part {A} (b : bool) (x : A) : list A := if b then [x] else [].
Lemma large_ptrs_mid c l1 s l2 : large_ptrs c (l1 ++ s :: l2) = large_ptrs c l1 ++ part (has_ptr s && is_large c s) (s_ptr s) ++ large_ptrs c l2.
Proof. unfold large_ptrs. rewrite filter_app, map_app. cbn [filter]. destruct (has_ptr s && is_large c s); reflexivity. Qed.
Lemma small_uids_mid c l1 s l2 : small_uids c (l1 ++ s :: l2) = small_uids c l1 ++ part (has_ptr s && negb (is_large c s)) (s_uid s) ++ small_uids c l2.
Proof. unfold small_uids. rewrite filter_app, map_app. cbn [filter]. destruct (has_ptr s && negb (is_large c s)); reflexivity. Qed.
Lemma large_ptrs_app c l1 l2 : large_ptrs c (l1 ++ l2) = large_ptrs c l1 ++ large_ptrs c l2.
Proof. unfold large_ptrs. rewrite filter_app, map_app. reflexivity. Qed.
Lemma small_uids_app c l1 l2 : small_uids c (l1 ++ l2) = small_uids c l1 ++ small_uids c l2.
Proof. unfold small_uids. rewrite filter_app, map_app. reflexivity. Qed.
Lemma in_mid {A} (x a : A) l1 l2 : In x (l1 ++ a :: l2) <-> x = a \/ In x (l1 ++ l2).
Proof. rewrite !in_app_iff. cbn [In]. intuition congruence. Qed.

(* ---------------- creation, writes ---------------- *)
Lemma create_inv c L D m size : MInv c L D m -> 0 <= size ->
  MInv c L D (mkManager (m_pool m) (m_heap m) (m_mem m) (m_next m + 1) (m_storages m ++ [mkStorage (m_next m) size 0])).
Proof.
  intros I Hs. destruct I. constructor; cbn [m_pool m_heap m_mem m_next m_storages]; auto.
  - rewrite large_ptrs_app. cbn. rewrite app_nil_r. exact i_own.
  - intros s Hin. apply in_app_or in Hin. destruct Hin as [Hin|[<-|[]]]; [auto|discriminate].
  - intros s Hin. apply in_app_or in Hin. destruct Hin as [Hin|[<-|[]]]; [auto|discriminate].
  - rewrite small_uids_app. cbn. rewrite app_nil_r. exact i_lives.
  - rewrite map_app. cbn [map s_uid]. eapply Permutation_NoDup; [apply Permutation_cons_append|]. constructor; [|exact i_uids].
    intro Hin. apply in_map_iff in Hin. destruct Hin as (t & Et & Ht). rewrite Forall_forall in i_next. destruct (i_next t Ht). lia.
  - apply Forall_app. split.
    + eapply Forall_impl; [|exact i_next]. cbn beta. intros; lia.
    + constructor; [cbn; lia|constructor].
Qed.
Lemma mem_inv c L D m mem : MInv c L D m -> HInv D (m_heap m) mem -> MInv c L D (mkManager (m_pool m) (m_heap m) mem (m_next m) (m_storages m)).
Proof. intros I H. destruct I. constructor; cbn [m_pool m_heap m_mem m_next m_storages]; auto. Qed.

(* ---------------- alloc ---------------- *)
Lemma backed_app N D s : backed D s -> backed (N ++ D) s.
Proof. intros (H1 & e & He & H2). split; [exact H1|]. exists e. split; [apply in_or_app; right; exact He|exact H2]. Qed.
Lemma large_alloc_inv c L D m uid s d h mem : sane c -> MInv c L D m -> find_storage m uid = Some s -> is_large c s = true ->
  HInv (d :: D) h mem -> d_req d = s_size s -> d_p2 d mod c_align c = 0 ->
  MInv c (part (has_ptr s) (s_ptr s) ++ L) (d :: D) (set_storage m (m_pool m) h mem uid (d_p2 d)).
Proof.
  intros Hc I F El HH Er Em. pose proof I as I0. destruct I. destruct (find_split _ _ _ F i_uids) as (l1 & l2 & E & Eu & Em1 & _).
  assert (Hpos : d_p2 d <> 0). { destruct HH as (_ & _ & HF). inversion HF as [|? ? (A1 & A2 & _)]; subst. lia. }
  unfold set_storage. rewrite (Em1 (fun s => mkStorage (s_uid s) (s_size s) (d_p2 d))). rewrite E in *.
  set (s' := mkStorage (s_uid s) (s_size s) (d_p2 d)).
  assert (El' : is_large c s' = true) by exact El.
  assert (Hp' : has_ptr s' = true). { unfold has_ptr, s'. cbn [s_ptr]. destruct (Z.eqb_spec (d_p2 d) 0); [contradiction|reflexivity]. }
  constructor; cbn [m_pool m_heap m_mem m_next m_storages]; auto.
  - eapply Forall_impl; [|exact i_segs]. intros t. apply backed_more.
  - rewrite large_ptrs_mid in *. rewrite Hp', El'. rewrite El, Bool.andb_true_r in i_own. cbn [map andb part].
    rewrite i_own. cbn [s_ptr s']. rewrite <- !app_assoc. cbn [app]. destruct (has_ptr s); cbn [part app].
    + rewrite Permutation_middle. apply Permutation_app_head. rewrite Permutation_middle. apply Permutation_app_head.
      apply perm_skip. symmetry. rewrite Permutation_middle. reflexivity.
    + rewrite Permutation_middle. apply Permutation_app_head. rewrite Permutation_middle. reflexivity.
  - intros t Ht Pt Lt. apply in_mid in Ht. destruct Ht as [->|Ht].
    + split; [exact Em|]. exists d. split; [left; reflexivity|]. split; [reflexivity|exact Er].
    + destruct (i_large t) as (X & e & He & Y); auto; [apply in_mid; right; exact Ht|]. split; [exact X|].
      exists e. split; [right; exact He|exact Y].
  - intros t Ht Pt Lt. apply in_mid in Ht. destruct Ht as [->|Ht]; [congruence|]. apply i_small; auto. apply in_mid; right; exact Ht.
  - rewrite small_uids_mid in *. rewrite El' . rewrite El in i_lives. cbn [negb] in *. rewrite Bool.andb_false_r in *. exact i_lives.
  - rewrite map_app in *. exact i_uids.
  - apply Forall_app in i_next. destruct i_next as [N1 N2]. inversion N2; subst. apply Forall_app. split; [exact N1|].
    constructor; assumption.
Qed.
Lemma small_alloc_inv c L D m uid s N h mem p b sg : sane c -> MInv c L D m -> find_storage m uid = Some s ->
  is_large c s = false -> s_ptr s = 0 -> PoolInv p -> pmin p = c_min c -> HInv (N ++ D) h mem -> Forall (backed (N ++ D)) (segs p) ->
  Permutation (map sptr (segs p)) (map d_p2 N ++ map sptr (segs (m_pool m))) ->
  lives p = lives (m_pool m) ++ [mkLive uid (alloc_size (c_align c) (s_size s)) sg b] -> bptr b <> 0 ->
  MInv c L (N ++ D) (set_storage m p h mem uid (bptr b)).
Proof.
  intros Hc I F El Ep HP Hmin HH HB HPm HL Hb. pose proof I as I0. destruct I. destruct (find_split _ _ _ F i_uids) as (l1 & l2 & E & Eu & Em1 & _).
  unfold set_storage. rewrite (Em1 (fun s => mkStorage (s_uid s) (s_size s) (bptr b))). rewrite E in *.
  set (s' := mkStorage (s_uid s) (s_size s) (bptr b)).
  assert (El' : is_large c s' = false) by exact El.
  assert (Hp : has_ptr s = false) by (unfold has_ptr; rewrite Ep; reflexivity).
  assert (Hp' : has_ptr s' = true). { unfold has_ptr, s'. cbn [s_ptr]. destruct (Z.eqb_spec (bptr b) 0); [contradiction|reflexivity]. }
  constructor; cbn [m_pool m_heap m_mem m_next m_storages]; auto.
  - rewrite large_ptrs_mid in *. rewrite El'. rewrite Hp in i_own. rewrite Bool.andb_false_r. cbn [andb part app] in *.
    rewrite map_app, HPm, i_own. rewrite <- !app_assoc. reflexivity.
  - intros t Ht Pt Lt. apply in_mid in Ht. destruct Ht as [->|Ht]; [congruence|].
    destruct (i_large t) as (X & e & He & Y); auto; [apply in_mid; right; exact Ht|]. split; [exact X|].
    exists e. split; [apply in_or_app; right; exact He|exact Y].
  - intros t Ht Pt Lt. rewrite HL. apply in_mid in Ht. destruct Ht as [->|Ht].
    + eexists. split; [apply in_or_app; right; left; reflexivity|]. cbn. auto.
    + destruct (i_small t) as (l & Hl & X); auto; [apply in_mid; right; exact Ht|]. exists l. split; [apply in_or_app; left; exact Hl|exact X].
  - rewrite small_uids_mid in *. rewrite El', Hp'. rewrite Hp in i_lives. cbn [negb andb part app] in *. rewrite HL, map_app. cbn [map luid].
    rewrite i_lives, <- Permutation_cons_append. cbn [s_uid s']. rewrite Eu. apply Permutation_middle.
  - rewrite map_app in *. exact i_uids.
  - apply Forall_app in i_next. destruct i_next as [N1 N2]. inversion N2; subst. apply Forall_app. split; [exact N1|].
    constructor; assumption.
Qed.

Lemma buddy_alloc_spec c L D m uid size answers p h mem ptr :
  MInv c L D m -> buddy_alloc (m_pool m) (m_heap m) (m_mem m) uid size answers = Ok (p, h, mem, ptr) ->
  ~ In uid (map luid (lives (m_pool m))) /\
  exists N sg b, ptr = bptr b /\ PoolInv p /\ pmin p = pmin (m_pool m) /\ HInv (N ++ D) h mem /\ Forall (backed (N ++ D)) (segs p) /\
    Permutation (map sptr (segs p)) (map d_p2 N ++ map sptr (segs (m_pool m))) /\ lives p = lives (m_pool m) ++ [mkLive uid size sg b] /\
    stable D (m_mem m) mem.
Proof.
  intros I E. unfold buddy_alloc in E.
  destruct (existsb (fun l => luid l =? uid) (lives (m_pool m))) eqn:Ex; [discriminate|].
  assert (Hf : ~ In uid (map luid (lives (m_pool m)))).
  { intro Hin. apply in_map_iff in Hin. destruct Hin as (l & El & Hl). apply Bool.not_true_iff_false in Ex. apply Ex.
    apply existsb_exists. exists l. split; [exact Hl|]. apply Z.eqb_eq, El. }
  split; [exact Hf|].
  destruct (if use_cache (m_pool m) size then _ else None) as [[sg b]|] eqn:Eh.
  - injection E as <- <- <- <-. exists [], sg, b. cbn [app map segs pmin lives].
    assert (Es : step (m_pool m) (OAlloc uid size answers) = Ok (mkPool (pmin (m_pool m)) (pcacheon (m_pool m)) (pcset (m_pool m)) (segs (m_pool m)) (lives (m_pool m) ++ [mkLive uid size sg b]) (remove_first (fun c => bsize (snd c) =? size) (cached (m_pool m))))).
    { cbn [step]. unfold pool_alloc. rewrite Ex, Eh. reflexivity. }
    split; [reflexivity|]. split; [eapply step_inv; [exact (i_pool _ _ _ _ I)|exact Es]|]. split; [reflexivity|].
    split; [exact (i_heap _ _ _ _ I)|]. split; [exact (i_segs _ _ _ _ I)|]. split; [reflexivity|]. split; [reflexivity|].
    intros d x _ _. reflexivity.
  - pose proof (i_pool _ _ _ _ I) as (HPI & _).
    pose proof (grow_alloc_spec answers (pmin (m_pool m)) (segs (m_pool m)) _ D _ _ size _ HPI (i_heap _ _ _ _ I) (i_segs _ _ _ _ I) eq_refl) as G.
    destruct (grow_alloc answers (pmin (m_pool m)) (segs (m_pool m)) (m_heap m) (m_mem m) size) as [[[[[ss sg] b] h'] m']| | | | | |]; try discriminate.
    injection E as <- <- <- <-. destruct G as (Ga & N & N1 & N2 & N3 & N4). exists N, sg, b. cbn [segs pmin lives].
    split; [reflexivity|]. split; [|split; [reflexivity|repeat split; try assumption; apply N1]].
    eapply (step_inv _ (OAlloc uid size (map base_of answers))); [exact (i_pool _ _ _ _ I)|]. cbn [step]. unfold pool_alloc. rewrite Ex, Eh, Ga. reflexivity.
Qed.
(** a block of the pool is not at address 0 *)
Lemma live_ptr_pos D h m p l : PoolInv p -> HInv D h m -> Forall (backed D) (segs p) -> In l (lives p) -> 0 < bptr (lblk l).
Proof.
  intros HP HH HB Hl. destruct (live_wf _ _ HP Hl) as (s & Hs & _ & Hw & _). apply wfb_range in Hw. rewrite Forall_forall in HB.
  destruct (HB s Hs) as (_ & d & Hd & E & _). destruct HH as (_ & _ & HF). rewrite Forall_forall in HF. destruct (HF d Hd) as (A1 & A2 & _). lia.
Qed.
Lemma small_allocated_known c L D m s : MInv c L D m -> In s (m_storages m) -> is_large c s = false -> has_ptr s = true ->
  In (s_uid s) (map luid (lives (m_pool m))).
Proof.
  intros I Hs El Hp. destruct (i_small _ _ _ _ I s Hs Hp El) as (l & Hl & E & _). rewrite <- E. apply in_map, Hl.
Qed.

(** Storages gone from [m] do not count; the others hold what they held. *)
Lemma alloc_inv c L D m uid s answers m' : sane c -> MInv c L D m -> find_storage m uid = Some s -> mm_alloc c m s answers = Ok m' ->
  exists L' D', MInv c L' D' m' /\ (s_ptr s = 0 -> L' = L) /\ stable D (m_mem m) (m_mem m') /\ (forall d, In d D -> In d D').
Proof.
  intros Hc I F E. unfold mm_alloc in E. pose proof F as F0. unfold find_storage in F0. apply find_some in F0. destruct F0 as [Hs Hu].
  apply Z.eqb_eq in Hu. pose proof (i_next _ _ _ _ I) as HN. rewrite Forall_forall in HN. destruct (HN s Hs) as [_ Hsz].
  fold (is_large c s) in E. destruct (is_large c s) eqn:El.
  - destruct answers as [|p1 more]; [discriminate|]. destruct (sane_align c Hc) as (k & Hk & Ek). rewrite Ek in E.
    destruct (align_alloc p1 (s_size s) (2 ^ k) (m_heap m) (m_mem m)) as [o| | | | | |] eqn:Ea; try discriminate.
    destruct (align_alloc_spec p1 (s_size s) k D (m_heap m) (m_mem m) o) as [[-> ->]|(d & h & mem & -> & HH & Er & Em & _ & _ & _ & Hdis & Hst)];
      [lia|exact Hsz|exact (i_heap _ _ _ _ I)|exact Ea| |]; injection E as <-.
    + exists L, D. split; [exact I|]. split; [auto|]. split; [intros d x _ _; reflexivity|auto].
    + exists (part (has_ptr s) (s_ptr s) ++ L), (d :: D). rewrite Hu.
      split; [apply large_alloc_inv; auto; rewrite Ek; exact Em|]. split.
      * intro E0. unfold has_ptr. rewrite E0. reflexivity.
      * split; [|intros; right; assumption]. intros e x He Hx. cbn [m_mem set_storage]. apply Hst. rewrite Forall_forall in Hdis.
        specialize (Hdis e He). unfold ddisj in Hdis. lia.
  - destruct (buddy_alloc (m_pool m) (m_heap m) (m_mem m) (s_uid s) (alloc_size (c_align c) (s_size s)) answers) as [[[[p h] mem] ptr]| | | | | |] eqn:Eb;
      try discriminate. injection E as <-.
    destruct (buddy_alloc_spec c L D m _ _ _ _ _ _ _ I Eb) as (Hf & N & sg & b & -> & HP & Hmin & HH & HB & HPm & HL & Hst).
    assert (Ep : s_ptr s = 0).
    { destruct (Z.eq_dec (s_ptr s) 0); [assumption|]. exfalso. apply Hf, (small_allocated_known c L D m s); auto.
      unfold has_ptr. destruct (Z.eqb_spec (s_ptr s) 0); [contradiction|reflexivity]. }
    assert (Hb : 0 < bptr b).
    { apply (live_ptr_pos _ _ _ p (mkLive (s_uid s) (alloc_size (c_align c) (s_size s)) sg b) HP HH HB). rewrite HL. apply in_or_app; right; left; reflexivity. }
    exists L, (N ++ D). split; [|split; [auto|split; [exact Hst|intros; apply in_or_app; right; assumption]]].
    rewrite Hu in *. eapply small_alloc_inv; eauto; [|lia]. rewrite Hmin. apply (i_min _ _ _ _ I).
Qed.

(* ---------------- destroy ---------------- *)
Lemma destroy_large_inv c L D m uid s : sane c -> MInv c L D m -> find_storage m uid = Some s -> is_large c s = true -> has_ptr s = true ->
  exists d D' m', Permutation D (d :: D') /\ mm_destroy c m s = Ok m' /\ MInv c L D' m' /\ m_mem m' = m_mem m /\ m_pool m' = m_pool m.
Proof.
  intros Hc I F El Hp. pose proof I as I0. destruct I. destruct (find_split _ _ _ F i_uids) as (l1 & l2 & E & Eu & _ & Ef).
  destruct (i_large s) as (_ & d & Hd & E1 & E2); auto; [rewrite E; apply in_elt|].
  destruct (align_free_spec D _ _ d i_heap Hd) as (D' & HPD & Ea & HH).
  exists d, D'. unfold mm_destroy. fold (is_large c s). rewrite El, <- E1, Ea, Ef. eexists. split; [exact HPD|]. split; [reflexivity|].
  split; [|split; reflexivity].
  assert (Hown : Permutation (map d_p2 D') (map sptr (segs (m_pool m)) ++ large_ptrs c (l1 ++ l2) ++ L)).
  { pose proof (Permutation_map d_p2 HPD) as HX. cbn [map] in HX. rewrite i_own in HX. rewrite E, large_ptrs_mid, Hp, El in HX.
    cbn [andb part] in HX. rewrite <- !app_assoc in HX. cbn [app] in HX. rewrite <- E1 in HX.
    rewrite large_ptrs_app, <- app_assoc. rewrite app_assoc in HX. symmetry. rewrite app_assoc.
    apply (Permutation_app_inv (map sptr (segs (m_pool m)) ++ large_ptrs c l1) (large_ptrs c l2 ++ L) [] (map d_p2 D') (d_p2 d)). exact HX. }
  assert (Hsub : forall t, In t (l1 ++ l2) -> In t (m_storages m)) by (intros t Ht; rewrite E; apply in_mid; right; exact Ht).
  assert (Hin : forall e, In e D -> d_p2 e <> d_p2 d -> In e D').
  { intros e He N. apply (Permutation_in _ HPD) in He. destruct He as [<-|He]; [contradiction|exact He]. }
  (* the pointers of the others are different *)
  pose proof (d_p2_nodup _ _ _ i_heap) as ND. pose proof (Permutation_NoDup i_own ND) as ND2.
  rewrite E, large_ptrs_mid, Hp, El in ND2. cbn [andb part] in ND2.
  apply nodup_app_parts in ND2. destruct ND2 as (_ & ND2 & Dis). apply nodup_app_parts in ND2. destruct ND2 as (ND2 & _ & _).
  assert (Nseg : forall t, In t (segs (m_pool m)) -> sptr t <> d_p2 d).
  { intros t Ht X. apply (Dis (sptr t)); [apply in_map, Ht|]. rewrite X, E1. apply in_or_app; left. apply in_or_app; right. left; reflexivity. }
  assert (Nlarge : forall t, In t (l1 ++ l2) -> has_ptr t = true -> is_large c t = true -> s_ptr t <> d_p2 d).
  { intros t Ht Pt Lt X. cbn [app] in ND2. apply NoDup_remove_2 in ND2. apply ND2. rewrite <- large_ptrs_app. rewrite <- E1, <- X.
    apply in_map_iff. exists t. split; [reflexivity|]. apply filter_In. split; [exact Ht|]. cbn beta. rewrite Pt, Lt. reflexivity. }
  constructor; cbn [m_pool m_heap m_mem m_next m_storages]; auto.
  - rewrite Forall_forall in *. intros t Ht. destruct (i_segs t Ht) as (B1 & e & He & B2 & B3). split; [exact B1|].
    exists e. split; [|auto]. apply Hin; [exact He|]. rewrite B2. apply Nseg, Ht.
  - intros t Ht Pt Lt. destruct (i_large t (Hsub t Ht) Pt Lt) as (B1 & e & He & B2 & B3). split; [exact B1|].
    exists e. split; [|auto]. apply Hin; [exact He|]. rewrite B2. apply Nlarge; auto.
  - rewrite E, small_uids_mid, El in i_lives. cbn [negb] in i_lives. rewrite Bool.andb_false_r in i_lives. cbn [part app] in i_lives.
    rewrite small_uids_app. exact i_lives.
  - rewrite E, map_app in i_uids. cbn [map] in i_uids. apply NoDup_remove_1 in i_uids. rewrite map_app. exact i_uids.
  - rewrite Forall_forall in *. intros t Ht. apply i_next, Hsub, Ht.
Qed.
Lemma pool_free_segs p uid p' : PoolInv p -> pool_free p uid = Ok p' ->
  map (fun s => (sptr s, scap s)) (segs p') = map (fun s => (sptr s, scap s)) (segs p) /\ pmin p' = pmin p /\
  exists l, find (fun l => luid l =? uid) (lives p) = Some l /\ lives p' = remove_first (fun l => luid l =? uid) (lives p).
Proof.
  intros (HI & _) H. unfold pool_free in H. destruct (find (fun l => luid l =? uid) (lives p)) as [l|] eqn:Ef; [|discriminate].
  destruct (use_cache p (lreq l)); [injection H as <-; cbn; eauto|].
  destruct (free_buddy (segs p) (lseg l) (lblk l)) as [ss|] eqn:Eb; [|discriminate]. injection H as <-. cbn [segs pmin lives].
  split; [|eauto]. assert (HS : forall t, In t (segs p) -> exists U, SInv t U) by exact (PI_SInv _ _ _ HI).
  clear - Eb. revert ss Eb. generalize (lseg l) (lblk l). intros sg b. induction (segs p) as [|t r IH]; intros ss E; cbn [free_buddy] in E; [discriminate|].
  destruct (sptr t =? sg).
  - unfold free_in_seg in E. destruct (merge_loop _ _ _ _ _); [|discriminate]. injection E as <-. reflexivity.
  - destruct (free_buddy r sg b) as [r'|]; [|discriminate]. injection E as <-. cbn [map]. rewrite (IH _ eq_refl). reflexivity.
Qed.
Lemma destroy_small_inv c L D m uid s : sane c -> MInv c L D m -> find_storage m uid = Some s -> is_large c s = false -> has_ptr s = true ->
  exists m', mm_destroy c m s = Ok m' /\ MInv c L D m' /\ m_mem m' = m_mem m.
Proof.
  intros Hc I F El Hp. pose proof I as I0. destruct I. destruct (find_split _ _ _ F i_uids) as (l1 & l2 & E & Eu & _ & Ef).
  assert (Hs : In s (m_storages m)) by (rewrite E; apply in_elt).
  unfold mm_destroy. fold (is_large c s). rewrite El, Ef. unfold has_ptr in Hp. rewrite Bool.negb_true_iff in Hp. rewrite Hp.
  assert (Hp' : has_ptr s = true) by (unfold has_ptr; rewrite Hp; reflexivity).
  destruct (i_small s Hs Hp' El) as (l & Hl & U1 & _).
  assert (Ep : exists p, pool_free (m_pool m) (s_uid s) = Ok p).
  { pose proof (step_no_UB (m_pool m) (OFree (s_uid s)) i_pool) as NU. cbn [step] in NU. revert NU. unfold pool_free.
    destruct (find (fun l => luid l =? s_uid s) (lives (m_pool m))) eqn:EF.
    - destruct (use_cache _ _); [eauto|]. destruct (free_buddy _ _ _); [eauto|congruence].
    - pose proof (find_none _ _ EF l Hl) as X. cbn beta in X. lia. }
  destruct Ep as [p Ep]. rewrite Ep.
  eexists. split; [reflexivity|]. split; [|reflexivity].
  destruct (pool_free_segs _ _ _ i_pool Ep) as (Hseg & Hmin & l0 & Hl0 & HL).
  assert (HP : PoolInv p) by (eapply (step_inv _ (OFree (s_uid s))); [exact i_pool|exact Ep]).
  assert (Hsub : forall t, In t (l1 ++ l2) -> In t (m_storages m)) by (intros t Ht; rewrite E; apply in_mid; right; exact Ht).
  pose proof i_uids as NDu. rewrite E, map_app in NDu. cbn [map] in NDu.
  constructor; cbn [m_pool m_heap m_mem m_next m_storages]; auto.
  - congruence.
  - eapply backed_ext; [exact Hseg|exact i_segs].
  - rewrite E, large_ptrs_mid, El, Bool.andb_false_r in i_own. cbn [part app] in i_own. rewrite large_ptrs_app.
    apply (f_equal (map fst)) in Hseg. rewrite !map_map in Hseg. cbn [fst] in Hseg. change (map sptr (segs p) = map sptr (segs (m_pool m))) in Hseg.
    rewrite Hseg. exact i_own.
  - intros t Ht Pt Lt. destruct (i_small t (Hsub t Ht) Pt Lt) as (k & Hk & V1 & V2 & V3). exists k. split; [|auto].
    rewrite HL. pose proof (remove_first_perm _ _ _ Hl0) as HPL. apply (Permutation_in _ HPL) in Hk. destruct Hk as [<-|Hk]; [|exact Hk].
    exfalso. apply find_some in Hl0. destruct Hl0 as [_ Hq]. apply Z.eqb_eq in Hq. rewrite V1 in Hq.
    apply NoDup_remove_2 in NDu. apply NDu. rewrite <- map_app, <- Hq. apply in_map, Ht.
  - rewrite HL. pose proof (remove_first_perm _ _ _ Hl0) as HPL. apply (Permutation_map luid) in HPL. rewrite i_lives in HPL. cbn [map] in HPL.
    rewrite E, small_uids_mid, El, Hp' in HPL. cbn [negb andb part] in HPL. apply find_some in Hl0. destruct Hl0 as [_ Hq]. apply Z.eqb_eq in Hq.
    rewrite Hq in HPL. cbn [app] in HPL. rewrite <- Permutation_middle in HPL. apply Permutation_cons_inv in HPL. rewrite small_uids_app. symmetry. exact HPL.
  - apply NoDup_remove_1 in NDu. rewrite map_app. exact NDu.
  - rewrite Forall_forall in *. intros t Ht. apply i_next, Hsub, Ht.
Qed.
Lemma destroy_null_inv c L D m uid s : sane c -> MInv c L D m -> find_storage m uid = Some s -> has_ptr s = false ->
  MInv c L D (mkManager (m_pool m) (m_heap m) (m_mem m) (m_next m) (filter (fun t => negb (s_uid t =? s_uid s)) (m_storages m))).
Proof.
  intros Hc I F Hp. pose proof I as I0. destruct I. destruct (find_split _ _ _ F i_uids) as (l1 & l2 & E & Eu & _ & Ef). rewrite Ef.
  assert (Hsub : forall t, In t (l1 ++ l2) -> In t (m_storages m)) by (intros t Ht; rewrite E; apply in_mid; right; exact Ht).
  constructor; cbn [m_pool m_heap m_mem m_next m_storages]; auto.
  - rewrite E, large_ptrs_mid, Hp in i_own. cbn [andb part app] in i_own. rewrite large_ptrs_app. exact i_own.
  - rewrite E, small_uids_mid, Hp in i_lives. cbn [andb part app] in i_lives. rewrite small_uids_app. exact i_lives.
  - rewrite E, map_app in i_uids. cbn [map] in i_uids. apply NoDup_remove_1 in i_uids. rewrite map_app. exact i_uids.
  - rewrite Forall_forall in *. intros t Ht. apply i_next, Hsub, Ht.
Qed.
