(** C73-C75: tensors' memory, from the memory manager down to malloc.  Statements only; vocabulary in MemSpec.v. *)
From Verif Require Import Base BuddyModel BuddySpec MemModel MemSpec BuddyProofs BuddyMore MemProofs MemInv MemSteps MemRun.
Local Open Scope Z_scope.

(** C73: whatever a program does, two tensors with memory share no byte, each begins at the vector alignment, and each lies
    inside one block that malloc handed out, behind the first eight bytes of it. *)
Theorem C73_tensors_apart : forall c p1 mem ops m, sane c -> reached c p1 mem ops m ->
  (forall s t, In s (allocated m) -> In t (allocated m) -> s_uid s <> s_uid t -> no_common_byte (bytes_of s) (bytes_of t)) /\
  (forall s, In s (allocated m) -> s_ptr s mod c_align c = 0 /\
     exists r, In r (m_heap m) /\ r_lo r + 8 <= s_ptr s /\ s_ptr s + s_size s <= r_lo r + r_len r).
Proof.
  intros c p1 mem ops m Hc R. destruct (reached_inv c p1 mem ops m Hc R) as (L & D & I).
  assert (A : forall s, In s (allocated m) -> In s (m_storages m) /\ has_ptr s = true) by (intros s Hs; apply filter_In in Hs; exact Hs).
  split.
  - intros s t Hs Ht N x Hx. destruct (A s Hs) as [S1 S2]. destruct (A t Ht) as [T1 T2].
    destruct (storages_disjoint c L D m s t Hc I S1 T1 N S2 T2); unfold in_range, bytes_of in *; cbn [r_lo r_len] in *; lia.
  - intros s Hs. destruct (A s Hs) as [S1 S2]. split; [eapply storage_aligned; eauto|].
    destruct (storage_inside c L D m s Hc I S1 S2) as (d & Hd & A1 & A2 & _). exists (drange d).
    pose proof (i_heap _ _ _ _ I) as (H1 & _ & HF). rewrite Forall_forall in HF. destruct (HF d Hd) as (X1 & X2 & X3 & X4 & _).
    split; [rewrite H1; apply in_map, Hd|]. unfold drange. cbn [r_lo r_len]. lia.
Qed.
(** What a tensor holds changes only when that very byte of it is written: not by creating, allocating, releasing or writing
    other tensors, nor by the pool growing. *)
Theorem C73_contents_kept : forall c p1 mem ops m o m' s x, sane c -> reached c p1 mem ops m -> mm_step c m o = Ok m' ->
  In s (allocated m) -> in_range x (bytes_of s) = true -> (forall b, o <> Write (s_uid s) (x - s_ptr s) b) ->
  m_mem m' x = m_mem m x.
Proof.
  intros c p1 mem ops m o m' s x Hc R E Hs Hx Ho. destruct (reached_inv c p1 mem ops m Hc R) as (L & D & I).
  apply filter_In in Hs. destruct Hs as [S1 S2]. apply (step_contents c L D m o m' s x Hc I E S1); auto.
  - apply has_ptr_neq, S2.
  - unfold in_range, bytes_of in Hx. cbn [r_lo r_len] in Hx. lia.
Qed.
(** Allocating leaves the tensor with memory of its own, unless malloc is out of memory; it never hangs or fails
    otherwise while the threshold for large tensors is at most 512 MB (the default is 128 MB). *)
Theorem C73_alloc_answered : forall c p1 mem ops m uid s answers, sane c -> reached c p1 mem ops m -> c_threshold c <= 2 ^ 29 ->
  find_storage m uid = Some s -> s_ptr s = 0 -> (30 <= List.length answers)%nat -> ~ In 0 answers ->
  mm_step c m (Alloc uid answers) = BackendOverlap \/
  exists m' s', mm_step c m (Alloc uid answers) = Ok m' /\ find_storage m' uid = Some s' /\ s_size s' = s_size s /\ s_ptr s' <> 0.
Proof.
  intros c p1 mem ops m uid s answers Hc R Ht F Ep Hlen H0. destruct (reached_inv c p1 mem ops m Hc R) as (L & D & I).
  cbn [mm_step]. rewrite F. pose proof (alloc_outcomes c L D m uid s answers Hc I F) as O.
  destruct (mm_alloc c m s answers) as [m'| | | | | |] eqn:E; try contradiction; [right|exfalso|exfalso|left; reflexivity|exfalso].
  - destruct (find_in _ _ _ F) as [Hs Hu]. destruct (find_split _ _ _ F (i_uids _ _ _ _ I)) as (l1 & l2 & El & _ & Em & _).
    assert (K : forall p h mm ptr, ptr <> 0 -> m' = set_storage m p h mm (s_uid s) ptr ->
        exists m'0 s', Ok m' = Ok m'0 /\ find_storage m'0 uid = Some s' /\ s_size s' = s_size s /\ s_ptr s' <> 0).
    { intros p h mm ptr Hn ->. exists (set_storage m p h mm (s_uid s) ptr), (mkStorage (s_uid s) (s_size s) ptr).
      split; [reflexivity|]. split; [|split; [reflexivity|exact Hn]]. unfold find_storage, set_storage. cbn [m_storages]. rewrite Hu.
      rewrite (Em (fun t => mkStorage (s_uid t) (s_size t) ptr)). rewrite Hu.
      apply find_unique; [apply in_elt|cbn; lia|]. intros y Hy Ey. apply in_mid in Hy. destruct Hy as [Hy|Hy]; [exact Hy|]. exfalso.
      pose proof (i_uids _ _ _ _ I) as ND. rewrite El, map_app in ND. cbn [map] in ND. apply NoDup_remove_2 in ND. apply ND.
      rewrite <- map_app. replace (s_uid s) with (s_uid y) by lia. apply in_map, Hy. }
    unfold mm_alloc in E. fold (is_large c s) in E. destruct (is_large c s) eqn:Els.
    + destruct answers as [|q r]; [discriminate|].
      destruct (sane_align c Hc) as (k & Hk & Ek). rewrite Ek in E.
      destruct (align_alloc q (s_size s) (2 ^ k) (m_heap m) (m_mem m)) as [o| | | | | |] eqn:Ea; try discriminate.
      pose proof (i_next _ _ _ _ I) as HN. rewrite Forall_forall in HN. destruct (HN s Hs) as [_ Hz].
      destruct (align_alloc_spec q (s_size s) k D (m_heap m) (m_mem m) o) as [[-> ->]|(d & h & mm & -> & HH & _)];
        [lia|exact Hz|exact (i_heap _ _ _ _ I)|exact Ea| |].
      * exfalso. apply H0. left; reflexivity.
      * injection E as <-. eapply K; [|reflexivity]. destruct HH as (_ & _ & HF). inversion HF as [|? ? (? & ? & _)]; subst. lia.
    + destruct (buddy_alloc _ _ _ _ _ _) as [[[[p h] mm] ptr]| | | | | |] eqn:Eb; try discriminate. injection E as <-.
      destruct (buddy_alloc_spec c L D m _ _ _ _ _ _ _ I Eb) as (_ & N & sg & b & -> & HP & _ & HH & HB & _ & HL & _).
      eapply K; [|reflexivity]. assert (0 < bptr b); [|lia].
      apply (live_ptr_pos _ _ _ p (mkLive (s_uid s) (alloc_size (c_align c) (s_size s)) sg b) HP HH HB). rewrite HL. apply in_or_app; right; left; reflexivity.
  - destruct O as [O _]. contradiction.
  - unfold mm_alloc in E. fold (is_large c s) in E. destruct (is_large c s).
    + destruct answers; [discriminate|]. destruct (align_alloc _ _ _ _ _) as [[[[? ?] ?]|]| | | | | |]; discriminate.
    + assert (G : forall a ss h mm, ~ In 0 a -> grow_alloc a (pmin (m_pool m)) ss h mm (alloc_size (c_align c) (s_size s)) <> NullSegment).
      { clear. induction a as [|q r IH]; intros ss h mm H0; cbn [grow_alloc]; destruct (try_segs ss _); try discriminate.
        unfold align_alloc. cbn [Z.eqb orb negb]. change (Z.land 4096 (4096 - 1)) with 0. cbn [Z.eqb negb].
        destruct (Z.eqb_spec q 0) as [->|]; [destruct H0; left; reflexivity|]. destruct (negb _); [discriminate|].
        apply IH. intro X. apply H0. right; exact X. }
      revert E. unfold buddy_alloc. destruct (existsb _ _); [discriminate|]. destruct (if use_cache _ _ then _ else None) as [[? ?]|]; [discriminate|].
      specialize (G answers (segs (m_pool m)) (m_heap m) (m_mem m) H0). destruct (grow_alloc _ _ _ _ _ _) as [[[[[? ?] ?] ?] ?]| | | | | |]; try discriminate; congruence.
  - destruct O as [O|O]; lia.
Qed.

(** C74: memory goes back where it came from.  Releasing a tensor never does anything undefined (no wrong or double free),
    except for a large tensor that has no memory. *)
Theorem C74_release_defined : forall c p1 mem ops m o, sane c -> reached c p1 mem ops m ->
  (mm_step c m o = UB <-> exists uid s, o = Destroy uid /\ find_storage m uid = Some s /\ large c s /\ s_ptr s = 0).
Proof.
  intros c p1 mem ops m o Hc R. destruct (reached_inv c p1 mem ops m Hc R) as (L & D & I). split.
  - intro E. destruct o as [size|uid answers|uid|uid off b|a x]; cbn [mm_step] in E.
    + destruct (size <? 0); discriminate.
    + destruct (find_storage m uid) as [s|] eqn:F; [|discriminate]. pose proof (alloc_outcomes c L D m uid s answers Hc I F) as O.
      rewrite E in O. contradiction.
    + destruct (find_storage m uid) as [s|] eqn:F; [|discriminate].
      destruct (destroy_outcomes c L D m uid s Hc I F) as [[m' X]|(X & Y & Z)]; [congruence|].
      exists uid, s. repeat split; auto. unfold large. unfold is_large in Y. lia.
    + destruct (find_storage m uid); [|discriminate]. destruct (_ && _); discriminate.
    + destruct (existsb _ _); discriminate.
  - intros (uid & s & -> & F & Hl & Ep). cbn [mm_step]. rewrite F.
    destruct (destroy_outcomes c L D m uid s Hc I F) as [[m' X]|(X & _)]; [|exact X]. exfalso. revert X. unfold mm_destroy, large in *.
    destruct (Z.geb_spec (alloc_size (c_align c) (s_size s)) (c_threshold c)); [|lia]. rewrite Ep. discriminate.
Qed.
(** At every moment mllm holds exactly one block per segment of the pool and one per large tensor with memory, provided
    alloc is called at most once per tensor; and the pool's books list exactly the small tensors with memory. *)
Theorem C74_books : forall c p1 mem ops m m0, sane c -> mm_init c p1 mem = Ok m0 -> mm_run c m0 ops = Ok m -> alloc_once c m0 ops ->
  (List.length (m_heap m) = List.length (segs (m_pool m)) + List.length (filter (fun s => has_ptr s && is_large c s) (m_storages m)))%nat /\
  Permutation (map luid (lives (m_pool m))) (map s_uid (filter (fun s => has_ptr s && negb (is_large c s)) (m_storages m))).
Proof.
  intros c p1 mem ops m m0 Hc E0 E HA. destruct (mm_init_inv c p1 mem m0 Hc E0) as [d I].
  destruct (mm_run_inv c ops Hc _ _ _ _ I E) as (L & D & I' & HL). specialize (HL HA). subst L. split.
  - destruct (i_heap _ _ _ _ I') as (-> & _). rewrite map_length, <- (map_length d_p2), (Permutation_length (i_own _ _ _ _ I')).
    rewrite !app_length, map_length, large_ptrs_count. cbn [List.length]. lia.
  - exact (i_lives _ _ _ _ I').
Qed.
(** When every tensor is gone and the manager is cleared, every block is back with malloc. *)
Theorem C74_no_leak : forall c p1 mem ops m m0, sane c -> mm_init c p1 mem = Ok m0 -> mm_run c m0 ops = Ok m -> alloc_once c m0 ops ->
  m_storages m = [] -> mm_clear m = Ok [].
Proof.
  intros c p1 mem ops m m0 Hc E0 E HA Hs. destruct (mm_init_inv c p1 mem m0 Hc E0) as [d I].
  destruct (mm_run_inv c ops Hc _ _ _ _ I E) as (L & D & I' & HL). specialize (HL HA). subst L.
  pose proof (i_own _ _ _ _ I') as HP. rewrite Hs in HP. cbn [large_ptrs filter map app] in HP.
  destruct (free_segments_spec (segs (m_pool m)) D (m_heap m) (m_mem m) [] (i_heap _ _ _ _ I') HP) as (D' & E' & _ & HP').
  unfold mm_clear. rewrite E'. symmetry in HP'. apply Permutation_nil in HP'. destruct D'; [reflexivity|discriminate].
Qed.
(** Without that: clearing is defined in any case, and what stays is the blocks of large tensors and of tensors allocated twice. *)
Theorem C74_clear_defined : forall c p1 mem ops m, sane c -> reached c p1 mem ops m -> exists h, mm_clear m = Ok h /\ incl h (m_heap m).
Proof.
  intros c p1 mem ops m Hc R. destruct (reached_inv c p1 mem ops m Hc R) as (L & D & I).
  unfold mm_clear. destruct (free_segments_spec (segs (m_pool m)) D (m_heap m) (m_mem m) _ (i_heap _ _ _ _ I) (i_own _ _ _ _ I)) as (D' & E & _ & _).
  exists (map drange D'). split; [exact E|].
  assert (K : forall ss h h', free_segments ss h (m_mem m) = Ok h' -> incl h' h).
  { clear. induction ss as [|s r IH]; intros h h' E; cbn [free_segments] in E; [injection E as <-; apply incl_refl|].
    destruct (sptr s =? 0); [apply IH, E|]. unfold align_free in E. destruct (sptr s =? 0); [discriminate|].
    destruct (load_ptr _ _) as [q|]; [|discriminate]. destruct (q =? 0); [apply IH, E|]. destruct (existsb _ h); [|discriminate].
    intros x Hx. apply (IH _ _ E) in Hx. eapply remove_first_sub; exact Hx. }
  exact (K _ _ _ E).
Qed.

(* ---------------- a history ---------------- *)
Definition cfg : config := default_config 32.
Definition blank : memory := fun _ => Data 0.
Definition big : Z := 200 * 1024 * 1024.
Definition history1 : list mop :=
  [Create 100; Create big; Create 50000; Alloc 0 []; Alloc 1 [2 ^ 40]; Write 1 0 7; Other 5 (Data 9); Alloc 2 []; Write 1 (big - 1) 8; Destroy 0; Create 1; Alloc 3 []].
Definition after {A} (c : config) (p1 : Z) (ops : list mop) (f : manager -> A) (other : outcome manager -> A) : A :=
  match mm_init c p1 blank with Ok m => match mm_run c m ops with Ok m => f m | e => other e end | e => other e end.
Example C73_used : sane cfg /\ exists m, reached cfg 1000000 blank history1 m /\ List.length (allocated m) = 3%nat /\ List.length (m_heap m) = 2%nat.
Proof.
  split; [unfold sane, cfg, default_config; cbn; lia|]. eexists. split; [eexists; split; [vm_compute; reflexivity|vm_compute; reflexivity]|].
  split; vm_compute; reflexivity.
Qed.
Example C74_used : after cfg 1000000 (history1 ++ [Destroy 1; Destroy 2; Destroy 3]) (fun m => match m_storages m, mm_clear m with [], Ok [] => true | _, _ => false end) (fun _ => false) = true.
Proof. vm_compute. reflexivity. Qed.
Example C74_once : exists m0, mm_init cfg 1000000 blank = Ok m0 /\ alloc_once cfg m0 (history1 ++ [Destroy 1; Destroy 2; Destroy 3]).
Proof. eexists. split; [vm_compute; reflexivity|]. cbv. repeat split. Qed.

(** C75: a tensor that is created but never given memory can be dropped - refuted for tensors of 128 MB and more: the
    allocator reads in front of the null pointer. *)
Theorem C75_unallocated_large_refuted : forall align p1 m0 size, sane (default_config align) -> mm_init (default_config align) p1 blank = Ok m0 ->
  128 * 1024 * 1024 <= size -> mm_run (default_config align) m0 [Create size; Destroy 0] = UB.
Proof.
  intros align p1 m0 size Hc E0 Hs. cbn [mm_run mm_step]. destruct (Z.ltb_spec size 0); [lia|].
  assert (En : m_storages m0 = [] /\ m_next m0 = 0).
  { unfold mm_init in E0. destruct (align_alloc _ _ _ _ _) as [[[[? ?] ?]|]| | | | | |]; try discriminate. destruct (pool_init _ _ _ _ _ _); [|discriminate].
    injection E0 as <-. auto. }
  destruct En as [-> ->]. unfold find_storage. cbn [m_storages app find s_uid Z.eqb]. unfold mm_destroy. cbn [s_size s_ptr].
  pose proof (sane_size _ size Hc ltac:(lia)) as Hz. cbn [default_config c_align c_threshold] in *.
  destruct (Z.geb_spec (alloc_size align size) (128 * 1024 * 1024)); [reflexivity|lia].
Qed.
(** The same happens to a large tensor for which malloc had no memory: alloc reports nothing. *)
Theorem C75_failed_alloc_refuted : after cfg 1000000 [Create big; Alloc 0 [0]] (fun m => map s_ptr (m_storages m)) (fun _ => [1]) = [0] /\
  after cfg 1000000 [Create big; Alloc 0 [0]; Destroy 0] (fun _ => false) (fun e => match e with UB => true | _ => false end) = true.
Proof. split; vm_compute; reflexivity. Qed.
(** What holds: small tensors may be dropped without memory. *)
Theorem C75_unallocated_small_partial : forall c p1 mem ops m uid s, sane c -> reached c p1 mem ops m ->
  find_storage m uid = Some s -> ~ large c s -> exists m', mm_step c m (Destroy uid) = Ok m'.
Proof.
  intros c p1 mem ops m uid s Hc R F Hl. destruct (reached_inv c p1 mem ops m Hc R) as (L & D & I). cbn [mm_step]. rewrite F.
  destruct (destroy_outcomes c L D m uid s Hc I F) as [X|(_ & Y & _)]; [exact X|]. exfalso. apply Hl. unfold large. unfold is_large in Y. lia.
Qed.
(** Calling alloc twice on a large tensor loses the first block for good; on a small one the process exits. *)
Theorem C74_second_alloc_refuted :
  after cfg 1000000 [Create big; Alloc 0 [2 ^ 40]; Alloc 0 [2 ^ 41]; Destroy 0] (fun m => match mm_clear m with Ok h => map r_lo h | _ => [] end) (fun _ => []) = [2 ^ 40] /\
  after cfg 1000000 [Create 100; Alloc 0 []; Alloc 0 []] (fun _ => false) (fun e => match e with ErrSymbol => true | _ => false end) = true.
Proof. split; vm_compute; reflexivity. Qed.
Print Assumptions C73_tensors_apart.
Print Assumptions C73_contents_kept.
Print Assumptions C73_alloc_answered.
Print Assumptions C74_release_defined.
Print Assumptions C74_books.
Print Assumptions C74_no_leak.
Print Assumptions C74_clear_defined.
Print Assumptions C75_unallocated_large_refuted.
Print Assumptions C75_failed_alloc_refuted.
Print Assumptions C75_unallocated_small_partial.
Print Assumptions C74_second_alloc_refuted.
