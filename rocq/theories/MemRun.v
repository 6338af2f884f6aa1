(** Histories of the memory manager. *)
From Verif Require Import Base BuddyModel BuddyProofs BuddySpec BuddyMore MemModel MemSpec MemProofs MemInv MemSteps.
Local Open Scope Z_scope.

Lemma has_ptr_neq s : has_ptr s = true <-> s_ptr s <> 0.
Proof. unfold has_ptr. destruct (Z.eqb_spec (s_ptr s) 0); cbn; intuition congruence. Qed.
Lemma find_in m uid s : find_storage m uid = Some s -> In s (m_storages m) /\ s_uid s = uid.
Proof. intro F. apply find_some in F. destruct F as [H E]. split; [exact H|]. apply Z.eqb_eq, E. Qed.
Lemma uid_inj l s t : NoDup (map s_uid l) -> In s l -> In t l -> s_uid s = s_uid t -> s = t.
Proof.
  induction l as [|x r IH]; intros ND Hs Ht E; [contradiction|]. cbn [map] in ND. inversion ND as [|? ? N ND']; subst.
  destruct Hs as [->|Hs], Ht as [->|Ht]; auto; exfalso; apply N; [rewrite E|rewrite <- E]; apply in_map; assumption.
Qed.
Definition doubly (m : manager) (o : mop) : Prop :=
  match o with Alloc uid _ => match find_storage m uid with Some s => s_ptr s <> 0 | None => False end | _ => False end.
Lemma write_inv c L D m uid s off b : sane c -> MInv c L D m -> find_storage m uid = Some s -> s_ptr s <> 0 -> 0 <= off < s_size s ->
  MInv c L D (mkManager (m_pool m) (m_heap m) (set_cell (m_mem m) (s_ptr s + off) (Data b)) (m_next m) (m_storages m)).
Proof.
  intros Hc I F Hp Ho. apply mem_inv; [exact I|]. destruct (find_in _ _ _ F) as [Hs _].
  destruct (storage_inside c L D m s Hc I Hs (proj2 (has_ptr_neq s) Hp)) as (d & Hd & A1 & A2 & _).
  apply (HInv_write D (m_heap m) (m_mem m) d); [apply (i_heap _ _ _ _ I)|exact Hd|lia].
Qed.
Lemma mm_step_inv c L D m o m' : sane c -> MInv c L D m -> mm_step c m o = Ok m' ->
  exists L' D', MInv c L' D' m' /\ (~ doubly m o -> L' = L).
Proof.
  intros Hc I E. destruct o as [size|uid answers|uid|uid off b|a x]; cbn [mm_step doubly] in *.
  - destruct (Z.ltb_spec size 0); injection E as <-; [eauto|]. exists L, D. split; [apply create_inv; auto|auto].
  - destruct (find_storage m uid) as [s|] eqn:F; [|injection E as <-; eauto].
    destruct (alloc_inv c L D m uid s answers m' Hc I F E) as (L' & D' & I' & HL & _). exists L', D'. split; [exact I'|].
    intro N. apply HL. destruct (Z.eq_dec (s_ptr s) 0); [assumption|contradiction].
  - destruct (find_storage m uid) as [s|] eqn:F; [|injection E as <-; eauto].
    destruct (is_large c s) eqn:El.
    + destruct (has_ptr s) eqn:Hp.
      * destruct (destroy_large_inv c L D m uid s Hc I F El Hp) as (d & D' & m1 & _ & E1 & I' & _). assert (m1 = m') by congruence. subst m1. eauto.
      * exfalso. unfold mm_destroy in E. fold (is_large c s) in E. rewrite El in E. unfold has_ptr in Hp. apply Bool.negb_false_iff in Hp.
        unfold align_free in E. rewrite Hp in E. discriminate.
    + destruct (has_ptr s) eqn:Hp.
      * destruct (destroy_small_inv c L D m uid s Hc I F El Hp) as (m1 & E1 & I' & _). assert (m1 = m') by congruence. subst m1. eauto.
      * unfold mm_destroy in E. fold (is_large c s) in E. rewrite El in E. unfold has_ptr in Hp. apply Bool.negb_false_iff in Hp.
        rewrite Hp in E. injection E as <-. exists L, D. split; [|auto]. eapply destroy_null_inv; eauto. unfold has_ptr. rewrite Hp. reflexivity.
  - destruct (find_storage m uid) as [s|] eqn:F; [|injection E as <-; eauto].
    destruct (negb (s_ptr s =? 0) && (0 <=? off) && (off <? s_size s)) eqn:Eq; injection E as <-; [|eauto].
    exists L, D. split; [|auto]. eapply write_inv; eauto; lia.
  - destruct (existsb (in_range a) (m_heap m)) eqn:Ex; injection E as <-; [eauto|]. exists L, D. split; [|auto].
    apply mem_inv; [exact I|]. apply HInv_other; [apply (i_heap _ _ _ _ I)|exact Ex].
Qed.
Lemma mm_run_inv c ops : sane c -> forall L D m m', MInv c L D m -> mm_run c m ops = Ok m' ->
  exists L' D', MInv c L' D' m' /\ (alloc_once c m ops -> L' = L).
Proof.
  intro Hc. induction ops as [|o r IH]; intros L D m m' I E; cbn [mm_run alloc_once] in *.
  - injection E as <-. eauto.
  - destruct (mm_step c m o) as [m1| | | | | |] eqn:Es; try discriminate.
    destruct (mm_step_inv c L D m o m1 Hc I Es) as (L1 & D1 & I1 & H1). destruct (IH L1 D1 m1 m' I1 E) as (L2 & D2 & I2 & H2).
    exists L2, D2. split; [exact I2|]. intros [A B]. rewrite (H2 B). apply H1. intro N. destruct o; try contradiction. cbn [doubly] in N.
    destruct (find_storage m uid); [contradiction|contradiction].
Qed.
Lemma mm_init_inv c p1 mem m : sane c -> mm_init c p1 mem = Ok m -> exists d, MInv c [] [d] m.
Proof.
  intros Hc E. unfold mm_init in E. change 4096 with (2 ^ 12) in E.
  destruct (align_alloc p1 (2 ^ Z.of_nat (c_max c)) (2 ^ 12) [] mem) as [o| | | | | |] eqn:Ea; try discriminate.
  destruct (align_alloc_spec p1 (2 ^ Z.of_nat (c_max c)) 12 [] [] mem o) as [[-> ->]|(d & h & m' & -> & HH & Er & Em & _)];
    [lia|apply Z.pow_nonneg; lia|split; [reflexivity|split; constructor]|exact Ea|discriminate|].
  destruct (pool_init _ _ _ _ _ _) as [p|] eqn:Ep; [|discriminate]. injection E as <-. exists d.
  pose proof Hc as (_ & [_ H29] & _). pose proof (init_inv _ _ _ _ _ _ H29 Ep) as HP. unfold pool_init in Ep.
  destruct (_ && _ && _); [|discriminate]. injection Ep as <-.
  constructor; cbn [m_pool m_heap m_mem m_next m_storages pmin segs lives map app]; auto; try (constructor; fail); try (intros s []).
  - constructor; [|constructor]. split; [exact Em|]. exists d. split; [left; reflexivity|]. split; [reflexivity|exact Er].
Qed.
Lemma reached_inv c p1 mem ops m : sane c -> reached c p1 mem ops m -> exists L D, MInv c L D m.
Proof.
  intros Hc (m0 & E0 & E). destruct (mm_init_inv c p1 mem m0 Hc E0) as [d I]. destruct (mm_run_inv c ops Hc _ _ _ _ I E) as (L & D & I' & _). eauto.
Qed.

(* ---------------- what can go wrong ---------------- *)
Lemma alloc_buddy_not_large answers : forall mn ss H size, PI mn ss H -> alloc_buddy answers mn ss size <> ErrTooLarge.
Proof.
  induction answers as [|a r IH]; intros mn ss H size HP; cbn [alloc_buddy]; pose proof (try_segs_not_large ss size (PI_not_large mn ss H size HP)) as NL;
    destruct (try_segs ss size); try discriminate; try contradiction.
  destruct (a =? 0); [discriminate|]. destruct (range_free a (new_cap ss) ss) eqn:Er; [|discriminate].
  eapply IH. apply PI_expand; [exact HP|exact Er].
Qed.
Lemma alloc_outcomes c L D m uid s answers : sane c -> MInv c L D m -> find_storage m uid = Some s ->
  match mm_alloc c m s answers with
  | Ok _ | NullSegment | BackendOverlap => True
  | Waiting => (List.length answers < 30)%nat \/ 2 ^ 29 < c_threshold c
  | ErrSymbol => s_ptr s <> 0 /\ is_large c s = false
  | ErrTooLarge | UB => False
  end.
Proof.
  intros Hc I F. unfold mm_alloc. fold (is_large c s). destruct (find_in _ _ _ F) as [Hs Hu]. destruct (is_large c s) eqn:El.
  - destruct answers as [|p1 r]; [left; cbn; lia|]. destruct (align_alloc _ _ _ _ _) as [[[[p2 h] mem]|]| | | | | |]; exact Logic.I.
  - unfold buddy_alloc. destruct (existsb _ (lives (m_pool m))) eqn:Ex.
    + split; [|reflexivity]. apply existsb_exists in Ex. destruct Ex as (l & Hl & Eq). apply Z.eqb_eq in Eq.
      assert (Hin : In (s_uid s) (small_uids c (m_storages m))).
      { eapply Permutation_in; [exact (i_lives _ _ _ _ I)|]. rewrite <- Eq. apply in_map, Hl. }
      apply in_map_iff in Hin. destruct Hin as (t & Et & Ht). apply filter_In in Ht. destruct Ht as [Ht Pt].
      apply Bool.andb_true_iff in Pt. destruct Pt as [Pt _].
      assert (t = s) by (apply (uid_inj (m_storages m)); auto; apply (i_uids _ _ _ _ I)).
      subst t. apply has_ptr_neq, Pt.
    + destruct (if use_cache _ _ then _ else None) as [[sg b]|]; [exact Logic.I|].
      pose proof (i_pool _ _ _ _ I) as (HPI & _).
      pose proof (grow_alloc_spec answers (pmin (m_pool m)) (segs (m_pool m)) _ D _ _ (alloc_size (c_align c) (s_size s)) _ HPI (i_heap _ _ _ _ I) (i_segs _ _ _ _ I) eq_refl) as G.
      destruct (grow_alloc _ _ _ _ _ _) as [[[[[ss sg] b] h] mem]| | | | | |]; try exact Logic.I; try contradiction.
      * eapply alloc_buddy_not_large; [exact HPI|exact G].
      * destruct (Z_lt_le_dec (2 ^ 29) (c_threshold c)) as [|Ht]; [right; assumption|left].
        destruct (le_lt_dec 30 (List.length answers)) as [Hlen|]; [exfalso|assumption].
        assert (Hne : exists t, In t (segs (m_pool m)) /\ (0 <= smax t)%nat).
        { destruct HPI as (_ & Hne & _). destruct (segs (m_pool m)) as [|t r]; [contradiction|]. exists t. split; [left; auto|lia]. }
        assert (Hsz : 0 <= alloc_size (c_align c) (s_size s) <= 2 ^ 29).
        { pose proof (i_next _ _ _ _ I) as HN. rewrite Forall_forall in HN. destruct (HN s Hs) as [_ Hz].
          pose proof (sane_size c _ Hc Hz). unfold is_large in El. lia. }
        destruct (alloc_terminates (map base_of answers) (pmin (m_pool m)) (segs (m_pool m)) (held (m_pool m)) (alloc_size (c_align c) (s_size s)) 0 HPI)
          as [[x X]|[X|X]]; auto; try (rewrite map_length; lia); try lia; congruence.
Qed.
Lemma destroy_outcomes c L D m uid s : sane c -> MInv c L D m -> find_storage m uid = Some s ->
  (exists m', mm_destroy c m s = Ok m') \/ (mm_destroy c m s = UB /\ is_large c s = true /\ s_ptr s = 0).
Proof.
  intros Hc I F. destruct (has_ptr s) eqn:Hp, (is_large c s) eqn:El.
  - destruct (destroy_large_inv c L D m uid s Hc I F El Hp) as (_ & _ & m' & _ & E & _). eauto.
  - destruct (destroy_small_inv c L D m uid s Hc I F El Hp) as (m' & E & _). eauto.
  - right. unfold has_ptr in Hp. apply Bool.negb_false_iff in Hp. unfold mm_destroy. fold (is_large c s). rewrite El. unfold align_free. rewrite Hp.
    repeat split. lia.
  - left. unfold has_ptr in Hp. apply Bool.negb_false_iff in Hp. unfold mm_destroy. fold (is_large c s). rewrite El, Hp. eauto.
Qed.

(* ---------------- contents ---------------- *)
Lemma step_contents c L D m o m' s x : sane c -> MInv c L D m -> mm_step c m o = Ok m' ->
  In s (m_storages m) -> s_ptr s <> 0 -> s_ptr s <= x < s_ptr s + s_size s ->
  (forall b, o <> Write (s_uid s) (x - s_ptr s) b) -> m_mem m' x = m_mem m x.
Proof.
  intros Hc I E Hs Hp Hx Ho. pose proof (proj2 (has_ptr_neq s) Hp) as Hp'.
  destruct (storage_inside c L D m s Hc I Hs Hp') as (d & Hd & A1 & A2 & _).
  pose proof (i_heap _ _ _ _ I) as (H1 & HW & HF). rewrite Forall_forall in HF. destruct (HF d Hd) as (X1 & X2 & X3 & X4 & _).
  destruct o as [size|uid answers|uid|uid off b|a y]; cbn [mm_step] in E.
  - destruct (size <? 0); injection E as <-; reflexivity.
  - destruct (find_storage m uid) as [t|] eqn:F; [|injection E as <-; reflexivity].
    destruct (alloc_inv c L D m uid t answers m' Hc I F E) as (_ & _ & _ & _ & St & _). apply (St d x Hd). lia.
  - destruct (find_storage m uid) as [t|] eqn:F; [|injection E as <-; reflexivity].
    unfold mm_destroy in E. destruct (_ >=? _).
    + destruct (align_free _ _ _); try discriminate. injection E as <-. reflexivity.
    + destruct (s_ptr t =? 0); [injection E as <-; reflexivity|]. destruct (pool_free _ _); try discriminate. injection E as <-. reflexivity.
  - destruct (find_storage m uid) as [t|] eqn:F; [|injection E as <-; reflexivity]. destruct (find_in _ _ _ F) as [Ht Hu].
    destruct (negb (s_ptr t =? 0) && (0 <=? off) && (off <? s_size t)) eqn:Eq; injection E as <-; [|reflexivity]. cbn [m_mem]. unfold set_cell.
    destruct (Z.eqb_spec x (s_ptr t + off)) as [Ex|]; [exfalso|reflexivity].
    destruct (Z.eq_dec (s_uid s) (s_uid t)) as [Eu|Nu].
    + assert (s = t) by (apply (uid_inj (m_storages m)); auto; apply (i_uids _ _ _ _ I)).
      subst t. apply (Ho b). rewrite Hu. f_equal. lia.
    + assert (Pt : has_ptr t = true) by (apply has_ptr_neq; lia).
      destruct (storages_disjoint c L D m s t Hc I Hs Ht Nu Hp' Pt); lia.
  - destruct (existsb (in_range a) (m_heap m)) eqn:Ex; injection E as <-; [reflexivity|]. cbn [m_mem]. unfold set_cell.
    destruct (Z.eqb_spec x a) as [->|]; [exfalso|reflexivity].
    assert (existsb (in_range a) (m_heap m) = true); [|congruence]. apply existsb_exists. exists (drange d).
    split; [rewrite H1; apply in_map, Hd|]. unfold in_range, drange. cbn [r_lo r_len]. lia.
Qed.

(* ---------------- shutting down ---------------- *)
Lemma free_segments_spec : forall ss D h m R, HInv D h m -> Permutation (map d_p2 D) (map sptr ss ++ R) ->
  exists D', free_segments ss h m = Ok (map drange D') /\ HInv D' (map drange D') m /\ Permutation (map d_p2 D') R.
Proof.
  induction ss as [|s r IH]; intros D h m R HH HP; cbn [free_segments map app] in *.
  - exists D. destruct HH as (-> & H). split; [reflexivity|]. split; [split; [reflexivity|exact H]|exact HP].
  - assert (Hin : In (sptr s) (map d_p2 D)) by (eapply Permutation_in; [symmetry; exact HP|left; reflexivity]).
    apply in_map_iff in Hin. destruct Hin as (d & Ed & Hd).
    destruct (align_free_spec D h m d HH Hd) as (D1 & HPD & Ea & HH1). rewrite <- Ed.
    destruct (Z.eqb_spec (d_p2 d) 0) as [E0|_].
    { exfalso. destruct HH as (_ & _ & HF). rewrite Forall_forall in HF. destruct (HF d Hd) as (? & ? & _). lia. }
    rewrite Ea. apply (IH D1 (map drange D1) m R HH1). apply (Permutation_map d_p2) in HPD. cbn [map] in HPD. rewrite HP, Ed in HPD.
    apply Permutation_cons_inv in HPD. symmetry. exact HPD.
Qed.
Lemma large_ptrs_count c l : List.length (large_ptrs c l) = List.length (filter (fun s => has_ptr s && is_large c s) l).
Proof. unfold large_ptrs. apply map_length. Qed.
