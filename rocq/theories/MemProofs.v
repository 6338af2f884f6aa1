(** The heap below the memory manager: blocks of malloc, their header words, the pool's segments on top. *)
From Verif Require Import Base BuddyModel BuddyProofs BuddySpec BuddyMore MemModel MemSpec.
Local Open Scope Z_scope.

(* ---------------- pointers in memory ---------------- *)
Lemma store_ptr_same m a p i : In i idx8 -> store_ptr m a p (a + i) = Ptr p i.
Proof.
  intro Hi. unfold store_ptr, idx8. cbn [fold_left]. unfold set_cell.
  cbn [In idx8] in Hi.
  repeat match goal with H : _ \/ _ |- _ => destruct H as [<-|H] end; try contradiction;
    repeat match goal with |- context [?x =? ?y] => destruct (Z.eqb_spec x y); try lia end; reflexivity.
Qed.
Lemma store_ptr_other m a p x : x < a \/ a + 8 <= x -> store_ptr m a p x = m x.
Proof.
  intro Hi. unfold store_ptr, idx8. cbn [fold_left]. unfold set_cell.
  repeat match goal with |- context [?x =? ?y] => destruct (Z.eqb_spec x y); try lia end; reflexivity.
Qed.
Lemma idx8_range i : In i idx8 -> 0 <= i < 8.
Proof. cbn [In idx8]. lia. Qed.
Lemma load_ptr_ok m a p : (forall i, In i idx8 -> m (a + i) = Ptr p i) -> load_ptr m a = Some p.
Proof.
  intro H. unfold load_ptr. pose proof (H 0 (or_introl eq_refl)) as H0. rewrite Z.add_0_r in H0. rewrite H0.
  replace (forallb _ idx8) with true; [reflexivity|]. symmetry. apply forallb_forall. intros i Hi. rewrite (H i Hi).
  rewrite !Z.eqb_refl. reflexivity.
Qed.

(* ---------------- alignment ---------------- *)
Lemma align_down x k : 0 <= k -> Z.land x (Z.lnot (2 ^ k - 1)) = x - x mod 2 ^ k.
Proof.
  intro Hk. rewrite <- Z.ldiff_land. replace (2 ^ k - 1) with (Z.ones k) by (rewrite Z.ones_equiv; lia).
  rewrite Z.ldiff_ones_r by exact Hk. rewrite Z.shiftl_mul_pow2, Z.shiftr_div_pow2 by exact Hk.
  pose proof (Z.div_mod x (2 ^ k)). assert (0 < 2 ^ k) by (apply Z.pow_pos_nonneg; lia). lia.
Qed.
Lemma pow2_test k : 0 <= k -> Z.land (2 ^ k) (2 ^ k - 1) = 0.
Proof.
  intro Hk. replace (2 ^ k - 1) with (Z.ones k) by (rewrite Z.ones_equiv; lia).
  rewrite Z.land_ones by exact Hk. apply Z.mod_same. assert (0 < 2 ^ k) by (apply Z.pow_pos_nonneg; lia). lia.
Qed.
Lemma alloc_size_bounds k size : 0 <= k -> 0 <= size ->
  size <= alloc_size (2 ^ k) size < size + 2 ^ k /\ alloc_size (2 ^ k) size mod 2 ^ k = 0.
Proof.
  intros Hk Hs. unfold alloc_size. rewrite align_down by exact Hk.
  assert (Hp : 0 < 2 ^ k) by (apply Z.pow_pos_nonneg; lia).
  pose proof (Z.mod_pos_bound (size + 2 ^ k - 1) (2 ^ k) Hp). split; [lia|].
  rewrite Zminus_mod_idemp_r. rewrite Z.sub_diag. apply Z.mod_0_l. lia.
Qed.

(* ---------------- blocks of malloc ---------------- *)
(** A block with the pointer handed out and the number of bytes asked for. *)
Record dblk := mkD { d_p1 : Z; d_len : Z; d_p2 : Z; d_req : Z }.
Definition drange (d : dblk) : range := mkRange (d_p1 d) (d_len d).
Definition ddisj (a b : dblk) : Prop := d_p1 a + d_len a <= d_p1 b \/ d_p1 b + d_len b <= d_p1 a.
Definition DOK (m : memory) (d : dblk) : Prop :=
  0 < d_p1 d /\ d_p1 d + 8 <= d_p2 d /\ 0 <= d_req d /\ d_p2 d + d_req d <= d_p1 d + d_len d /\
  forall i, In i idx8 -> m (d_p2 d - 8 + i) = Ptr (d_p1 d) i.
Definition HInv (D : list dblk) (h : heap) (m : memory) : Prop :=
  h = map drange D /\ pairwise ddisj D /\ Forall (DOK m) D.
Lemma ddisj_sym a b : ddisj a b -> ddisj b a.
Proof. unfold ddisj. tauto. Qed.
Lemma ddisj_in D a b : pairwise ddisj D -> In a D -> In b D -> a = b \/ ddisj a b.
Proof.
  intros H Ha Hb.
  assert (E : forall u v : dblk, {u = v} + {u <> v}) by (decide equality; apply Z.eq_dec).
  destruct (E a b) as [->|N]; [left; reflexivity|right]. exact (pairwise_in ddisj D a b ddisj_sym H Ha Hb N).
Qed.

(** Writing below, above or inside the memory handed out leaves the headers alone. *)
Lemma DOK_write m a x d : DOK m d -> (a < d_p2 d - 8 \/ d_p2 d <= a) -> DOK (set_cell m a x) d.
Proof.
  intros (H1 & H2 & H3 & H4 & H5) Ha. repeat split; auto. intros i Hi. pose proof (idx8_range i Hi).
  unfold set_cell. destruct (Z.eqb_spec (d_p2 d - 8 + i) a); [lia|]. apply H5, Hi.
Qed.
Lemma HInv_write D h m d a x : HInv D h m -> In d D -> d_p2 d <= a < d_p2 d + d_req d -> HInv D h (set_cell m a x).
Proof.
  intros (H1 & H2 & H3) Hd Ha. split; [exact H1|]. split; [exact H2|]. rewrite Forall_forall in *. intros e He.
  apply DOK_write; [apply H3, He|]. pose proof (H3 e He) as (E1 & E2 & E3 & E4 & _).
  pose proof (H3 d Hd) as (D1 & D2 & D3 & D4 & _).
  destruct (ddisj_in D d e H2 Hd He) as [<-|[N|N]]; lia.
Qed.
Lemma HInv_other D h m a x : HInv D h m -> existsb (in_range a) h = false -> HInv D h (set_cell m a x).
Proof.
  intros (H1 & H2 & H3) Ha. split; [exact H1|]. split; [exact H2|]. rewrite Forall_forall in *. intros e He.
  apply DOK_write; [apply H3, He|]. pose proof (H3 e He) as (E1 & E2 & E3 & E4 & _).
  assert (N : in_range a (drange e) = false).
  { destruct (in_range a (drange e)) eqn:E; [|reflexivity]. exfalso.
    assert (existsb (in_range a) h = true); [|congruence]. apply existsb_exists. exists (drange e). split; [|exact E].
    rewrite H1. apply in_map, He. }
  unfold in_range, drange in N. cbn [r_lo r_len] in N. lia.
Qed.

Lemma align_alloc_spec p1 req k D h m r : 0 <= k -> 0 <= req -> HInv D h m ->
  align_alloc p1 req (2 ^ k) h m = Ok r ->
  (r = None /\ p1 = 0) \/
  exists d h' m', r = Some (d_p2 d, h', m') /\ HInv (d :: D) h' m' /\ d_req d = req /\ d_p2 d mod 2 ^ k = 0 /\ p1 <> 0 /\ d_p1 d = p1 /\
    d_p2 d = Z.land (p1 + (2 ^ k - 1 + 8)) (Z.lnot (2 ^ k - 1)) /\ Forall (ddisj d) D /\
    (forall x, x < d_p1 d \/ d_p1 d + d_len d <= x -> m' x = m x).
Proof.
  intros Hk Hreq (H1 & H2 & H3) E. unfold align_alloc in E.
  assert (Hp : 0 < 2 ^ k) by (apply Z.pow_pos_nonneg; lia).
  rewrite pow2_test in E by exact Hk. destruct (Z.eqb_spec (2 ^ k) 0); [lia|]. cbn [orb negb Z.eqb] in E.
  destruct (Z.eqb_spec p1 0) as [->|Hn]; [left; split; congruence|right].
  destruct (negb _) eqn:Ea in E; [discriminate|]. apply Bool.negb_false_iff, Bool.andb_true_iff in Ea.
  destruct Ea as [Ea1 Ea2]. injection E as <-.
  set (p2 := Z.land (p1 + (2 ^ k - 1 + 8)) (Z.lnot (2 ^ k - 1))) in *.
  assert (Hp2 : p2 = p1 + (2 ^ k - 1 + 8) - (p1 + (2 ^ k - 1 + 8)) mod 2 ^ k) by (apply align_down, Hk).
  pose proof (Z.mod_pos_bound (p1 + (2 ^ k - 1 + 8)) (2 ^ k) Hp) as Hm.
  assert (Hmod : p2 mod 2 ^ k = 0).
  { rewrite Hp2, Zminus_mod_idemp_r, Z.sub_diag. apply Z.mod_0_l. lia. }
  exists (mkD p1 (req + (2 ^ k - 1 + 8)) p2 req), (mkRange p1 (req + (2 ^ k - 1 + 8)) :: h), (store_ptr m (p2 - 8) p1).
  cbn [d_p1 d_p2 d_req d_len]. clearbody p2.
  assert (Hdis : Forall (ddisj (mkD p1 (req + (2 ^ k - 1 + 8)) p2 req)) D).
  { apply Forall_forall. intros e He. rewrite forallb_forall in Ea2. specialize (Ea2 (drange e)).
    rewrite H1 in Ea2. specialize (Ea2 (in_map drange D e He)). unfold apart, drange in Ea2. cbn [r_lo r_len] in Ea2.
    unfold ddisj. cbn [d_p1 d_len]. lia. }
  split; [reflexivity|]. split; [|repeat split; auto; intros x Hx; apply store_ptr_other; lia].
  split; [rewrite H1; reflexivity|]. split; [constructor; assumption|]. constructor.
  - unfold DOK. cbn [d_p1 d_p2 d_req d_len]. repeat split; try lia. intros i Hi. apply store_ptr_same, Hi.
  - rewrite Forall_forall in *. intros e He. specialize (H3 e He). specialize (Hdis e He).
    destruct H3 as (E1 & E2 & E3 & E4 & E5). unfold DOK. repeat split; auto. intros i Hi. rewrite <- E5 by exact Hi.
    pose proof (idx8_range i Hi). unfold ddisj in Hdis. cbn [d_p1 d_len] in Hdis. apply store_ptr_other. lia.
Qed.

Lemma d_p1_inj D a b : pairwise ddisj D -> Forall (fun d => 0 < d_len d) D -> In a D -> In b D -> d_p1 a = d_p1 b -> a = b.
Proof.
  intros H Hl Ha Hb E. rewrite Forall_forall in Hl. pose proof (Hl a Ha). pose proof (Hl b Hb).
  destruct (ddisj_in D a b H Ha Hb) as [?|[N|N]]; [assumption|lia|lia].
Qed.
Lemma remove_first_map {A B} (f : A -> B) (q : B -> bool) l :
  remove_first q (map f l) = map f (remove_first (fun x => q (f x)) l).
Proof. induction l as [|x r IH]; [reflexivity|]. cbn. destruct (q (f x)); [reflexivity|]. cbn. rewrite IH. reflexivity. Qed.
Lemma find_unique {A} (q : A -> bool) l x :
  In x l -> q x = true -> (forall y, In y l -> q y = true -> y = x) -> find q l = Some x.
Proof.
  intros Hx Hq Hu. destruct (find q l) as [y|] eqn:E.
  - apply find_some in E. destruct E as [Hy Hqy]. rewrite (Hu y Hy Hqy). reflexivity.
  - exfalso. pose proof (find_none _ _ E x Hx). congruence.
Qed.
Lemma align_free_spec D h m d : HInv D h m -> In d D ->
  exists D', Permutation D (d :: D') /\ align_free (d_p2 d) h m = Ok (map drange D') /\ HInv D' (map drange D') m.
Proof.
  intros (H1 & H2 & H3) Hd. rewrite Forall_forall in H3. pose proof (H3 d Hd) as (E1 & E2 & E3 & E4 & E5).
  unfold align_free. destruct (Z.eqb_spec (d_p2 d) 0); [lia|]. rewrite (load_ptr_ok _ _ _ E5).
  destruct (Z.eqb_spec (d_p1 d) 0); [lia|].
  replace (existsb _ h) with true.
  2:{ symmetry. apply existsb_exists. exists (drange d). split; [rewrite H1; apply in_map, Hd|apply Z.eqb_refl]. }
  rewrite H1, remove_first_map. cbn [drange r_lo].
  assert (F : find (fun x => d_p1 x =? d_p1 d) D = Some d).
  { apply find_unique; [exact Hd|apply Z.eqb_refl|]. intros y Hy Ey.
    apply (d_p1_inj D y d H2); auto; [|lia]. apply Forall_forall. intros z Hz. destruct (H3 z Hz) as (? & ? & ? & ? & _). lia. }
  pose proof (remove_first_perm _ _ _ F) as HP.
  exists (remove_first (fun x => d_p1 x =? d_p1 d) D). split; [exact HP|]. split; [reflexivity|].
  split; [reflexivity|]. pose proof (pairwise_perm _ _ _ ddisj_sym HP H2) as HW. inversion HW; subst.
  split; [assumption|]. apply Forall_forall. intros x Hx. apply H3. eapply remove_first_sub; exact Hx.
Qed.

(* ---------------- segments of the pool ---------------- *)
Definition backed (D : list dblk) (s : seg) : Prop :=
  sptr s mod 4096 = 0 /\ exists d, In d D /\ d_p2 d = sptr s /\ d_req d = scap s.
(** What generalAlloc answers when malloc answers [p1]. *)
Definition base_of (p1 : Z) : Z := if p1 =? 0 then 0 else Z.land (p1 + (2 ^ 12 - 1 + 8)) (Z.lnot (2 ^ 12 - 1)).
Lemma new_cap_nonneg ss : 0 <= new_cap ss.
Proof.
  unfold new_cap. assert (H : forall l m, 0 <= m -> 0 <= fold_left (fun m s => Z.max m (pow2 (smax s))) l m).
  { induction l as [|s r IH]; cbn [fold_left]; intros m Hm; [exact Hm|]. apply IH. lia. }
  pose proof (H ss 0 (Z.le_refl 0)). assert (0 <= 2 ^ 29) by (apply Z.pow_nonneg; lia). lia.
Qed.
Lemma range_free_backed D d ss cap : pairwise ddisj (d :: D) -> Forall (fun e => exists m, DOK m e) (d :: D) -> d_req d = cap ->
  Forall (backed D) ss -> range_free (d_p2 d) cap ss = true.
Proof.
  intros HW HD Hc HB. apply forallb_forall. intros s Hs. rewrite Forall_forall in HB. destruct (HB s Hs) as (_ & e & He & E1 & E2).
  inversion HW as [|? ? Hd _]; subst. rewrite Forall_forall in Hd. specialize (Hd e He). rewrite Forall_forall in HD.
  destruct (HD d (or_introl eq_refl)) as (m1 & A1 & A2 & A3 & A4 & _). destruct (HD e (or_intror He)) as (m2 & B1 & B2 & B3 & B4 & _).
  unfold ddisj in Hd. lia.
Qed.
Lemma backed_more D d s : backed D s -> backed (d :: D) s.
Proof. intros (H1 & e & He & H2 & H3). split; [exact H1|]. exists e. split; [right; exact He|]. split; assumption. Qed.

Definition stable (D : list dblk) (m m' : memory) : Prop :=
  forall d x, In d D -> d_p1 d <= x < d_p1 d + d_len d -> m' x = m x.
Lemma try_segs_sptr ss size ss' sg b : try_segs ss size = AGot ss' sg b ->
  (forall s, In s ss -> exists H, SInv s H) -> map (fun s => (sptr s, scap s)) ss' = map (fun s => (sptr s, scap s)) ss.
Proof.
  intros E HS. apply try_segs_got in E. destruct E as (l1 & s & l2 & s' & -> & -> & -> & Ht).
  destruct (HS s) as [H HH]; [apply in_elt|]. destruct (try_seg_spec _ _ _ _ _ HH Ht) as (_ & E1 & E2 & _).
  rewrite !map_app. cbn [map]. congruence.
Qed.
Lemma PI_SInv mn ss H : PI mn ss H -> forall s, In s ss -> exists U, SInv s U.
Proof. intros (_ & _ & _ & HF & _) s Hs. rewrite Forall_forall in HF. destruct (HF s Hs) as [_ HS]. eauto. Qed.

Lemma backed_ext D ss ss' : map (fun s => (sptr s, scap s)) ss' = map (fun s => (sptr s, scap s)) ss ->
  Forall (backed D) ss -> Forall (backed D) ss'.
Proof.
  intros E H. apply Forall_forall. intros s Hs. rewrite Forall_forall in H.
  assert (Hin : In (sptr s, scap s) (map (fun s => (sptr s, scap s)) ss)) by (rewrite <- E; apply (in_map (fun s => (sptr s, scap s))), Hs).
  apply in_map_iff in Hin. destruct Hin as (t & Et & Ht). injection Et as E1 E2. destruct (H t Ht) as (B1 & d & B2 & B3 & B4).
  unfold backed. rewrite <- E1, <- E2. eauto 6.
Qed.

Lemma grow_alloc_spec answers : forall mn ss H D h m size r,
  PI mn ss H -> HInv D h m -> Forall (backed D) ss ->
  grow_alloc answers mn ss h m size = r ->
  match r with
  | Ok (ss', sg, b, h', m') =>
      alloc_buddy (map base_of answers) mn ss size = Ok (ss', sg, b) /\
      exists N, HInv (N ++ D) h' m' /\ Forall (backed (N ++ D)) ss' /\
        Permutation (map sptr ss') (map d_p2 N ++ map sptr ss) /\ stable D m m'
  | ErrTooLarge => alloc_buddy (map base_of answers) mn ss size = ErrTooLarge
  | NullSegment => alloc_buddy (map base_of answers) mn ss size = NullSegment
  | Waiting => alloc_buddy (map base_of answers) mn ss size = Waiting
  | BackendOverlap => True
  | ErrSymbol | UB => False
  end.
Proof.
  induction answers as [|p1 more IH]; intros mn ss H D h m size r HP HH HB <-; cbn [grow_alloc map alloc_buddy];
    destruct (try_segs ss size) as [| |ss' sg b] eqn:Et; try reflexivity.
  1,3: split; [reflexivity|]; exists []; cbn [app map];
    pose proof (try_segs_sptr _ _ _ _ _ Et (PI_SInv _ _ _ HP)) as Em; split; [exact HH|];
    split; [exact (backed_ext _ _ _ Em HB)|]; split; [|intros d x _ _; reflexivity];
    apply (f_equal (map fst)) in Em; rewrite !map_map in Em; cbn [fst] in Em; change (map sptr ss' = map sptr ss) in Em; rewrite Em; reflexivity.
  change 4096 with (2 ^ 12).
  destruct (align_alloc p1 (new_cap ss) (2 ^ 12) h m) as [o| | | | | |] eqn:Ea; try exact I.
  destruct (align_alloc_spec p1 (new_cap ss) 12 D h m o) as [[-> ->]|(d & h' & m' & -> & HH' & Er & Emod & Hn & E1 & E2 & Hdis & Hst)];
    [lia|apply new_cap_nonneg|exact HH|exact Ea| |].
  - reflexivity.
  - unfold base_of at 2 4 6 8. assert (Eb : base_of p1 = d_p2 d). { unfold base_of. destruct (Z.eqb_spec p1 0); [lia|]. symmetry; exact E2. }
    destruct HH' as (K1 & K2 & K3). pose proof K3 as K3'. apply Forall_inv in K3'. destruct K3' as (G1 & G2 & G3 & G4 & _).
    assert (Hr : range_free (d_p2 d) (new_cap ss) ss = true).
    { apply (range_free_backed D); auto. eapply Forall_impl; [|exact K3]. intros e He. exists m'. exact He. }
    fold (base_of p1). rewrite Eb. destruct (Z.eqb_spec (d_p2 d) 0); [lia|]. rewrite Hr.
    set (fs := fresh_seg (d_p2 d) (new_cap ss) mn (log2_ceil (new_cap ss))).
    assert (HB' : Forall (backed (d :: D)) (insert_seg fs ss)).
    { rewrite (insert_seg_perm fs ss). constructor.
      - split; [exact Emod|]. exists d. split; [left; reflexivity|]. split; [reflexivity|exact Er].
      - eapply Forall_impl; [|exact HB]. intros s. apply backed_more. }
    specialize (IH mn (insert_seg fs ss) H (d :: D) h' m' size _ (PI_expand _ _ _ _ HP Hr) (conj K1 (conj K2 K3)) HB' eq_refl).
    destruct (grow_alloc more mn (insert_seg fs ss) h' m' size) as [[[[[ss' sg] b] h2] m2]| | | | | |]; try exact IH.
    destruct IH as (IH0 & N & N1 & N2 & N3 & N4). split; [exact IH0|]. exists (N ++ [d]). rewrite <- !app_assoc. cbn [app].
    split; [exact N1|]. split; [exact N2|]. split.
    + rewrite N3, map_app, (Permutation_map sptr (insert_seg_perm fs ss)). cbn [map]. rewrite <- app_assoc. reflexivity.
    + intros e x He Hx. rewrite (N4 e x (or_intror He) Hx). apply Hst. rewrite Forall_forall in Hdis. specialize (Hdis e He).
      unfold ddisj in Hdis. lia.
Qed.
