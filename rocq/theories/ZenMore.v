From Verif Require Import Base ZenModel ZenProofs ZenSpec.
Local Open Scope Z_scope.

Lemma compose_malloc_address p l blob page lane :
  0 <= p -> 0 <= l -> p + l < 32 -> in_range p l blob page lane ->
  mkAddr blob (page * 2 ^ l + lane) p l = compose p l blob page lane.
Proof.
  intros Hp Hl H32 (Hb & Hpg & Hln). unfold compose.
  assert (0 < 2 ^ l) by (apply Z.pow_pos_nonneg; lia).
  assert (Hpow : 2 ^ (p + l) = 2 ^ p * 2 ^ l) by (apply Z.pow_add_r; lia).
  assert (H32' : 2 ^ 32 = 2 ^ (32 - p - l) * 2 ^ (p + l)).
  { rewrite <- Z.pow_add_r by lia. f_equal. lia. }
  assert (page * 2 ^ l + lane < 2 ^ (p + l)) by (rewrite Hpow; nia).
  rewrite mkAddr_eq; try lia; try nia.
Qed.

Lemma compose_fields p l blob page lane :
  0 <= p -> 0 <= l -> in_range p l blob page lane ->
  getBlobAddr (compose p l blob page lane) p l = blob /\
  getPageAddr (compose p l blob page lane) p l = page /\
  getLaneAddr (compose p l blob page lane) p l = lane.
Proof.
  intros Hp Hl (Hb & Hpg & Hln). unfold compose. rewrite <- Z.add_assoc.
  apply (fields_of_triple p l blob page lane); lia.
Qed.

Lemma zreach_inv p l ops z held :
  6 <= p + l -> zreach p l MAnonymous ops z held -> frees_first_page_only p l ops -> fits z ->
  zinv (z, held) /\ z_p z = p /\ z_l z = l.
Proof.
  intros H6 (z0 & Hi & Hr) Hf Hfit.
  destruct (zinit_inv p l z0 H6 Hi) as (HI & Ep & El & Em).
  assert (Hops : Forall (free_first_page (z_p z0) (z_l z0)) ops).
  { apply Forall_forall. intros o Ho. destruct o as [o1 o2|a]; simpl; auto. rewrite Ep, El. apply Hf; auto. }
  assert (Hpl : z_p z = z_p z0 /\ z_l z = z_l z0).
  { clear -Hr. revert z0 Hr. generalize (@nil Z) as h0. induction ops as [|o r IH]; cbn [zrun]; intros h0 z0 Hr.
    - injection Hr as <- <-. auto.
    - destruct (zstep (z0, h0) o) as [[z1 h1]|] eqn:E; [|discriminate]. apply IH in Hr.
      assert (Hff : forall zz id, z_p (fst (find_free zz id)) = z_p zz /\ z_l (fst (find_free zz id)) = z_l zz).
      { intros zz id. unfold find_free. destruct (find_blob id (z_blobs zz)); [|auto].
        destruct (take_bit 0 (bl_words b)) as [[k ws]|]; auto. }
      assert (Hse : forall od zz, z_p (fst (search zz od)) = z_p zz /\ z_l (fst (search zz od)) = z_l zz).
      { induction od as [|id od IHo]; intros zz; [auto|]. cbn [search]. pose proof (Hff zz id) as Hx.
        destruct (find_free zz id) as [zz1 a]. cbn [fst] in Hx. destruct (a =? 2 ^ 32 - 1); [|exact Hx].
        specialize (IHo zz1). destruct Hx as [<- <-]. exact IHo. }
      assert (z_p z1 = z_p z0 /\ z_l z1 = z_l z0) as [<- <-]; [|exact Hr].
      destruct o as [o1 o2|a]; cbn [zstep] in E.
      + unfold zen_malloc in E. pose proof (Hse o1 z0) as Hx. destruct (search z0 o1) as [za [x|]]; cbn [fst] in Hx.
        * injection E as <- <-. exact Hx.
        * destruct Hx as [<- <-]. destruct (1 <=? length (z_blobs za))%nat.
          -- pose proof (Hse o2 (create_blob za)) as Hy. destruct (search (create_blob za) o2) as [zb [y|]]; [|discriminate].
             injection E as <- <-. exact Hy.
          -- pose proof (Hse o2 za) as Hy. destruct (search za o2) as [zb [y|]]; [|discriminate].
             injection E as <- <-. exact Hy.
      + destruct (existsb (Z.eqb a) h0); [|discriminate]. injection E as <- <-.
        unfold zen_free. destruct (find_blob _ _); auto. }
  destruct Hpl as [Ep' El'].
  destruct (zrun_inv ops z0 [] z held HI Em Hops Hr) as (HI' & E1 & E2).
  - unfold fits in Hfit. unfold lanes. rewrite <- Ep', <- El'. exact Hfit.
  - split; [exact HI'|]. split; congruence.
Qed.

Lemma page_zero_config a l : getPageAddr a 0 l = 0.
Proof. unfold getPageAddr. change (2 ^ 0 - 1) with 0. apply Z.land_0_r. Qed.

(** every lane of the existing blobs is held or can be handed out: malloc never grows while a lane is free *)
Lemma malloc_no_growth p l ops z held o1 o2 b k z' a :
  6 <= p + l -> zreach p l MAnonymous ops z held -> frees_first_page_only p l ops -> fits z ->
  In b (z_blobs z) -> In (bl_id b) o1 -> 0 <= k < 2 ^ (p + l) -> ~ In (bl_id b * 2 ^ (p + l) + k) held ->
  zen_malloc z o1 o2 = (z', a) -> exists a', a = Some a' /\ ~ In a' held /\ length (z_blobs z') = length (z_blobs z).
Proof.
  intros H6 Hz Hf Hfit Hb Ho Hk Hn Hm.
  destruct (zreach_inv _ _ _ _ _ H6 Hz Hf Hfit) as (HI & Ep & El).
  assert (HL : lanes z = 2 ^ (p + l)) by (unfold lanes; rewrite Ep, El; reflexivity).
  pose proof (lanes_pos z ltac:(apply HI)) as Hlp.
  unfold fits in Hfit. fold (lanes z) in Hfit.
  unfold zen_malloc in Hm. destruct (search z o1) as [z1 r] eqn:Es.
  pose proof (search_spec o1 z held z1 r HI ltac:(nia) Es) as Hs. destruct r as [a1|].
  - injection Hm as <- <-. exists a1. destruct Hs as (Hna & _ & Hl & _). auto.
  - exfalso. destruct Hs as [_ Hall]. apply Hn. rewrite <- HL in *. apply Hall; auto.
Qed.

(** ** TLB history *)
Lemma tlb_seg_lookup seg : forall t a, ~ In (TRemove a) seg ->
  tlb_lookup (fold_left tlb_step seg t) a =
  match tlb_lookup t a with Some x => Some x | None => first_insert a seg end.
Proof.
  induction seg as [|o r IH]; intros t a Hn; cbn [fold_left first_insert].
  - destruct (tlb_lookup t a); reflexivity.
  - rewrite IH by (intro H; apply Hn; right; exact H).
    destruct o as [b d|b]; cbn [tlb_step].
    + rewrite tlb_lookup_insert. destruct (tlb_lookup t a); [reflexivity|]. destruct (b =? a); reflexivity.
    + rewrite tlb_lookup_remove. destruct (Z.eqb_spec b a) as [->|]; [|reflexivity].
      exfalso. apply Hn. left; reflexivity.
Qed.

Lemma tlb_history ops a seg : since_removed a ops seg ->
  tlb_lookup (fold_left tlb_step ops []) a = first_insert a seg.
Proof.
  intros (pre & -> & Hpre & Hn). rewrite fold_left_app, tlb_seg_lookup by exact Hn.
  assert (tlb_lookup (fold_left tlb_step pre []) a = None) as ->; [|reflexivity].
  destruct Hpre as [->|(pre' & ->)]; [reflexivity|].
  rewrite fold_left_app. cbn [fold_left tlb_step]. rewrite tlb_lookup_remove, Z.eqb_refl. reflexivity.
Qed.

Lemma since_removed_exists a ops : exists seg, since_removed a ops seg.
Proof.
  induction ops as [|o r IH] using rev_ind.
  - exists [], []. split; [reflexivity|split; [left; reflexivity|intros []]].
  - destruct IH as (seg & pre & -> & Hpre & Hn).
    assert (Hdec : o = TRemove a \/ o <> TRemove a).
    { destruct o as [b d|b]; [right; discriminate|]. destruct (Z.eq_dec b a); [left; congruence|right; congruence]. }
    destruct Hdec as [->|Hne].
    + exists [], ((pre ++ seg) ++ [TRemove a]). split; [rewrite app_nil_r; reflexivity|].
      split; [right; eauto|intros []].
    + exists (seg ++ [o]), pre. split; [rewrite app_assoc; reflexivity|]. split; [exact Hpre|].
      intro H. apply in_app_or in H. destruct H as [H|[H|[]]]; auto.
Qed.

(** ** Allocator = file system + TLB *)
Lemma prun_proj basep tok ops : forall c held c' held',
  prun basep tok (c, held) ops = Some (c', held') ->
  zrun (pc_zen c, held) ops = Some (pc_zen c', held').
Proof.
  induction ops as [|o r IH]; cbn [prun zrun]; intros c held c' held' H.
  - injection H as <- <-. reflexivity.
  - destruct (pstep basep tok (c, held) o) as [[c1 h1]|] eqn:E; [|discriminate].
    assert (zstep (pc_zen c, held) o = Some (pc_zen c1, h1)) as ->; [|apply IH; exact H].
    destruct o as [o1 o2|a]; cbn [pstep zstep] in *.
    + unfold pca_alloc in E. destruct (zen_malloc (pc_zen c) o1 o2) as [z' [a|]]; [|discriminate].
      injection E as <- <-. reflexivity.
    + destruct (existsb (Z.eqb a) held); [|discriminate]. injection E as <- <-. reflexivity.
Qed.

Definition pmapped basep tok (c : pca) (held : list Z) : Prop :=
  forall a, tlb_lookup (pc_tlb c) a =
            if existsb (Z.eqb a) held then Some (phys basep (pc_zen c) tok a) else None.

Lemma existsb_in a l : existsb (Z.eqb a) l = true <-> In a l.
Proof.
  rewrite existsb_exists. split; [intros (x & Hx & E); apply Z.eqb_eq in E; congruence|].
  intro H. exists a. split; auto. apply Z.eqb_refl.
Qed.

Lemma existsb_notin a l : existsb (Z.eqb a) l = false <-> ~ In a l.
Proof. rewrite <- existsb_in. destruct (existsb _ _); split; congruence. Qed.

Lemma access_stable z held z' held' tok a :
  zinv (z, held) -> zinv (z', held') -> z_p z = z_p z' -> z_l z = z_l z' ->
  (length (z_blobs z) <= length (z_blobs z'))%nat -> In a held ->
  zen_access z tok a = zen_access z' tok a.
Proof.
  intros (Hwf & _ & Hh & _) (Hwf' & _) Ep El Hlen Ha. unfold zen_access. rewrite <- Ep, <- El.
  destruct (Hh a Ha) as (b & Hb & k & Hk & Ea).
  assert (Hid : getBlobAddr a (z_p z) (z_l z) = bl_id b).
  { destruct Hwf as (H1 & H2 & _). destruct (fields_eq a (z_p z) (z_l z) H1 H2) as (-> & _). fold (lanes z).
    rewrite Ea. symmetry. apply Z.div_unique with k; [left; lia|ring]. }
  rewrite Hid.
  assert (Hex : forall zz, zwf zz -> 0 <= bl_id b < Z.of_nat (length (z_blobs zz)) -> exists x, find_blob (bl_id b) (z_blobs zz) = Some x).
  { intros zz (_ & _ & _ & Hids & _) Hr. destruct (find_blob (bl_id b) (z_blobs zz)) as [x|] eqn:E; [eauto|].
    exfalso. assert (Hin : In (bl_id b) (map bl_id (z_blobs zz))).
    { rewrite Hids. apply in_map_iff. exists (Z.to_nat (bl_id b)). split; [lia|]. apply in_seq. lia. }
    apply in_map_iff in Hin. destruct Hin as (y & Ey & Hy). unfold find_blob in E. apply (find_none _ _ E) in Hy. lia. }
  pose proof (ids_in z b Hwf Hb) as Hr.
  destruct (Hex z Hwf Hr) as (x & ->). destruct (Hex z' Hwf') as (y & ->); [lia|]. reflexivity.
Qed.

Lemma prun_mapped basep tok ops : forall c held c' held',
  zinv (pc_zen c, held) -> z_mmap (pc_zen c) = MAnonymous -> pmapped basep tok c held ->
  Forall (free_first_page (z_p (pc_zen c)) (z_l (pc_zen c))) ops ->
  prun basep tok (c, held) ops = Some (c', held') ->
  (Z.of_nat (length (z_blobs (pc_zen c'))) + 1) * lanes (pc_zen c) < 2 ^ 32 ->
  pmapped basep tok c' held'.
Proof.
  induction ops as [|o r IH]; intros c held c' held' HI Hm HM Hops H Hcap; cbn [prun] in H.
  - injection H as <- <-. exact HM.
  - inversion Hops as [|? ? Ho Hr]; subst.
    destruct (pstep basep tok (c, held) o) as [[c1 h1]|] eqn:E; [|discriminate].
    pose proof (prun_proj _ _ _ _ _ _ _ H) as Hz. pose proof (zrun_blobs_mono _ _ _ Hz) as Hmono. cbn [fst] in Hmono.
    pose proof (lanes_pos _ ltac:(apply HI)) as Hlp.
    destruct o as [o1 o2|a]; cbn [pstep] in E.
    + unfold pca_alloc in E. destruct (zen_malloc (pc_zen c) o1 o2) as [z' [a|]] eqn:Em; [|discriminate].
      injection E as <- <-. cbn [pc_zen] in *.
      pose proof (step_blobs_mono (pc_zen c, held) (ZMalloc o1 o2) (z', held ++ [a])) as Hm2. cbn [zstep fst] in Hm2.
      rewrite Em in Hm2. specialize (Hm2 eq_refl).
      destruct (malloc_spec (pc_zen c) held o1 o2 z' a HI Hm ltac:(nia) Em) as (Hn & HI' & El & Ep & Ell & Em' & Hlen).
      apply (IH (mkPca z' (tlb_insert (pc_tlb c) a (phys basep z' tok a))) (held ++ [a])); cbn [pc_zen]; auto.
      * intro x. cbn [pc_tlb pc_zen]. rewrite tlb_lookup_insert, (HM x), existsb_app. cbn [existsb].
        rewrite orb_false_r. destruct (existsb (Z.eqb x) held) eqn:Ex; cbn [orb].
        -- apply existsb_in in Ex. f_equal. unfold phys.
           rewrite (access_stable (pc_zen c) held z' (held ++ [a]) tok x); auto.
        -- destruct (Z.eqb_spec a x) as [->|Hne]; [rewrite Z.eqb_refl; reflexivity|].
           destruct (Z.eqb_spec x a); [congruence|reflexivity].
      * rewrite Ep, Ell. exact Hr.
      * rewrite El. exact Hcap.
    + destruct (existsb (Z.eqb a) held) eqn:Ee; [|discriminate]. injection E as <- <-. apply existsb_in in Ee.
      cbn [pc_zen pca_free] in *.
      destruct (free_spec (pc_zen c) held a HI Ee Ho) as (HI' & El & Ep & Ell & Em' & Hlen).
      apply (IH (pca_free c a) (remove_first (Z.eqb a) held)); cbn [pc_zen pca_free]; auto.
      * rewrite Em'. exact Hm.
      * assert (Hperm : Permutation held (a :: remove_first (Z.eqb a) held)).
        { apply remove_first_perm. destruct (find (Z.eqb a) held) as [x|] eqn:E.
          - apply find_some in E. destruct E as [_ E]. apply Z.eqb_eq in E. congruence.
          - apply (find_none _ _ E) in Ee. rewrite Z.eqb_refl in Ee. discriminate. }
        assert (Hnd : NoDup (a :: remove_first (Z.eqb a) held)).
        { eapply Permutation_NoDup; [exact Hperm|]. destruct HI as (_ & Hnd & _). exact Hnd. }
        inversion Hnd as [|? ? Hna _]; subst.
        intro x. cbn [pc_tlb pc_zen pca_free]. rewrite tlb_lookup_remove, (HM x).
        destruct (Z.eqb_spec a x) as [->|Hne].
        -- apply existsb_notin in Hna. rewrite Hna. reflexivity.
        -- destruct (existsb (Z.eqb x) held) eqn:Ex.
           ++ apply existsb_in in Ex. assert (Hin : In x (remove_first (Z.eqb a) held)).
              { rewrite Hperm in Ex. destruct Ex; [congruence|auto]. }
              assert (Et := Hin). apply existsb_in in Et. rewrite Et. f_equal. unfold phys.
              rewrite (access_stable (pc_zen c) held (zen_free (pc_zen c) a) (remove_first (Z.eqb a) held) tok x); auto. lia.
           ++ apply existsb_notin in Ex. assert (Et : ~ In x (remove_first (Z.eqb a) held)).
              { intro Hin. apply Ex. rewrite Hperm. right; exact Hin. }
              apply existsb_notin in Et. rewrite Et. reflexivity.
      * rewrite Ep, Ell. exact Hr.
      * rewrite El. exact Hcap.
Qed.

Lemma preach_mapped basep tok p l ops c held :
  6 <= p + l -> preach basep tok p l MAnonymous ops c held -> frees_first_page_only p l ops -> fits (pc_zen c) ->
  forall a, In a held -> pca_physical c a = Some (phys basep (pc_zen c) tok a).
Proof.
  intros H6 (z0 & Hi & Hr) Hf Hfit a Ha.
  destruct (zinit_inv p l z0 H6 Hi) as (HI & Ep & El & Em).
  assert (Hz : zreach p l MAnonymous ops (pc_zen c) held).
  { exists z0. split; auto. apply (prun_proj basep tok ops (mkPca z0 []) []). exact Hr. }
  destruct (zreach_inv _ _ _ _ _ H6 Hz Hf Hfit) as (_ & Ep' & El').
  assert (HM : pmapped basep tok c held).
  { apply (prun_mapped basep tok ops (mkPca z0 []) [] c held); cbn [pc_zen]; auto.
    - intro x. reflexivity.
    - apply Forall_forall. intros o Ho. destruct o as [o1 o2|x]; simpl; auto. rewrite Ep, El. apply Hf; auto.
    - unfold fits in Hfit. unfold lanes. rewrite Ep, El, <- Ep', <- El'. exact Hfit. }
  unfold pca_physical. rewrite HM. apply existsb_in in Ha. rewrite Ha. reflexivity.
Qed.

(** ** Byte ranges *)
Lemma access_range p l tok addr addr' :
  0 <= p -> 0 <= l -> 0 < tok -> 0 <= addr -> 0 <= addr' ->
  getBlobAddr addr p l = getBlobAddr addr' p l -> addr <> addr' ->
  let off a := (getPageAddr a p l * 2 ^ l + getLaneAddr a p l) * tok in
  0 <= off addr /\ off addr + tok <= 2 ^ (p + l) * tok /\
  (off addr + tok <= off addr' \/ off addr' + tok <= off addr).
Proof.
  intros Hp Hl Ht Ha Ha' Hb Hne off.
  assert (0 < 2 ^ l) by (apply Z.pow_pos_nonneg; lia).
  assert (0 < 2 ^ p) by (apply Z.pow_pos_nonneg; lia).
  assert (Hpow : 2 ^ (p + l) = 2 ^ p * 2 ^ l) by (apply Z.pow_add_r; lia).
  assert (Hoff : forall a, getPageAddr a p l * 2 ^ l + getLaneAddr a p l = a mod 2 ^ (p + l)).
  { intro a. destruct (fields_eq a p l Hp Hl) as (_ & -> & ->).
    rewrite Hpow, Z.mul_comm, (Z.mul_comm (2 ^ p)). rewrite Z.rem_mul_r by lia. lia. }
  unfold off. rewrite !Hoff.
  destruct (fields_eq addr p l Hp Hl) as (E1 & _). destruct (fields_eq addr' p l Hp Hl) as (E2 & _).
  rewrite E1, E2 in Hb.
  assert (Hn : 0 < 2 ^ (p + l)) by (apply Z.pow_pos_nonneg; lia).
  pose proof (Z.mod_pos_bound addr _ Hn) as B1. pose proof (Z.mod_pos_bound addr' _ Hn) as B2.
  assert (addr mod 2 ^ (p + l) <> addr' mod 2 ^ (p + l)).
  { intro E. apply Hne. rewrite (Z.div_mod addr (2 ^ (p + l))), (Z.div_mod addr' (2 ^ (p + l))), Hb, E by lia. reflexivity. }
  repeat split; nia.
Qed.

Lemma blob_holds_lanes p l ele bytes lns :
  0 <= p -> 0 <= l -> 0 < lns -> 0 <= ele -> 0 <= bytes ->
  2 ^ (p + l) * lane_bytes ele bytes lns <= blob_bytes p l ele bytes lns.
Proof.
  intros Hp Hl Hn He Hb. unfold lane_bytes, blob_bytes.
  assert (0 < 2 ^ (p + l)) by (apply Z.pow_pos_nonneg; lia).
  replace (2 ^ (p + l) * ele * bytes) with (2 ^ (p + l) * (bytes * ele)) by ring.
  apply Z.div_le_lower_bound; [lia|].
  pose proof (Z.mul_div_le (bytes * ele) lns Hn). nia.
Qed.

Definition zhist (p l : Z) (m : mmap_type) (ops : list zop) : option (zenfs * list Z) :=
  match zen_init p l m with Some z0 => zrun (z0, []) ops | None => None end.
Lemma zhist_check p l m ops (P : zenfs -> list Z -> bool) :
  match zhist p l m ops with Some (z, h) => P z h | None => false end = true ->
  exists z h, zreach p l m ops z h /\ P z h = true.
Proof.
  unfold zhist, zreach. destruct (zen_init p l m) as [z0|]; [|discriminate].
  destruct (zrun (z0, []) ops) as [[z h]|] eqn:E; [|discriminate]. intro H. exists z, h. split; eauto.
Qed.
Definition phist basep tok (p l : Z) (m : mmap_type) (ops : list zop) : option (pca * list Z) :=
  match zen_init p l m with Some z0 => prun basep tok (mkPca z0 [], []) ops | None => None end.
Lemma phist_check basep tok p l m ops (P : pca -> list Z -> bool) :
  match phist basep tok p l m ops with Some (c, h) => P c h | None => false end = true ->
  exists c h, preach basep tok p l m ops c h /\ P c h = true.
Proof.
  unfold phist, preach. destruct (zen_init p l m) as [z0|]; [|discriminate].
  destruct (prun basep tok (mkPca z0 [], []) ops) as [[z h]|] eqn:E; [|discriminate]. intro H. exists z, h. split; eauto.
Qed.

Fixpoint has_dup (l : list Z) : bool :=
  match l with [] => false | x :: r => existsb (Z.eqb x) r || has_dup r end.
Lemma has_dup_spec l : has_dup l = true -> ~ NoDup l.
Proof.
  induction l as [|x r IH]; simpl; [discriminate|]. intros H Hn. inversion Hn as [|? ? Hx Hr]; subst.
  apply orb_prop in H. destruct H as [H|H]; [apply existsb_in in H; contradiction|]. apply IH in H; contradiction.
Qed.
