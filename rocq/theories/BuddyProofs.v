(** Invariant proofs for the buddy pool model. *)
From Verif Require Import Base BuddyModel.
Local Open Scope Z_scope.

Lemma pow2_pos o : 0 < pow2 o.
Proof. unfold pow2. apply Z.pow_pos_nonneg; lia. Qed.
Lemma pow2_S o : pow2 (S o) = 2 * pow2 o.
Proof. unfold pow2. rewrite Nat2Z.inj_succ, Z.pow_succ_r; lia. Qed.
Lemma pow2_add a b : pow2 (a + b) = pow2 a * pow2 b.
Proof. unfold pow2. rewrite Nat2Z.inj_add, Z.pow_add_r; lia. Qed.
Lemma pow2_le a b : (a <= b)%nat -> pow2 a <= pow2 b.
Proof. intro H. unfold pow2. apply Z.pow_le_mono_r; lia. Qed.

(** ** Buddy address arithmetic *)
Definition buddy_q (q : Z) : Z := if Z.even q then q + 1 else q - 1.

Lemma lxor_1 q : Z.lxor q 1 = buddy_q q.
Proof.
  unfold buddy_q. apply Z.bits_inj'; intros n Hn. rewrite Z.lxor_spec.
  destruct (Z.eq_dec n 0) as [->|Hn0].
  - rewrite Z.bit0_odd. change (Z.testbit 1 0) with true. rewrite Z.bit0_odd.
    rewrite <- Z.negb_even.
    destruct (Z.even q) eqn:E.
    + rewrite Z.odd_add, <- Z.negb_even, E. reflexivity.
    + rewrite Z.odd_sub, <- Z.negb_even, E. reflexivity.
  - replace (Z.testbit 1 n) with false
      by (symmetry; change 1 with (2^0); apply Z.pow2_bits_false; lia).
    rewrite xorb_false_r.
    replace n with (Z.succ (n-1)) by lia.
    destruct (Z.even q) eqn:E.
    + apply Z.even_spec in E. destruct E as [m ->].
      rewrite Z.testbit_even_succ, Z.testbit_odd_succ by lia. reflexivity.
    + assert (Z.odd q = true) as Ho by (rewrite <- Z.negb_even, E; reflexivity).
      apply Z.odd_spec in Ho. destruct Ho as [m ->].
      replace (2 * m + 1 - 1) with (2 * m) by lia.
      rewrite Z.testbit_even_succ, Z.testbit_odd_succ by lia. reflexivity.
Qed.

Lemma lxor_buddy q o : Z.lxor (q * pow2 o) (pow2 o) = buddy_q q * pow2 o.
Proof.
  rewrite <- lxor_1. unfold pow2.
  replace (2 ^ Z.of_nat o) with (1 * 2 ^ Z.of_nat o) at 2 by lia.
  rewrite <- !Z.shiftl_mul_pow2 by lia. symmetry. apply Z.shiftl_lxor.
Qed.

Lemma even_cases q : (Z.even q = true /\ exists m, q = 2 * m) \/ (Z.even q = false /\ exists m, q = 2 * m + 1).
Proof.
  destruct (Z.even q) eqn:E; [left|right]; split; auto.
  - apply Z.even_spec in E. exact E.
  - assert (Z.odd q = true) as Ho by (rewrite <- Z.negb_even, E; reflexivity).
    apply Z.odd_spec in Ho. exact Ho.
Qed.

(** ** The per-segment invariant on flat lists: [F] free blocks, [U] blocks handed out *)
Definition disj (a b : blk) : Prop :=
  bptr a + bsize a <= bptr b \/ bptr b + bsize b <= bptr a.

Definition wfb (base : Z) (mn mx : nat) (b : blk) : Prop :=
  (mn <= border b <= mx)%nat /\ bsize b = pow2 (border b) /\
  exists q, 0 <= q /\ bptr b = base + q * pow2 (border b) /\ (q + 1) * pow2 (border b) <= pow2 mx.

Definition covers (base : Z) (mx : nat) (L : list blk) : Prop :=
  forall x, base <= x < base + pow2 mx -> exists b, In b L /\ bptr b <= x < bptr b + bsize b.

Definition nobuddy (base : Z) (mx : nat) (F : list blk) : Prop :=
  forall b c, In b F -> In c F -> border b = border c -> (border b < mx)%nat ->
  bptr c - base <> Z.lxor (bptr b - base) (pow2 (border b)).

Definition sumsz (L : list blk) : Z := fold_right (fun b a => bsize b + a) 0 L.

Definition CInv (base : Z) (mn mx : nat) (F U : list blk) : Prop :=
  Forall (wfb base mn mx) (F ++ U) /\ pairwise disj (F ++ U) /\ covers base mx (F ++ U) /\
  nobuddy base mx F /\ sumsz (F ++ U) = pow2 mx.

Lemma disj_sym a b : disj a b -> disj b a.
Proof. unfold disj; tauto. Qed.

Lemma sumsz_perm L L' : Permutation L L' -> sumsz L = sumsz L'.
Proof. induction 1; simpl; lia. Qed.
Lemma sumsz_cons b L : sumsz (b :: L) = bsize b + sumsz L.
Proof. reflexivity. Qed.
Lemma sumsz_app L L' : sumsz (L ++ L') = sumsz L + sumsz L'.
Proof. induction L; simpl; lia. Qed.

Lemma CInv_perm base mn mx F U F' U' :
  Permutation F F' -> Permutation U U' -> CInv base mn mx F U -> CInv base mn mx F' U'.
Proof.
  intros HF HU (H1 & H2 & H3 & H4 & H5).
  assert (HP : Permutation (F ++ U) (F' ++ U')) by (apply Permutation_app; assumption).
  repeat split.
  - rewrite <- HP. exact H1.
  - eapply pairwise_perm; [exact disj_sym|exact HP|exact H2].
  - intros x Hx. destruct (H3 x Hx) as (b & Hb & Hr). exists b. split; [|exact Hr].
    rewrite <- HP. exact Hb.
  - intros b c Hb Hc. apply H4; rewrite HF; assumption.
  - rewrite <- (sumsz_perm _ _ HP). exact H5.
Qed.

Lemma CInv_pop base mn mx b F U : CInv base mn mx (b :: F) U -> CInv base mn mx F (b :: U).
Proof.
  intros (H1 & H2 & H3 & H4 & H5).
  assert (HP : Permutation ((b :: F) ++ U) (F ++ b :: U)) by (apply Permutation_middle).
  repeat split.
  - rewrite <- HP. exact H1.
  - eapply pairwise_perm; [exact disj_sym|exact HP|exact H2].
  - intros x Hx. destruct (H3 x Hx) as (b' & Hb & Hr). exists b'. split; [|exact Hr].
    rewrite <- HP. exact Hb.
  - intros c d Hc Hd. apply H4; right; assumption.
  - rewrite <- (sumsz_perm _ _ HP). exact H5.
Qed.

Lemma wfb_pos base mn mx b : wfb base mn mx b -> 0 < bsize b.
Proof. intros (_ & -> & _). apply pow2_pos. Qed.

Lemma pairwise_in {A} (R : A -> A -> Prop) l x y :
  (forall a b, R a b -> R b a) -> pairwise R l -> In x l -> In y l -> x <> y -> R x y.
Proof.
  intros Hs H; induction H as [|z l Hz H IH]; simpl; [tauto|].
  rewrite Forall_forall in Hz.
  intros [->|Hx] [->|Hy] Hne; auto; congruence.
Qed.

(** the block in hand is disjoint from every free block *)
Lemma CInv_disj_hd base mn mx F b U c :
  CInv base mn mx F (b :: U) -> In c F -> disj b c.
Proof.
  intros (_ & H2 & _) Hc. apply pairwise_app in H2. destruct H2 as (_ & _ & H).
  apply disj_sym. apply H; simpl; auto.
Qed.

Lemma CInv_wf base mn mx F U b : CInv base mn mx F U -> In b (F ++ U) -> wfb base mn mx b.
Proof. intros (H & _) Hb. rewrite Forall_forall in H. auto. Qed.

Lemma Forall_disj_split a b c L :
  bptr a = bptr c -> bptr b = bptr c + bsize a -> bsize c = bsize a + bsize b ->
  0 < bsize a -> 0 < bsize b ->
  Forall (disj c) L -> Forall (disj a) L /\ Forall (disj b) L.
Proof.
  intros H1 H2 H3 H4 H5 HF. rewrite !Forall_forall in *.
  split; intros x Hx; specialize (HF x Hx); unfold disj in *; lia.
Qed.

Lemma Forall_disj_join a b c L :
  bptr a = bptr c -> bptr b = bptr c + bsize a -> bsize c = bsize a + bsize b ->
  Forall (fun x => 0 < bsize x) L ->
  Forall (disj a) L -> Forall (disj b) L -> Forall (disj c) L.
Proof.
  intros H1 H2 H3 HL Ha Hb. rewrite Forall_forall in *.
  intros x Hx. specialize (Ha x Hx); specialize (Hb x Hx). specialize (HL x Hx).
  unfold disj in *; simpl in *; lia.
Qed.

(** Splitting the block in hand. *)
Lemma CInv_split base mn mx F U b o al al' :
  CInv base mn mx F (b :: U) -> border b = S o -> (mn <= o)%nat ->
  CInv base mn mx (mkBlk (bptr b + bsize b / 2) (bsize b / 2) o al' :: F)
                  (mkBlk (bptr b) (bsize b / 2) o al :: U).
Proof.
  intros H Ho Hmn.
  pose proof (CInv_wf _ _ _ _ _ b H ltac:(apply in_or_app; right; left; reflexivity)) as Hb.
  destruct Hb as (Hbo & Hbs & q & Hq0 & Hq & Hqm).
  rewrite Ho in *. rewrite pow2_S in *.
  assert (Hdiv : bsize b / 2 = pow2 o) by (rewrite Hbs, Z.mul_comm, Z.div_mul; lia).
  rewrite Hdiv. pose proof (pow2_pos o) as Hpo.
  set (c := mkBlk (bptr b + pow2 o) (pow2 o) o al').
  set (a := mkBlk (bptr b) (pow2 o) o al).
  assert (Hnob : forall d, In d F -> border d = o -> bptr d <> bptr b).
  { intros d Hd Hdo Hp. pose proof (CInv_disj_hd _ _ _ _ _ _ _ H Hd) as Hdj.
    pose proof (CInv_wf _ _ _ _ _ d H ltac:(apply in_or_app; left; exact Hd)) as Hw.
    apply wfb_pos in Hw. unfold disj in Hdj. lia. }
  destruct H as (H1 & H2 & H3 & H4 & H5).
  assert (HP : Permutation (F ++ b :: U) (b :: F ++ U)) by (symmetry; apply Permutation_middle).
  assert (HP2 : Permutation ((c :: F) ++ a :: U) (c :: a :: F ++ U)).
  { simpl. constructor. symmetry; apply Permutation_middle. }
  assert (Hwc : wfb base mn mx c).
  { unfold wfb, c; simpl. split; [lia|split; [reflexivity|]]. exists (2 * q + 1). lia. }
  assert (Hwa : wfb base mn mx a).
  { unfold wfb, a; simpl. split; [lia|split; [reflexivity|]]. exists (2 * q). lia. }
  repeat split.
  - rewrite HP2. rewrite HP in H1. inversion H1; subst. constructor; [exact Hwc|constructor; [exact Hwa|assumption]].
  - eapply pairwise_perm; [exact disj_sym|symmetry; exact HP2|].
    eapply pairwise_perm in H2; [|exact disj_sym|exact HP].
    inversion H2 as [|? ? Ha Hr]; subst.
    destruct (Forall_disj_split a c b (F ++ U)) as [Hda Hdc]; simpl; auto; try lia.
    constructor; [constructor; [unfold disj, a, c; simpl; lia|exact Hdc]|constructor; assumption].
  - intros x Hx. destruct (H3 x Hx) as (d & Hd & Hr). rewrite HP in Hd.
    destruct Hd as [<-|Hd].
    + destruct (Z_lt_ge_dec x (bptr b + pow2 o)) as [Hl|Hg].
      * exists a. split; [rewrite HP2; simpl; auto|unfold a; simpl; lia].
      * exists c. split; [rewrite HP2; simpl; auto|unfold c; simpl; lia].
    + exists d. split; [rewrite HP2; simpl; auto|exact Hr].
  - assert (Hbc : Z.lxor (bptr c - base) (pow2 o) = bptr b - base).
    { unfold c; simpl. replace (bptr b + pow2 o - base) with ((2 * q + 1) * pow2 o) by lia.
      rewrite lxor_buddy. unfold buddy_q. replace (Z.even (2 * q + 1)) with false.
      2:{ symmetry. rewrite Z.even_add, Z.even_mul. reflexivity. } lia. }
    intros d e Hd He Hde Hdm. destruct Hd as [<-|Hd]; destruct He as [<-|He].
    + change (border c) with o. rewrite Hbc. unfold c; simpl. lia.
    + change (border c) with o in *. rewrite Hbc. intro Hc.
      apply (Hnob e He); [lia|lia].
    + change (border c) with o in *. rewrite Hde. intro Hc.
      apply (Hnob d Hd); [lia|].
      assert (Z.lxor (bptr c - base) (pow2 o) = bptr d - base) as Hx.
      { rewrite Hc. rewrite Z.lxor_assoc, Z.lxor_nilpotent, Z.lxor_0_r. reflexivity. }
      lia.
    + apply H4; auto.
  - rewrite (sumsz_perm _ _ HP2). rewrite (sumsz_perm _ _ HP) in H5.
    change (pow2 o + (pow2 o + sumsz (F ++ U)) = pow2 mx).
    change (bsize b + sumsz (F ++ U) = pow2 mx) in H5. lia.
Qed.

(** Merging the block in hand with a free buddy. *)
Lemma CInv_merge base mn mx F U b c al :
  CInv base mn mx (c :: F) (b :: U) -> border c = border b ->
  bptr c - base = Z.lxor (bptr b - base) (pow2 (border b)) ->
  (border b < mx)%nat /\
  CInv base mn mx F (mkBlk (if bptr b <? bptr c then bptr b else bptr c) (bsize b * 2) (S (border b)) al :: U).
Proof.
  intros H Hco Hx.
  pose proof (CInv_wf _ _ _ _ _ b H ltac:(apply in_or_app; right; left; reflexivity)) as Hb.
  pose proof (CInv_wf _ _ _ _ _ c H ltac:(left; reflexivity)) as Hc.
  destruct Hb as (Hbo & Hbs & q & Hq0 & Hq & Hqm).
  destruct Hc as (_ & Hcs & q' & Hq0' & Hq' & Hqm').
  rewrite Hco in *. set (o := border b) in *. pose proof (pow2_pos o) as Hpo.
  replace (bptr b - base) with (q * pow2 o) in Hx by lia.
  rewrite lxor_buddy in Hx.
  assert (Hqq : q' = buddy_q q) by nia.
  assert (Hmx : (o < mx)%nat).
  { destruct (Nat.eq_dec o mx) as [->|]; [|lia]. exfalso.
    assert (q = 0) by nia. assert (q' = 0) by nia. subst q q'. discriminate. }
  split; [exact Hmx|].
  set (m := mkBlk _ _ _ _).
  assert (Hm : exists k, 0 <= k /\ bptr m = base + k * pow2 (S o) /\ (k + 1) * pow2 (S o) <= pow2 mx /\
     ((bptr b = bptr m /\ bptr c = bptr m + pow2 o) \/ (bptr c = bptr m /\ bptr b = bptr m + pow2 o))).
  { unfold buddy_q in Hqq. rewrite pow2_S.
    destruct (even_cases q) as [[E [k Hk]]|[E [k Hk]]]; rewrite E in Hqq; exists k.
    - subst q. subst q'. unfold m; cbn [bptr]. destruct (Z.ltb_spec (bptr b) (bptr c)); [|lia].
      split; [lia|split; [lia|split; [lia|left; lia]]].
    - subst q. subst q'. unfold m; cbn [bptr]. destruct (Z.ltb_spec (bptr b) (bptr c)); [lia|].
      split; [lia|split; [lia|split; [lia|right; lia]]]. }
  destruct Hm as (k & Hk0 & Hk & Hkm & Hor).
  destruct H as (H1 & H2 & H3 & H4 & H5).
  assert (HP : Permutation ((c :: F) ++ b :: U) (c :: b :: F ++ U)).
  { simpl. constructor. symmetry; apply Permutation_middle. }
  assert (HP2 : Permutation (F ++ m :: U) (m :: F ++ U)) by (symmetry; apply Permutation_middle).
  rewrite HP in H1. inversion H1 as [|? ? Hwc H1']; subst. inversion H1' as [|? ? Hwb H1'']; subst.
  assert (Hms : bsize m = pow2 o + pow2 o) by (unfold m; simpl; lia).
  repeat split.
  - rewrite HP2. constructor; auto. unfold wfb. change (border m) with (S o).
    split; [lia|split]. { rewrite Hms, pow2_S; lia. } exists k; auto.
  - eapply pairwise_perm; [exact disj_sym|symmetry; exact HP2|].
    eapply pairwise_perm in H2; [|exact disj_sym|exact HP].
    inversion H2 as [|? ? Hdc Hr]; subst. inversion Hr as [|? ? Hdb Hr']; subst.
    inversion Hdc as [|? ? _ Hdc']; subst.
    constructor; auto.
    assert (HFp : Forall (fun x => 0 < bsize x) (F ++ U)).
    { eapply Forall_impl; [|exact H1'']. intros x Hw. eapply wfb_pos; exact Hw. }
    destruct Hor as [[E1 E2]|[E1 E2]].
    + apply (Forall_disj_join b c m); auto; lia.
    + apply (Forall_disj_join c b m); auto; lia.
  - intros x Hx0. destruct (H3 x Hx0) as (d & Hd & Hr). rewrite HP in Hd.
    destruct Hd as [<-|[<-|Hd]].
    + exists m. split; [rewrite HP2; simpl; auto|lia].
    + exists m. split; [rewrite HP2; simpl; auto|lia].
    + exists d. split; [rewrite HP2; simpl; auto|exact Hr].
  - intros d e Hd He. apply H4; right; auto.
  - rewrite (sumsz_perm _ _ HP2). rewrite (sumsz_perm _ _ HP) in H5. 
    change (bsize m + sumsz (F ++ U) = pow2 mx).
    change (bsize c + (bsize b + sumsz (F ++ U)) = pow2 mx) in H5. lia.
Qed.

(** Putting the block in hand onto the free lists. *)
Lemma CInv_push base mn mx F U b :
  CInv base mn mx F (b :: U) ->
  (forall c, In c F -> border c = border b -> bptr c - base <> Z.lxor (bptr b - base) (pow2 (border b))) ->
  CInv base mn mx (b :: F) U.
Proof.
  intros (H1 & H2 & H3 & H4 & H5) Hnb.
  assert (HP : Permutation (F ++ b :: U) ((b :: F) ++ U)) by (symmetry; apply Permutation_middle).
  repeat split.
  - rewrite <- HP. exact H1.
  - eapply pairwise_perm; [exact disj_sym|exact HP|exact H2].
  - intros x Hx. destruct (H3 x Hx) as (b' & Hb & Hr). exists b'. split; [|exact Hr].
    rewrite <- HP. exact Hb.
  - intros c d Hc Hd Hcd Hm. destruct Hc as [<-|Hc]; destruct Hd as [<-|Hd].
    + intro Hx. pose proof (pow2_pos (border b)) as Hp.
      assert (Z.lxor (bptr b - base) (bptr b - base) = pow2 (border b)) as Hz.
      { rewrite Hx at 2. rewrite <- Z.lxor_assoc, Z.lxor_nilpotent, Z.lxor_0_l. reflexivity. }
      rewrite Z.lxor_nilpotent in Hz. lia.
    + apply Hnb; auto.
    + intro Hx. apply (Hnb c Hc Hcd). rewrite Hx, <- Hcd.
      rewrite Z.lxor_assoc, Z.lxor_nilpotent, Z.lxor_0_r. reflexivity.
    + apply H4; auto.
  - rewrite <- (sumsz_perm _ _ HP). exact H5.
Qed.

Lemma CInv_same base mn mx F U b b' :
  bptr b = bptr b' -> bsize b = bsize b' -> border b = border b' ->
  CInv base mn mx F (b :: U) -> CInv base mn mx F (b' :: U).
Proof.
  intros E1 E2 E3 (H1 & H2 & H3 & H4 & H5).
  assert (HP : forall x, Permutation (F ++ x :: U) (x :: F ++ U)) by (intro; symmetry; apply Permutation_middle).
  repeat split.
  - rewrite HP in *. inversion H1 as [|? ? Hw Hr]; subst. constructor; auto.
    unfold wfb in *. rewrite E1, E2, E3 in Hw. exact Hw.
  - eapply pairwise_perm; [exact disj_sym|symmetry; apply HP|].
    eapply pairwise_perm in H2; [|exact disj_sym|apply HP].
    inversion H2 as [|? ? Hw Hr]; subst. constructor; auto.
    eapply Forall_impl; [|exact Hw]. unfold disj. intros a. rewrite E1, E2. auto.
  - intros x Hx. destruct (H3 x Hx) as (d & Hd & Hr). rewrite HP in Hd.
    destruct Hd as [<-|Hd].
    + exists b'. rewrite HP. split; [left; auto|lia].
    + exists d. rewrite HP. split; [right; auto|auto].
  - exact H4.
  - rewrite (sumsz_perm _ _ (HP b)) in H5. rewrite (sumsz_perm _ _ (HP b')). rewrite sumsz_cons in *. lia.
Qed.

(** ** The segment invariant *)
Definition idxok (mn : nat) (fl : list (list blk)) : Prop :=
  forall i b, In b (nth i fl []) -> border b = (i + mn)%nat /\ balloc b = false.

Definition SInv (s : seg) (U : list blk) : Prop :=
  scap s = pow2 (smax s) /\ (smin s <= smax s)%nat /\ length (sfree s) = (smax s - smin s + 1)%nat /\
  idxok (smin s) (sfree s) /\ CInv (sptr s) (smin s) (smax s) (concat (sfree s)) U /\
  sused s = sumsz U.

Lemma idxok_app mn fl i b :
  idxok mn fl -> (i < length fl)%nat -> border b = (i + mn)%nat -> balloc b = false ->
  idxok mn (upd_nth i (fun q => q ++ [b]) fl).
Proof.
  intros H Hi Hb Ha j c Hc. rewrite nth_upd_nth in Hc.
  destruct (Nat.eqb_spec i j) as [<-|]; destruct (Nat.ltb_spec i (length fl)); simpl in Hc; auto.
  apply in_app_or in Hc. destruct Hc as [Hc|[<-|[]]]; auto.
Qed.

Lemma idxok_sub mn fl i f :
  idxok mn fl -> (forall b, In b (f (nth i fl [])) -> In b (nth i fl [])) ->
  idxok mn (upd_nth i f fl).
Proof.
  intros H Hf j c Hc. rewrite nth_upd_nth in Hc.
  destruct (Nat.eqb_spec i j) as [<-|]; destruct (Nat.ltb_spec i (length fl)); simpl in Hc; auto.
Qed.

Lemma split_loop_spec k : forall mn mx base fl b U fl' b',
  split_loop k mn fl b = (fl', b') ->
  (mn + k <= border b <= mx)%nat -> length fl = (mx - mn + 1)%nat -> idxok mn fl ->
  CInv base mn mx (concat fl) (b :: U) ->
  length fl' = length fl /\ idxok mn fl' /\ CInv base mn mx (concat fl') (b' :: U) /\
  border b' = (border b - k)%nat.
Proof.
  induction k as [|k IH]; cbn [split_loop]; intros mn mx base fl b U fl' b' He Hk Hl Hi HC.
  - injection He as <- <-. split; [reflexivity|split; [exact Hi|split; [exact HC|lia]]].
  - apply IH with (base := base) (mx := mx) (U := U) in He; cbn [border]; auto.
    + destruct He as (H1 & H2 & H3 & H4). cbn [border] in H4.
      split; [rewrite H1; apply length_upd_nth|]. split; [exact H2|]. split; [exact H3|]. lia.
    + lia.
    + rewrite length_upd_nth. exact Hl.
    + apply idxok_app; auto; simpl; lia.
    + eapply CInv_perm; [symmetry; apply upd_nth_concat_app; lia|reflexivity|].
      apply CInv_split with (b := b); auto; lia.
Qed.

Lemma find_order_spec fuel : forall fl mn mx cur c,
  find_order fuel fl mn mx cur = Some c -> (cur <= c <= mx)%nat /\ nth (c - mn) fl [] <> [].
Proof.
  induction fuel as [|f IH]; simpl; intros fl mn mx cur c; [discriminate|].
  destruct (Nat.ltb_spec mx cur); [discriminate|].
  destruct (nth (cur - mn) fl []) as [|b r] eqn:E.
  - intro H1. apply IH in H1. split; [lia|tauto].
  - intro H1; injection H1 as <-. rewrite E. split; [lia|discriminate].
Qed.

Lemma log2_ceil_spec n : 0 < n -> n <= pow2 (log2_ceil n) /\ forall o, n <= pow2 o -> (log2_ceil n <= o)%nat.
Proof.
  intro H. unfold log2_ceil, pow2. destruct (Z.eqb_spec n 0); [lia|].
  pose proof (Z.log2_up_nonneg n) as Hn.
  rewrite Z2Nat.id by lia. split.
  - destruct (Z.eq_dec n 1) as [->|]; [simpl; lia|]. apply Z.log2_up_spec. lia.
  - intros o Ho. apply (Z.log2_up_le_mono) in Ho. rewrite Z.log2_up_pow2 in Ho by lia. lia.
Qed.

Lemma log2_ceil_pow2 o : log2_ceil (pow2 o) = o.
Proof.
  unfold log2_ceil, pow2. pose proof (pow2_pos o) as Hp. unfold pow2 in Hp.
  destruct (Z.eqb_spec (2 ^ Z.of_nat o) 0); [lia|].
  rewrite Z.log2_up_pow2 by lia. lia.
Qed.

Lemma try_seg_spec s U size s' b :
  SInv s U -> try_seg s size = TGot s' b ->
  SInv s' (b :: U) /\ sptr s' = sptr s /\ scap s' = scap s /\ smin s' = smin s /\ smax s' = smax s /\
  size <= bsize b /\ balloc b = true /\ border b = Nat.max (log2_ceil (Z.max size (pow2 (smin s)))) (smin s).
Proof.
  intros (Hcap & Hmm & Hlen & Hidx & HC & Hu) H. unfold try_seg in H.
  destruct (Z.ltb_spec (scap s - sused s) (Z.max size (pow2 (smin s)))) as [Hz|Hz]; [discriminate|].
  set (req := Z.max size (pow2 (smin s))) in *.
  destruct (Nat.ltb_spec (smax s) (log2_ceil req)) as [Hy|Hy]; [discriminate|].
  set (order := Nat.max (log2_ceil req) (smin s)) in *.
  destruct (find_order _ _ _ _ _) as [cur|] eqn:Ef; [|discriminate].
  apply find_order_spec in Ef. destruct Ef as [Hcur Hne].
  destruct (nth (cur - smin s) (sfree s) []) as [|b0 rest] eqn:En; [discriminate|].
  destruct (split_loop _ _ _ _) as [fl' b'] eqn:Es. injection H as <- <-.
  assert (Hb0 : border b0 = cur).
  { destruct (Hidx (cur - smin s)%nat b0) as [Hx _]; [rewrite En; left; auto|lia]. }
  assert (Hlt : (cur - smin s < length (sfree s))%nat) by lia.
  assert (HP : Permutation (concat (sfree s)) (b0 :: concat (upd_nth (cur - smin s) (fun _ => rest) (sfree s)))).
  { apply (upd_nth_concat_perm _ (sfree s) (fun _ => rest) [b0]); auto. rewrite En. reflexivity. }
  apply split_loop_spec with (base := sptr s) (mx := smax s) (U := U) in Es.
  - destruct Es as (H1 & H2 & H3 & H4). cbn [sptr scap sused smin smax sfree bptr bsize border balloc].
    assert (Hbo : border b' = order) by lia.
    assert (Hbs : bsize b' = pow2 order).
    { pose proof (CInv_wf _ _ _ _ _ b' H3 ltac:(apply in_or_app; right; left; reflexivity)) as (_ & E & _).
      rewrite E, Hbo. reflexivity. }
    assert (HSI : SInv (mkSeg (sptr s) (scap s) (sused s + bsize b') (smin s) (smax s) fl')
                       (mkBlk (bptr b') (bsize b') (border b') true :: U)).
    { unfold SInv; cbn [sptr scap sused smin smax sfree].
      split; [exact Hcap|split; [exact Hmm|split; [rewrite H1, length_upd_nth; exact Hlen|split; [exact H2|split]]]].
      - eapply CInv_same in H3; [exact H3|reflexivity..].
      - rewrite sumsz_cons. cbn [bsize]. lia. }
    split; [exact HSI|]. do 4 (split; [reflexivity|]). split; [|split; [reflexivity|exact Hbo]].
    + rewrite Hbs. pose proof (log2_ceil_spec req) as [Hl _]. { pose proof (pow2_pos (smin s)); lia. }
      assert (pow2 (log2_ceil req) <= pow2 order) by (apply pow2_le; lia). lia.
  - lia.
  - rewrite length_upd_nth. exact Hlen.
  - apply idxok_sub; auto. rewrite En. intros c Hc; right; exact Hc.
  - apply CInv_pop. eapply CInv_perm; [exact HP|reflexivity|exact HC].
Qed.

Lemma merge_loop_spec fuel : forall base mn mx fl b U,
  (mn <= mx)%nat -> length fl = (mx - mn + 1)%nat -> idxok mn fl ->
  CInv base mn mx (concat fl) (b :: U) -> balloc b = false -> (S (mx - border b) <= fuel)%nat ->
  exists fl', merge_loop fuel base mn fl b = Some fl' /\ length fl' = length fl /\ idxok mn fl' /\
  CInv base mn mx (concat fl') U.
Proof.
  induction fuel as [|f IH]; intros base mn mx fl b U Hmm Hl Hi HC Ha Hf; [lia|].
  cbn [merge_loop].
  pose proof (CInv_wf _ _ _ _ _ b HC ltac:(apply in_or_app; right; left; reflexivity)) as (Hbo & _).
  set (o := border b) in *. set (idx := (o - mn)%nat).
  assert (Hidx : (idx < length fl)%nat) by lia.
  destruct (Nat.leb_spec (length fl) idx) as [Hy|Hy]; [lia|].
  set (p := fun c : blk => _).
  destruct (find p (nth idx fl [])) as [c|] eqn:Ef.
  - pose proof (remove_first_perm _ _ _ Ef) as HP.
    apply find_some in Ef. destruct Ef as [Hin Hp]. unfold p in Hp.
    apply andb_prop in Hp. destruct Hp as [Hp _]. apply andb_prop in Hp. destruct Hp as [Hp1 Hp2].
    apply Z.eqb_eq in Hp1. apply Nat.eqb_eq in Hp2.
    assert (HPc : Permutation (concat fl) (c :: concat (upd_nth idx (remove_first p) fl))).
    { apply (upd_nth_concat_perm _ fl (remove_first p) [c]); auto. }
    assert (HC' : CInv base mn mx (c :: concat (upd_nth idx (remove_first p) fl)) (b :: U)).
    { eapply CInv_perm; [exact HPc|reflexivity|exact HC]. }
    destruct (CInv_merge base mn mx (concat (upd_nth idx (remove_first p) fl)) U b c (balloc b) HC' Hp2 Hp1) as [Hmx HM].
    set (b' := if bptr b <? bptr c then _ else _).
    assert (Eb : b' = mkBlk (if bptr b <? bptr c then bptr b else bptr c) (bsize b * 2) (S o) (balloc b)).
    { unfold b'. destruct (bptr b <? bptr c); reflexivity. }
    rewrite Eb. fold o in HM.
    destruct (IH base mn mx (upd_nth idx (remove_first p) fl) (mkBlk (if bptr b <? bptr c then bptr b else bptr c) (bsize b * 2) (S o) (balloc b)) U Hmm) as (fl' & H1 & H2 & H3 & H4).
    + rewrite length_upd_nth; exact Hl.
    + apply idxok_sub; auto. intros d Hd. rewrite HP. right. exact Hd.
    + exact HM.
    + exact Ha.
    + cbn [border]. unfold o in *. lia.
    + exists fl'. split; [exact H1|]. split; [rewrite H2; apply length_upd_nth|]. split; [exact H3|exact H4].
  - eexists. split; [reflexivity|]. split; [apply length_upd_nth|]. split.
    + apply idxok_app; auto. unfold idx. fold o. lia.
    + eapply CInv_perm; [symmetry; apply upd_nth_concat_app; auto|reflexivity|].
      apply CInv_push; auto. intros c Hc Hco Hx. fold o in Hco, Hx.
      apply in_concat_nth in Hc. destruct Hc as (i & Hil & Hc).
      pose proof (Hi i c Hc) as [Hio Hia].
      assert (i = idx) as -> by (unfold idx; lia).
      apply (find_none _ _ Ef) in Hc. unfold p in Hc. rewrite Hx, Z.eqb_refl, Hia in Hc.
      replace (border c =? o)%nat with true in Hc by (symmetry; apply Nat.eqb_eq; exact Hco).
      discriminate.
Qed.

Lemma free_in_seg_spec s U b :
  SInv s (b :: U) ->
  exists s', free_in_seg s b = Some s' /\ SInv s' U /\ sptr s' = sptr s /\ scap s' = scap s /\
             smin s' = smin s /\ smax s' = smax s.
Proof.
  intros (Hcap & Hmm & Hlen & Hidx & HC & Hu). unfold free_in_seg.
  destruct (merge_loop_spec (S (smax s - border b)) (sptr s) (smin s) (smax s) (sfree s)
              (mkBlk (bptr b) (bsize b) (border b) false) U) as (fl' & H1 & H2 & H3 & H4); auto.
  - eapply CInv_same; [..|exact HC]; reflexivity.
  - rewrite H1. eexists. split; [reflexivity|]. cbn [sptr scap sused smin smax sfree].
    split; [|auto].
    unfold SInv; cbn [sptr scap sused smin smax sfree].
    split; [exact Hcap|split; [exact Hmm|split; [congruence|split; [exact H3|split; [exact H4|]]]]].
    rewrite Hu, sumsz_cons. lia.
Qed.

Lemma fresh_seg_inv base mn mx :
  (mn <= mx)%nat -> SInv (fresh_seg base (pow2 mx) mn mx) [].
Proof.
  intro Hmm. unfold SInv, fresh_seg; cbn [sptr scap sused smin smax sfree].
  set (b := mkBlk base (pow2 mx) mx false).
  assert (Hlr : length (repeat (@nil blk) (mx - mn + 1)) = (mx - mn + 1)%nat) by apply repeat_length.
  assert (Hnr : forall i, nth i (repeat (@nil blk) (mx - mn + 1)) [] = []).
  { intro i. destruct (nth_in_or_default i (repeat (@nil blk) (mx - mn + 1)) []) as [H|H]; auto.
    apply repeat_spec in H. auto. }
  split; [reflexivity|split; [exact Hmm|split; [rewrite length_upd_nth, Hlr; lia|split; [|split; [|reflexivity]]]]].
  - apply idxok_app; simpl; try lia. intros i c. rewrite Hnr. intros [].
  - eapply CInv_perm; [symmetry; apply upd_nth_concat_app; lia|reflexivity|].
    assert (concat (repeat (@nil blk) (mx - mn + 1)) = []) as ->.
    { generalize (mx - mn + 1)%nat as n. induction n; simpl; auto. }
    pose proof (pow2_pos mx).
    repeat split.
    + repeat constructor; simpl; try lia. exists 0. lia.
    + repeat constructor.
    + intros x Hx. exists b. split; [left; auto|simpl; lia].
    + intros c d [<-|[]] [<-|[]] _ Hlt. simpl in Hlt. lia.
    + simpl. lia.
Qed.

(** ** Whole pool *)
Definition sel (sg : Z) (H : list (Z * blk)) : list blk :=
  map snd (filter (fun h => fst h =? sg) H).

Definition sdisj (s t : seg) : Prop := sptr s + scap s <= sptr t \/ sptr t + scap t <= sptr s.

Definition PI (mn : nat) (ss : list seg) (H : list (Z * blk)) : Prop :=
  (mn <= 29)%nat /\ ss <> [] /\ pairwise sdisj ss /\
  Forall (fun s => smin s = mn /\ SInv s (sel (sptr s) H)) ss /\
  Forall (fun h => exists s, In s ss /\ sptr s = fst h) H.

Lemma sel_perm sg H H' : Permutation H H' -> Permutation (sel sg H) (sel sg H').
Proof.
  intro HP. unfold sel. apply Permutation_map.
  induction HP as [|x l l' HP IH|x y l|l l' l'' H1 IH1 H2 IH2]; simpl.
  - reflexivity.
  - destruct (fst x =? sg); [constructor|]; auto.
  - destruct (fst x =? sg), (fst y =? sg); try reflexivity; apply perm_swap.
  - etransitivity; eauto.
Qed.

Lemma SInv_perm s U U' : Permutation U U' -> SInv s U -> SInv s U'.
Proof.
  intros HP (H1 & H2 & H3 & H4 & H5 & H6).
  split; [exact H1|split; [exact H2|split; [exact H3|split; [exact H4|split]]]].
  - eapply CInv_perm; [reflexivity|exact HP|exact H5].
  - rewrite <- (sumsz_perm _ _ HP). exact H6.
Qed.

Lemma PI_perm mn ss H H' : Permutation H H' -> PI mn ss H -> PI mn ss H'.
Proof.
  intros HP (H0 & H1 & H2 & H3 & H4). repeat split; auto.
  - eapply Forall_impl; [|exact H3]. intros s [Hm Hs]. split; auto. eapply SInv_perm; [|exact Hs].
    apply sel_perm; exact HP.
  - rewrite <- HP. exact H4.
Qed.

Lemma sdisj_sym s t : sdisj s t -> sdisj t s.
Proof. unfold sdisj; tauto. Qed.

Lemma SInv_cap_pos s U : SInv s U -> 0 < scap s.
Proof. intros (-> & _). apply pow2_pos. Qed.

Lemma try_segs_got ss size ss' sg b :
  try_segs ss size = AGot ss' sg b ->
  exists l1 s l2 s', ss = l1 ++ s :: l2 /\ ss' = l1 ++ s' :: l2 /\ sg = sptr s /\ try_seg s size = TGot s' b.
Proof.
  revert ss'; induction ss as [|s r IH]; simpl; intros ss'; [discriminate|].
  destruct (try_seg s size) as [| |s' b'] eqn:E.
  - destruct (try_segs r size) as [| |r' sg' b'] eqn:E'; try discriminate.
    intro H; injection H as <- <- <-.
    destruct (IH _ eq_refl) as (l1 & s0 & l2 & s' & -> & -> & -> & Ht).
    exists (s :: l1), s0, l2, s'. auto.
  - discriminate.
  - intro H; injection H as <- <- <-. exists [], s, r, s'. auto.
Qed.

(** replacing one segment *)
Lemma PI_replace mn l1 s l2 s' H H' :
  PI mn (l1 ++ s :: l2) H -> sptr s' = sptr s -> scap s' = scap s -> smin s' = mn ->
  SInv s' (sel (sptr s) H') ->
  (forall g, g <> sptr s -> sel g H' = sel g H) ->
  Forall (fun h => fst h = sptr s \/ In h H) H' ->
  PI mn (l1 ++ s' :: l2) H'.
Proof.
  intros (H0 & H1 & H2 & H3 & H4) Ep Ec Em HS Hsel Hin.
  assert (Hpw : pairwise sdisj (s :: l1 ++ l2)).
  { eapply pairwise_perm; [exact sdisj_sym|symmetry; apply Permutation_middle|exact H2]. }
  inversion Hpw as [|? ? Hs Hr]; subst.
  assert (Hall : Forall (fun t => smin t = smin s' /\ SInv t (sel (sptr t) H)) (l1 ++ l2)
                 /\ 0 < scap s).
  { apply Forall_app in H3. destruct H3 as [Ha Hb]. inversion Hb as [|? ? [_ Hsi] Hb']; subst.
    split; [apply Forall_app; auto|eapply SInv_cap_pos; eauto]. }
  destruct Hall as [Hall Hcp].
  split; [exact H0|split; [destruct l1; discriminate|split; [|split]]].
  - eapply pairwise_perm; [exact sdisj_sym|apply Permutation_middle|]. constructor; auto.
    eapply Forall_impl; [|exact Hs]. unfold sdisj. intros t. rewrite Ep, Ec. auto.
  - assert (HP : Permutation (l1 ++ s' :: l2) (s' :: l1 ++ l2)) by (symmetry; apply Permutation_middle).
    rewrite HP. constructor.
    + split; auto. rewrite Ep. exact HS.
    + rewrite Forall_forall in *. intros t Ht. destruct (Hall t Ht) as [Hm Hi]. split; auto.
      rewrite Hsel; auto. intro E. specialize (Hs t Ht). unfold sdisj in Hs.
      apply SInv_cap_pos in Hi. lia.
  - rewrite Forall_forall in *. intros h Hh.
    destruct (Hin h Hh) as [E|Ho].
    + exists s'. split; [apply in_or_app; right; left; auto|congruence].
    + destruct (H4 h Ho) as (t & Ht & Et). apply in_app_or in Ht. destruct Ht as [Ht|[<-|Ht]].
      * exists t. split; auto. apply in_or_app; auto.
      * exists s'. split; [apply in_or_app; right; left; auto|congruence].
      * exists t. split; auto. apply in_or_app; right; right; auto.
Qed.

Lemma PI_mid mn l1 s l2 H : PI mn (l1 ++ s :: l2) H -> smin s = mn /\ SInv s (sel (sptr s) H).
Proof.
  intros (_ & _ & _ & H3 & _). apply Forall_app in H3. destruct H3 as [_ H3].
  inversion H3; auto.
Qed.

Lemma sel_cons_eq g b H : sel g ((g, b) :: H) = b :: sel g H.
Proof. unfold sel; simpl. rewrite Z.eqb_refl. reflexivity. Qed.
Lemma sel_cons_ne g g' b H : g <> g' -> sel g' ((g, b) :: H) = sel g' H.
Proof. intro E. unfold sel; simpl. destruct (Z.eqb_spec g g'); [contradiction|reflexivity]. Qed.

Lemma fold_max_pow2 ss : forall m, exists o,
  fold_left (fun m s => Z.max m (pow2 (smax s))) ss (pow2 m) = pow2 o /\ (m <= o)%nat /\
  (forall s, In s ss -> (smax s <= o)%nat).
Proof.
  induction ss as [|s r IH]; intro m; simpl.
  - exists m. split; [reflexivity|split; [lia|intros s []]].
  - destruct (le_ge_dec m (smax s)) as [Hle|Hge].
    + rewrite Z.max_r by (apply pow2_le; auto). destruct (IH (smax s)) as (o & -> & Ho & Hall).
      exists o. split; [reflexivity|split; [lia|]]. intros t [<-|Ht]; auto.
    + rewrite Z.max_l by (apply pow2_le; auto). destruct (IH m) as (o & -> & Ho & Hall).
      exists o. split; [reflexivity|split; [lia|]]. intros t [<-|Ht]; [lia|auto].
Qed.

Lemma new_cap_pow2 ss : ss <> [] -> exists o,
  new_cap ss = pow2 (Nat.min (S o) 29) /\ (forall s, In s ss -> (smax s <= o)%nat).
Proof.
  destruct ss as [|s r]; [contradiction|]. intros _. unfold new_cap. simpl fold_left.
  rewrite Z.max_r by (pose proof (pow2_pos (smax s)); lia).
  destruct (fold_max_pow2 r (smax s)) as (o & -> & Ho & Hall). exists o. split.
  - change (2 ^ 29) with (pow2 29).
    destruct (le_gt_dec (S o) 29) as [Hl|Hg].
    + rewrite Nat.min_l by auto. rewrite (pow2_S o).
      assert (pow2 (S o) <= pow2 29) by (apply pow2_le; auto). rewrite (pow2_S o) in *. lia.
    + rewrite Nat.min_r by lia. assert (pow2 29 <= pow2 (S o)) by (apply pow2_le; lia).
      rewrite (pow2_S o) in *. lia.
  - intros t [<-|Ht]; auto.
Qed.

Lemma insert_seg_perm s ss : Permutation (insert_seg s ss) (s :: ss).
Proof.
  induction ss as [|t r IH]; simpl; [reflexivity|].
  destruct (sptr s <? sptr t); [reflexivity|]. rewrite IH. apply perm_swap.
Qed.

Lemma sel_none g H : (forall h, In h H -> fst h <> g) -> sel g H = [].
Proof.
  intro Hn. unfold sel. induction H as [|h r IH]; simpl; auto.
  destruct (Z.eqb_spec (fst h) g) as [E|E].
  - exfalso. apply (Hn h); simpl; auto.
  - apply IH. intros h' Hh'. apply Hn; right; auto.
Qed.

Lemma PI_expand mn ss H base :
  PI mn ss H -> range_free base (new_cap ss) ss = true ->
  PI mn (insert_seg (fresh_seg base (new_cap ss) mn (log2_ceil (new_cap ss))) ss) H.
Proof.
  intros (H0 & H1 & H2 & H3 & H4) Hr.
  destruct (new_cap_pow2 ss H1) as (o & Eo & Ho). rewrite Eo in *. rewrite log2_ceil_pow2.
  set (no := Nat.min (S o) 29) in *.
  assert (Hmn : (mn <= no)%nat).
  { destruct ss as [|s r]; [contradiction|]. inversion H3 as [|? ? [Em Hs] _]; subst.
    destruct Hs as (_ & Hs & _). specialize (Ho s (or_introl eq_refl)). lia. }
  set (n := fresh_seg _ _ _ _).
  assert (Hdis : Forall (sdisj n) ss).
  { unfold range_free in Hr. rewrite forallb_forall in Hr. apply Forall_forall. intros s Hs.
    specialize (Hr s Hs). unfold sdisj, n, fresh_seg; simpl. lia. }
  pose proof (insert_seg_perm n ss) as HP.
  split; [exact H0|split; [intro E; rewrite E in HP; apply Permutation_nil_cons in HP; exact HP|split; [|split]]].
  - eapply pairwise_perm; [exact sdisj_sym|symmetry; exact HP|]. constructor; auto.
  - rewrite HP. constructor; [|exact H3]. split; [reflexivity|].
    rewrite sel_none; [apply fresh_seg_inv; auto|].
    intros h Hh E. rewrite Forall_forall in *. destruct (H4 h Hh) as (s & Hs & Es).
    specialize (Hdis s Hs). destruct (H3 s Hs) as [_ Hi]. apply SInv_cap_pos in Hi.
    pose proof (pow2_pos no). unfold sdisj, n, fresh_seg in *; simpl in *. lia.
  - eapply Forall_impl; [|exact H4]. intros h (s & Hs & Es). exists s. split; auto.
    rewrite HP. right; auto.
Qed.

Lemma alloc_buddy_spec answers : forall mn ss H size ss' sg b,
  PI mn ss H -> alloc_buddy answers mn ss size = Ok (ss', sg, b) ->
  PI mn ss' ((sg, b) :: H) /\ size <= bsize b /\
  border b = Nat.max (log2_ceil (Z.max size (pow2 mn))) mn.
Proof.
  induction answers as [|a more IH]; intros mn ss H size ss' sg b HI HA; cbn [alloc_buddy] in HA;
    destruct (try_segs ss size) as [| |ss0 sg0 b0] eqn:Et; try discriminate.
  2:{ destruct (a =? 0); [discriminate|].
      destruct (range_free a (new_cap ss) ss) eqn:Er; [|discriminate].
      eapply IH; [|exact HA]. apply PI_expand; auto. }
  all: injection HA as <- <- <-.
  all: apply try_segs_got in Et; destruct Et as (l1 & s & l2 & s' & -> & -> & -> & Ht).
  all: pose proof (PI_mid _ _ _ _ _ HI) as [Em Hs].
  all: destruct (try_seg_spec _ _ _ _ _ Hs Ht) as (HS' & E1 & E2 & E3 & E4 & E5 & _ & E6).
  all: rewrite Em in E6.
  all: split; [|split; [exact E5|exact E6]].
  all: eapply PI_replace; [exact HI|exact E1|exact E2|congruence| | |].
  1,4: rewrite sel_cons_eq; exact HS'.
  1,3: intros g Hg; apply sel_cons_ne; auto.
  all: constructor; [left; reflexivity|apply Forall_forall; auto].
Qed.

Lemma free_buddy_spec mn H sg b : forall ss l0,
  PI mn (l0 ++ ss) ((sg, b) :: H) -> (forall t, In t l0 -> sptr t <> sg) ->
  exists ss', free_buddy ss sg b = Some ss' /\ PI mn (l0 ++ ss') H.
Proof.
  induction ss as [|s r IH]; intros l0 HI Hl0; cbn [free_buddy].
  - exfalso. destruct HI as (_ & _ & _ & _ & H4). rewrite app_nil_r in H4.
    inversion H4 as [|? ? (t & Ht & Et) _]; subst. apply (Hl0 t Ht). exact Et.
  - destruct (Z.eqb_spec (sptr s) sg) as [E|E].
    + pose proof (PI_mid _ _ _ _ _ HI) as [Em Hs]. rewrite E, sel_cons_eq in Hs.
      destruct (free_in_seg_spec _ _ _ Hs) as (s' & -> & HS' & E1 & E2 & E3 & E4).
      eexists; split; [reflexivity|].
      eapply PI_replace; [exact HI|exact E1|exact E2|congruence| | |].
      * rewrite E; exact HS'.
      * intros g Hg. symmetry. apply sel_cons_ne. congruence.
      * apply Forall_forall. intros h Hh. right; right; exact Hh.
    + destruct (IH (l0 ++ [s])) as (ss' & -> & HI').
      * rewrite <- app_assoc. exact HI.
      * intros t Ht. apply in_app_or in Ht. destruct Ht as [Ht|[<-|[]]]; auto.
      * eexists; split; [reflexivity|]. rewrite <- app_assoc in HI'. exact HI'.
Qed.

Lemma free_buddy_PI mn ss sg b H :
  PI mn ss ((sg, b) :: H) -> exists ss', free_buddy ss sg b = Some ss' /\ PI mn ss' H.
Proof. intro HI. apply (free_buddy_spec mn H sg b ss []); [exact HI|intros t []]. Qed.

Definition held (p : pool) : list (Z * blk) := map (fun l => (lseg l, lblk l)) (lives p) ++ cached p.

Definition PoolInv (p : pool) : Prop :=
  PI (pmin p) (segs p) (held p) /\
  Forall (fun l => lreq l <= bsize (lblk l)) (lives p) /\
  NoDup (map luid (lives p)).

Lemma free_many_PI mn : forall bs ss H,
  PI mn ss (bs ++ H) -> exists ss', free_many ss bs = Some ss' /\ PI mn ss' H.
Proof.
  induction bs as [|[sg b] r IH]; intros ss H HI; cbn [free_many].
  - exists ss; auto.
  - destruct (free_buddy_PI _ _ _ _ _ HI) as (ss' & -> & HI'). apply IH; exact HI'.
Qed.

Lemma filter_split_perm {A} (f : A -> bool) l :
  Permutation l (filter f l ++ filter (fun x => negb (f x)) l).
Proof.
  induction l as [|x r IH]; simpl; [reflexivity|].
  destruct (f x); simpl.
  - constructor; exact IH.
  - rewrite IH at 1. apply Permutation_middle.
Qed.

Lemma drop_sizes_PI mn old sizes : forall ss ca L,
  PI mn ss (L ++ ca) -> exists ss' ca', drop_sizes old sizes ss ca = Some (ss', ca') /\
  PI mn ss' (L ++ ca') /\ incl ca' ca.
Proof.
  induction sizes as [|z r IH]; intros ss ca L HI; cbn [drop_sizes].
  - exists ss, ca. split; [reflexivity|split; [exact HI|apply incl_refl]].
  - destruct (zmem z old); [apply IH; exact HI|].
    set (f := fun c : Z * blk => bsize (snd c) =? z).
    assert (HI2 : PI mn ss (filter f ca ++ (L ++ filter (fun x => negb (f x)) ca))).
    { eapply PI_perm; [|exact HI]. rewrite (filter_split_perm f ca) at 1.
      rewrite !app_assoc. apply Permutation_app_tail. apply Permutation_app_comm. }
    destruct (free_many_PI _ _ _ _ HI2) as (ss' & -> & HI').
    destruct (IH _ _ _ HI') as (ss'' & ca' & E & HI'' & Hincl).
    exists ss'', ca'. split; [exact E|split; [exact HI''|]].
    intros x Hx. apply Hincl in Hx. apply filter_In in Hx. tauto.
Qed.

Lemma remove_first_sub {A} (p : A -> bool) l x : In x (remove_first p l) -> In x l.
Proof.
  induction l as [|y r IH]; simpl; auto. destruct (p y); simpl; auto. intros [->|H]; auto.
Qed.

Lemma remove_first_NoDup_map {A B} (g : A -> B) (p : A -> bool) l :
  NoDup (map g l) -> NoDup (map g (remove_first p l)).
Proof.
  induction l as [|y r IH]; simpl; auto. intro H; inversion H as [|? ? Hn Hr]; subst.
  destruct (p y); auto. simpl. constructor; auto.
  intro Hin. apply Hn. apply in_map_iff in Hin. destruct Hin as (z & <- & Hz).
  apply in_map. eapply remove_first_sub; eauto.
Qed.

Lemma step_inv p o p' : PoolInv p -> step p o = Ok p' -> PoolInv p'.
Proof.
  intros (HI & Hreq & Hnd) H. destruct o as [uid size answers|uid|newset]; simpl in H.
  - unfold pool_alloc in H.
    destruct (existsb (fun l => luid l =? uid) (lives p)) eqn:Eex; [discriminate|].
    assert (Hfresh : ~ In uid (map luid (lives p))).
    { intro Hin. apply in_map_iff in Hin. destruct Hin as (l & El & Hl).
      apply Bool.not_true_iff_false in Eex. apply Eex. apply existsb_exists. exists l. split; [exact Hl|]. apply Z.eqb_eq; exact El. }
    assert (Hnd' : forall x, luid x = uid -> NoDup (map luid (lives p ++ [x]))).
    { intros x Ex. rewrite map_app. simpl. rewrite Ex.
      eapply Permutation_NoDup; [apply Permutation_cons_append|]. constructor; auto. }
    destruct (if use_cache p size then _ else None) as [[sg b]|] eqn:Eh.
    + destruct (use_cache p size); [|discriminate].
      pose proof (remove_first_perm _ _ _ Eh) as HP.
      apply find_some in Eh. destruct Eh as [_ Esz]. simpl in Esz. apply Z.eqb_eq in Esz.
      injection H as <-. unfold PoolInv, held; simpl. split; [|split].
      * eapply PI_perm; [|exact HI]. unfold held. rewrite HP at 1. rewrite map_app. simpl.
        rewrite <- app_assoc. reflexivity.
      * apply Forall_app; split; auto. constructor; auto. cbn [lreq lblk]. apply Z.eq_le_incl. symmetry; exact Esz.
      * apply Hnd'; reflexivity.
    + destruct (alloc_buddy answers (pmin p) (segs p) size) as [[[ss sg] b]| | | | | |] eqn:Ea; try discriminate.
      injection H as <-.
      destruct (alloc_buddy_spec _ _ _ _ _ _ _ _ HI Ea) as (HI' & Hsz & _).
      unfold PoolInv, held; simpl. split; [|split].
      * eapply PI_perm; [|exact HI']. unfold held. rewrite map_app. simpl. rewrite <- app_assoc. simpl.
        apply Permutation_middle.
      * apply Forall_app; split; auto.
      * apply Hnd'; reflexivity.
  - unfold pool_free in H.
    destruct (find (fun l => luid l =? uid) (lives p)) as [l|] eqn:Ef; [|discriminate].
    pose proof (remove_first_perm _ _ _ Ef) as HP.
    assert (HPh : Permutation (held p)
       ((lseg l, lblk l) :: map (fun l => (lseg l, lblk l)) (remove_first (fun l => luid l =? uid) (lives p)) ++ cached p)).
    { unfold held. rewrite HP at 1. reflexivity. }
    assert (Hreq' : Forall (fun l => lreq l <= bsize (lblk l)) (remove_first (fun l => luid l =? uid) (lives p))).
    { rewrite Forall_forall in *. intros x Hx. apply Hreq. eapply remove_first_sub; eauto. }
    destruct (use_cache p (lreq l)).
    + injection H as <-. unfold PoolInv, held; simpl. split; [|split].
      * eapply PI_perm; [|exact HI]. rewrite HPh. rewrite app_assoc. apply Permutation_cons_append.
      * exact Hreq'.
      * apply remove_first_NoDup_map; auto.
    + eapply PI_perm in HI; [|exact HPh].
      destruct (free_buddy_PI _ _ _ _ _ HI) as (ss' & E & HI'). rewrite E in H. injection H as <-.
      unfold PoolInv, held; simpl. split; [exact HI'|split; [exact Hreq'|apply remove_first_NoDup_map; auto]].
  - unfold pool_update in H.
    destruct (drop_sizes_PI (pmin p) (pcset p) newset (segs p) (cached p) (map (fun l => (lseg l, lblk l)) (lives p)) HI)
      as (ss' & ca' & E & HI' & _).
    rewrite E in H. injection H as <-. unfold PoolInv, held; simpl. auto.
Qed.

Lemma step_no_UB p o : PoolInv p -> step p o <> UB.
Proof.
  intros (HI & Hreq & Hnd) H. destruct o as [uid size answers|uid|newset]; simpl in H.
  - unfold pool_alloc in H. destruct (existsb _ _); [discriminate|].
    destruct (if use_cache p size then _ else None) as [[sg b]|]; [discriminate|].
    assert (HA : forall a ss, alloc_buddy a (pmin p) ss size <> UB).
    { induction a as [|x r IH]; intros ss; cbn [alloc_buddy]; destruct (try_segs ss size); try discriminate.
      destruct (x =? 0); [discriminate|]. destruct (range_free _ _ _); [apply IH|discriminate]. }
    specialize (HA answers (segs p)).
    destruct (alloc_buddy answers (pmin p) (segs p) size) as [[[ss sg] b]| | | | | |]; try discriminate; congruence.
  - unfold pool_free in H.
    destruct (find (fun l => luid l =? uid) (lives p)) as [l|] eqn:Ef; [|discriminate].
    pose proof (remove_first_perm _ _ _ Ef) as HP.
    destruct (use_cache p (lreq l)); [discriminate|].
    assert (HI2 : PI (pmin p) (segs p) ((lseg l, lblk l) :: map (fun l => (lseg l, lblk l)) (remove_first (fun l => luid l =? uid) (lives p)) ++ cached p)).
    { eapply PI_perm; [|exact HI]. unfold held. rewrite HP at 1. reflexivity. }
    destruct (free_buddy_PI _ _ _ _ _ HI2) as (ss' & E & _). rewrite E in H. discriminate.
  - unfold pool_update in H.
    destruct (drop_sizes_PI (pmin p) (pcset p) newset (segs p) (cached p) (map (fun l => (lseg l, lblk l)) (lives p)) HI)
      as (ss' & ca' & E & _). rewrite E in H. discriminate.
Qed.

Lemma run_inv ops : forall p p', PoolInv p -> run p ops = Ok p' -> PoolInv p'.
Proof.
  induction ops as [|o r IH]; simpl; intros p p' HI H.
  - injection H as <-; exact HI.
  - destruct (step p o) as [p1| | | | | |] eqn:E; try discriminate.
    eapply IH; [|exact H]. eapply step_inv; eauto.
Qed.

Lemma run_no_UB ops : forall p, PoolInv p -> run p ops <> UB.
Proof.
  induction ops as [|o r IH]; simpl; intros p HI; [discriminate|].
  destruct (step p o) as [p1| | | | | |] eqn:E; try discriminate.
  - apply IH. eapply step_inv; eauto.
  - intros _. eapply step_no_UB; eauto.
Qed.

Lemma init_inv base mn mx con cs p :
  (mn <= 29)%nat -> pool_init base (pow2 mx) mn mx con cs = Some p -> PoolInv p.
Proof.
  intros H29 H. unfold pool_init in H. destruct (_ && _ && _) eqn:E; [|discriminate].
  injection H as <-. unfold PoolInv, held, PI; simpl.
  assert (mn <= mx)%nat by lia.
  split; [split; [exact H29|split; [discriminate|split; [|split]]]|split].
  - repeat constructor.
  - constructor; [split; [reflexivity|apply fresh_seg_inv; auto]|constructor].
  - constructor.
  - constructor.
  - constructor.
Qed.

(** ** Consequences *)
Lemma PI_in_seg mn ss H h :
  PI mn ss H -> In h H -> exists s, In s ss /\ sptr s = fst h /\ wfb (sptr s) (smin s) (smax s) (snd h) /\ scap s = pow2 (smax s).
Proof.
  intros (_ & _ & _ & H3 & H4) Hh. rewrite Forall_forall in *.
  destruct (H4 h Hh) as (s & Hs & Es). destruct (H3 s Hs) as [_ Hi].
  exists s. split; [exact Hs|split; [exact Es|]].
  destruct Hi as (Hcap & _ & _ & _ & HC & _). split; [|exact Hcap].
  eapply CInv_wf; [exact HC|]. apply in_or_app; right. unfold sel. apply in_map.
  apply filter_In. split; auto. lia.
Qed.

Lemma wfb_range base mn mx b : wfb base mn mx b -> base <= bptr b /\ bptr b + bsize b <= base + pow2 mx.
Proof.
  intros (Ho & Hs & q & Hq0 & Hq & Hm). pose proof (pow2_pos (border b)). rewrite Hs. nia.
Qed.

Lemma PI_pairwise mn ss : forall H, PI mn ss H -> pairwise (fun a b => disj (snd a) (snd b)) H.
Proof.
  intros H HI.
  assert (Hsel : forall g, In g (map sptr ss) -> pairwise disj (sel g H)).
  { intros g Hg. apply in_map_iff in Hg. destruct Hg as (s & <- & Hs).
    destruct HI as (_ & _ & _ & H3 & _). rewrite Forall_forall in H3. destruct (H3 s Hs) as [_ Hi].
    destruct Hi as (_ & _ & _ & _ & (_ & Hp & _) & _). apply pairwise_app in Hp. tauto. }
  assert (Hin : forall h, In h H -> exists s, In s ss /\ sptr s = fst h /\ sptr s <= bptr (snd h) /\ bptr (snd h) + bsize (snd h) <= sptr s + scap s).
  { intros h Hh. destruct (PI_in_seg _ _ _ _ HI Hh) as (s & Hs & Es & Hw & Hc).
    exists s. apply wfb_range in Hw. rewrite Hc. auto. }
  destruct HI as (_ & _ & Hpw & _ & _).
  clear -Hsel Hin Hpw.
  induction H as [|h r IH]; constructor.
  - apply Forall_forall. intros k Hk.
    destruct (Hin h (or_introl eq_refl)) as (s & Hs & Es & Hl & Hu).
    destruct (Hin k (or_intror Hk)) as (t & Ht & Et & Hl' & Hu').
    destruct (Z.eq_dec (fst h) (fst k)) as [E|E].
    + specialize (Hsel (fst h)). rewrite <- Es in Hsel at 1. specialize (Hsel (in_map sptr _ _ Hs)).
      unfold sel in Hsel. simpl in Hsel. rewrite Z.eqb_refl in Hsel. simpl in Hsel.
      inversion Hsel as [|? ? Hf _]; subst. rewrite Forall_forall in Hf. apply Hf.
      apply in_map. apply filter_In. split; auto. lia.
    + assert (s <> t) as Hne by congruence.
      pose proof (pairwise_in _ _ _ _ sdisj_sym Hpw Hs Ht Hne) as Hd.
      unfold sdisj, disj in *. lia.
  - apply IH.
    + intros g Hg. specialize (Hsel g Hg). unfold sel in *. simpl in Hsel.
      destruct (fst h =? g); auto. simpl in Hsel. inversion Hsel; auto.
    + intros k Hk. apply Hin. right; auto.
Qed.

Lemma min_order_exists (F : list blk) : F <> [] -> exists b, In b F /\ forall c, In c F -> (border b <= border c)%nat.
Proof.
  induction F as [|x r IH]; [contradiction|]. intros _.
  destruct r as [|y r'].
  - exists x. split; [left; auto|]. intros c [<-|[]]; lia.
  - destruct IH as (b & Hb & Hm); [discriminate|].
    destruct (le_gt_dec (border x) (border b)).
    + exists x. split; [left; auto|]. intros c [<-|Hc]; [lia|]. specialize (Hm c Hc). lia.
    + exists b. split; [right; auto|]. intros c [<-|Hc]; [lia|auto].
Qed.

Lemma all_free_single base mn mx F :
  CInv base mn mx F [] -> exists b, F = [b] /\ bptr b = base /\ bsize b = pow2 mx /\ border b = mx.
Proof.
  intros (H1 & H2 & H3 & H4 & _). rewrite app_nil_r in *.
  assert (HF : F <> []).
  { intros ->. destruct (H3 base) as (b & [] & _). pose proof (pow2_pos mx). lia. }
  rewrite Forall_forall in H1.
  destruct (min_order_exists F HF) as (b & Hb & Hmin).
  pose proof (H1 b Hb) as (Hbo & Hbs & q & Hq0 & Hq & Hqm).
  set (o := border b) in *. pose proof (pow2_pos o) as Hpo.
  destruct (Nat.eq_dec o mx) as [E|E].
  - assert (q = 0) by (rewrite E in *; nia). subst q.
    exists b. split; [|split; [lia|split; [congruence|exact E]]].
    destruct F as [|x r]; [contradiction|].
    assert (Hone : forall y, In y (x :: r) -> disj b y -> False).
    { intros y Hy Hd. pose proof (H1 y Hy) as Hwy. pose proof (wfb_pos _ _ _ _ Hwy).
      apply wfb_range in Hwy. unfold disj in Hd. rewrite Hbs, E in Hd. lia. }
    inversion H2 as [|? ? Hx Hr]; subst.
    destruct Hb as [->|Hb].
    + destruct r as [|y r']; [reflexivity|]. exfalso. apply (Hone y); [right; left; auto|].
      inversion Hx; auto.
    + exfalso. apply (Hone x); [left; auto|]. apply disj_sym. rewrite Forall_forall in Hx. auto.
  - assert (Hlt : (o < mx)%nat) by lia. exfalso.
    assert (Hbq : 0 <= buddy_q q /\ (buddy_q q + 1) * pow2 o <= pow2 mx).
    { assert (HR : pow2 mx = 2 * pow2 o * pow2 (mx - S o)).
      { rewrite <- pow2_S, <- pow2_add. f_equal. lia. }
      rewrite HR in *. set (R := pow2 (mx - S o)) in *. assert (q + 1 <= 2 * R) by nia.
      unfold buddy_q. destruct (even_cases q) as [[-> [m Hm]]|[-> [m Hm]]]; subst q.
      - assert (m + 1 <= R) by lia. split; [lia|]. nia.
      - split; [lia|]. nia. }
    destruct Hbq as [Hbq0 Hbqm].
    destruct (H3 (base + buddy_q q * pow2 o)) as (c & Hc & Hr); [nia|].
    pose proof (H1 c Hc) as (Hco & Hcs & q2 & Hq20 & Hq2 & Hq2m).
    pose proof (Hmin c Hc) as Hge.
    destruct (Nat.eq_dec (border c) o) as [Ec|Ec].
    + apply (H4 b c Hb Hc); [fold o; auto|fold o; auto|].
      fold o. replace (bptr b - base) with (q * pow2 o) by lia. rewrite lxor_buddy.
      rewrite Hcs, Hq2, Ec in Hr. rewrite Hq2, Ec.
      assert (q2 <= buddy_q q) by (apply Z.mul_le_mono_pos_r with (pow2 o); lia).
      assert (buddy_q q < q2 + 1) by (apply Z.mul_lt_mono_pos_r with (pow2 o); lia).
      replace q2 with (buddy_q q) by lia. lia.
    + assert (Hne : b <> c) by (intros ->; apply Ec; reflexivity).
      pose proof (pairwise_in _ _ _ _ disj_sym H2 Hb Hc Hne) as Hd.
      assert (exists k, pow2 (border c) = k * (2 * pow2 o) /\ 0 < k) as (k & Hk & Hk0).
      { exists (pow2 (border c - S o)). split; [|apply pow2_pos].
        rewrite <- pow2_S, <- pow2_add. f_equal. lia. }
      unfold disj in Hd. rewrite Hbs, Hcs, Hq, Hq2, Hk in *.
      unfold buddy_q in Hr. destruct (even_cases q) as [[Ev [m Hm]]|[Ev [m Hm]]]; rewrite Ev in Hr; subst q.
      * (* q = 2m, buddy 2m+1 *)
        assert (q2 * k < m + 1) by (apply Z.mul_lt_mono_pos_r with (2 * pow2 o); nia).
        assert (m < (q2 + 1) * k) by (apply Z.mul_lt_mono_pos_r with (2 * pow2 o); nia).
        assert (q2 * k * (2 * pow2 o) <= m * (2 * pow2 o)) by (apply Z.mul_le_mono_nonneg_r; lia).
        assert ((m + 1) * (2 * pow2 o) <= (q2 + 1) * k * (2 * pow2 o)) by (apply Z.mul_le_mono_nonneg_r; lia).
        lia.
      * assert (q2 * k < m + 1) by (apply Z.mul_lt_mono_pos_r with (2 * pow2 o); nia).
        assert (m < (q2 + 1) * k) by (apply Z.mul_lt_mono_pos_r with (2 * pow2 o); nia).
        assert (q2 * k * (2 * pow2 o) <= m * (2 * pow2 o)) by (apply Z.mul_le_mono_nonneg_r; lia).
        assert ((m + 1) * (2 * pow2 o) <= (q2 + 1) * k * (2 * pow2 o)) by (apply Z.mul_le_mono_nonneg_r; lia).
        lia.
Qed.
