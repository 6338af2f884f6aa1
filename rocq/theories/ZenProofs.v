From Verif Require Import Base ZenModel.
Local Open Scope Z_scope.

(** ** Address fields *)
Lemma shiftl_lor_add a b n : 0 <= n -> 0 <= b < 2 ^ n -> Z.lor (Z.shiftl a n) b = a * 2 ^ n + b.
Proof.
  intros Hn Hb.
  assert (Z.land (Z.shiftl a n) b = 0) as HL.
  { apply Z.bits_inj'; intros i Hi. rewrite Z.land_spec, Z.bits_0.
    destruct (Z_lt_ge_dec i n).
    - rewrite Z.shiftl_spec_low by lia. reflexivity.
    - destruct (Z.eq_dec b 0) as [->|]; [rewrite Z.bits_0; apply andb_false_r|].
      rewrite (Z.bits_above_log2 b i); [apply andb_false_r|lia|].
      apply Z.log2_lt_pow2; [lia|]. apply Z.lt_le_trans with (2 ^ n); [lia|]. apply Z.pow_le_mono_r; lia. }
  rewrite <- Z.lxor_lor by exact HL. rewrite <- Z.add_nocarry_lxor by exact HL.
  rewrite Z.shiftl_mul_pow2 by lia. lia.
Qed.

Lemma mkAddr_eq blob idx p l :
  0 <= p -> 0 <= l -> 0 <= blob -> 0 <= idx < 2 ^ (p + l) -> blob * 2 ^ (p + l) + idx < 2 ^ 32 ->
  mkAddr blob idx p l = blob * 2 ^ (p + l) + idx.
Proof.
  intros Hp Hl Hb Hi H. unfold mkAddr. rewrite (Z.add_comm l p).
  rewrite (Z.mod_small (Z.shiftl _ _)).
  - rewrite shiftl_lor_add by lia. apply Z.mod_small. nia.
  - rewrite Z.shiftl_mul_pow2 by lia. nia.
Qed.

Lemma land_pow2_mod a n : 0 <= n -> Z.land a (2 ^ n - 1) = a mod 2 ^ n.
Proof. intro H. rewrite <- Z.land_ones by lia. f_equal. rewrite Z.ones_equiv. lia. Qed.

Lemma fields_eq addr p l : 0 <= p -> 0 <= l ->
  getBlobAddr addr p l = addr / 2 ^ (p + l) /\
  getPageAddr addr p l = (addr / 2 ^ l) mod 2 ^ p /\
  getLaneAddr addr p l = addr mod 2 ^ l.
Proof.
  intros Hp Hl. unfold getBlobAddr, getPageAddr, getLaneAddr.
  rewrite !land_pow2_mod by lia. rewrite !Z.shiftr_div_pow2 by lia. auto.
Qed.

Lemma fields_of_triple p l blob page lane :
  0 <= p -> 0 <= l -> 0 <= blob -> 0 <= page < 2 ^ p -> 0 <= lane < 2 ^ l ->
  let a := blob * 2 ^ (p + l) + (page * 2 ^ l + lane) in
  getBlobAddr a p l = blob /\ getPageAddr a p l = page /\ getLaneAddr a p l = lane.
Proof.
  intros Hp Hl Hb Hpg Hln a. destruct (fields_eq a p l Hp Hl) as (-> & -> & ->).
  assert (Hpow : 2 ^ (p + l) = 2 ^ p * 2 ^ l) by (apply Z.pow_add_r; lia).
  assert (0 < 2 ^ p) by (apply Z.pow_pos_nonneg; lia).
  assert (0 < 2 ^ l) by (apply Z.pow_pos_nonneg; lia).
  unfold a. rewrite Hpow. repeat split.
  - symmetry. apply Z.div_unique with (page * 2 ^ l + lane); [left; nia|]. ring.
  - assert (E : (blob * (2 ^ p * 2 ^ l) + (page * 2 ^ l + lane)) / 2 ^ l = blob * 2 ^ p + page).
    { symmetry. apply Z.div_unique with lane; [left; lia|]. ring. }
    rewrite E. symmetry. apply Z.mod_unique with blob; [left; lia|]. ring.
  - symmetry. apply Z.mod_unique with (blob * 2 ^ p + page); [left; lia|]. ring.
Qed.

(** ** Bitmaps *)
Definition bit_free (ws : list Z) (k : Z) : bool :=
  Z.testbit (nth (Z.to_nat (k / 64)) ws 0) (k mod 64).

Lemma ctz_from_spec fuel : forall i w b, ctz_from fuel i w = Some b ->
  i <= b < i + Z.of_nat fuel /\ Z.testbit w b = true.
Proof.
  induction fuel as [|f IH]; simpl; intros i w b; [discriminate|].
  destruct (Z.testbit w i) eqn:E; intro H.
  - injection H as <-. split; [lia|exact E].
  - apply IH in H. split; [lia|tauto].
Qed.

Lemma ctz_from_none fuel : forall i w, ctz_from fuel i w = None ->
  forall b, i <= b < i + Z.of_nat fuel -> Z.testbit w b = false.
Proof.
  induction fuel as [|f IH]; intros i w H b Hb; [lia|]. simpl in H.
  destruct (Z.testbit w i) eqn:E; [discriminate|].
  destruct (Z.eq_dec b i) as [->|]; [exact E|]. apply (IH (i + 1) w H). lia.
Qed.

Lemma take_bit_spec ws : forall i k ws', 0 <= i -> take_bit i ws = Some (k, ws') ->
  length ws' = length ws /\ i * 64 <= k < (i + Z.of_nat (length ws)) * 64 /\
  forall j b, 0 <= b < 64 ->
    Z.testbit (nth j ws' 0) b =
      (if (i + Z.of_nat j =? k / 64) && (b =? k mod 64) then false else Z.testbit (nth j ws 0) b) /\
    ((i + Z.of_nat j = k / 64 /\ b = k mod 64) -> Z.testbit (nth j ws 0) b = true).
Proof.
  induction ws as [|w r IH]; intros i k ws' Hi H; cbn [take_bit] in H; [discriminate|].
  destruct (ctz w) as [b0|] eqn:Ec.
  - injection H as <- <-. apply ctz_from_spec in Ec. destruct Ec as [Hb0 Hbit].
    change (Z.of_nat 64) with 64 in Hb0.
    assert (Hq : (i * 64 + b0) / 64 = i) by (symmetry; apply Z.div_unique with b0; [left; lia|ring]).
    assert (Hr : (i * 64 + b0) mod 64 = b0) by (symmetry; apply Z.mod_unique with i; [left; lia|ring]).
    cbn [length]. split; [reflexivity|split; [lia|]]. intros j b Hb. rewrite Hq, Hr.
    destruct j as [|j]; cbn [nth].
    + replace (i + Z.of_nat 0 =? i) with true by (symmetry; apply Z.eqb_eq; lia). cbn [andb].
      destruct (Z.eqb_spec b b0) as [->|Hne].
      * split; [apply Z.clearbit_eq|auto].
      * split; [apply Z.clearbit_neq; auto|intros [_ ?]; contradiction].
    + replace (i + Z.of_nat (S j) =? i) with false by (symmetry; apply Z.eqb_neq; lia). cbn [andb].
      split; [reflexivity|lia].
  - destruct (take_bit (i + 1) r) as [[k' r']|] eqn:Et; [|discriminate]. injection H as <- <-.
    apply IH in Et; [|lia]. destruct Et as (Hl & Hk & Hj). cbn [length]. split; [congruence|split; [lia|]].
    assert (Hge : i + 1 <= k' / 64) by (apply Z.div_le_lower_bound; lia).
    intros j b Hb. destruct j as [|j]; cbn [nth].
    + replace (i + Z.of_nat 0 =? k' / 64) with false by (symmetry; apply Z.eqb_neq; lia). cbn [andb].
      split; [reflexivity|lia].
    + specialize (Hj j b Hb). replace (i + Z.of_nat (S j)) with (i + 1 + Z.of_nat j) by lia. exact Hj.
Qed.

Lemma take_bit_none ws : forall i, take_bit i ws = None ->
  forall j b, 0 <= b < 64 -> Z.testbit (nth j ws 0) b = false.
Proof.
  induction ws as [|w r IH]; intros i H j b Hb.
  - destruct j; apply Z.bits_0.
  - cbn [take_bit] in H. destruct (ctz w) as [b0|] eqn:Ec; [discriminate|].
    destruct (take_bit (i + 1) r) as [[k' r']|] eqn:Et; [discriminate|].
    destruct j as [|j]; cbn [nth]; [|eapply IH; eauto].
    apply (ctz_from_none 64 0 w Ec). simpl. lia.
Qed.

Lemma take_bit_free ws k ws' : take_bit 0 ws = Some (k, ws') ->
  length ws' = length ws /\ 0 <= k < 64 * Z.of_nat (length ws) /\ bit_free ws k = true /\
  forall j, 0 <= j -> bit_free ws' j = if j =? k then false else bit_free ws j.
Proof.
  intro H. destruct (take_bit_spec ws 0 k ws' ltac:(lia) H) as (Hl & Hk & Hj).
  split; [exact Hl|split; [lia|]]. unfold bit_free.
  assert (Hd : forall j, 0 <= j -> 0 <= j / 64 /\ 0 <= j mod 64 < 64).
  { intros j Hj0. split; [apply Z.div_pos; lia|apply Z.mod_pos_bound; lia]. }
  split.
  - destruct (Hd k) as [H1 H2]; [lia|]. specialize (Hj (Z.to_nat (k / 64)) (k mod 64) H2).
    apply Hj. lia.
  - intros j Hj0. destruct (Hd j Hj0) as [H1 H2].
    destruct (Hj (Z.to_nat (j / 64)) (j mod 64) H2) as [-> _].
    rewrite Z2Nat.id by lia. replace (0 + j / 64) with (j / 64) by lia.
    destruct (Z.eqb_spec j k) as [->|Hne].
    + rewrite !Z.eqb_refl. reflexivity.
    + destruct (Z.eqb_spec (j / 64) (k / 64)) as [E1|]; cbn [andb]; [|reflexivity].
      destruct (Z.eqb_spec (j mod 64) (k mod 64)) as [E2|]; [|reflexivity].
      exfalso. apply Hne. rewrite (Z.div_mod j 64), (Z.div_mod k 64), E1, E2 by lia. reflexivity.
Qed.

Lemma take_bit_none_free ws : take_bit 0 ws = None -> forall k, 0 <= k -> bit_free ws k = false.
Proof.
  intros H k Hk. unfold bit_free. eapply take_bit_none; [exact H|]. apply Z.mod_pos_bound; lia.
Qed.

Lemma set_word_bit_free ws k : 0 <= k < 64 * Z.of_nat (length ws) ->
  length (set_word_bit ws (k / 64) (k mod 64)) = length ws /\
  forall j, 0 <= j -> bit_free (set_word_bit ws (k / 64) (k mod 64)) j = if j =? k then true else bit_free ws j.
Proof.
  intros Hk. unfold set_word_bit.
  assert (Hlt : k / 64 < Z.of_nat (length ws)) by (apply Z.div_lt_upper_bound; lia).
  assert (Hk0 : 0 <= k / 64) by (apply Z.div_pos; lia).
  destruct (Z.ltb_spec (k / 64) (Z.of_nat (length ws))); [|lia].
  split; [apply length_upd_nth|]. intros j Hj. unfold bit_free. rewrite nth_upd_nth.
  assert (0 <= j / 64) by (apply Z.div_pos; lia).
  destruct (Nat.ltb_spec (Z.to_nat (k / 64)) (length ws)); [|lia]. rewrite andb_true_r.
  destruct (Z.eqb_spec j k) as [->|Hne].
  - rewrite Nat.eqb_refl. apply Z.setbit_eq. apply Z.mod_pos_bound; lia.
  - destruct (Nat.eqb_spec (Z.to_nat (k / 64)) (Z.to_nat (j / 64))) as [E1|]; [|reflexivity].
    rewrite E1. apply Z.setbit_neq; [apply Z.mod_pos_bound; lia|].
    intro E2. apply Hne. rewrite (Z.div_mod j 64), (Z.div_mod k 64), E2 by lia.
    replace (j / 64) with (k / 64) by lia. reflexivity.
Qed.

(** ** Invariant *)
Definition lanes (z : zenfs) : Z := 2 ^ (z_p z + z_l z).

Definition zwf (z : zenfs) : Prop :=
  0 <= z_p z /\ 0 <= z_l z /\ 6 <= z_p z + z_l z < 32 /\
  map bl_id (z_blobs z) = map Z.of_nat (seq 0 (length (z_blobs z))) /\
  Forall (fun b => 64 * Z.of_nat (length (bl_words b)) = lanes z) (z_blobs z).

(** Every lane of every blob is either held by the client or marked free, never both. *)
Definition zinv (s : zenfs * list Z) : Prop :=
  let '(z, held) := s in
  zwf z /\ NoDup held /\
  (forall a, In a held -> exists b, In b (z_blobs z) /\ exists k, 0 <= k < lanes z /\ a = bl_id b * lanes z + k) /\
  (forall b k, In b (z_blobs z) -> 0 <= k < lanes z ->
     (In (bl_id b * lanes z + k) held <-> bit_free (bl_words b) k = false)).

Lemma ids_in z b : zwf z -> In b (z_blobs z) -> 0 <= bl_id b < Z.of_nat (length (z_blobs z)).
Proof.
  intros (_ & _ & _ & Hid & _) Hb. apply (in_map bl_id) in Hb. rewrite Hid in Hb.
  apply in_map_iff in Hb. destruct Hb as (n & <- & Hn). apply in_seq in Hn. lia.
Qed.

Lemma ids_inj z b c : zwf z -> In b (z_blobs z) -> In c (z_blobs z) -> bl_id b = bl_id c -> b = c.
Proof.
  intros (_ & _ & _ & Hid & _) Hb Hc E.
  assert (Hnd : NoDup (map bl_id (z_blobs z))).
  { rewrite Hid. apply FinFun.Injective_map_NoDup; [intros x y; lia|apply seq_NoDup]. }
  clear Hid. induction (z_blobs z) as [|x r IH]; [destruct Hb|]. simpl in Hnd.
  inversion Hnd as [|? ? Hn Hr]; subst. destruct Hb as [->|Hb], Hc as [->|Hc]; auto.
  - exfalso. apply Hn. rewrite E. apply in_map; auto.
  - exfalso. apply Hn. rewrite <- E. apply in_map; auto.
Qed.

Lemma upd_blob_in id ws bs b :
  In b (upd_blob id ws bs) -> (b = mkBlob id ws) \/ In b bs.
Proof.
  induction bs as [|x r IH]; simpl; auto. destruct (bl_id x =? id); simpl; intuition.
Qed.
Lemma upd_blob_ids id ws bs : map bl_id (upd_blob id ws bs) = map bl_id bs.
Proof.
  induction bs as [|x r IH]; simpl; auto. destruct (Z.eqb_spec (bl_id x) id); simpl; congruence.
Qed.
Lemma upd_blob_length id ws bs : length (upd_blob id ws bs) = length bs.
Proof. induction bs as [|x r IH]; simpl; auto. destruct (bl_id x =? id); simpl; congruence. Qed.

Lemma upd_blob_spec z id ws b0 :
  zwf z -> find_blob id (z_blobs z) = Some b0 ->
  length ws = length (bl_words b0) ->
  let z' := mkZen (z_p z) (z_l z) (z_mmap z) (upd_blob id ws (z_blobs z)) in
  zwf z' /\ bl_id b0 = id /\ In b0 (z_blobs z) /\
  (forall b, In b (z_blobs z') -> (bl_id b = id /\ bl_words b = ws) \/ (bl_id b <> id /\ In b (z_blobs z))) /\
  (forall b, In b (z_blobs z) -> exists b', In b' (z_blobs z') /\ bl_id b' = bl_id b).
Proof.
  intros Hwf Hf Hlen z'. unfold find_blob in Hf. apply find_some in Hf. destruct Hf as [Hin Hid].
  apply Z.eqb_eq in Hid.
  assert (Hwf' : zwf z').
  { destruct Hwf as (H1 & H2 & H3 & H4 & H5). unfold zwf, z'; cbn [z_p z_l z_blobs].
    split; [exact H1|split; [exact H2|split; [exact H3|split]]].
    - rewrite upd_blob_ids, upd_blob_length. exact H4.
    - rewrite Forall_forall in *. intros b Hb. unfold lanes; cbn [z_p z_l]. fold (lanes z).
      destruct (upd_blob_in _ _ _ _ Hb) as [->|Hb']; cbn [bl_words]; auto.
      rewrite Hlen. auto. }
  split; [exact Hwf'|split; [exact Hid|split; [exact Hin|split]]].
  - intros b Hb. destruct (Z.eq_dec (bl_id b) id) as [E|E].
    + left. split; [exact E|].
      assert (Hm : In (mkBlob id ws) (z_blobs z')).
      { unfold z'; cbn [z_blobs]. clear -Hin Hid. induction (z_blobs z) as [|x r IH]; [destruct Hin|]. simpl.
        destruct (Z.eqb_spec (bl_id x) id); [left; auto|]. destruct Hin as [->|Hin]; [contradiction|].
        right; auto. }
      rewrite (ids_inj z' b (mkBlob id ws) Hwf' Hb Hm E). reflexivity.
    + right. split; [exact E|]. destruct (upd_blob_in _ _ _ _ Hb) as [->|Hb']; [contradiction E; reflexivity|exact Hb'].
  - intros b Hb. apply (in_map bl_id) in Hb. rewrite <- (upd_blob_ids id ws) in Hb.
    apply in_map_iff in Hb. destruct Hb as (b' & E & Hb'). eauto.
Qed.

Lemma lanes_pos z : zwf z -> 0 < lanes z.
Proof. intros (H1 & H2 & _). unfold lanes. apply Z.pow_pos_nonneg; lia. Qed.

Lemma decompose a b c d n : 0 < n -> 0 <= b < n -> 0 <= d < n -> a * n + b = c * n + d -> a = c /\ b = d.
Proof. intros. assert (a = c) by nia. subst. lia. Qed.

(** One search in a blob. *)
Lemma find_free_spec z held id z' a :
  zinv (z, held) -> Z.of_nat (length (z_blobs z)) * lanes z < 2 ^ 32 ->
  find_free z id = (z', a) ->
  (a = 2 ^ 32 - 1 /\ z' = z /\
     (forall b k, In b (z_blobs z) -> bl_id b = id -> 0 <= k < lanes z -> In (bl_id b * lanes z + k) held)) \/
  (a <> 2 ^ 32 - 1 /\ ~ In a held /\ zinv (z', held ++ [a]) /\ length (z_blobs z') = length (z_blobs z) /\
   lanes z' = lanes z /\ z_p z' = z_p z /\ z_l z' = z_l z /\ z_mmap z' = z_mmap z /\
   exists b k, In b (z_blobs z) /\ 0 <= k < lanes z /\ a = bl_id b * lanes z + k).
Proof.
  intros (Hwf & Hnd & Hheld & Hiff) Hcap Hf. unfold find_free in Hf.
  pose proof (lanes_pos z Hwf) as Hlp.
  destruct (find_blob id (z_blobs z)) as [b0|] eqn:Efb.
  2:{ injection Hf as <- <-. left. split; [reflexivity|split; [reflexivity|]].
      intros b k Hb Eid _. exfalso. unfold find_blob in Efb. apply (find_none _ _ Efb) in Hb. lia. }
  assert (Hb0 : In b0 (z_blobs z) /\ bl_id b0 = id).
  { unfold find_blob in Efb. apply find_some in Efb. destruct Efb. split; auto. lia. }
  destruct Hb0 as [Hb0 Hid0].
  destruct (take_bit 0 (bl_words b0)) as [[k ws]|] eqn:Et.
  2:{ injection Hf as <- <-. left. split; [reflexivity|split; [reflexivity|]].
      intros b k Hb Eid Hk. apply Hiff; auto.
      rewrite (ids_inj z b b0 Hwf Hb Hb0) by congruence. apply (take_bit_none_free _ Et). lia. }
  injection Hf as <- <-. destruct (take_bit_free _ _ _ Et) as (Hlen & Hk & Hfree & Hbits).
  assert (Hsz : 64 * Z.of_nat (length (bl_words b0)) = lanes z).
  { destruct Hwf as (_ & _ & _ & _ & HF). rewrite Forall_forall in HF. auto. }
  rewrite Hsz in Hk.
  pose proof (ids_in z b0 Hwf Hb0) as Hidr.
  assert (Ha : mkAddr id k (z_p z) (z_l z) = id * lanes z + k).
  { destruct Hwf as (H1 & H2 & _). unfold lanes in *. apply mkAddr_eq; auto; nia. }
  rewrite Ha. assert (Hmax : id * lanes z + k < 2 ^ 32 - 1) by nia.
  right. split; [lia|].
  assert (Hnin : ~ In (id * lanes z + k) held).
  { intro Hin. rewrite <- Hid0 in Hin. apply Hiff in Hin; auto. congruence. }
  split; [exact Hnin|].
  destruct (upd_blob_spec z id ws b0 Hwf Efb Hlen) as (Hwf' & _ & _ & Hin' & Hback).
  set (z1 := mkZen (z_p z) (z_l z) (z_mmap z) (upd_blob id ws (z_blobs z))) in *.
  assert (Hl1 : lanes z1 = lanes z) by reflexivity.
  split; [|split; [apply upd_blob_length|split; [reflexivity|split; [reflexivity|split; [reflexivity|split; [reflexivity|]]]]]].
  2:{ exists b0, k. rewrite Hid0. auto. }
  split; [exact Hwf'|split; [|split]].
  - apply Permutation_NoDup with (id * lanes z + k :: held); [apply Permutation_cons_append|].
    constructor; auto.
  - intros a Hin. rewrite Hl1. apply in_app_or in Hin. destruct Hin as [Hin|[<-|[]]].
    + destruct (Hheld a Hin) as (b & Hb & k' & Hk' & ->). destruct (Hback b Hb) as (b' & Hb' & E).
      exists b'. split; auto. exists k'. rewrite E. auto.
    + destruct (Hback b0 Hb0) as (b' & Hb' & E). exists b'. split; auto. exists k. rewrite E, Hid0. auto.
  - intros b j Hb Hj. rewrite Hl1 in *. rewrite in_app_iff.
    destruct (Hin' b Hb) as [[Eid Ew]|[Eid Hold]].
    + rewrite Ew, Hbits by lia. rewrite Eid.
      destruct (Z.eqb_spec j k) as [->|Hne].
      * split; [reflexivity|]. intros _. right; left; reflexivity.
      * rewrite <- (Hiff b0 j Hb0 Hj), Hid0. split; [|auto].
        intros [H|[H|[]]]; auto. lia.
    + rewrite <- (Hiff b j Hold Hj). split; [|auto]. intros [H|[H|[]]]; auto.
      exfalso. apply Eid. eapply decompose in H; [|exact Hlp|lia|lia]. lia.
Qed.

Lemma search_spec order : forall z held z' r,
  zinv (z, held) -> Z.of_nat (length (z_blobs z)) * lanes z < 2 ^ 32 ->
  search z order = (z', r) ->
  match r with
  | None => z' = z /\ (forall b k, In b (z_blobs z) -> In (bl_id b) order -> 0 <= k < lanes z -> In (bl_id b * lanes z + k) held)
  | Some a => ~ In a held /\ zinv (z', held ++ [a]) /\ length (z_blobs z') = length (z_blobs z) /\
              lanes z' = lanes z /\ z_p z' = z_p z /\ z_l z' = z_l z /\ z_mmap z' = z_mmap z /\
              exists b k, In b (z_blobs z) /\ 0 <= k < lanes z /\ a = bl_id b * lanes z + k
  end.
Proof.
  induction order as [|id r' IH]; intros z held z' r HI Hcap H; cbn [search] in H.
  - injection H as <- <-. split; [reflexivity|]. intros b k _ [].
  - destruct (find_free z id) as [z1 a] eqn:Ef.
    destruct (find_free_spec z held id z1 a HI Hcap Ef) as [(Ea & Ez & Hall)|(Ea & Hn & HI' & Hrest)].
    + subst z1 a. rewrite Z.eqb_refl in H. specialize (IH z held z' r HI Hcap H).
      destruct r as [a|]; [exact IH|]. destruct IH as [-> Hall']. split; [reflexivity|].
      intros b k Hb [Eid|Hin] Hk; [|apply Hall'; auto]. apply Hall; auto.
    + destruct (Z.eqb_spec a (2 ^ 32 - 1)); [contradiction|]. injection H as <- <-. auto.
Qed.

Lemma ones64_bit b : 0 <= b < 64 -> Z.testbit ones64 b = true.
Proof.
  intro H. unfold ones64. replace (2 ^ 64 - 1) with (Z.ones 64) by reflexivity. apply Z.ones_spec_low. lia.
Qed.

Lemma repeat_bits n k : 0 <= k < 64 * Z.of_nat n -> bit_free (repeat ones64 n) k = true.
Proof.
  intro H. unfold bit_free.
  assert (k / 64 < Z.of_nat n) by (apply Z.div_lt_upper_bound; lia).
  assert (0 <= k / 64) by (apply Z.div_pos; lia).
  assert (E : nth (Z.to_nat (k / 64)) (repeat ones64 n) 0 = ones64).
  { apply (repeat_spec n). apply nth_In. rewrite repeat_length. lia. }
  rewrite E. apply ones64_bit. apply Z.mod_pos_bound; lia.
Qed.

Lemma word_count_anon p l : 0 <= p -> 0 <= l -> 6 <= p + l ->
  64 * word_count MAnonymous p l = 2 ^ (p + l) /\ 0 <= word_count MAnonymous p l.
Proof.
  intros Hp Hl H. unfold word_count. replace (p + l) with ((p + l - 6) + 6) by lia.
  rewrite Z.pow_add_r by lia. change (2 ^ 6) with 64.
  assert (0 < 2 ^ (p + l - 6)) by (apply Z.pow_pos_nonneg; lia).
  set (q := 2 ^ (p + l - 6)) in *.
  assert (E : (q * 64 + 64 - 1) / 64 = q) by (symmetry; apply Z.div_unique with 63; [left; lia|ring]).
  rewrite E. lia.
Qed.

Lemma new_blob_zwf_words id p l : 0 <= p -> 0 <= l -> 6 <= p + l ->
  64 * Z.of_nat (length (bl_words (new_blob MAnonymous id p l))) = 2 ^ (p + l).
Proof.
  intros Hp Hl H. destruct (word_count_anon p l Hp Hl H) as [E H0].
  unfold new_blob. cbn [bl_words]. rewrite repeat_length, Z2Nat.id by lia. exact E.
Qed.

Lemma create_inv z held :
  zinv (z, held) -> z_mmap z = MAnonymous -> zinv (create_blob z, held).
Proof.
  intros (Hwf & Hnd & Hheld & Hiff) Hm. pose proof (lanes_pos z Hwf) as Hlp.
  assert (Hw := Hwf). destruct Hw as (H1 & H2 & H3 & H4 & H5).
  set (nb := new_blob MAnonymous (Z.of_nat (length (z_blobs z))) (z_p z) (z_l z)).
  assert (Ez : create_blob z = mkZen (z_p z) (z_l z) (z_mmap z) (z_blobs z ++ [nb])).
  { unfold create_blob, nb. rewrite Hm. reflexivity. }
  assert (Hnbw : 64 * Z.of_nat (length (bl_words nb)) = lanes z) by (apply new_blob_zwf_words; lia).
  rewrite Ez. split; [|split; [exact Hnd|split]].
  - unfold zwf, lanes; cbn [z_p z_l z_blobs]. split; [exact H1|split; [exact H2|split; [exact H3|split]]].
    + rewrite map_app, H4, app_length. cbn [length]. rewrite Nat.add_1_r, seq_S, map_app. reflexivity.
    + apply Forall_app. split; [exact H5|]. constructor; [exact Hnbw|constructor].
  - intros a Ha. destruct (Hheld a Ha) as (b & Hb & k & Hk & ->). exists b. cbn [z_blobs].
    split; [apply in_or_app; auto|]. exists k. auto.
  - cbn [z_blobs]. unfold lanes; cbn [z_p z_l]. fold (lanes z). intros b k Hb Hk.
    apply in_app_or in Hb. destruct Hb as [Hb|[<-|[]]]; [apply Hiff; auto|].
    split.
    + intro Hin. exfalso. destruct (Hheld _ Hin) as (b & Hb & k' & Hk' & E).
      apply decompose in E; [|lia..]. destruct E as [E _].
      pose proof (ids_in z b Hwf Hb). unfold nb in E. cbn [bl_id new_blob] in E. lia.
    + intro Hf. unfold nb, new_blob in Hf. cbn [bl_words] in Hf. rewrite repeat_bits in Hf; [discriminate|].
      rewrite <- Hnbw in Hk. unfold nb, new_blob in Hk. cbn [bl_words] in Hk. rewrite repeat_length in Hk. exact Hk.
Qed.

Lemma malloc_spec z held o1 o2 z' a :
  zinv (z, held) -> z_mmap z = MAnonymous -> (Z.of_nat (length (z_blobs z)) + 1) * lanes z < 2 ^ 32 ->
  zen_malloc z o1 o2 = (z', Some a) ->
  ~ In a held /\ zinv (z', held ++ [a]) /\ lanes z' = lanes z /\ z_p z' = z_p z /\ z_l z' = z_l z /\
  z_mmap z' = MAnonymous /\
  (length (z_blobs z) <= length (z_blobs z'))%nat.
Proof.
  intros HI Hm Hcap H. unfold zen_malloc in H.
  pose proof (lanes_pos z ltac:(apply HI)) as Hlp.
  destruct (search z o1) as [z1 r] eqn:Es.
  pose proof (search_spec o1 z held z1 r HI ltac:(nia) Es) as Hs. destruct r as [a1|].
  - injection H as <- <-. destruct Hs as (Hn & HI' & Hl & Hln & Hp & Hll & Hmm & _).
    split; [exact Hn|split; [exact HI'|split; [exact Hln|split; [exact Hp|split; [exact Hll|split; [congruence|lia]]]]]].
  - destruct Hs as [-> _]. destruct (1 <=? length (z_blobs z))%nat.
    + assert (HIc : zinv (create_blob z, held)) by (apply create_inv; auto).
      assert (Elen : length (z_blobs (create_blob z)) = S (length (z_blobs z))).
      { unfold create_blob; cbn [z_blobs]. rewrite app_length. simpl. lia. }
      pose proof (search_spec o2 (create_blob z) held z' (Some a) HIc) as Hs2. rewrite Elen in Hs2.
      change (lanes (create_blob z)) with (lanes z) in Hs2. change (z_mmap (create_blob z)) with (z_mmap z) in Hs2.
      change (z_p (create_blob z)) with (z_p z) in Hs2. change (z_l (create_blob z)) with (z_l z) in Hs2.
      destruct Hs2 as (Hn & HI' & Hl & Hln & Hp & Hll & Hmm & _); [nia|exact H|].
      split; [exact Hn|split; [exact HI'|split; [exact Hln|split; [exact Hp|split; [exact Hll|split; [congruence|lia]]]]]].
    + pose proof (search_spec o2 z held z' (Some a) HI ltac:(nia) H) as (Hn & HI' & Hl & Hln & Hp & Hll & Hmm & _).
      split; [exact Hn|split; [exact HI'|split; [exact Hln|split; [exact Hp|split; [exact Hll|split; [congruence|lia]]]]]].
Qed.

(** free of a lane on the first page of its blob *)
Lemma free_spec z held a :
  zinv (z, held) -> In a held -> getPageAddr a (z_p z) (z_l z) = 0 ->
  zinv (zen_free z a, remove_first (Z.eqb a) held) /\ lanes (zen_free z a) = lanes z /\
  z_p (zen_free z a) = z_p z /\ z_l (zen_free z a) = z_l z /\ z_mmap (zen_free z a) = z_mmap z /\
  length (z_blobs (zen_free z a)) = length (z_blobs z).
Proof.
  intros (Hwf & Hnd & Hheld & Hiff) Hin Hpage. pose proof (lanes_pos z Hwf) as Hlp.
  destruct (Hheld a Hin) as (b & Hb & k & Hk & Ea).
  pose proof (ids_in z b Hwf Hb) as Hidr.
  assert (Hw := Hwf). destruct Hw as (Hp0 & Hl0 & _ & _ & H5).
  assert (Hblob : getBlobAddr a (z_p z) (z_l z) = bl_id b).
  { destruct (fields_eq a (z_p z) (z_l z) Hp0 Hl0) as (-> & _). fold (lanes z). rewrite Ea.
    symmetry. apply Z.div_unique with k; [left; lia|ring]. }
  assert (Hlane : getLaneAddr a (z_p z) (z_l z) = k).
  { destruct (fields_eq a (z_p z) (z_l z) Hp0 Hl0) as (_ & Epg & ->). rewrite Epg in Hpage.
    assert (0 < 2 ^ z_l z) by (apply Z.pow_pos_nonneg; lia).
    assert (0 < 2 ^ z_p z) by (apply Z.pow_pos_nonneg; lia).
    assert (Hpow : lanes z = 2 ^ z_p z * 2 ^ z_l z) by (apply Z.pow_add_r; lia).
    assert (E1 : a / 2 ^ z_l z = bl_id b * 2 ^ z_p z + k / 2 ^ z_l z).
    { rewrite Ea, Hpow. replace (bl_id b * (2 ^ z_p z * 2 ^ z_l z) + k) with (k + (bl_id b * 2 ^ z_p z) * 2 ^ z_l z) by ring.
      rewrite Z.div_add by lia. lia. }
    assert (E2 : (a / 2 ^ z_l z) mod 2 ^ z_p z = k / 2 ^ z_l z).
    { rewrite E1. replace (bl_id b * 2 ^ z_p z + k / 2 ^ z_l z) with (k / 2 ^ z_l z + bl_id b * 2 ^ z_p z) by ring.
      rewrite Z.mod_add by lia. apply Z.mod_small. split; [apply Z.div_pos; lia|].
      apply Z.div_lt_upper_bound; nia. }
    rewrite E2 in Hpage.
    assert (Hkl : k < 2 ^ z_l z) by (apply Z.div_small_iff in Hpage; lia).
    rewrite Ea, Hpow. replace (bl_id b * (2 ^ z_p z * 2 ^ z_l z) + k) with (k + (bl_id b * 2 ^ z_p z) * 2 ^ z_l z) by ring.
    rewrite Z.mod_add by lia. apply Z.mod_small. lia. }
  unfold zen_free. rewrite Hblob, Hlane.
  assert (Hfb : find_blob (bl_id b) (z_blobs z) = Some b).
  { destruct (find_blob (bl_id b) (z_blobs z)) as [b1|] eqn:E.
    - unfold find_blob in E. apply find_some in E. destruct E as [Hb1 E1]. apply Z.eqb_eq in E1.
      f_equal. apply (ids_inj z); auto.
    - unfold find_blob in E. apply (find_none _ _ E) in Hb. lia. }
  rewrite Hfb.
  assert (Hsz : 64 * Z.of_nat (length (bl_words b)) = lanes z) by (rewrite Forall_forall in H5; auto).
  destruct (set_word_bit_free (bl_words b) k ltac:(lia)) as [Hlen Hbits].
  destruct (upd_blob_spec z (bl_id b) _ b Hwf Hfb Hlen) as (Hwf' & _ & _ & Hin' & Hback).
  set (z1 := mkZen (z_p z) (z_l z) (z_mmap z) _) in *.
  assert (Hl1 : lanes z1 = lanes z) by reflexivity.
  assert (Hperm : Permutation held (a :: remove_first (Z.eqb a) held)).
  { apply remove_first_perm. destruct (find (Z.eqb a) held) as [x|] eqn:E.
    - apply find_some in E. destruct E as [_ E]. apply Z.eqb_eq in E. congruence.
    - apply (find_none _ _ E) in Hin. rewrite Z.eqb_refl in Hin. discriminate. }
  assert (Hnd' : NoDup (a :: remove_first (Z.eqb a) held)) by (eapply Permutation_NoDup; eauto).
  inversion Hnd' as [|? ? Hna Hnd'']; subst.
  assert (Hrm : forall x, In x (remove_first (Z.eqb (bl_id b * lanes z + k)) held) <-> In x held /\ x <> bl_id b * lanes z + k).
  { intro x. split.
    - intro Hx. split; [rewrite Hperm; right; exact Hx|]. intros ->. contradiction.
    - intros [Hx Hne]. rewrite Hperm in Hx. destruct Hx as [Hx|Hx]; [congruence|exact Hx]. }
  split; [|split; [reflexivity|split; [reflexivity|split; [reflexivity|split; [reflexivity|apply upd_blob_length]]]]].
  split; [exact Hwf'|split; [exact Hnd''|split]].
  - intros x Hx. rewrite Hl1. apply Hrm in Hx. destruct Hx as [Hx _].
    destruct (Hheld x Hx) as (c & Hc & k' & Hk' & ->). destruct (Hback c Hc) as (c' & Hc' & E).
    exists c'. split; auto. exists k'. rewrite E. auto.
  - intros c j Hc Hj. rewrite Hl1 in *. rewrite Hrm.
    destruct (Hin' c Hc) as [[Eid Ew]|[Eid Hold]].
    + rewrite Ew, Hbits by lia. rewrite Eid.
      destruct (Z.eqb_spec j k) as [->|Hne].
      * split; [intros [_ H]; contradiction|discriminate].
      * rewrite <- (Hiff b j Hb Hj). split; [tauto|]. intro H. split; auto. lia.
    + rewrite <- (Hiff c j Hold Hj). split; [tauto|]. intro H. split; auto.
      intro E. apply Eid. eapply decompose in E; [|exact Hlp|lia|lia]. lia.
Qed.

Lemma step_blobs_mono s o s' : zstep s o = Some s' ->
  (length (z_blobs (fst s)) <= length (z_blobs (fst s')))%nat.
Proof.
  assert (Hff : forall z id, length (z_blobs (fst (find_free z id))) = length (z_blobs z)).
  { intros z id. unfold find_free. destruct (find_blob id (z_blobs z)); [|reflexivity].
    destruct (take_bit 0 (bl_words b)) as [[k ws]|]; [|reflexivity]. apply upd_blob_length. }
  assert (Hse : forall o z, length (z_blobs (fst (search z o))) = length (z_blobs z)).
  { induction o0 as [|id r IH]; intros z; [reflexivity|]. cbn [search].
    pose proof (Hff z id) as E. destruct (find_free z id) as [z1 a]. cbn [fst] in E.
    destruct (a =? 2 ^ 32 - 1); [rewrite IH; exact E|exact E]. }
  destruct s as [z held]. destruct o as [o1 o2|a]; cbn [zstep].
  - unfold zen_malloc. pose proof (Hse o1 z) as E1. destruct (search z o1) as [z1 [a1|]]; cbn [fst] in E1.
    + intro H; injection H as <-. cbn [fst]. lia.
    + destruct (1 <=? length (z_blobs z1))%nat.
      * pose proof (Hse o2 (create_blob z1)) as E2. destruct (search (create_blob z1) o2) as [z2 [a2|]]; [|discriminate].
        intro H; injection H as <-. cbn [fst] in *. rewrite E2. unfold create_blob; cbn [z_blobs]. rewrite app_length. lia.
      * pose proof (Hse o2 z1) as E2. destruct (search z1 o2) as [z2 [a2|]]; [|discriminate].
        intro H; injection H as <-. cbn [fst] in *. lia.
  - destruct (existsb (Z.eqb a) held); [|discriminate]. intro H; injection H as <-. cbn [fst].
    unfold zen_free. destruct (find_blob _ _); [|lia]. cbn [z_blobs]. rewrite upd_blob_length. lia.
Qed.

Definition free_first_page (p l : Z) (o : zop) : Prop :=
  match o with ZFree a => getPageAddr a p l = 0 | ZMalloc _ _ => True end.

Lemma zrun_blobs_mono ops : forall s s', zrun s ops = Some s' ->
  (length (z_blobs (fst s)) <= length (z_blobs (fst s')))%nat.
Proof.
  induction ops as [|o r IH]; cbn [zrun]; intros s s' H.
  - injection H as <-. lia.
  - destruct (zstep s o) as [s1|] eqn:E; [|discriminate]. apply step_blobs_mono in E. apply IH in H. lia.
Qed.

Lemma zrun_inv ops : forall z held z' held',
  zinv (z, held) -> z_mmap z = MAnonymous ->
  Forall (free_first_page (z_p z) (z_l z)) ops ->
  zrun (z, held) ops = Some (z', held') ->
  (Z.of_nat (length (z_blobs z')) + 1) * lanes z < 2 ^ 32 ->
  zinv (z', held') /\ z_p z' = z_p z /\ z_l z' = z_l z.
Proof.
  induction ops as [|o r IH]; cbn [zrun]; intros z held z' held' HI Hm Hops H Hcap.
  - injection H as <- <-. auto.
  - inversion Hops as [|? ? Ho Hr]; subst.
    destruct (zstep (z, held) o) as [[z1 held1]|] eqn:E; [|discriminate].
    pose proof (zrun_blobs_mono _ _ _ H) as Hmono1. pose proof (step_blobs_mono _ _ _ E) as Hmono0.
    cbn [fst] in *. pose proof (lanes_pos z ltac:(apply HI)) as Hlp.
    assert (Hstep : zinv (z1, held1) /\ lanes z1 = lanes z /\ z_p z1 = z_p z /\ z_l z1 = z_l z /\ z_mmap z1 = MAnonymous).
    { destruct o as [o1 o2|a]; cbn [zstep] in E.
      - destruct (zen_malloc z o1 o2) as [zz [a|]] eqn:Em; [|discriminate]. injection E as <- <-.
        destruct (malloc_spec z held o1 o2 zz a HI Hm ltac:(nia) Em) as (_ & H1 & H2 & H3 & H4 & H5 & _). auto.
      - destruct (existsb (Z.eqb a) held) eqn:Ee; [|discriminate]. injection E as <- <-.
        apply existsb_exists in Ee. destruct Ee as (x & Hx & Ex). apply Z.eqb_eq in Ex. subst x.
        destruct (free_spec z held a HI Hx Ho) as (H1 & H2 & H3 & H4 & H5 & _). split; [exact H1|]. repeat split; congruence. }
    destruct Hstep as (HI1 & El & Ep & Ell & Em1).
    rewrite <- Ep, <- Ell in Hr. rewrite <- El in Hcap.
    destruct (IH z1 held1 z' held' HI1 Em1 Hr H Hcap) as (Hf & E1 & E2). split; [exact Hf|]. split; congruence.
Qed.

Lemma zinit_inv p l z : 6 <= p + l -> zen_init p l MAnonymous = Some z ->
  zinv (z, []) /\ z_p z = p /\ z_l z = l /\ z_mmap z = MAnonymous.
Proof.
  intros H6 H. unfold zen_init in H. destruct (_ && _ && _) eqn:E; [|discriminate]. injection H as <-.
  assert (Hp : 0 <= p) by lia. assert (Hl : 0 <= l) by lia.
  pose proof (new_blob_zwf_words 0 p l Hp Hl H6) as Hw.
  split; [|auto]. split; [|split; [constructor|split]].
  - unfold zwf, lanes; cbn [z_p z_l z_blobs]. split; [lia|split; [lia|split; [lia|split; [reflexivity|]]]].
    constructor; [exact Hw|constructor].
  - intros a [].
  - unfold lanes; cbn [z_p z_l z_blobs]. intros b k [<-|[]] Hk. split; [intros []|].
    intro Hf. unfold new_blob in Hf. cbn [bl_words] in Hf. rewrite repeat_bits in Hf; [discriminate|].
    rewrite <- Hw in Hk. unfold new_blob in Hk. cbn [bl_words] in Hk. rewrite repeat_length in Hk. exact Hk.
Qed.

(** ** TLB *)
Lemma tlb_lookup_app t a b d :
  tlb_lookup (t ++ [(b, d)]) a = match tlb_lookup t a with Some x => Some x | None => if b =? a then Some d else None end.
Proof.
  unfold tlb_lookup. induction t as [|[x y] r IH]; simpl.
  - destruct (b =? a); reflexivity.
  - destruct (x =? a); [reflexivity|exact IH].
Qed.
Lemma tlb_lookup_insert t a b d :
  tlb_lookup (tlb_insert t b d) a =
  match tlb_lookup t a with Some x => Some x | None => if b =? a then Some d else None end.
Proof.
  unfold tlb_insert. destruct (tlb_lookup t b) as [x|] eqn:E.
  - destruct (tlb_lookup t a) eqn:E2; [reflexivity|]. destruct (Z.eqb_spec b a); [congruence|reflexivity].
  - apply tlb_lookup_app.
Qed.
Lemma tlb_lookup_remove t a b :
  tlb_lookup (tlb_remove t b) a = if b =? a then None else tlb_lookup t a.
Proof.
  unfold tlb_lookup, tlb_remove. induction t as [|[x y] r IH]; simpl.
  - destruct (b =? a); reflexivity.
  - destruct (Z.eqb_spec x b) as [->|Hx]; simpl.
    + destruct (Z.eqb_spec b a); simpl; [|exact IH]. exact IH.
    + destruct (Z.eqb_spec x a) as [->|]; simpl; [|exact IH].
      destruct (Z.eqb_spec b a); [congruence|reflexivity].
Qed.
