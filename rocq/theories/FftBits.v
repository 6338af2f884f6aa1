(** Bit reversal and powers of two. *)
From Coq Require Import Reals.
From Verif Require Import Base DTypeModel ParamModel TensorModel FftModel.
Local Open Scope Z_scope.

Definition byte_reversed_ok (y : Z) : bool :=
  forallb (fun j => Bool.eqb (Z.testbit (reversed_byte y) j) (Z.testbit y (7 - j))) [0; 1; 2; 3; 4; 5; 6; 7] && (reversed_byte y <? 256) && (0 <=? reversed_byte y).
Lemma table_ok : forallb byte_reversed_ok (map Z.of_nat (seq 0 256)) = true.
Proof. vm_compute. reflexivity. Qed.
Lemma reversed_byte_mask x : reversed_byte x = reversed_byte (Z.land x 255).
Proof. unfold reversed_byte. rewrite <- Z.land_assoc. reflexivity. Qed.
Lemma reversed_byte_bit x j : 0 <= j -> Z.testbit (reversed_byte x) j = (j <? 8) && Z.testbit x (7 - j).
Proof.
  intro Hj. set (y := Z.land x 255).
  assert (Y : 0 <= y < 256).
  { unfold y. change 255 with (Z.ones 8). rewrite Z.land_ones by lia. apply Z.mod_pos_bound. reflexivity. }
  assert (T := table_ok). rewrite forallb_forall in T.
  specialize (T y). assert (I : In y (map Z.of_nat (seq 0 256))).
  { apply in_map_iff. exists (Z.to_nat y). split; [lia|]. apply in_seq. lia. }
  specialize (T I). unfold byte_reversed_ok in T. apply andb_prop in T. destruct T as [T T3]. apply andb_prop in T. destruct T as [T T2].
  rewrite reversed_byte_mask. fold y. destruct (Z.ltb_spec j 8) as [H8|H8]; cbn [andb].
  - rewrite forallb_forall in T. specialize (T j). assert (J : In j [0; 1; 2; 3; 4; 5; 6; 7]) by (cbn [In]; lia).
    specialize (T J). apply Bool.eqb_prop in T. rewrite T. unfold y. rewrite Z.land_spec. change 255 with (Z.ones 8).
    rewrite Z.testbit_ones_nonneg by lia. replace (7 - j <? 8) with true by lia. apply andb_true_r.
  - apply Z.bits_above_log2; [lia|]. destruct (Z.eq_dec (reversed_byte y) 0) as [->|N]; [cbn; lia|].
    apply Z.log2_lt_pow2; [lia|]. assert (2 ^ 8 <= 2 ^ j) by (apply Z.pow_le_mono_r; lia). change (2 ^ 8) with 256 in *. lia.
Qed.
Lemma testbit_neg_r x j : j < 0 -> Z.testbit x j = false.
Proof. apply Z.testbit_neg_r. Qed.
Lemma bit_reverse_bit i L j : 0 <= L <= 32 -> 0 <= j -> Z.testbit (bit_reverse i L) j = (j <? L) && Z.testbit i (L - 1 - j).
Proof.
  intros HL Hj. unfold bit_reverse. replace (32 <? L) with false by lia. cbv zeta.
  rewrite Z.shiftr_spec by lia. set (q := j + (32 - L)). replace (L - 1 - j) with (31 - q) by (unfold q; ring).
  replace (j <? L) with (q <? 32) by (unfold q; lia). assert (Hq : 0 <= q) by (unfold q; lia). clearbody q. clear j L HL Hj.
  assert (B : forall x k, 0 <= k -> Z.testbit (Z.shiftl (reversed_byte x) k) q = (k <=? q) && (q <? k + 8) && Z.testbit x (7 - (q - k))).
  { intros x k Hk. rewrite Z.shiftl_spec by lia. destruct (Z.leb_spec k q) as [H|H]; cbn [andb].
    - rewrite reversed_byte_bit by lia. f_equal. lia.
    - apply Z.testbit_neg_r. lia. }
  rewrite !Z.lor_spec, !B by lia. rewrite reversed_byte_bit by lia.
  assert (S : forall k, 0 <= k -> (q <? 32) = true -> (24 - k <=? q) && (q <? 24 - k + 8) && Z.testbit (Z.shiftr i k) (7 - (q - (24 - k))) = (24 - k <=? q) && (q <? 24 - k + 8) && Z.testbit i (31 - q)).
  { intros k Hk Hq2. destruct ((24 - k <=? q) && (q <? 24 - k + 8)) eqn:E; cbn [andb]; [|reflexivity]. rewrite Z.shiftr_spec by lia. f_equal. ring. }
  destruct (q <? 32) eqn:Q; cbn [andb].
  - assert (S0 := S 0 ltac:(lia) eq_refl). rewrite Z.shiftr_0_r in S0. change (24 - 0) with 24 in S0. rewrite S0.
    assert (S1 := S 8 ltac:(lia) eq_refl). change (24 - 8) with 16 in S1. rewrite S1.
    assert (S2 := S 16 ltac:(lia) eq_refl). change (24 - 16) with 8 in S2. rewrite S2.
    assert (S3 : (q <? 8) && Z.testbit (Z.shiftr i 24) (7 - q) = (q <? 8) && Z.testbit i (31 - q)).
    { destruct (q <? 8) eqn:E; cbn [andb]; [|reflexivity]. rewrite Z.shiftr_spec by lia. f_equal. ring. }
    rewrite S3. destruct (Z.testbit i (31 - q)); rewrite ?andb_true_r, ?andb_false_r; [lia|reflexivity].
  - replace (q <? 24 + 8) with false by lia. replace (q <? 16 + 8) with false by lia. replace (q <? 8 + 8) with false by lia.
    replace (q <? 8) with false by lia. rewrite !andb_false_r. reflexivity.
Qed.
Lemma bit_reverse_nonneg i L : 0 <= L <= 32 -> 0 <= bit_reverse i L.
Proof.
  intro HL. apply Z.bits_iff_nonneg_ex. exists L. intros m Hm. rewrite bit_reverse_bit by lia. replace (m <? L) with false by lia. reflexivity.
Qed.
Lemma bound_of_bits x L : 0 <= L -> 0 <= x -> (forall j, L <= j -> Z.testbit x j = false) -> x < 2 ^ L.
Proof.
  intros HL Hx H. destruct (Z.eq_dec x 0) as [->|N]; [apply Z.pow_pos_nonneg; lia|].
  apply Z.log2_lt_pow2; [lia|]. destruct (Z_lt_le_dec (Z.log2 x) L) as [l|l]; [exact l|].
  specialize (H _ l). rewrite Z.bit_log2 in H by lia. discriminate.
Qed.
Lemma bit_reverse_bound i L : 0 <= L <= 32 -> 0 <= bit_reverse i L < 2 ^ L.
Proof.
  intro HL. assert (N := bit_reverse_nonneg i L HL). split; [exact N|]. apply bound_of_bits; [lia|exact N|].
  intros j Hj. rewrite bit_reverse_bit by lia. replace (j <? L) with false by lia. reflexivity.
Qed.
Lemma small_bits x L j : 0 <= x < 2 ^ L -> L <= j -> Z.testbit x j = false.
Proof.
  intros Hx Hj. destruct (Z_lt_le_dec j 0) as [J|J]; [apply Z.testbit_neg_r; exact J|].
  destruct (Z.eq_dec x 0) as [->|N]; [apply Z.bits_0|].
  apply Z.bits_above_log2; [lia|]. assert (Z.log2 x < L) by (apply Z.log2_lt_pow2; lia). lia.
Qed.
Lemma bit_reverse_involutive i L : 0 <= L <= 32 -> 0 <= i < 2 ^ L -> bit_reverse (bit_reverse i L) L = i.
Proof.
  intros HL Hi. apply Z.bits_inj'. intros j Hj. rewrite bit_reverse_bit by lia. destruct (Z.ltb_spec j L) as [H|H]; cbn [andb].
  - rewrite bit_reverse_bit by lia. replace (L - 1 - j <? L) with true by lia. cbn [andb]. f_equal. ring.
  - symmetry. apply (small_bits i L); [exact Hi|lia].
Qed.
Lemma bit_reverse_0 i : bit_reverse i 0 = 0.
Proof. assert (B := bit_reverse_bound i 0 ltac:(lia)). change (2 ^ 0) with 1 in B. lia. Qed.
Lemma bit_reverse_double b L : 0 <= L < 32 -> bit_reverse (2 * b) (L + 1) = bit_reverse b L.
Proof.
  intros HL. apply Z.bits_inj'. intros j Hj. rewrite !bit_reverse_bit by lia.
  destruct (Z.ltb_spec j L) as [H|H].
  - replace (j <? L + 1) with true by lia. cbn [andb]. replace (L + 1 - 1 - j) with (Z.succ (L - 1 - j)) by ring.
    rewrite Z.double_bits_succ. reflexivity.
  - cbn [andb]. destruct (Z.ltb_spec j (L + 1)) as [H1|H1]; cbn [andb]; [|reflexivity].
    replace (L + 1 - 1 - j) with 0 by lia. apply Z.testbit_even_0.
Qed.
Lemma bit_reverse_odd b L : 0 <= L < 32 -> bit_reverse (2 * b + 1) (L + 1) = bit_reverse b L + 2 ^ L.
Proof.
  intros HL. assert (B := bit_reverse_bound b L ltac:(lia)).
  rewrite (Z.add_nocarry_lxor (bit_reverse b L) (2 ^ L)).
  - apply Z.bits_inj'. intros j Hj. rewrite Z.lxor_spec, !bit_reverse_bit by lia. rewrite Z.pow2_bits_eqb by lia.
    destruct (Z.ltb_spec j L) as [H|H].
    + replace (j <? L + 1) with true by lia. cbn [andb]. replace (L + 1 - 1 - j) with (Z.succ (L - 1 - j)) by ring.
      rewrite Z.testbit_odd_succ by lia. replace (L =? j) with false by lia. symmetry. apply xorb_false_r.
    + cbn [andb]. rewrite xorb_false_l. destruct (Z.ltb_spec j (L + 1)) as [H1|H1]; cbn [andb]; [|lia].
      replace (L + 1 - 1 - j) with 0 by lia. replace (L =? j) with true by lia. apply Z.testbit_odd_0.
  - apply Z.bits_inj'. intros j Hj. rewrite Z.land_spec, Z.bits_0, Z.pow2_bits_eqb by lia.
    destruct (Z.eqb_spec L j) as [<-|N]; [|apply andb_false_r]. rewrite (small_bits _ L) by (try lia; exact B). reflexivity.
Qed.

(** Powers of two. *)
Lemma pop_count_pos p : 1 <= pop_count p.
Proof. induction p as [p IH|p IH|]; cbn [pop_count]; lia. Qed.
Lemma pop_count_1 p : pop_count p = 1 -> exists L, 0 <= L /\ Zpos p = 2 ^ L.
Proof.
  induction p as [p IH|p IH|]; cbn [pop_count]; intro H.
  - assert (P := pop_count_pos p). lia.
  - destruct (IH H) as (L & HL & E). exists (L + 1). split; [lia|]. rewrite Z.pow_add_r by lia. rewrite <- E. lia.
  - exists 0. split; [lia|reflexivity].
Qed.
Lemma is_power_of_2_spec n : is_power_of_2 n = true <-> exists L, 0 <= L /\ n = 2 ^ L.
Proof.
  split.
  - destruct n as [|p|p]; cbn [is_power_of_2]; try discriminate. intro H. apply Z.eqb_eq in H. apply pop_count_1, H.
  - intros (L & HL & ->). revert L HL. apply natlike_ind; [reflexivity|].
    intros L HL IH. rewrite Z.pow_succ_r by exact HL. destruct (2 ^ L); [discriminate| |discriminate]. exact IH.
Qed.
Lemma next_pow2_loop_ok inp fuel : forall L, 0 <= L -> 0 <= inp -> inp < 2 ^ L * 2 ^ Z.of_nat fuel -> (0 < L -> 2 ^ (L - 1) <= inp) ->
  exists L', 0 <= L' /\ next_pow2_loop (S fuel) (2 ^ L) inp = ROk (2 ^ L') /\ inp < 2 ^ L' /\ (0 < L' -> 2 ^ (L' - 1) <= inp).
Proof.
  induction fuel as [|fuel IH]; intros L HL Hi Hf Hlow.
  - exists L. split; [exact HL|]. rewrite Z.mul_1_r in Hf. cbn [next_pow2_loop]. replace (2 ^ L <=? inp) with false by lia.
    split; [reflexivity|]. split; assumption.
  - destruct (Z_le_gt_dec (2 ^ L) inp) as [H|H].
    + destruct (IH (L + 1)) as (L' & ? & E & ? & ?).
      * lia.
      * exact Hi.
      * rewrite Z.pow_add_r by lia. rewrite Nat2Z.inj_succ, Z.pow_succ_r in Hf by lia.
        replace (2 ^ L * 2 ^ 1 * 2 ^ Z.of_nat fuel) with (2 ^ L * (2 * 2 ^ Z.of_nat fuel)) by ring. exact Hf.
      * intros _. rewrite Z.add_simpl_r. exact H.
      * exists L'. split; [assumption|]. split; [|split; assumption]. rewrite <- E.
        change (next_pow2_loop (S (S fuel)) (2 ^ L) inp) with (if 2 ^ L <=? inp then next_pow2_loop (S fuel) (2 * 2 ^ L) inp else ROk (2 ^ L)).
        replace (2 ^ L <=? inp) with true by lia. f_equal. rewrite Z.pow_add_r by lia. ring.
    + exists L. split; [exact HL|]. cbn [next_pow2_loop]. replace (2 ^ L <=? inp) with false by lia.
      split; [reflexivity|]. split; [lia|exact Hlow].
Qed.
Lemma next_power_of_2_ok inp : 1 <= inp -> exists L, 0 <= L /\ next_power_of_2 inp = ROk (2 ^ L) /\ inp <= 2 ^ L /\ (0 < L -> 2 ^ (L - 1) < inp).
Proof.
  intro H. unfold next_power_of_2. destruct (next_pow2_loop_ok (inp - 1) (Z.to_nat inp) 0) as (L & HL & E & A & B).
  - lia.
  - lia.
  - rewrite Z2Nat.id by lia. rewrite Z.pow_0_r, Z.mul_1_l. assert (P := Z.pow_gt_lin_r 2 inp ltac:(lia) ltac:(lia)). lia.
  - lia.
  - exists L. split; [exact HL|]. split; [exact E|]. split; [lia|]. intro P. specialize (B P). lia.
Qed.
