(** Properties of filled tensors: C144, C145, C146. *)
From Verif Require Import Base DTypeModel ParamModel TensorModel QuantModel CpmAudioModel CpmAudio FillModel FillSpec FillProofs.
From Coq Require Import Reals Lra.
From Flocq Require Import Core.
Local Open Scope Z_scope.

(** ** C144: constants *)
(** Whatever the register width and the number of elements: exactly the first [count]
    elements become the value. *)
Theorem C144_fill_value : forall N dst count value, 1 <= N -> 0 <= count <= b_len dst ->
  exists b, fill_value_impl N dst count value = ROk b /\ fills_with dst b count (fun _ => value).
Proof. exact fill_value_ok. Qed.
Theorem C144_zeros : forall N n, 1 <= N -> 0 <= n -> exists b, tensor_zeros N n = ROk b /\ elements b n (fun _ => 0%R).
Proof.
  intros N n HN Hn. destruct (fill_value_ok N (mkBuf n (fun _ => None)) n 0%R HN) as [b [E [L A]]]; [cbn; lia|].
  exists b. split; [exact E|]. split; [exact L|]. intros i Hi. rewrite A. replace ((0 <=? i) && (i <? n)) with true by lia. reflexivity.
Qed.
Theorem C144_ones : forall N n, 1 <= N -> 0 <= n -> exists b, tensor_ones N n = ROk b /\ elements b n (fun _ => 1%R).
Proof.
  intros N n HN Hn. destruct (fill_value_ok N (mkBuf n (fun _ => None)) n 1%R HN) as [b [E [L A]]]; [cbn; lia|].
  exists b. split; [exact E|]. split; [exact L|]. intros i Hi. rewrite A. replace ((0 <=? i) && (i <? n)) with true by lia. reflexivity.
Qed.

(** ** C145: arange *)
Lemma trunc_ceil : forall q, 0 <= Ztrunc q -> Z.max 0 (Z.min (Zceil q) (Ztrunc q)) = Ztrunc q.
Proof.
  intros q H. destruct (Rle_dec 0 q) as [P|P].
  - rewrite Ztrunc_floor in * by exact P. assert (Zfloor q <= Zceil q) by (apply le_IZR; apply Rle_trans with q; [apply Zfloor_lb|apply Zceil_ub]). lia.
  - assert (Q : (q <= 0)%R) by lra. rewrite Ztrunc_ceil in * by exact Q. lia.
Qed.
Lemma whole : forall b b' n v, wrote b b' 0 n v -> b_len b = n -> elements b' n v.
Proof.
  intros b b' n v [L A] E. split; [congruence|]. intros i Hi. rewrite A. replace ((0 <=? i) && (i <? n)) with true by lia. reflexivity.
Qed.
(** With exact arithmetic Tensor::arange is start, start + step, ..., as many elements as
    whole steps fit between start and end. *)
Theorem C145_arange_float_partial : forall N start fin step, 1 <= N -> step <> 0%R ->
  let q := ((fin - start) / step)%R in 0 <= Ztrunc q < 2 ^ 31 ->
  exists b, tensor_arange exact EFloat N start fin step = ROk b /\ elements b (Ztrunc q) (fun i => (start + IZR i * step)%R).
Proof.
  intros N start fin step HN HS q Hq. unfold tensor_arange, eqb0. destruct (Req_EM_T step 0) as [E|_]; [contradiction|].
  change (exact (exact (fin - start) / step)%R) with q. cbv zeta.
  replace ((Ztrunc q <? 0) || (2 ^ 31 <=? Ztrunc q)) with false by lia.
  unfold fill_arange_impl, eqb0. destruct (Req_EM_T step 0) as [E|_]; [contradiction|]. cbv zeta.
  rewrite arange_count_exact by (assumption || lia). fold q. rewrite trunc_ceil by lia.
  destruct (arange_float_exact N (mkBuf (Ztrunc q) (fun _ => None)) (Ztrunc q) start step HN) as [b [Eb W]]; [cbn; lia|].
  exists b. split; [exact Eb|]. apply (whole _ _ _ _ W). reflexivity.
Qed.
(** Integer types: each value towards zero, when the type can hold it. *)
Theorem C145_arange_int_partial : forall N lo hi start fin step, step <> 0%R ->
  let q := ((fin - start) / step)%R in 0 <= Ztrunc q < 2 ^ 31 ->
  (forall i, 0 <= i < Ztrunc q -> lo <= Ztrunc (start + IZR i * step) <= hi) ->
  exists b, tensor_arange exact (EInt lo hi) N start fin step = ROk b /\
    elements b (Ztrunc q) (fun i => IZR (Ztrunc (start + IZR i * step))).
Proof.
  intros N lo hi start fin step HS q Hq HV. unfold tensor_arange, eqb0. destruct (Req_EM_T step 0) as [E|_]; [contradiction|].
  change (exact (exact (fin - start) / step)%R) with q. cbv zeta.
  replace ((Ztrunc q <? 0) || (2 ^ 31 <=? Ztrunc q)) with false by lia.
  unfold fill_arange_impl, eqb0. destruct (Req_EM_T step 0) as [E|_]; [contradiction|]. cbv zeta.
  rewrite arange_count_exact by (assumption || lia). fold q. rewrite trunc_ceil by lia.
  destruct (arange_int_exact lo hi (mkBuf (Ztrunc q) (fun _ => None)) (Ztrunc q) start step) as [b [Eb W]]; [cbn; lia|exact HV|].
  exists b. split; [exact Eb|]. apply (whole _ _ _ _ W). reflexivity.
Qed.
(** Every element lies in the half-open interval from start to end. *)
Theorem C145_inside_interval : forall start fin step i, step <> 0%R ->
  0 <= i < Ztrunc ((fin - start) / step) ->
  let x := (start + IZR i * step)%R in
  ((0 < step -> start <= x < fin) /\ (step < 0 -> fin < x <= start))%R.
Proof.
  intros start fin step i HS Hi x. set (q := ((fin - start) / step)%R) in *.
  assert (Q : (IZR i < q)%R).
  { destruct (Rle_dec 0 q) as [P|P].
    - rewrite Ztrunc_floor in Hi by exact P. assert (W := Zfloor_lb q). apply Rlt_le_trans with (IZR (Zfloor q)); [apply IZR_lt; lia|exact W].
    - exfalso. rewrite Ztrunc_ceil in Hi by lra. assert (Zceil q <= 0) by (apply Zceil_glb; lra). lia. }
  assert (I0 : (0 <= IZR i)%R) by (apply (IZR_le 0); lia).
  assert (L : (fin = start + q * step)%R) by (unfold q; field; exact HS). unfold x. clearbody q. subst fin.
  clear - Q I0. split; intros B; split; nra.
Qed.
(** The element on the partial last step is missing: 0.75 < 1 is not in arange(0, 1, 0.75). *)
Theorem C145_last_value_missing_refuted : exists start fin step b, (0 < step)%R /\
  tensor_arange exact EFloat 4 start fin step = ROk b /\ (start + IZR (b_len b) * step < fin)%R.
Proof.
  assert (Q : Ztrunc ((1 - 0) / (3 / 4)) = 1).
  { rewrite Ztrunc_floor by lra. apply Zfloor_imp. split; cbn; lra. }
  destruct (C145_arange_float_partial 4 0 1 (3 / 4)) as [b [E [L _]]]; [lia|lra|rewrite Q; lia|].
  exists 0%R, 1%R, (3 / 4)%R, b. split; [lra|]. split; [exact E|]. rewrite L, Q. lra.
Qed.

Lemma near32 : forall x m e, 0 <= e -> (IZR (2 ^ (23 + e)) <= x < IZR (2 ^ (24 + e)))%R ->
  (Rabs (x - IZR (m * 2 ^ e)) < IZR (2 ^ e) / 2)%R -> to_f32 x = IZR (m * 2 ^ e).
Proof.
  intros x m e He [B1 B2] Hn.
  assert (PB : forall k, 0 <= k -> bpow radix2 k = IZR (2 ^ k)).
  { intros k Hk. rewrite <- IZR_Zpower by exact Hk. reflexivity. }
  assert (P : (0 < IZR (2 ^ e))%R) by (apply (IZR_lt 0); lia).
  assert (MG : mag radix2 x = (24 + e)%Z :> Z).
  { apply mag_unique. rewrite Rabs_right.
    - replace (24 + e - 1) with (23 + e) by lia. rewrite !PB by lia. split; assumption.
    - apply Rle_ge. apply Rle_trans with (IZR (2 ^ (23 + e))); [apply (IZR_le 0); lia|exact B1]. }
  unfold to_f32, nearest, round, scaled_mantissa, cexp. rewrite MG.
  replace (FLT_exp (-149) 24 (24 + e)) with e by (unfold FLT_exp; lia).
  rewrite (Znearest_imp _ _ m).
  - unfold F2R. cbn [Fnum Fexp]. rewrite PB by exact He. rewrite <- mult_IZR. reflexivity.
  - rewrite bpow_opp, PB by exact He. rewrite mult_IZR in Hn.
    replace (x * / IZR (2 ^ e) - IZR m)%R with ((x - IZR m * IZR (2 ^ e)) / IZR (2 ^ e))%R by (field; lra).
    unfold Rdiv. rewrite Rabs_mult, (Rabs_right (/ _)) by (apply Rle_ge, Rlt_le, Rinv_0_lt_compat, P).
    apply (Rmult_lt_reg_r (IZR (2 ^ e))); [exact P|]. rewrite Rmult_assoc, Rinv_l by lra. lra.
Qed.
Lemma f32_int : forall z, Z.abs z < 2 ^ 24 -> to_f32 (IZR z) = IZR z.
Proof. exact int32. Qed.
Lemma f32_pow : forall z e, Z.abs z < 2 ^ 24 -> 0 <= e -> to_f32 (IZR (z * 2 ^ e)) = IZR (z * 2 ^ e).
Proof.
  intros z e H He. rewrite mult_IZR. replace (IZR (2 ^ e)) with (bpow radix2 e) by (rewrite <- IZR_Zpower by exact He; reflexivity).
  apply exact32; [exact H|lia].
Qed.
(** In binary32 an element can be left unwritten: arange(2^26, 2^26 + 8, 1) allocates 8
    elements, but the last one would round up to end, so only 7 are filled. *)
Theorem C145_unwritten_element_refuted : exists b,
  tensor_arange to_f32 EFloat 4 (IZR 67108864) (IZR 67108872) 1 = ROk b /\ b_len b = 8 /\ b_at b 7 = None.
Proof.
  assert (S1 : to_f32 (IZR 67108872 - IZR 67108864) = 8%R) by (rewrite <- minus_IZR; apply (f32_int 8); reflexivity).
  assert (S2 : to_f32 (8 / 1) = 8%R) by (replace (8 / 1)%R with 8%R by field; apply (f32_int 8); reflexivity).
  assert (S3 : to_f32 (IZR 7 * 1) = 7%R) by (rewrite Rmult_1_r; apply (f32_int 7); reflexivity).
  assert (S4 : to_f32 (IZR 67108864 + 7) = IZR 67108872).
  { apply (near32 (IZR 67108864 + 7) 8388609 3); [lia| |].
    - cbn. lra.
    - change (8388609 * 2 ^ 3) with 67108872. change (2 ^ 3) with 8. rewrite Rabs_left; lra. }
  unfold tensor_arange, eqb0. destruct (Req_EM_T 1 0) as [E|_]; [exfalso; lra|].
  rewrite S1, S2. rewrite (Ztrunc_IZR 8). cbv zeta. change ((8 <? 0) || (2 ^ 31 <=? 8)) with false. cbv iota.
  unfold fill_arange_impl, eqb0. destruct (Req_EM_T 1 0) as [E|_]; [exfalso; lra|]. cbv zeta.
  assert (C : arange_count to_f32 8 (IZR 67108864) (IZR 67108872) 1 = 7).
  { unfold arange_count. replace (gtb 1 0) with true by (symmetry; apply gtb_spec; lra).
    replace (gtb (IZR 67108872) (IZR 67108864)) with true by (symmetry; apply gtb_spec; lra). cbn [andb orb].
    rewrite S1, S2. replace (gtb 8 0) with true by (symmetry; apply gtb_spec; lra).
    change 8%R with (IZR 8). rewrite Zceil_IZR. unfold arange_at. change (8 - 1) with 7. rewrite (f32_int 7) by reflexivity. rewrite S3, S4.
    replace (gtb (IZR 67108872) (IZR 67108872)) with false by (symmetry; apply gtb_false; lra). reflexivity. }
  rewrite C. eexists. split; [reflexivity|]. split; reflexivity.
Qed.

(** ** C146: random *)
(** The elements are determined by the seed: start + x(i+2) / (2^31 - 1) * (end - start),
    where x is the linear congruential sequence. *)
Theorem C146_values_partial : forall N n start fin seed, 1 <= N -> 0 <= n -> start <> fin ->
  exists b, tensor_random exact EFloat N n start fin seed = ROk b /\
    elements b n (fun i => (start + IZR (lcg_seq seed (Z.to_nat i + 2)) / IZR (2 ^ 31 - 1) * (fin - start))%R).
Proof.
  intros N n start fin seed HN Hn NE.
  destruct (random_ok exact EFloat N (mkBuf n (fun _ => None)) n start fin seed
    (fun i => (start + IZR (lcg_seq seed (Z.to_nat i + 2)) / IZR (2 ^ 31 - 1) * (fin - start))%R) HN) as [b [E W]].
  - cbn. lia.
  - unfold exact. lra.
  - intros i Hi. reflexivity.
  - exists b. split; [exact E|]. apply (whole _ _ _ _ W). reflexivity.
Qed.
(** ... so they lie between start and end, *)
Lemma ratio_unit : forall seed k, (0 <= IZR (lcg_seq seed (k + 2)) / IZR (2 ^ 31 - 1) <= 1)%R.
Proof.
  intros seed k. replace (k + 2)%nat with (Datatypes.S (k + 1)) by lia. assert (W := lcg_seq_range seed (k + 1)).
  set (x := lcg_seq _ _) in *. assert (P : (0 < IZR (2 ^ 31 - 1))%R) by (apply (IZR_lt 0); lia).
  assert (A : (0 <= IZR x)%R) by (apply (IZR_le 0); lia). assert (B : (IZR x <= IZR (2 ^ 31 - 1))%R) by (apply IZR_le; lia).
  split; [apply Rmult_le_pos; [exact A|apply Rlt_le, Rinv_0_lt_compat, P]|]. apply (Rmult_le_reg_r (IZR (2 ^ 31 - 1))); [exact P|].
  unfold Rdiv. rewrite Rmult_assoc, Rinv_l by lra. lra.
Qed.
Theorem C146_in_range_partial : forall N n start fin seed, 1 <= N -> 0 <= n -> start <> fin ->
  exists b v, tensor_random exact EFloat N n start fin seed = ROk b /\ elements b n v /\
    forall i, 0 <= i < n -> (Rmin start fin <= v i <= Rmax start fin)%R.
Proof.
  intros N n start fin seed HN Hn NE. destruct (C146_values_partial N n start fin seed HN Hn NE) as [b [E F]].
  exists b. eexists. split; [exact E|]. split; [exact F|]. intros i Hi. cbv beta.
  assert (W := ratio_unit seed (Z.to_nat i)). set (r := (IZR (lcg_seq seed (Z.to_nat i + 2)) / _)%R) in *. clearbody r.
  unfold Rmin, Rmax. destruct (Rle_dec start fin); split; nra.
Qed.
(** ... seeds that agree modulo 2^31 give the same tensor, *)
Lemma lcg_seq_mod : forall s s' k, s mod 2 ^ 31 = s' mod 2 ^ 31 -> lcg_seq s (Datatypes.S k) = lcg_seq s' (Datatypes.S k).
Proof.
  intros s s' k H. induction k as [|k IH].
  - cbn [lcg_seq]. rewrite <- (Zplus_mod_idemp_l (1103515245 * s)), <- (Zmult_mod_idemp_r s), H, (Zmult_mod_idemp_r s'), (Zplus_mod_idemp_l (1103515245 * s')). reflexivity.
  - cbn [lcg_seq] in IH |- *. rewrite IH. reflexivity.
Qed.
Theorem C146_seed_bits : forall rnd t N n start fin seed seed' b, 1 <= N -> 0 <= n ->
  seed mod 2 ^ 31 = seed' mod 2 ^ 31 ->
  tensor_random rnd t N n start fin seed = ROk b -> tensor_random rnd t N n start fin seed' = ROk b.
Proof.
  intros rnd t N n start fin seed seed' b HN Hn H E. rewrite <- E. unfold tensor_random, fill_random_impl.
  replace (lcg seed') with (lcg seed); [reflexivity|].
  rewrite !lcg_wrap. exact (lcg_seq_mod seed seed' 0 H).
Qed.
(** ... and the first m elements do not depend on how many follow. *)
Theorem C146_prefix_partial : forall N n m start fin seed, 1 <= N -> 0 <= m <= n -> start <> fin ->
  exists b b', tensor_random exact EFloat N n start fin seed = ROk b /\ tensor_random exact EFloat N m start fin seed = ROk b' /\
    forall i, 0 <= i < m -> b_at b i = b_at b' i.
Proof.
  intros N n m start fin seed HN Hm NE.
  destruct (C146_values_partial N n start fin seed HN ltac:(lia) NE) as [b [E [_ F]]].
  destruct (C146_values_partial N m start fin seed HN ltac:(lia) NE) as [b' [E' [_ F']]].
  exists b, b'. split; [exact E|]. split; [exact E'|]. intros i Hi. rewrite F, F' by lia. reflexivity.
Qed.
(** In binary32, random numbers between 0 and 1 stay between 0 and 1 (both included). *)
Lemma big_f32 : to_f32 (IZR (2 ^ 31 - 1)) = IZR (2 ^ 31).
Proof.
  apply (near32 (IZR (2 ^ 31 - 1)) 16777216 7); [lia| |].
  - change (23 + 7) with 30. change (24 + 7) with 31. split; [apply IZR_le; lia|apply IZR_lt; lia].
  - change (16777216 * 2 ^ 7) with (2 ^ 31). change (2 ^ 7) with 128. rewrite <- minus_IZR. change (2 ^ 31 - 1 - 2 ^ 31) with (-1). rewrite Rabs_left; lra.
Qed.
Theorem C146_unit_interval_f32 : forall N n seed, 1 <= N -> 0 <= n ->
  exists b v, tensor_random to_f32 EFloat N n 0 1 seed = ROk b /\ elements b n v /\ forall i, 0 <= i < n -> (0 <= v i <= 1)%R.
Proof.
  intros N n seed HN Hn.
  assert (R1 : to_f32 (1 - 0) = 1%R) by (rewrite Rminus_0_r; apply (f32_int 1); reflexivity).
  assert (Z0 : to_f32 0 = 0%R) by (apply (f32_int 0); reflexivity).
  assert (O1 : to_f32 1 = 1%R) by (apply (f32_int 1); reflexivity).
  assert (U : forall x, (0 <= x <= 1)%R -> (0 <= to_f32 x <= 1)%R).
  { intros x [A B]. split; [rewrite <- Z0|rewrite <- O1]; apply mono32; assumption. }
  set (v := fun i => random_at to_f32 0 1 (lcg_seq seed (Z.to_nat i + 2))).
  destruct (random_ok to_f32 EFloat N (mkBuf n (fun _ => None)) n 0 1 seed v HN) as [b [E W]].
  - cbn. lia.
  - rewrite R1. lra.
  - intros i Hi. rewrite R1. reflexivity.
  - exists b, v. split; [exact E|]. split; [apply (whole _ _ _ _ W); reflexivity|]. intros i Hi. unfold v, random_at.
    rewrite big_f32. rewrite Rplus_0_l. apply U. rewrite Rmult_1_r. apply U. apply U.
    replace (Z.to_nat i + 2)%nat with (Datatypes.S (Z.to_nat i + 1)) by lia. assert (Q := lcg_seq_range seed (Z.to_nat i + 1)).
    set (x := lcg_seq _ _) in *.
    assert (A : (0 <= to_f32 (IZR x))%R) by (rewrite <- Z0; apply mono32, (IZR_le 0); lia).
    assert (B : (to_f32 (IZR x) <= IZR (2 ^ 31))%R) by (rewrite <- big_f32; apply mono32, IZR_le; lia).
    assert (P : (0 < IZR (2 ^ 31))%R) by (apply (IZR_lt 0); lia).
    split; [apply Rmult_le_pos; [exact A|apply Rlt_le, Rinv_0_lt_compat, P]|]. apply (Rmult_le_reg_r (IZR (2 ^ 31))); [exact P|].
    unfold Rdiv. rewrite Rmult_assoc, Rinv_l by lra. lra.
Qed.
(** ... but for other intervals rounding can leave them: 4 among the numbers between
    -2^25 and 3. *)
Theorem C146_beyond_end_f32_refuted : exists seed b, 0 <= seed < 2 ^ 64 /\
  tensor_random to_f32 EFloat 4 1 (IZR (-33554432)) 3 seed = ROk b /\ b_at b 0 = Some 4%R.
Proof.
  exists 801440601. 
  assert (R1 : to_f32 (3 - IZR (-33554432)) = IZR 33554436).
  { apply (near32 (3 - IZR (-33554432)) 8388609 2); [lia| |].
    - cbn. lra.
    - change (8388609 * 2 ^ 2) with 33554436. change (2 ^ 2) with 4. rewrite Rabs_left; lra. }
  destruct (random_ok to_f32 EFloat 4 (mkBuf 1 (fun _ => None)) 1 (IZR (-33554432)) 3 801440601 (fun _ => 4%R)) as [b [E W]].
  - lia.
  - cbn. lia.
  - rewrite R1. apply not_0_IZR. discriminate.
  - intros i Hi. rewrite R1. replace i with 0 by lia. replace (lcg_seq 801440601 (Z.to_nat 0 + 2)) with (2 ^ 31 - 1) by (vm_compute; reflexivity).
    unfold cast, random_at. rewrite big_f32. f_equal.
    replace (IZR (2 ^ 31) / IZR (2 ^ 31))%R with 1%R by (field; apply not_0_IZR; discriminate).
    rewrite (f32_int 1) by reflexivity. rewrite Rmult_1_l.
    assert (F : to_f32 (IZR 33554436) = IZR 33554436) by (apply (f32_pow 8388609 2); lia). rewrite F.
    rewrite <- plus_IZR. apply (f32_int 4). reflexivity.
  - exists b. split; [lia|]. split; [exact E|]. destruct (whole _ _ _ _ W eq_refl) as [_ V]. apply V. lia.
Qed.

(** ** A concrete case *)
(** arange(0, 10, 2): 5 elements; 11 ones in registers of 4. *)
Lemma C145_hypotheses : exists b, tensor_arange exact EFloat 4 0 10 2 = ROk b /\ b_len b = 5 /\ b_at b 4 = Some (0 + 4 * 2)%R.
Proof.
  assert (Q : Ztrunc ((10 - 0) / 2) = 5) by (replace ((10 - 0) / 2)%R with (IZR 5) by (cbn; lra); apply Ztrunc_IZR).
  destruct (C145_arange_float_partial 4 0 10 2) as [b [E [L A]]]; [lia|lra|rewrite Q; lia|].
  exists b. rewrite Q in *. split; [exact E|]. split; [exact L|]. rewrite A by lia. reflexivity.
Qed.
Example eleven_ones : exists b, tensor_ones 4 11 = ROk b /\ b_at b 10 = Some 1%R /\ b_at b 11 = None.
Proof. eexists. split; [reflexivity|]. split; reflexivity. Qed.

Print Assumptions C144_fill_value.
Print Assumptions C144_zeros.
Print Assumptions C144_ones.
Print Assumptions C145_arange_float_partial.
Print Assumptions C145_arange_int_partial.
Print Assumptions C145_inside_interval.
Print Assumptions C145_last_value_missing_refuted.
Print Assumptions C145_unwritten_element_refuted.
Print Assumptions C146_values_partial.
Print Assumptions C146_in_range_partial.
Print Assumptions C146_seed_bits.
Print Assumptions C146_prefix_partial.
Print Assumptions C146_unit_interval_f32.
Print Assumptions C146_beyond_end_f32_refuted.
