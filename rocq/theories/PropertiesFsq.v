(** Property theorems C119 - C121: finite scalar quantisation of the audio codec. *)
From Verif Require Import Base DTypeModel VlModel VlProofs MoeProofs QuantModel CpmAudioModel CpmAudio FsqModel FsqSpec FsqRound FsqProofs FsqCodes FsqQuant FsqResidual.
From Coq Require Import Reals Lra.
From Flocq Require Import Core BinarySingleNaN.
Import ListNotations.
Open Scope nat_scope.

(* ---------------- C119: indices and codes ---------------- *)

(** Choices of levels are numbered 0 .. how_many-1 without gaps or repetitions. *)
Theorem C119_numbering : forall ls, Forall (fun l => 2 <= l)%Z ls ->
  (forall ds, digits_of ls ds -> (0 <= number ls ds < how_many ls)%Z) /\
  (forall n, (0 <= n < how_many ls)%Z -> exists ds, digits_of ls ds /\ number ls ds = n) /\
  (forall ds ds', digits_of ls ds -> digits_of ls ds' -> number ls ds = number ls ds' -> ds = ds').
Proof.
  intros ls H. split; [intros ds; apply number_bound|]. split.
  - intros n Hn. exists (digs ls n). apply digs_ok; assumption.
  - intros ds ds' H1 H2 E. rewrite <- (digs_number ls ds H1), <- (digs_number ls ds' H2), E. reflexivity.
Qed.

(** indicesToCodes of any indices gives their codes, one after the other. *)
Theorem C119_indices_to_codes : forall ls dss, ls <> [] -> Forall (fun l => 2 <= l)%Z ls -> (how_many ls < 2 ^ 24)%Z -> Forall (digits_of ls) dss ->
  indices_to_codes ls (map (fun ds => IZR (number ls ds)) dss) = ROk (flat_map (codes ls) dss).
Proof. exact to_codes. Qed.

(** codesToIndices of these codes gives the indices back, for levels up to 25. *)
Theorem C119_codes_to_indices : forall ls dss, ls <> [] -> Forall (fun l => 2 <= l <= 25)%Z ls -> (how_many ls < 2 ^ 24)%Z -> Forall (digits_of ls) dss ->
  codes_to_indices ls (flat_map (codes ls) dss) = ROk (map (fun ds => IZR (number ls ds)) dss).
Proof. exact from_codes. Qed.

(** Hence every list of indices survives the trip, and different choices have
    different codes. *)
Theorem C119_round_trip : forall ls idx, ls <> [] -> Forall (fun l => 2 <= l <= 25)%Z ls -> (how_many ls < 2 ^ 24)%Z ->
  Forall (fun i => 0 <= i < how_many ls)%Z idx ->
  exists c, indices_to_codes ls (map IZR idx) = ROk c /\ length c = length idx * length ls /\ Forall (fun x => -1 <= x <= 1)%R c /\
            codes_to_indices ls c = ROk (map IZR idx).
Proof.
  intros ls idx Hn H25 Hb Hi. assert (Hg : Forall good ls) by (eapply Forall_impl; [|exact H25]; unfold good; cbn; intros; lia).
  set (dss := map (digs ls) idx). assert (Hd : Forall (digits_of ls) dss).
  { unfold dss. clear - Hi Hg. induction Hi as [|i idx H _ IH]; constructor; [apply digs_ok; assumption|exact IH]. }
  assert (E : map IZR idx = indices_of ls dss).
  { unfold indices_of, dss. rewrite map_map. apply map_ext_in. intros i I. rewrite Forall_forall in Hi. destruct (digs_ok ls Hg i (Hi i I)) as (_ & ->). reflexivity. }
  exists (flat_map (codes ls) dss). rewrite E. split; [apply to_codes; assumption|]. split; [|split].
  - replace (length idx) with (length dss) by (unfold dss; apply map_length). clear - Hd. induction Hd as [|ds dss H _ IH]; [reflexivity|].
    cbn [flat_map length]. rewrite app_length, IH, (codes_len _ _ H). reflexivity.
  - apply Forall_forall. intros x Hx. apply in_flat_map in Hx. destruct Hx as (ds & I & Hx). rewrite Forall_forall in Hd. assert (Gd := Hd _ I).
    destruct (In_nth_error _ _ Hx) as (d & Nd). assert (Ld : d < length ls) by (rewrite <- (codes_len _ _ Gd); apply nth_error_Some; congruence).
    rewrite codes_nth in Nd by assumption. injection Nd as <-. assert (Rg := digit_in ls ds d Gd Ld).
    assert (Rl : (2 <= nth d ls 0)%Z) by (rewrite Forall_forall in Hg; apply Hg, nth_In; exact Ld).
    set (l := nth d ls 0%Z) in *. set (c := nth d ds 0%Z) in *. unfold code.
    assert (Hh : (1 <= l / 2)%Z) by (clear - Rl; Z.to_euclidean_division_equations; lia).
    assert (Hc : (- (l / 2) <= c - l / 2 <= l / 2)%Z) by (clear - Rl Rg; Z.to_euclidean_division_equations; lia).
    assert (Ph : (0 < IZR (l / 2))%R) by (apply IZR_lt; lia).
    assert (Hr : (-1 <= IZR (c - l / 2) / IZR (l / 2) <= 1)%R).
    { destruct Hc as (C1 & C2). apply IZR_le in C1, C2. rewrite opp_IZR in C1. split.
      - apply Rmult_le_reg_r with (IZR (l / 2)); [exact Ph|]. unfold Rdiv. rewrite Rmult_assoc, Rinv_l by lra. lra.
      - apply Rmult_le_reg_r with (IZR (l / 2)); [exact Ph|]. unfold Rdiv. rewrite Rmult_assoc, Rinv_l by lra. lra. }
    split.
    + rewrite <- (int32 (-1)) by reflexivity. apply mono32. apply Hr.
    + rewrite <- (int32 1) by reflexivity. apply mono32. apply Hr.
  - apply from_codes; assumption.
Qed.
Theorem C119_codes_distinct : forall ls ds ds', ls <> [] -> Forall (fun l => 2 <= l <= 25)%Z ls -> (how_many ls < 2 ^ 24)%Z ->
  digits_of ls ds -> digits_of ls ds' -> codes ls ds = codes ls ds' -> ds = ds'.
Proof.
  intros ls ds ds' Hn H25 Hb H1 H2 E. assert (A := from_codes ls [ds] Hn H25 Hb ltac:(repeat constructor; assumption)).
  assert (B := from_codes ls [ds'] Hn H25 Hb ltac:(repeat constructor; assumption)). cbn [flat_map] in A, B. rewrite E, B in A. injection A as A.
  apply eq_IZR in A. rewrite <- (digs_number ls ds H1), <- (digs_number ls ds' H2), A. reflexivity.
Qed.

(** The implicit codebook lists the codes of 0, 1, 2, ... *)
Theorem C119_codebook : forall ls, ls <> [] -> Forall (fun l => 2 <= l)%Z ls -> (how_many ls < 2 ^ 24)%Z ->
  exists cb, implicit_codebook ls = ROk cb /\
    forall ds d, digits_of ls ds -> d < length ls -> nth_error cb (Z.to_nat (number ls ds) * length ls + d) = Some (code (nth d ls 0%Z) (nth d ds 0%Z)).
Proof.
  intros ls Hn Hg Hb. exists (flat_map (codes ls) (map (fun i => digs ls (Z.of_nat i)) (seq 0 (Z.to_nat (how_many ls))))).
  split; [apply codebook_ok; assumption|]. intros ds d H Hd. assert (Bn := number_bound ls ds H).
  rewrite (nth_error_flat (codes ls) (length ls)); [| |exact Hd].
  - rewrite nth_error_map_seq by lia. cbn [Nat.add]. rewrite Z2Nat.id by lia. rewrite digs_number by exact H. apply codes_nth; assumption.
  - apply Forall_forall. intros x Hx. apply in_map_iff in Hx. destruct Hx as (j & <- & Hj). apply in_seq in Hj. apply codes_len, digs_ok; [exact Hg|lia].
Qed.

(** With 26 levels the trip is not exact: the float for index 6 comes back just below
    6 and is cut to 5. *)
Lemma back_below : (5 <= to_f32 (to_f32 (to_f32 (IZR (6 - 13) / IZR 13) * IZR 13) + IZR 13) < 6)%R.
Proof.
  destruct (there_value 13 6) as (_ & E); [lia|lia|vm_compute; reflexivity|]. rewrite <- E. clear E.
  assert (S : B2SF (back 13 6) = SpecFloat.S754_finite false 12582911 (-21)) by (vm_compute; reflexivity).
  assert (V : forall x m e, B2SF x = SpecFloat.S754_finite false m e -> value x = (IZR (Zpos m) * bpow radix2 e)%R).
  { intros x m e H. unfold value. destruct x; cbn in H; try discriminate. injection H as -> -> ->. reflexivity. }
  rewrite (V _ _ _ S). change (bpow radix2 (-21)) with (/ 2097152)%R. lra.
Qed.
Theorem C119_level26_refuted : exists c, indices_to_codes [26%Z] [6%R] = ROk c /\ codes_to_indices [26%Z] c = ROk [5%R].
Proof.
  exists [code 26 6]. split.
  - assert (E := to_codes [26%Z] [[6%Z]]). change (indices_of [26%Z] [[6%Z]]) with [IZR 6] in E. change (flat_map (codes [26%Z]) [[6%Z]]) with [code 26 6] in E.
    apply E; [discriminate|repeat constructor; unfold good; lia|reflexivity|repeat constructor; lia].
  - unfold codes_to_indices, basis_tensor. rewrite basis_ok; [|discriminate|repeat constructor; unfold good; lia|reflexivity].
    cbn [rbind length seq map]. unfold ndiv. cbn [Nat.eqb rbind]. change (1 / 1) with 1. unfold weight. cbn [firstn]. change (how_many []) with 1%Z.
    unfold scale_and_shift, levels_tensor. cbn [length AotModel.for_up map]. unfold nmod. cbn [Nat.eqb rbind]. change (0 mod 1) with 0.
    rewrite (i2f_ok 26) by lia. cbn [rd nth_error rbind]. rewrite f2i_int by lia. cbn [rbind]. change (idiv 26 2) with (ROk 13%Z). cbn [rbind].
    rewrite (i2f_ok 13), (i2f_ok 1) by lia. cbn [repeat]. set (x := to_f32 (to_f32 (code 26 6 * 13) + 13)).
    assert (Bx : (5 <= x < 6)%R) by exact back_below.
    assert (W : forall v w : R, wr [v] 0 w = ROk [w]) by reflexivity. rewrite W. cbn [rbind AotModel.for_up Nat.mul Nat.add rd nth_error]. rewrite Rmult_1_r.
    assert (Rx : to_f32 x = x).
    { unfold x. unfold to_f32, nearest. apply round_generic; [apply valid_rnd_N|]. apply generic_format_round; [apply FLT_exp_valid; unfold Prec_gt_0; lia|apply valid_rnd_N]. }
    rewrite Rx. assert (Tx : f2i x = ROk 5%Z).
    { unfold f2i. rewrite Ztrunc_floor by lra. rewrite (Zfloor_imp 5) by (cbn [Z.add Pos.add Pos.succ]; lra). reflexivity. }
    rewrite Tx. cbn [rbind]. change (i32 (0 + 5)) with (ROk 5%Z). cbn [rbind]. rewrite i2f_ok by lia. rewrite W. reflexivity.
Qed.
Lemma C119_hypotheses : [5%Z; 5%Z; 5%Z; 5%Z] <> [] /\ Forall (fun l => 2 <= l <= 25)%Z [5%Z; 5%Z; 5%Z; 5%Z] /\ (how_many [5; 5; 5; 5] < 2 ^ 24)%Z /\
  Forall (digits_of [5%Z; 5%Z; 5%Z; 5%Z]) [[4%Z; 0%Z; 2%Z; 1%Z]].
Proof. split; [discriminate|]. split; [repeat constructor; lia|]. split; [reflexivity|]. repeat constructor; lia. Qed.

(* ---------------- C120: quantising ---------------- *)

(** Every component is rounded to the nearest integer (halves away from zero) and
    limited to l consecutive integers around 0, then divided by l/2. *)
Theorem C120_quantize_partial : forall ls eps z, ls <> [] -> (0 <= eps <= 1001 / 1000000)%R -> Forall (fun l => 2 <= l <= 999)%Z ls ->
  exists out, quantize (levels_tensor ls) eps z = ROk out /\ length out = length z /\
    forall p, p < length z -> let l := nth (p mod length ls) ls 0%Z in
      nth p out 0%R = to_f32 (IZR (Z.max (- ((l - 1) / 2)) (Z.min (l / 2) (roundf (nth p z 0%R)))) / (IZR l / 2)).
Proof.
  intros ls eps z Hn He Hl. eexists. split; [apply quantize_ok; assumption|]. split; [rewrite map_length, seq_length; reflexivity|].
  intros p Hp l. erewrite nth_error_nth; [|rewrite nth_error_map_seq by exact Hp; reflexivity]. reflexivity.
Qed.

(** But the result is not in the codebook: with 5 levels the largest value is 4/5
    where the codebook has 1, and its index is that of 1/2. *)
Theorem C120_odd_refuted : exists c, quantize (levels_tensor [5%Z]) (1 / 1000) [2%R] = ROk [c] /\
  c <> code 5 4 /\ codes_to_indices [5%Z] [c] = ROk [3%R] /\ indices_to_codes [5%Z] [3%R] = ROk [code 5 3] /\ code 5 3 <> c.
Proof.
  exists (to_f32 (2 / (5 / 2))).
  assert (Bc : (3 / 4 <= to_f32 (2 / (5 / 2)) <= 7 / 8)%R).
  { split.
    - replace (3 / 4)%R with (IZR 3 / IZR (2 ^ 2))%R by (change (IZR (2 ^ 2)) with 4%R; lra). rewrite <- (rep 3 2) by lia. apply mono32. change (IZR (2 ^ 2)) with 4%R. lra.
    - replace (7 / 8)%R with (IZR 7 / IZR (2 ^ 3))%R by (change (IZR (2 ^ 3)) with 8%R; lra). rewrite <- (rep 7 3) by lia. apply mono32. change (IZR (2 ^ 3)) with 8%R. lra. }
  assert (C4 : code 5 4 = 1%R) by (unfold code; change (5 / 2)%Z with 2%Z; change (4 - 2)%Z with 2%Z; replace (2 / 2)%R with (IZR 1) by lra; apply int32; lia).
  assert (C3 : code 5 3 = (1 / 2)%R) by (unfold code; change (5 / 2)%Z with 2%Z; change (3 - 2)%Z with 1%Z; apply (rep 1 1); lia).
  split; [|split; [rewrite C4; lra|split; [|split; [|rewrite C3; lra]]]].
  - rewrite quantize_ok; [|discriminate|lra|repeat constructor; lia]. cbn [length seq map]. change (0 mod 1) with 0. cbn [nth].
    assert (R2 : roundf 2 = 2%Z) by (apply roundf_near; rewrite Rminus_eq_0, Rabs_R0; lra). rewrite R2. reflexivity.
  - set (c := to_f32 (2 / (5 / 2))) in *.
    unfold codes_to_indices, basis_tensor. rewrite basis_ok; [|discriminate|repeat constructor; unfold good; lia|reflexivity].
    cbn [rbind length seq map]. unfold ndiv. cbn [Nat.eqb rbind]. change (1 / 1) with 1. unfold weight. cbn [firstn]. change (how_many []) with 1%Z.
    unfold scale_and_shift, levels_tensor. cbn [length AotModel.for_up map]. unfold nmod. cbn [Nat.eqb rbind]. change (0 mod 1) with 0.
    rewrite (i2f_ok 5) by lia. cbn [rd nth_error rbind]. rewrite f2i_int by lia. cbn [rbind]. change (idiv 5 2) with (ROk 2%Z). cbn [rbind].
    rewrite (i2f_ok 2), (i2f_ok 1) by lia. cbn [repeat].
    assert (B1 : (3 / 2 <= to_f32 (c * 2) <= 7 / 4)%R).
    { split.
      - replace (3 / 2)%R with (IZR 3 / IZR (2 ^ 1))%R by (change (IZR (2 ^ 1)) with 2%R; lra). rewrite <- (rep 3 1) by lia. apply mono32. change (IZR (2 ^ 1)) with 2%R. lra.
      - replace (7 / 4)%R with (IZR 7 / IZR (2 ^ 2))%R by (change (IZR (2 ^ 2)) with 4%R; lra). rewrite <- (rep 7 2) by lia. apply mono32. change (IZR (2 ^ 2)) with 4%R. lra. }
    set (x := to_f32 (to_f32 (c * 2) + 2)).
    assert (Bx : (7 / 2 <= x <= 15 / 4)%R).
    { unfold x. split.
      - replace (7 / 2)%R with (IZR 7 / IZR (2 ^ 1))%R by (change (IZR (2 ^ 1)) with 2%R; lra). rewrite <- (rep 7 1) by lia. apply mono32. change (IZR (2 ^ 1)) with 2%R. lra.
      - replace (15 / 4)%R with (IZR 15 / IZR (2 ^ 2))%R by (change (IZR (2 ^ 2)) with 4%R; lra). rewrite <- (rep 15 2) by lia. apply mono32. change (IZR (2 ^ 2)) with 4%R. lra. }
    assert (W : forall v w : R, wr [v] 0 w = ROk [w]) by reflexivity. rewrite W. cbn [rbind AotModel.for_up Nat.mul Nat.add rd nth_error]. rewrite Rmult_1_r.
    assert (Rx : to_f32 x = x).
    { unfold x. unfold to_f32, nearest. apply round_generic; [apply valid_rnd_N|]. apply generic_format_round; [apply FLT_exp_valid; unfold Prec_gt_0; lia|apply valid_rnd_N]. }
    rewrite Rx. assert (Tx : f2i x = ROk 3%Z).
    { unfold f2i. rewrite Ztrunc_floor by lra. rewrite (Zfloor_imp 3) by (cbn [Z.add Pos.add Pos.succ]; lra). reflexivity. }
    rewrite Tx. cbn [rbind]. change (i32 (0 + 3)) with (ROk 3%Z). cbn [rbind]. rewrite i2f_ok by lia. rewrite W. reflexivity.
  - assert (E := to_codes [5%Z] [[3%Z]]). change (indices_of [5%Z] [[3%Z]]) with [IZR 3] in E. change (flat_map (codes [5%Z]) [[3%Z]]) with [code 5 3] in E.
    apply E; [discriminate|repeat constructor; unfold good; lia|reflexivity|repeat constructor; lia].
Qed.

(** And an even number of levels uses the integers 1-l/2 .. l/2 where the codebook has
    -l/2 .. l/2-1: with 4 levels a large value gets index 4 of a codebook of 4. *)
Theorem C120_even_refuted : quantize (levels_tensor [4%Z]) (1 / 1000) [100%R] = ROk [1%R] /\
  codes_to_indices [4%Z] [1%R] = ROk [4%R] /\ codebook_size [4%Z] = ROk 4%Z.
Proof.
  split; [|split; [|reflexivity]].
  - rewrite quantize_ok; [|discriminate|lra|repeat constructor; lia]. cbn [length seq map]. change (0 mod 1) with 0. cbn [nth].
    assert (R2 : roundf 100 = 100%Z) by (apply roundf_near; rewrite Rminus_eq_0, Rabs_R0; lra). rewrite R2.
    change (Z.max (- ((4 - 1) / 2)) (Z.min (4 / 2) 100)) with 2%Z. replace (2 / (4 / 2))%R with (IZR 1) by lra. rewrite int32 by lia. reflexivity.
  - unfold codes_to_indices, basis_tensor. rewrite basis_ok; [|discriminate|repeat constructor; unfold good; lia|reflexivity].
    cbn [rbind length seq map]. unfold ndiv. cbn [Nat.eqb rbind]. change (1 / 1) with 1. unfold weight. cbn [firstn]. change (how_many []) with 1%Z.
    unfold scale_and_shift, levels_tensor. cbn [length AotModel.for_up map]. unfold nmod. cbn [Nat.eqb rbind]. change (0 mod 1) with 0.
    rewrite (i2f_ok 4) by lia. cbn [rd nth_error rbind]. rewrite f2i_int by lia. cbn [rbind]. change (idiv 4 2) with (ROk 2%Z). cbn [rbind].
    rewrite (i2f_ok 2), (i2f_ok 1) by lia. cbn [repeat]. replace (1 * 2)%R with (IZR 2) by lra. rewrite int32 by lia. rewrite <- plus_IZR. change (2 + 2)%Z with 4%Z. rewrite int32 by lia.
    assert (W : forall v w : R, wr [v] 0 w = ROk [w]) by reflexivity. rewrite W. cbn [rbind AotModel.for_up Nat.mul Nat.add rd nth_error]. rewrite Rmult_1_r.
    rewrite int32 by lia. rewrite f2i_int by lia. cbn [rbind]. change (i32 (0 + 4)) with (ROk 4%Z). cbn [rbind]. rewrite i2f_ok by lia. rewrite W. reflexivity.
Qed.

(* ---------------- C121: residual decoding ---------------- *)

(** For one batch (or one position) the decoded vector of position r is the sum over
    the quantisers of code times scale, a dropped quantiser counting nothing - for
    every choice of levels other than all-lowest (index 0). *)
Theorem C121_decode_partial : forall ls scales batch n Q es, ls <> [] -> Forall (fun l => 2 <= l)%Z ls -> (how_many ls < 2 ^ 24)%Z ->
  0 < batch -> 0 < Q -> batch = 1 \/ n <= 1 -> length es = batch * n * Q -> length scales = Q * length ls ->
  Forall (entry_ok ls) es -> Forall (fun e => index_of ls e <> 0%Z) es ->
  exists out, output_from_indices ls scales batch Q Q (map (index_of ls) es) = ROk out /\ length out = batch * n * length ls /\
    forall r d, r < batch * n -> d < length ls ->
      nth (r * length ls + d) out 0%R =
      fold_left (fun s q => to_f32 (s + to_f32 (value_of ls (nth (r * Q + q) es None) d * nth (q * length ls + d) scales 0%R))) (seq 0 Q) 0%R.
Proof.
  intros ls scales B n Q es Hn Hg Hb HB HQ H1 Hl Hs Ho Hz. eexists. split.
  - apply (output_ok ls scales B n Q); try assumption; [rewrite map_length; exact Hl|]. apply Forall_forall. intros i I. apply in_map_iff in I.
    destruct I as (e & <- & I). rewrite Forall_forall in Ho. assert (O := Ho e I). destruct e as [ds|]; cbn in *; [assert (X := number_bound ls ds O); lia|].
    assert (P := many_pos ls Hg). lia.
  - split; [rewrite map_length, seq_length; reflexivity|]. intros r d Hr Hd.
    erewrite nth_error_nth; [|rewrite nth_error_map_seq by (apply index_bound; assumption); reflexivity]. cbn [Nat.add].
    assert (G : forall l a, (forall q, In q l -> q < Q) ->
      fold_left (fun s q => to_f32 (s + scaled ls scales (map (index_of ls) es) (B * n) Q q ((r * length ls + d) / length ls) ((r * length ls + d) mod length ls))) l a =
      fold_left (fun s q => to_f32 (s + to_f32 (value_of ls (nth (r * Q + q) es None) d * nth (q * length ls + d) scales 0%R))) l a).
    { induction l as [|q l IH]; intros a Hq; [reflexivity|]. cbn [fold_left]. rewrite IH by (intros; apply Hq; right; assumption). f_equal. f_equal. f_equal.
      rewrite div_mul_add, mod_mul_add by lia. unfold scaled. f_equal. f_equal.
      assert (Hp : r * Q + q < length es) by (rewrite Hl; apply index_bound; [assumption|apply Hq; left; reflexivity]).
      rewrite (nth_indep _ 0%Z (index_of ls None)) by (rewrite map_length; exact Hp). rewrite map_nth.
      assert (I := nth_In es None Hp). set (e := nth (r * Q + q) es None) in *. rewrite Forall_forall in Ho, Hz. assert (O := Ho e I). assert (Z0 := Hz e I).
      unfold part, kept. destruct e as [ds|]; cbn [index_of value_of entry_ok] in *; [|reflexivity].
      assert (X := number_bound ls ds O). replace (number ls ds =? -1)%Z with false by lia. replace (number ls ds =? 0)%Z with false by lia.
      rewrite digs_number by exact O. reflexivity. }
    apply G. intros q Iq. apply in_seq in Iq. lia.
Qed.

(** Index 0 is a code like any other (all levels lowest: -1 in every dimension), but it
    is decoded as zeros. *)
Theorem C121_index_zero_refuted : forall ls, ls <> [] -> Forall (fun l => 2 <= l)%Z ls -> (how_many ls < 2 ^ 24)%Z ->
  digits_of ls (map (fun _ => 0%Z) ls) /\ index_of ls (Some (map (fun _ => 0%Z) ls)) = 0%Z /\
  (forall d, d < length ls -> value_of ls (Some (map (fun _ => 0%Z) ls)) d = (-1)%R) /\
  output_from_indices ls (repeat 1%R (length ls)) 1 1 1 [0%Z] = ROk (repeat 0%R (length ls)).
Proof.
  intros ls Hn Hg Hb. split; [|split; [|split]].
  - clear - Hg. induction Hg as [|l ls H _ IH]; constructor; [lia|exact IH].
  - cbn [index_of]. clear. induction ls as [|l ls IH]; [reflexivity|]. cbn [map number]. rewrite IH. lia.
  - intros d Hd. cbn [value_of]. assert (E : nth d (map (fun _ : Z => 0%Z) ls) 0%Z = 0%Z).
    { assert (X := map_nth (fun _ : Z => 0%Z) ls 0%Z d). exact X. }
    rewrite E. unfold code. assert (Rl : (2 <= nth d ls 0)%Z) by (rewrite Forall_forall in Hg; apply Hg, nth_In; exact Hd).
    assert (Hh : (1 <= nth d ls 0 / 2)%Z) by (clear - Rl; Z.to_euclidean_division_equations; lia).
    replace (IZR (0 - nth d ls 0%Z / 2) / IZR (nth d ls 0%Z / 2))%R with (IZR (-1)).
    + apply int32. lia.
    + assert (Ph : (0 < IZR (nth d ls 0%Z / 2))%R) by (apply IZR_lt; lia). rewrite minus_IZR. field. lra.
  - assert (P := many_pos ls Hg).
    rewrite (output_ok ls _ 1 1 1 [0%Z]); [|assumption|assumption|assumption|lia|lia|lia|reflexivity|rewrite repeat_length; lia|repeat constructor; lia].
    f_equal. cbn [Nat.mul Nat.add]. rewrite Nat.add_0_r. apply nth_error_ext. intro p. destruct (Nat.lt_ge_cases p (length ls)) as [H|H].
    + rewrite nth_error_map_seq by exact H. cbn [Nat.add seq fold_left]. unfold scaled, part. replace (p / length ls) with 0 by (symmetry; apply Nat.div_small; exact H).
      cbn [Nat.mul Nat.add nth kept Z.eqb]. rewrite Rmult_0_l. assert (T0 : to_f32 0 = 0%R) by (apply (int32 0); lia). rewrite T0, Rplus_0_l, T0.
      symmetry. rewrite (nth_error_repeat 0%R H). reflexivity.
    + transitivity (@None R); [apply nth_error_None; rewrite map_length, seq_length; exact H|symmetry; apply nth_error_None; rewrite repeat_length; exact H].
Qed.

(** More than one batch of more than one position cannot be decoded: the scales are
    read out of bounds. *)
Theorem C121_batches_refuted : forall ls scales batch n Q ids, ls <> [] -> Forall (fun l => 2 <= l)%Z ls -> (how_many ls < 2 ^ 24)%Z ->
  1 < batch -> 1 < n -> 0 < Q -> length ids = batch * n * Q -> Forall (fun i => -1 <= i < how_many ls)%Z ids ->
  output_from_indices ls scales batch Q Q ids = RUB.
Proof.
  intros ls scales B n Q ids Hn Hg Hb HB H1 HQ Hl Hi. unfold output_from_indices, codes_from_indices.
  destruct (codebooks ls Q) as [cb| | |] eqn:Hc; try (unfold codebooks in Hc; rewrite codebook_ok in Hc by assumption; discriminate).
  cbn [rbind]. unfold reshape_indices. assert (El : length ids = n * (B * Q)) by (rewrite Hl; clear; lia). rewrite El. rewrite Nat.mod_mul by nia. cbn [Nat.eqb].
  unfold ndiv. replace (B * Q =? 0) with false by nia. cbn [rbind]. rewrite Nat.div_mul by nia. replace (Q <? Q) with false by lia. cbn [rbind].
  rewrite unmask_ok. cbn [rbind]. rewrite size_ok by (auto; lia). cbn [rbind].
  rewrite (gather_ok ls B n Q ids cb) by (auto; lia). cbn [rbind]. unfold apply_scales. replace ((1 <? B) && (1 <? n)) with true by lia. reflexivity.
Qed.

(** Indices of fewer quantisers than the model has are regrouped across positions:
    two positions with one of two quantisers give the output of one position, whatever
    the second one holds. *)
Theorem C121_fewer_refuted : forall ls scales i j, output_from_indices ls scales 1 2 1 [i; j] = output_from_indices ls scales 1 2 2 [i; (-1)%Z].
Proof. intros. reflexivity. Qed.

Lemma C121_hypotheses : Forall (entry_ok [5%Z; 5%Z]) [Some [1%Z; 4%Z]; None; Some [0%Z; 2%Z]; Some [3%Z; 0%Z]] /\
  Forall (fun e => index_of [5%Z; 5%Z] e <> 0%Z) [Some [1%Z; 4%Z]; None; Some [0%Z; 2%Z]; Some [3%Z; 0%Z]].
Proof. split; repeat constructor; cbn; lia. Qed.
Print Assumptions C119_numbering.
Print Assumptions C119_indices_to_codes.
Print Assumptions C119_codes_to_indices.
Print Assumptions C119_round_trip.
Print Assumptions C119_codes_distinct.
Print Assumptions C119_codebook.
Print Assumptions C119_level26_refuted.
Print Assumptions C120_quantize_partial.
Print Assumptions C120_odd_refuted.
Print Assumptions C120_even_refuted.
Print Assumptions C121_decode_partial.
Print Assumptions C121_index_zero_refuted.
Print Assumptions C121_batches_refuted.
Print Assumptions C121_fewer_refuted.
