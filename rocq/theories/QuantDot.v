(** Proofs about quantization, part 5: products of quantized rows. *)
From Coq Require Import Reals Lra.
From Flocq Require Import Core Relative.
From Verif Require Import Base DTypeModel ParamModel ParamSpec TensorModel TensorSpec TensorProofs OpsModel OpsSpec MatModel MatSpec MatProofs AttnSpec AttnProofs QuantModel QuantSpec QuantFloat QuantProofs QuantQ4.
Local Open Scope Z_scope.

Notation sumZ := (fold_right Z.add 0).
Notation sumR := (fold_right Rplus 0%R).
Lemma sumZ_app a b : sumZ (a ++ b) = sumZ a + sumZ b.
Proof. induction a; cbn; lia. Qed.
Lemma pairs_sum_ok n : forall l, length l = (2 * n)%nat ->
  length (pairs_sum (fun z => z) l) = n /\ sumZ (pairs_sum (fun z => z) l) = sumZ l.
Proof.
  induction n as [|n IH]; intros l H.
  - destruct l; [auto|discriminate H].
  - destruct l as [|a [|b l]]; cbn in H; try lia. destruct (IH l ltac:(lia)) as [I1 I2]. cbn. rewrite I1, I2. split; [auto|lia].
Qed.
Lemma pairs_sum_len sat n : forall l, length l = (2 * n)%nat -> length (pairs_sum sat l) = n.
Proof.
  induction n as [|n IH]; intros l H.
  - destruct l; [auto|discriminate H].
  - destruct l as [|a [|b l]]; cbn in H; try lia. cbn. rewrite IH by lia. auto.
Qed.
Lemma pairs_sum_sat n : forall l, length l = (2 * n)%nat -> Forall (fun z => -16384 < z < 16384) l -> pairs_sum sat16 l = pairs_sum (fun z => z) l.
Proof.
  induction n as [|n IH]; intros l H F.
  - destruct l; [auto|discriminate H].
  - destruct l as [|a [|b l]]; cbn in H; try lia. inversion F as [|? ? F1 F2]; subst. inversion F2; subst. cbn. rewrite IH by (auto; lia). f_equal. unfold sat16. lia.
Qed.
Lemma products_len a b : length a = length b -> length (products a b) = length a.
Proof. intro H. unfold products. rewrite map_length, combine_length. lia. Qed.
Lemma vadd_sumZ a b : length a = length b -> length (vadd Z.add a b) = length a /\ sumZ (vadd Z.add a b) = sumZ a + sumZ b.
Proof.
  unfold vadd. revert b. induction a as [|x a IH]; intros [|y b] H; try discriminate H; [auto|]. destruct (IH b) as [I1 I2]; [cbn in H; lia|]. cbn. rewrite I1, I2. split; [auto|lia].
Qed.
Lemma vadd_sumR a b : length a = length b -> length (vadd Rplus a b) = length a /\ sumR (vadd Rplus a b) = (sumR a + sumR b)%R.
Proof.
  unfold vadd. revert b. induction a as [|x a IH]; intros [|y b] H; try discriminate H; [cbn; split; [auto|lra]|]. destruct (IH b) as [I1 I2]; [cbn in H; lia|]. cbn in *. rewrite I1, I2. split; [auto|lra].
Qed.
Lemma products_split n a b : length a = length b -> products a b = products (firstn n a) (firstn n b) ++ products (skipn n a) (skipn n b).
Proof.
  revert a b. induction n as [|n IH]; intros [|x a] [|y b] H; try discriminate H; cbn; try reflexivity.
  f_equal. apply IH. cbn in H. lia.
Qed.
(** |x| as an unsigned byte times y with the sign of x. *)
Lemma sign_product x y : -128 <= x <= 127 -> -127 <= y <= 127 -> sign8 x x mod 256 * sign8 y x = x * y.
Proof.
  intros Hx Hy. unfold sign8. destruct (x <? 0) eqn:Q.
  - rewrite (wrap_id (- y)) by lia. unfold wrap8. destruct (Z.eq_dec x (-128)) as [->|N]; [change ((((- -128 + 128) mod 256 - 128) mod 256)) with 128; lia|].
    rewrite (Z.mod_small (- x + 128)) by lia. replace (- x + 128 - 128) with (- x) by ring. rewrite Z.mod_small by lia. lia.
  - destruct (x =? 0) eqn:Q0; [replace x with 0 by lia; reflexivity|]. rewrite Z.mod_small by lia. reflexivity.
Qed.
Lemma sign_products a : forall b, length a = length b -> in_bytes (-128) 127 a -> in_bytes (-127) 127 b ->
  products (map (fun x => x mod 256) (map (fun x => sign8 x x) a)) (map (fun p => sign8 (snd p) (fst p)) (combine a b)) = products a b /\
  Forall (fun z => -16384 < z < 16384) (products a b).
Proof.
  unfold products. induction a as [|x a IH]; intros [|y b] H Fa Fb; try discriminate H; [split; constructor|].
  inversion Fa; subst. inversion Fb; subst. destruct (IH b) as [I1 I2]; auto. cbn in *. rewrite I1, sign_product by auto. split; [auto|]. constructor; auto. cbn. nia.
Qed.
Lemma len_map2 {A B} (f : A * B -> Z) (a : list A) (b : list B) : length a = length b -> length (map f (combine a b)) = length a.
Proof. intro H. rewrite map_length, combine_length. lia. Qed.
Lemma lanes_len isa a b : length a = 32%nat -> length b = 32%nat -> length (lanes_dot isa a b) = isa_lanes isa.
Proof.
  intros Ha Hb. destruct isa; cbn [lanes_dot isa_lanes]; unfold maddubs.
  - apply (pairs_sum_len _ 8). apply (pairs_sum_len _ 16). rewrite products_len; rewrite !map_length, ?combine_length; lia.
  - apply (pairs_sum_len _ 8). apply (pairs_sum_len _ 16). rewrite products_len; rewrite !map_length, ?combine_length; lia.
  - apply (pairs_sum_len _ 8). apply (pairs_sum_len _ 16). rewrite products_len; lia.
  - destruct (vadd_sumZ (pairs_sum (fun z => z) (pairs_sum (fun z => z) (products (firstn 16 a) (firstn 16 b)))) (pairs_sum (fun z => z) (pairs_sum (fun z => z) (products (skipn 16 a) (skipn 16 b))))) as [-> _].
    { rewrite !(pairs_sum_len _ 4); auto; apply (pairs_sum_len _ 8); rewrite products_len; rewrite ?firstn_length, ?skipn_length; lia. }
    apply (pairs_sum_len _ 4), (pairs_sum_len _ 8). rewrite products_len; rewrite ?firstn_length; lia.
  - assert (LH : forall l, length l = 16%nat -> length (vadd Z.add (pairs_sum (fun z => z) (firstn 8 l)) (pairs_sum (fun z => z) (skipn 8 l))) = 4%nat).
    { intros l Hl. destruct (vadd_sumZ (pairs_sum (fun z => z) (firstn 8 l)) (pairs_sum (fun z => z) (skipn 8 l))) as [-> _].
      - rewrite !(pairs_sum_len _ 4); auto; rewrite ?firstn_length, ?skipn_length; lia.
      - apply (pairs_sum_len _ 4). rewrite firstn_length; lia. }
    match goal with |- length (vadd Z.add ?l ?r) = _ => destruct (vadd_sumZ l r) as [-> _] end.
    + rewrite !LH; auto; rewrite products_len; rewrite ?firstn_length, ?skipn_length; lia.
    + apply LH. rewrite products_len; rewrite ?firstn_length; lia.
Qed.
Theorem lanes_dot_ok isa a b : length a = 32%nat -> length b = 32%nat -> in_bytes (-128) 127 a -> in_bytes (-127) 127 b ->
  sumZ (lanes_dot isa a b) = inner_ints a b.
Proof.
  intros Ha Hb Fa Fb. unfold inner_ints. fold (products a b). destruct (sign_products a b) as [SP BP]; auto; [lia|].
  assert (LP : length (products a b) = 32%nat) by (rewrite products_len; lia).
  destruct isa; cbn [lanes_dot]; unfold maddubs.
  - rewrite SP, (pairs_sum_sat 16) by auto. destruct (pairs_sum_ok 16 (products a b) LP) as [I1 I2]. destruct (pairs_sum_ok 8 _ I1) as [_ ->]. exact I2.
  - rewrite SP. destruct (pairs_sum_ok 16 (products a b) LP) as [I1 I2]. destruct (pairs_sum_ok 8 _ I1) as [_ ->]. exact I2.
  - destruct (pairs_sum_ok 16 (products a b) LP) as [I1 I2]. destruct (pairs_sum_ok 8 _ I1) as [_ ->]. exact I2.
  - rewrite (products_split 16 a b), sumZ_app by lia.
    assert (P1 : length (products (firstn 16 a) (firstn 16 b)) = 16%nat) by (rewrite products_len; rewrite ?firstn_length; lia).
    assert (P2 : length (products (skipn 16 a) (skipn 16 b)) = 16%nat) by (rewrite products_len; rewrite ?skipn_length; lia).
    destruct (pairs_sum_ok 8 _ P1) as [I1 I2]. destruct (pairs_sum_ok 8 _ P2) as [J1 J2]. destruct (pairs_sum_ok 4 _ I1) as [K1 K2]. destruct (pairs_sum_ok 4 _ J1) as [M1 M2].
    match goal with |- sumZ (vadd Z.add ?l ?r) = _ => destruct (vadd_sumZ l r) as [_ ->] end; lia.
  - rewrite (products_split 16 a b), sumZ_app by lia.
    assert (P1 : length (products (firstn 16 a) (firstn 16 b)) = 16%nat) by (rewrite products_len; rewrite ?firstn_length; lia).
    assert (P2 : length (products (skipn 16 a) (skipn 16 b)) = 16%nat) by (rewrite products_len; rewrite ?skipn_length; lia).
    assert (LH : forall l, length l = 16%nat -> let h := vadd Z.add (pairs_sum (fun z => z) (firstn 8 l)) (pairs_sum (fun z => z) (skipn 8 l)) in length h = 4%nat /\ sumZ h = sumZ l).
    { intros l Hl. cbv zeta. destruct (pairs_sum_ok 4 (firstn 8 l)) as [I1 I2]; [rewrite firstn_length; lia|]. destruct (pairs_sum_ok 4 (skipn 8 l)) as [J1 J2]; [rewrite skipn_length; lia|].
      destruct (vadd_sumZ (pairs_sum (fun z => z) (firstn 8 l)) (pairs_sum (fun z => z) (skipn 8 l))) as [K1 K2]; [lia|]. split; [lia|].
      rewrite <- (firstn_skipn 8 l) at 3. rewrite sumZ_app. lia. }
    destruct (LH _ P1) as [I1 I2]. destruct (LH _ P2) as [J1 J2]. cbv zeta in *.
    match goal with |- sumZ (vadd Z.add ?l ?r) = _ => destruct (vadd_sumZ l r) as [_ ->] end; lia.
Qed.

(* ---------------- decoding is exact ---------------- *)
Lemma f16_again x r : f16 x = Some r -> f16 r = Some r.
Proof.
  unfold f16. destruct (Rlt_dec _ _) as [L|]; [|discriminate]. intro E. injection E as <-.
  assert (V : Valid_exp (FLT_exp (-24) 11)) by (apply FLT_exp_valid; unfold Prec_gt_0; lia).
  assert (G : nearest (-24) 11 (nearest (-24) 11 x) = nearest (-24) 11 x).
  { unfold nearest at 1. apply round_generic; [apply valid_rnd_N|]. apply generic_format_round; [auto|apply valid_rnd_N]. }
  rewrite G. destruct (Rlt_dec _ _); [auto|contradiction].
Qed.
Lemma exact_product d q : f16 d = Some d -> -128 <= q <= 128 -> f32 (IZR q * d) = Some (IZR q * d)%R.
Proof.
  intros H Hq. unfold f16 in H. destruct (Rlt_dec _ _) as [L|]; [|discriminate]. injection H as E. rewrite E in L.
  assert (V : Valid_exp (FLT_exp (-24) 11)) by (apply FLT_exp_valid; unfold Prec_gt_0; lia).
  assert (G : generic_format radix2 (FLT_exp (-24) 11) d) by (rewrite <- E; apply generic_format_round; [auto|apply valid_rnd_N]).
  assert (F : FLT_format radix2 (-24) 11 d) by (apply FLT_format_generic; [unfold Prec_gt_0; lia|auto]). destruct F as [[m e] F1 F2 F3]. cbn in F2, F3.
  assert (G2 : generic_format radix2 (FLT_exp (-149) 24) (IZR q * d)).
  { apply generic_format_FLT. exists (Float radix2 (q * m) e); cbn.
    - rewrite F1. unfold F2R. cbn. rewrite mult_IZR. ring.
    - rewrite Z.abs_mul. change (Z.pow_pos 2 24) with 16777216. change (Z.pow_pos 2 11) with 2048 in F2. nia.
    - lia. }
  unfold f32. replace (nearest (-149) 24 (IZR q * d)) with (IZR q * d)%R.
  2:{ symmetry. unfold nearest. apply round_generic; [apply valid_rnd_N|auto]. }
  destruct (Rlt_dec _ _) as [|N]; auto. exfalso. apply N. rewrite Rabs_mult.
  assert (Q : (Rabs (IZR q) <= 128)%R) by (rewrite <- abs_IZR; apply IZR_le; lia).
  apply Rle_lt_trans with (128 * bpow radix2 16)%R.
  - apply Rmult_le_compat; auto using Rabs_pos. lra.
  - replace 128%R with (bpow radix2 7) by reflexivity. rewrite <- bpow_plus. apply bpow_lt. lia.
Qed.
Lemma unpack_range qs : in_bytes 0 255 qs -> in_bytes (-128) 127 (unpack_q4_0 qs) /\ length (unpack_q4_0 qs) = (2 * length qs)%nat.
Proof.
  intro H. unfold unpack_q4_0, in_bytes in *. split; [|rewrite app_length, !map_length; lia]. apply Forall_app. split; apply Forall_map; eapply Forall_impl; try exact H; cbn beta; intros z Hz.
  - assert (C := Z.land_ones z 4 ltac:(lia)). change (Z.ones 4) with 15 in C. rewrite C. assert (M := Z.mod_pos_bound z (2 ^ 4) ltac:(lia)). change (2 ^ 4) with 16 in *. lia.
  - rewrite Z.shiftr_div_pow2 by lia. change (2 ^ 4) with 16. assert (0 <= z / 16) by (apply Z.div_pos; lia). assert (z / 16 < 16) by (apply Z.div_lt_upper_bound; lia). lia.
Qed.
(** The decoded numbers of a stored block are q * d. *)
Lemma stored_ints t b : stored t b -> length (block_ints t b) = 32%nat /\ in_bytes (-128) 127 (block_ints t b) /\
  exists d, q_d b = Some d /\ f16 d = Some d /\ dequant t b = map (fun q => Some (IZR q * d)%R) (block_ints t b).
Proof.
  intros [(d & E & F) H]. assert (I : length (block_ints t b) = 32%nat /\ in_bytes (-128) 127 (block_ints t b)).
  { destruct t; cbn [block_ints]; [auto|]. destruct H as [H1 H2]. destruct (unpack_range _ H2). split; [lia|auto]. }
  destruct I as [I1 I2]. split; auto. split; auto. exists d. split; auto. split; auto.
  assert (M : forall qs, in_bytes (-128) 127 qs -> map (scaled (q_d b)) qs = map (fun q => Some (IZR q * d)%R) qs).
  { intros qs Hq. apply map_ext_in. intros q Hin. rewrite E. cbn [scaled]. apply exact_product; auto. unfold in_bytes in Hq. rewrite Forall_forall in Hq. specialize (Hq q Hin). lia. }
  destruct t; cbn [dequant block_ints] in *; [unfold dequant_q8_0|unfold dequant_q4_0]; apply M; auto.
Qed.

Lemma sumR_scale d l : sumR (map (fun z => (d * IZR z)%R) l) = (d * IZR (sumZ l))%R.
Proof. induction l as [|z l IH]; cbn [map fold_right]; [rewrite Rmult_0_r; auto|]. rewrite IH, plus_IZR. ring. Qed.
Lemma inner_ints_R da db a : forall b, (da * db * IZR (inner_ints a b))%R = sumR (map (fun p => (IZR (fst p) * da * (IZR (snd p) * db))%R) (combine a b)).
Proof.
  induction a as [|x a IH]; intros [|y b]; try (cbn; rewrite Rmult_0_r; reflexivity).
  unfold inner_ints in *. cbn [combine map fold_right fst snd]. rewrite plus_IZR, mult_IZR, <- IH. ring.
Qed.
(** One block. *)
Lemma block_fma_ok isa t x y acc : stored t x -> stored Q8_0 y -> in_bytes (-127) 127 (q_qs y) \/ q_d y = Some 0%R -> length acc = isa_lanes isa ->
  exists acc' dx dy, block_fma isa t x y acc = ROk acc' /\ length acc' = isa_lanes isa /\ q_d x = Some dx /\ q_d y = Some dy /\
    sumR acc' = (sumR acc + sumR (map (fun p => (IZR (fst p) * dx * (IZR (snd p) * dy))%R) (combine (block_ints t x) (q_qs y))))%R.
Proof.
  intros Sx Sy G HL. destruct (stored_ints t x Sx) as (L1 & B1 & dx & Ex & _). destruct (stored_ints Q8_0 y Sy) as (L2 & B2 & dy & Ey & _). cbn [block_ints] in L2, B2.
  unfold block_fma. rewrite Ex, Ey. cbn [need rbind]. eexists. exists dx, dy. split; [reflexivity|].
  assert (LL := lanes_len isa _ _ L1 L2). 
  match goal with |- length (vadd Rplus ?l ?r) = _ /\ _ => destruct (vadd_sumR l r) as [V1 V2] end; [rewrite map_length; lia|].
  rewrite V1, V2. split; auto. split; auto. split; auto. f_equal. rewrite sumR_scale, <- inner_ints_R. destruct G as [G|G].
  - rewrite lanes_dot_ok by auto. reflexivity.
  - rewrite Ey in G. injection G as ->. rewrite !Rmult_0_r, !Rmult_0_l. reflexivity.
Qed.
Lemma combine_map2 {A B C D} (f : A -> C) (g : B -> D) la : forall lb, combine (map f la) (map g lb) = map (fun p => (f (fst p), g (snd p))) (combine la lb).
Proof. induction la as [|a la IH]; intros [|b lb]; cbn; auto. f_equal. apply IH. Qed.
Lemma nth_total n l1 l2 (X Y : Z -> R) : length l1 = n -> length l2 = n ->
  (forall j, 0 <= j < Z.of_nat n -> nth_error l1 (Z.to_nat j) = Some (X j)) -> (forall j, 0 <= j < Z.of_nat n -> nth_error l2 (Z.to_nat j) = Some (Y j)) ->
  sumR (map (fun p => (fst p * snd p)%R) (combine l1 l2)) = inner (Z.of_nat n) X Y.
Proof.
  intros H1 H2 HX HY. unfold inner, total_over. f_equal. unfold range. rewrite Nat2Z.id, map_map.
  revert l1 l2 X Y H1 H2 HX HY. induction n as [|n IH]; intros [|x l1] [|y l2] X Y H1 H2 HX HY; try discriminate; auto.
  cbn [combine map seq fst snd]. f_equal.
  - assert (A := HX 0 ltac:(lia)). assert (B := HY 0 ltac:(lia)). cbn in A, B. injection A as ->. injection B as ->. reflexivity.
  - rewrite <- seq_shift, map_map. rewrite (IH l1 l2 (fun j => X (j + 1)) (fun j => Y (j + 1))); auto.
    + apply map_ext. intro i. replace (Z.of_nat i + 1) with (Z.of_nat (S i)) by lia. reflexivity.
    + intros j Hj. assert (A := HX (j + 1) ltac:(lia)). replace (Z.to_nat (j + 1)) with (S (Z.to_nat j)) in A by lia. exact A.
    + intros j Hj. assert (A := HY (j + 1) ltac:(lia)). replace (Z.to_nat (j + 1)) with (S (Z.to_nat j)) in A by lia. exact A.
Qed.
Lemma fold_left_sumR l : forall s, fold_left Rplus l s = (s + sumR l)%R.
Proof. induction l as [|x l IH]; intro s; cbn; [lra|]. rewrite IH. lra. Qed.
Lemma seq_map_add a n : map (fun i => (a + i)%nat) (seq 0 n) = seq a n.
Proof. revert a. induction n as [|n IH]; intro a; cbn; [auto|]. rewrite Nat.add_0_r. f_equal. rewrite <- seq_shift, map_map. rewrite <- (IH (S a)). apply map_ext. intro; lia. Qed.
Lemma inner_blocks l X Y : 0 <= l -> inner (32 * (l + 1)) X Y = (inner (32 * l) X Y + inner 32 (fun j => X (32 * l + j)%Z) (fun j => Y (32 * l + j)%Z))%R.
Proof.
  intro H. unfold inner. assert (E : forall n, 0 <= n -> range (32 * l + n) = range (32 * l) ++ map (fun j => 32 * l + j) (range n)).
  { intros n Hn. unfold range. rewrite Z2Nat.inj_add by lia. rewrite seq_app, map_app. f_equal. rewrite map_map, Nat.add_0_l. rewrite <- (seq_map_add (Z.to_nat (32 * l)) (Z.to_nat n)). rewrite map_map. apply map_ext. intro i. lia. }
  replace (32 * (l + 1)) with (32 * l + 32) by ring. rewrite E, total_app by lia. f_equal.
Qed.
(** The two rows hold the same number of blocks: one step of the loop over blocks. *)
Lemma step_ok isa t a ao b bo n X Y l acc : row_holds t a ao n X -> row_holds Q8_0 b bo n Y -> no_minus_128 b bo n -> 0 <= l < n -> length acc = isa_lanes isa ->
  exists x y acc', loadv a (ao + l) = ROk x /\ loadv b (bo + l) = ROk y /\ block_fma isa t x y acc = ROk acc' /\ length acc' = isa_lanes isa /\
    sumR acc' = (sumR acc + inner 32 (fun j => X (32 * l + j)%Z) (fun j => Y (32 * l + j)%Z))%R.
Proof.
  intros HX HY HN Hl HL. destruct (HX l Hl) as (Ba & x & Ea & Sx & Dx). destruct (HY l Hl) as (Bb & y & Eb & Sy & Dy).
  destruct (block_fma_ok isa t x y acc Sx Sy (HN l y Hl Eb) HL) as (acc' & dx & dy & E & L & Qx & Qy & S).
  exists x, y, acc'. unfold loadv, load. replace ((0 <=? ao + l) && (ao + l <? b_len a)) with true by lia. replace ((0 <=? bo + l) && (bo + l <? b_len b)) with true by lia.
  cbn [rbind]. rewrite Ea, Eb. cbn [need]. repeat split; auto. rewrite S. f_equal.
  destruct (stored_ints t x Sx) as (L1 & _ & dx' & Ex & _ & Fx). destruct (stored_ints Q8_0 y Sy) as (L2 & _ & dy' & Ey & _ & Fy). cbn [block_ints] in *.
  rewrite Qx in Ex. injection Ex as <-. rewrite Qy in Ey. injection Ey as <-.
  rewrite <- (nth_total 32 (map (fun q => (IZR q * dx)%R) (block_ints t x)) (map (fun q => (IZR q * dy)%R) (q_qs y))).
  - rewrite combine_map2, map_map. reflexivity.
  - rewrite map_length. auto.
  - rewrite map_length. auto.
  - intros j Hj. specialize (Dx j ltac:(lia)). rewrite Fx in Dx. rewrite nth_error_map in *. destruct (nth_error (block_ints t x) (Z.to_nat j)); cbn in *; [|discriminate]. injection Dx as ->. reflexivity.
  - intros j Hj. specialize (Dy j ltac:(lia)). rewrite Fy in Dy. rewrite nth_error_map in *. destruct (nth_error (q_qs y) (Z.to_nat j)); cbn in *; [|discriminate]. injection Dy as ->. reflexivity.
Qed.
Theorem blocks_dot_ok isa t n a ao b bo X Y : 0 <= n -> row_holds t a ao n X -> row_holds Q8_0 b bo n Y -> no_minus_128 b bo n ->
  blocks_dot isa t n a ao b bo = ROk (inner (32 * n) X Y).
Proof.
  intros Hn HX HY HN. unfold blocks_dot.
  destruct (zloop_inv (fun l acc => length acc = isa_lanes isa /\ sumR acc = inner (32 * l) X Y) n
    (fun l acc => do x <- loadv a (ao + l); do y <- loadv b (bo + l); block_fma isa t x y acc) (repeat 0%R (isa_lanes isa))) as (acc & E & L & S); auto.
  - split; [apply repeat_length|]. unfold inner, total_over, range. cbn. induction (isa_lanes isa); cbn; lra.
  - intros l acc Hl [L S]. destruct (step_ok isa t a ao b bo n X Y l acc HX HY HN Hl L) as (x & y & acc' & E1 & E2 & E3 & L' & S').
    exists acc'. rewrite E1. cbn [rbind]. rewrite E2. cbn [rbind]. split; auto. split; auto. rewrite S', S, inner_blocks by lia. reflexivity.
  - rewrite E. cbn [rbind]. rewrite fold_left_sumR, S, Rplus_0_l. reflexivity.
Qed.

(* ---------------- the ARM kernels ---------------- *)
Lemma range_0_inner X Y : inner (32 * 0) X Y = 0%R.
Proof. reflexivity. Qed.
(** Two blocks per step: an even number of blocks. *)
Theorem vec_dot_arm_even isa t n a ao b bo X Y : isa_lanes isa = 4%nat -> 0 <= n -> n mod 64 = 0 -> row_holds t a ao (n / 32) X -> row_holds Q8_0 b bo (n / 32) Y -> no_minus_128 b bo (n / 32) ->
  vec_dot_arm isa t n a ao b bo = ROk (inner n X Y).
Proof.
  intros HI Hn H64 HX HY HN. unfold vec_dot_arm. cbv zeta. set (q := n / 64). assert (En : n = 64 * q) by (unfold q; assert (D := Z.div_mod n 64 ltac:(lia)); lia).
  assert (N32 : n / 32 = 2 * q) by (rewrite En; replace (64 * q) with (2 * q * 32) by ring; apply Z.div_mul; lia). rewrite N32 in *.
  replace ((2 * q + 1) / 2) with q by (rewrite (Z.mul_comm 2 q), Z.div_add_l by lia; change (1 / 2) with 0; lia).
  destruct (zloop_inv (fun i acc => length (fst acc) = isa_lanes isa /\ length (snd acc) = isa_lanes isa /\ (sumR (fst acc) + sumR (snd acc))%R = inner (32 * (2 * i)) X Y) q
   (fun i acc => do x0 <- loadv a (ao + 2 * i); do x1 <- loadv a (ao + (2 * i + 1)); do y0 <- loadv b (bo + 2 * i); do y1 <- loadv b (bo + (2 * i + 1));
      do s0 <- block_fma isa t x0 y0 (fst acc); do s1 <- block_fma isa t x1 y1 (snd acc); ROk (s0, s1)) (repeat 0%R 4, repeat 0%R 4)) as ([s0 s1] & E & L1 & L2 & S).
  - lia.
  - cbn [fst snd]. rewrite !repeat_length, HI. cbn. unfold inner, total_over, range. cbn. repeat split; auto. lra.
  - intros i [s0 s1] Hi (L1 & L2 & S). cbn [fst snd] in *.
    destruct (step_ok isa t a ao b bo (2 * q) X Y (2 * i) s0 HX HY HN ltac:(lia) L1) as (x0 & y0 & s0' & E1 & E2 & E3 & L1' & S1').
    destruct (step_ok isa t a ao b bo (2 * q) X Y (2 * i + 1) s1 HX HY HN ltac:(lia) L2) as (x1 & y1 & s1' & F1 & F2 & F3 & L2' & S2').
    exists (s0', s1'). rewrite E1. cbn [rbind]. rewrite F1. cbn [rbind]. rewrite E2. cbn [rbind]. rewrite F2. cbn [rbind]. rewrite E3. cbn [rbind]. rewrite F3. cbn [rbind fst snd].
    split; auto. split; auto. split; auto. rewrite S1', S2'. replace (2 * (i + 1)) with (2 * i + 1 + 1) by ring. rewrite inner_blocks, inner_blocks, <- S by lia. lra.
  - rewrite E. cbn [rbind fst snd]. rewrite !fold_left_sumR, !Rplus_0_l. cbn [fst snd] in S. rewrite S. do 2 f_equal. lia.
Qed.
(** An odd number of blocks: the last step reads the block after the row. *)
Theorem vec_dot_arm_odd isa t nb a ao b bo X Y : isa_lanes isa = 4%nat -> 0 <= nb -> nb mod 2 = 1 -> row_holds t a ao nb X -> row_holds Q8_0 b bo nb Y -> no_minus_128 b bo nb ->
  b_len a = ao + nb \/ b_len b = bo + nb -> vec_dot_arm isa t (32 * nb) a ao b bo = RUB.
Proof.
  intros HI Hn H2 HX HY HN HE. unfold vec_dot_arm. cbv zeta. rewrite (Z.mul_comm 32 nb), Z.div_mul by lia. set (q := nb / 2). assert (En : nb = 2 * q + 1) by (unfold q; assert (D := Z.div_mod nb 2 ltac:(lia)); lia).
  replace ((nb + 1) / 2) with (q + 1) by (rewrite En; replace (2 * q + 1 + 1) with ((q + 1) * 2) by ring; symmetry; apply Z.div_mul; lia).
  rewrite zloop_app by lia.
  match goal with |- rbind (rbind (zloop q ?body ?s) _) _ = _ => destruct (zloop_inv (fun i acc => length (fst acc) = isa_lanes isa /\ length (snd acc) = isa_lanes isa) q body s) as ([s0 s1] & E & L1 & L2) end.
  - lia.
  - cbn [fst snd]. rewrite !repeat_length. auto.
  - intros i [s0 s1] Hi (L1 & L2). cbn [fst snd] in *.
    destruct (step_ok isa t a ao b bo nb X Y (2 * i) s0 HX HY HN ltac:(lia) L1) as (x0 & y0 & s0' & E1 & E2 & E3 & L1' & S1').
    destruct (step_ok isa t a ao b bo nb X Y (2 * i + 1) s1 HX HY HN ltac:(lia) L2) as (x1 & y1 & s1' & F1 & F2 & F3 & L2' & S2').
    exists (s0', s1'). rewrite E1. cbn [rbind]. rewrite F1. cbn [rbind]. rewrite E2. cbn [rbind]. rewrite F2. cbn [rbind]. rewrite E3. cbn [rbind]. rewrite F3. cbn [rbind fst snd]. auto.
  - rewrite E. cbn [rbind].
    destruct (step_ok isa t a ao b bo nb X Y (2 * q) s0 HX HY HN ltac:(lia) L1) as (x0 & y0 & s0' & E1 & E2 & _).
    assert (U : forall (A : Type) (c : buf A) o, b_len c <= o -> loadv c o = RUB) by (intros A c o Ho; unfold loadv, load; replace ((0 <=? o) && (o <? b_len c)) with false by lia; reflexivity).
    unfold zloop. change (Z.to_nat 1) with 1%nat. cbn [loop]. rewrite Z.add_0_r. rewrite E1. cbn [rbind].
    destruct HE as [HE|HE].
    + rewrite (U _ a) by lia. reflexivity.
    + unfold loadv at 1. unfold load. destruct ((0 <=? ao + (2 * q + 1)) && (ao + (2 * q + 1) <? b_len a)); [|reflexivity]. cbn [rbind]. destruct (b_at a (ao + (2 * q + 1))); [|reflexivity]. cbn [need rbind].
      rewrite E2. cbn [rbind]. rewrite (U _ b) by lia. reflexivity.
Qed.
(** The result of one dot product is one float, but two are stored. *)
Theorem vec_dot_mmla_overrun n a ao b bo s so X Y : 0 <= n -> row_holds Q4_0 a ao (n / 32) X -> row_holds Q8_0 b bo (n / 32) Y -> no_minus_128 b bo (n / 32) ->
  b_len s = so + 1 -> 0 <= so -> vec_dot_mmla n a ao b bo s so = RUB.
Proof.
  intros Hn HX HY HN HL Hs. unfold vec_dot_mmla. rewrite (blocks_dot_ok Vdot Q4_0 (n / 32) a ao b bo X Y) by (auto; apply Z.div_pos; lia). cbn [rbind].
  unfold store at 1. replace ((0 <=? so) && (so <? b_len s)) with true by lia. cbn [rbind]. unfold store at 1. cbn [b_len]. replace ((0 <=? so + 1) && (so + 1 <? b_len s)) with false by lia. reflexivity.
Qed.
(** The byte -128 in the second operand: its sign cannot be changed. *)
Theorem minus_128_wrong isa : isa = Maddubs \/ isa = Vnni -> sumZ (lanes_dot isa (repeat (-1) 32) (repeat (-128) 32)) = -4096 /\ inner_ints (repeat (-1) 32) (repeat (-128) 32) = 4096.
Proof. intros [->| ->]; split; vm_compute; reflexivity. Qed.
