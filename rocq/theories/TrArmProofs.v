(** The ARM transpose and permute kernels write what is wanted everywhere. *)
From Verif Require Import Base DTypeModel ParamModel ParamSpec ParamProofs ParamMore TensorModel TensorSpec TensorProofs TensorViews TensorSplit TensorConcat TensorPermute TensorTranspose OpsIndex TrArmModel.
Local Open Scope Z_scope.

Definition row_copies {A} (least : Z) (row : buf A -> Z -> Z -> Z -> buf A -> res (buf A)) : Prop :=
  forall (G : Z -> option A) X src dst D b, least <= D ->
  (forall k, 0 <= k < D -> 0 <= src + k < b_len X /\ 0 <= dst + k < b_len b /\ b_at X (src + k) = G (dst + k)) ->
  exists b', row X src dst D b = ROk b' /\ good G (fun p => dst <= p < dst + D) b b'.

Lemma arm_permute_rows_ok {A} (t : tns A) least row perm (o : buf A) :
  0 < least -> row_copies least row ->
  tensor_ok t -> contiguous t -> is_permutation (length (x_shape t)) perm ->
  b_len o = product (x_shape t) ->
  exists o', arm_permute_rows least row (x_buf t) (x_offset t) (x_shape t) perm o = ROk o' /\
    good (perm_target t perm) (fun p => 0 <= p < product (x_shape t)) o o'.
Proof.
  intros Hle Hrow Hok Hc Hp Hl. unfold arm_permute_rows.
  change (permuted_shape (x_shape t) perm) with (rearrange perm (x_shape t)).
  set (out := rearrange perm (x_shape t)). set (inner := last out 0).
  destruct ((last perm 0 =? zlen perm - 1) && (least <=? inner)) eqn:Eb; [|apply permute_generic_ok; auto].
  apply andb_true_iff in Eb as [Eb1 Eb2]. apply Z.eqb_eq in Eb1.
  set (n := length (x_shape t)) in *. assert (Lp : length perm = n) by (apply perm_len; auto).
  assert (Lo : length out = n) by (apply rearrange_length; auto).
  assert (Hn1 : (1 <= n)%nat) by apply Hok.
  assert (Hno : out <> []) by (destruct out; cbn in Lo; [lia|discriminate]).
  assert (Hpr : product out = product (x_shape t)) by (apply (product_rearrange n); auto).
  assert (Hon : Forall (fun x => 0 <= x) out) by (apply rearrange_nonneg, Hok).
  set (s := removelast out). assert (Eo : out = s ++ [inner]) by (apply app_removelast_last; auto).
  assert (Hsn : Forall (fun x => 0 <= x) s) by (rewrite Eo in Hon; apply Forall_app in Hon; tauto).
  assert (Hps : product out = product s * inner).
  { rewrite Eo, product_app, product_cons. unfold product at 2. cbn [fold_right]. lia. }
  rewrite numel_product. rewrite <- Hpr, Hps, Z.div_mul by lia.
  set (ist := compute_strides (x_shape t)). set (ost := compute_strides out).
  assert (Li : length ist = n) by apply default_strides_length.
  assert (Lost : length ost = n) by (unfold ost, compute_strides; rewrite default_strides_length; auto).
  set (IO := fun o => dot (unravel s o) (map (fun p => nth (Z.to_nat p) ist 0) (removelast perm))).
  set (OO := fun o => dot (unravel s o) (removelast ost)).
  (* one output element *)
  assert (Hel : forall oi j, 0 <= oi < product s -> 0 <= j < inner ->
    let idx := scatter perm (unravel s oi ++ [j]) (map (fun _ => 0) perm) in
    in_shape (x_shape t) idx /\ address (x_view t) idx = x_offset t + IO oi + j /\
    ravel out (unravel s oi ++ [j]) = OO oi + j /\ in_shape out (unravel s oi ++ [j]) /\ OO oi = oi * inner).
  { intros oi j Ho Hj. destruct (unravel_spec s oi Hsn Ho) as [U1 U2]. assert (Lc := in_shape_length _ _ U1).
    cbv zeta. set (oc := unravel s oi ++ [j]).
    assert (Hin : in_shape out oc).
    { rewrite Eo. apply in_shape_app; [auto|]. split; auto. apply in_shape_cons. split; [auto|constructor]. }
    assert (Loc : length oc = n) by (rewrite (in_shape_length _ _ Hin); auto).
    assert (Hz : length (map (fun _ : Z => 0) perm) = n) by (rewrite map_length; auto).
    set (idx := scatter perm oc (map (fun _ => 0) perm)).
    assert (Lidx : length idx = n) by (unfold idx; rewrite scatter_length; auto).
    assert (Hre : rearrange perm idx = oc) by (apply (rearrange_scatter n); auto).
    assert (Hidx : in_shape (x_shape t) idx).
    { apply (in_shape_rearrange n perm Hp); auto. rewrite Hre. exact Hin. }
    assert (Hr : removelast oc = unravel s oi) by (unfold oc; rewrite removelast_app by discriminate; cbn [removelast]; apply app_nil_r).
    assert (Hla : last oc 0 = j) by (unfold oc; apply last_last).
    split; [auto|]. split; [|split; [|split; [auto|]]].
    - rewrite contiguous_address by auto. rewrite <- dot_ravel by auto. fold ist. change (default_strides (x_shape t)) with ist.
      rewrite <- (dot_rearrange n perm Hp idx ist) by auto. rewrite Hre.
      rewrite dot_last.
      + rewrite Hr, Hla. unfold rearrange at 1. rewrite <- removelast_map. fold (IO oi).
        replace (last (rearrange perm ist) 0) with 1; [lia|].
        rewrite last_nth_, (rearrange_length n) by auto. rewrite (rearrange_nth n) by (auto; lia).
        rewrite last_nth_, Lp in Eb1. rewrite Eb1. unfold zlen. rewrite Lp.
        replace (Z.to_nat (Z.of_nat n - 1)) with (length ist - 1)%nat by lia. rewrite <- last_nth_.
        symmetry. apply default_strides_last. intro E0. unfold n in Hn1. rewrite E0 in Hn1. cbn in Hn1. lia.
      + intro E0. apply (f_equal (@length Z)) in E0. rewrite (rearrange_length n) in E0 by auto. cbn in E0. lia.
      + rewrite (rearrange_length n) by auto. auto.
    - rewrite <- dot_ravel by congruence. change (default_strides out) with ost.
      rewrite dot_last by (try congruence; intro E0; rewrite E0 in Lost; cbn in Lost; lia).
      rewrite Hr, Hla. replace (last ost 0) with 1 by (symmetry; apply default_strides_last; auto). unfold OO. lia.
    - assert (E2 : ravel out oc = OO oi + j).
      { rewrite <- dot_ravel by congruence. change (default_strides out) with ost.
        rewrite dot_last by (try congruence; intro E0; rewrite E0 in Lost; cbn in Lost; lia).
        rewrite Hr, Hla. replace (last ost 0) with 1 by (symmetry; apply default_strides_last; auto). unfold OO. lia. }
      assert (E3 : ravel out oc = oi * inner + j).
      { rewrite Eo. unfold oc. rewrite ravel_app by auto. rewrite U2. cbn [ravel]. unfold product. cbn [fold_right]. lia. }
      lia. }
  destruct (good_loop (perm_target t perm) (product s) (fun oi p => oi * inner <= p < oi * inner + inner)
    (fun oi out0 => row (x_buf t) (x_offset t + IO oi) (OO oi) inner out0) o (b_len o) eq_refl)
    as (o' & E' & G').
  { intros oi b Ho Hb. destruct (Hrow (perm_target t perm) (x_buf t) (x_offset t + IO oi) (OO oi) inner b) as (b' & E1 & G1).
    - lia.
    - intros k Hk. destruct (Hel oi k Ho Hk) as (I1 & I2 & I3 & I4 & I5). cbv zeta in *.
      assert (O := ok_inside _ Hok _ I1). rewrite I2 in O. split; [exact O|].
      assert (B := ravel_bounds _ _ I4). rewrite I3 in B. split; [rewrite Hb, Hl, <- Hpr; lia|].
      unfold perm_target. fold out. rewrite <- I3. rewrite unravel_ravel by auto. unfold elem. rewrite I2. reflexivity.
    - exists b'. split; [exact E1|]. eapply good_weaken; [|exact G1]. cbn beta.
      destruct (Hel oi 0 Ho ltac:(lia)) as (_ & _ & _ & _ & I5). rewrite I5. auto. }
  exists o'. split; [exact E'|]. eapply good_weaken; [|exact G']. cbn beta. intros p Hpp.
  exists (p / inner). assert (Hm := Z.mod_pos_bound p inner ltac:(lia)). assert (Hdm := Z_div_mod_eq_full p inner).
  split; [split; [apply Z.div_pos; lia|apply Z.div_lt_upper_bound; lia]|lia].
Qed.

Lemma row_fp32_copies {A} : row_copies 4 (@arm_row_fp32 A).
Proof.
  intros G X src dst D b HD H. unfold arm_row_fp32. apply (good_chunked G 4); [lia|lia|exact H].
Qed.
Lemma row_fp16_copies {A} : row_copies 8 (@arm_row_fp16 A).
Proof.
  intros G X src dst D b HD H. unfold arm_row_fp16.
  assert (Q := Z_div_mod_eq_full D 8). assert (M := Z.mod_pos_bound D 8 ltac:(lia)).
  assert (P : 0 <= D / 8) by (apply Z.div_pos; lia). set (q := D / 8) in *.
  destruct (good_loop G q (fun k p => dst + 8 * k <= p < dst + 8 * k + 8)
    (fun k Y => memcpy X (src + 8 * k) (dst + 8 * k) 8 Y) b (b_len b) eq_refl) as (b1 & E1 & G1).
  { intros k b0 Hk Hb0. apply good_memcpy.
    - intros _. destruct (H (8 * k) ltac:(lia)) as (A1 & _ & _). destruct (H (8 * k + 7) ltac:(lia)) as (A2 & _ & _). lia.
    - intros _. destruct (H (8 * k) ltac:(lia)) as (_ & A1 & _). destruct (H (8 * k + 7) ltac:(lia)) as (_ & A2 & _). lia.
    - intros m Hm. destruct (H (8 * k + m) ltac:(lia)) as (_ & _ & A3). rewrite <- !Z.add_assoc. exact A3. }
  rewrite E1. cbn [rbind]. cbv zeta. set (d := 8 * q) in *.
  assert (S2 : exists b2, (if 4 <=? D - d then memcpy X (src + d) (dst + d) 4 b1 else ROk b1) = ROk b2 /\
    good G (fun p => dst + d <= p < dst + (if 4 <=? D - d then d + 4 else d)) b1 b2).
  { destruct (4 <=? D - d) eqn:E4.
    - destruct (good_memcpy G X (src + d) (dst + d) 4 b1) as (b2 & E2 & G2).
      + intros _. destruct (H d ltac:(lia)) as (A1 & _ & _). destruct (H (d + 3) ltac:(lia)) as (A2 & _ & _). lia.
      + intros _. rewrite (g_len _ _ _ _ G1). destruct (H d ltac:(lia)) as (_ & A1 & _). destruct (H (d + 3) ltac:(lia)) as (_ & A2 & _). lia.
      + intros m Hm. destruct (H (d + m) ltac:(lia)) as (_ & _ & A3). rewrite <- !Z.add_assoc. exact A3.
      + exists b2. split; [exact E2|]. eapply good_weaken; [|exact G2]. cbn beta. lia.
    - exists b1. split; [reflexivity|]. eapply good_weaken; [|apply good_refl]. cbn beta. lia. }
  destruct S2 as (b2 & E2 & G2). rewrite E2. cbn [rbind]. set (e := if 4 <=? D - d then d + 4 else d) in *.
  assert (He : d <= e <= D) by (unfold e; destruct (4 <=? D - d) eqn:E4; lia).
  destruct (good_loop G (D - e) (fun k => eq (dst + (e + k)))
    (fun k Y => copy1 X (src + (e + k)) (dst + (e + k)) Y) b2 (b_len b2) eq_refl) as (b3 & E3 & G3).
  { intros k b0 Hk Hb0. destruct (H (e + k) ltac:(lia)) as (A1 & A2 & A3).
    apply good_copy1; auto. rewrite Hb0, (g_len _ _ _ _ G2), (g_len _ _ _ _ G1). auto. }
  exists b3. split; [exact E3|].
  eapply good_weaken; [|eapply good_trans; [exact G1|eapply good_trans; [exact G2|exact G3]]]. cbn beta.
  intros p Hpp. destruct (Z_lt_le_dec (p - dst) d) as [Hlt|Hge].
  - left. exists ((p - dst) / 8). clear - Hpp Hlt. unfold d in Hlt. Z.to_euclidean_division_equations; lia.
  - destruct (Z_lt_le_dec (p - dst) e) as [H1|H1].
    + right. left. lia.
    + right. right. exists (p - dst - e). lia.
Qed.

Lemma loadu8 {A} (b : buf A) i : 0 <= i -> i + 8 <= b_len b ->
  loadu 8 b i = ROk [b_at b i; b_at b (i + 1); b_at b (i + 2); b_at b (i + 3);
                     b_at b (i + 4); b_at b (i + 5); b_at b (i + 6); b_at b (i + 7)].
Proof.
  intros H1 H2. unfold loadu, load.
  change (Z.of_nat 0) with 0. change (Z.of_nat 1) with 1. change (Z.of_nat 2) with 2. change (Z.of_nat 3) with 3.
  change (Z.of_nat 4) with 4. change (Z.of_nat 5) with 5. change (Z.of_nat 6) with 6. change (Z.of_nat 7) with 7.
  rewrite Z.add_0_r. cbn [rbind].
  replace ((0 <=? i) && (i <? b_len b)) with true by lia. cbn [rbind].
  replace ((0 <=? i + 1) && (i + 1 <? b_len b)) with true by lia. cbn [rbind].
  replace ((0 <=? i + 2) && (i + 2 <? b_len b)) with true by lia. cbn [rbind].
  replace ((0 <=? i + 3) && (i + 3 <? b_len b)) with true by lia. cbn [rbind].
  replace ((0 <=? i + 4) && (i + 4 <? b_len b)) with true by lia. cbn [rbind].
  replace ((0 <=? i + 5) && (i + 5 <? b_len b)) with true by lia. cbn [rbind].
  replace ((0 <=? i + 6) && (i + 6 <? b_len b)) with true by lia. cbn [rbind].
  replace ((0 <=? i + 7) && (i + 7 <? b_len b)) with true by lia. cbn [rbind].
  reflexivity.
Qed.

Section Matrix.
Context {A : Type}.
Variables (G : Z -> option A) (X : buf A) (x H W y L : Z).
Hypothesis HH : 0 <= H.
Hypothesis HW : 0 <= W.
(** Reading element (i,j) of the H x W matrix at [x] yields what is wanted at
    element (j,i) of the W x H matrix at [y]; all positions are inside. *)
Hypothesis Hx : forall i j, 0 <= i < H -> 0 <= j < W ->
  0 <= x + i * W + j < b_len X /\ 0 <= y + j * H + i < L /\ b_at X (x + i * W + j) = G (y + j * H + i).
Lemma arm_block44_ok i j (Y : buf A) : 0 <= i -> i + 4 <= H -> 0 <= j -> j + 4 <= W -> b_len Y = L ->
  exists Y', arm_block44 X x H W i j y Y = ROk Y' /\
    good G (fun p => exists a b, i <= a < i + 4 /\ j <= b < j + 4 /\ p = y + b * H + a) Y Y'.
Proof.
  intros Hi1 Hi2 Hj1 Hj2 HL.
  assert (R : forall a b, i <= a < i + 4 -> j <= b < j + 4 ->
     0 <= x + a * W + b < b_len X /\ 0 <= y + b * H + a < L /\ b_at X (x + a * W + b) = G (y + b * H + a)).
  { intros a b Ha Hb. apply Hx; lia. }
  assert (Row : forall a, i <= a < i + 4 -> loadu 4 X (x + a * W + j) =
     ROk [G (y + j * H + a); G (y + (j + 1) * H + a); G (y + (j + 2) * H + a); G (y + (j + 3) * H + a)]).
  { intros a Ha. destruct (R a j Ha ltac:(lia)) as (A1 & _ & A2). destruct (R a (j + 1) Ha ltac:(lia)) as (_ & _ & B2).
    destruct (R a (j + 2) Ha ltac:(lia)) as (_ & _ & C2). destruct (R a (j + 3) Ha ltac:(lia)) as (D1 & _ & D2).
    rewrite loadu4 by lia. rewrite !Z.add_assoc in *. rewrite A2, B2, C2, D2. reflexivity. }
  unfold arm_block44. rewrite (Row i ltac:(lia)), (Row (i + 1) ltac:(lia)), (Row (i + 2) ltac:(lia)), (Row (i + 3) ltac:(lia)).
  cbn [rbind]. unfold lows, highs, vtrn, lane. cbn [fst snd nth].
  assert (Col : forall b Y0, j <= b < j + 4 -> b_len Y0 = L ->
    exists Y1, storeu Y0 (y + b * H + i) [G (y + b * H + i); G (y + b * H + (i + 1)); G (y + b * H + (i + 2)); G (y + b * H + (i + 3))] = ROk Y1 /\
      good G (fun p => exists a, i <= a < i + 4 /\ p = y + b * H + a) Y0 Y1).
  { intros b Y0 Hb HY0.
    destruct (good_storeu G [G (y + b * H + i); G (y + b * H + (i + 1)); G (y + b * H + (i + 2)); G (y + b * H + (i + 3))] Y0 (y + b * H + i)) as (Y1 & E1 & G1).
    - destruct (R i b ltac:(lia) Hb) as (_ & B1 & _). lia.
    - destruct (R (i + 3) b ltac:(lia) Hb) as (_ & B1 & _). unfold zlen. cbn [length]. lia.
    - intros k Hk. cbn [length] in Hk. do 4 (destruct k as [|k]; [cbn [nth]; f_equal; lia|]). lia.
    - exists Y1. split; [exact E1|]. eapply good_weaken; [|exact G1]. unfold zlen. cbn [length].
      intros p (a & Ha & ->). lia. }
  destruct (Col j Y ltac:(lia) HL) as (Y1 & E1 & G1). rewrite E1. cbn [rbind].
  destruct (Col (j + 1) Y1 ltac:(lia)) as (Y2 & E2 & G2). { rewrite (g_len _ _ _ _ G1); auto. } rewrite E2. cbn [rbind].
  destruct (Col (j + 2) Y2 ltac:(lia)) as (Y3 & E3 & G3). { rewrite (g_len _ _ _ _ G2), (g_len _ _ _ _ G1); auto. } rewrite E3. cbn [rbind].
  destruct (Col (j + 3) Y3 ltac:(lia)) as (Y4 & E4 & G4). { rewrite (g_len _ _ _ _ G3), (g_len _ _ _ _ G2), (g_len _ _ _ _ G1); auto. } rewrite E4.
  exists Y4. split; [reflexivity|].
  eapply good_weaken; [|eapply good_trans; [exact G1|eapply good_trans; [exact G2|eapply good_trans; [exact G3|exact G4]]]].
  cbn beta. intros p (a & b & Ha & Hb & ->).
  assert (Hb4 : b = j \/ b = j + 1 \/ b = j + 2 \/ b = j + 3) by lia.
  destruct Hb4 as [-> | [-> | [-> | ->]]]; [left|right; left|right; right; left|right; right; right]; exists a; auto.
Qed.
Lemma arm_block48_ok i j (Y : buf A) : 0 <= i -> i + 4 <= H -> 0 <= j -> j + 8 <= W -> b_len Y = L ->
  exists Y', arm_block48 X x H W i j y Y = ROk Y' /\
    good G (fun p => exists a b, i <= a < i + 4 /\ j <= b < j + 8 /\ p = y + b * H + a) Y Y'.
Proof.
  intros Hi1 Hi2 Hj1 Hj2 HL.
  assert (R : forall a b, i <= a < i + 4 -> j <= b < j + 8 ->
     0 <= x + a * W + b < b_len X /\ 0 <= y + b * H + a < L /\ b_at X (x + a * W + b) = G (y + b * H + a)).
  { intros a b Ha Hb. apply Hx; lia. }
  assert (Row : forall a, i <= a < i + 4 -> loadu 8 X (x + a * W + j) =
     ROk [G (y + j * H + a); G (y + (j + 1) * H + a); G (y + (j + 2) * H + a); G (y + (j + 3) * H + a);
          G (y + (j + 4) * H + a); G (y + (j + 5) * H + a); G (y + (j + 6) * H + a); G (y + (j + 7) * H + a)]).
  { intros a Ha. destruct (R a j Ha ltac:(lia)) as (A1 & _ & A2). destruct (R a (j + 7) Ha ltac:(lia)) as (D1 & _ & D2).
    rewrite loadu8 by lia. rewrite <- A2, <- D2.
    destruct (R a (j + 1) Ha ltac:(lia)) as (_ & _ & <-). destruct (R a (j + 2) Ha ltac:(lia)) as (_ & _ & <-).
    destruct (R a (j + 3) Ha ltac:(lia)) as (_ & _ & <-). destruct (R a (j + 4) Ha ltac:(lia)) as (_ & _ & <-).
    destruct (R a (j + 5) Ha ltac:(lia)) as (_ & _ & <-). destruct (R a (j + 6) Ha ltac:(lia)) as (_ & _ & <-).
    rewrite !Z.add_assoc. reflexivity. }
  unfold arm_block48. rewrite (Row i ltac:(lia)), (Row (i + 1) ltac:(lia)), (Row (i + 2) ltac:(lia)), (Row (i + 3) ltac:(lia)).
  cbn [rbind firstn skipn]. unfold vtrn, vtrn_pairs, lane. cbn [fst snd nth].
  assert (Col : forall b Y0, j <= b < j + 8 -> b_len Y0 = L ->
    exists Y1, storeu Y0 (y + b * H + i) [G (y + b * H + i); G (y + b * H + (i + 1)); G (y + b * H + (i + 2)); G (y + b * H + (i + 3))] = ROk Y1 /\
      good G (fun p => exists a, i <= a < i + 4 /\ p = y + b * H + a) Y0 Y1 /\ b_len Y1 = L).
  { intros b Y0 Hb HY0.
    destruct (good_storeu G [G (y + b * H + i); G (y + b * H + (i + 1)); G (y + b * H + (i + 2)); G (y + b * H + (i + 3))] Y0 (y + b * H + i)) as (Y1 & E1 & G1).
    - destruct (R i b ltac:(lia) Hb) as (_ & B1 & _). lia.
    - destruct (R (i + 3) b ltac:(lia) Hb) as (_ & B1 & _). unfold zlen. cbn [length]. lia.
    - intros k Hk. cbn [length] in Hk. do 4 (destruct k as [|k]; [cbn [nth]; f_equal; lia|]). lia.
    - exists Y1. split; [exact E1|]. split; [|rewrite (g_len _ _ _ _ G1); exact HY0].
      eapply good_weaken; [|exact G1]. unfold zlen. cbn [length].
      intros p (a & Ha & ->). lia. }
  destruct (Col j Y ltac:(lia) HL) as (Y1 & E1 & G1 & L1). rewrite E1. cbn [rbind].
  destruct (Col (j + 1) Y1 ltac:(lia) L1) as (Y2 & E2 & G2 & L2). rewrite E2. cbn [rbind].
  destruct (Col (j + 2) Y2 ltac:(lia) L2) as (Y3 & E3 & G3 & L3). rewrite E3. cbn [rbind].
  destruct (Col (j + 3) Y3 ltac:(lia) L3) as (Y4 & E4 & G4 & L4). rewrite E4. cbn [rbind].
  destruct (Col (j + 4) Y4 ltac:(lia) L4) as (Y5 & E5 & G5 & L5). rewrite E5. cbn [rbind].
  destruct (Col (j + 5) Y5 ltac:(lia) L5) as (Y6 & E6 & G6 & L6). rewrite E6. cbn [rbind].
  destruct (Col (j + 6) Y6 ltac:(lia) L6) as (Y7 & E7 & G7 & L7). rewrite E7. cbn [rbind].
  destruct (Col (j + 7) Y7 ltac:(lia) L7) as (Y8 & E8 & G8 & L8). rewrite E8. cbn [rbind].
  exists Y8. split; [reflexivity|].
  eapply good_weaken; [|eapply good_trans; [exact G1|eapply good_trans; [exact G2|eapply good_trans; [exact G3|eapply good_trans; [exact G4|eapply good_trans; [exact G5|eapply good_trans; [exact G6|eapply good_trans; [exact G7|exact G8]]]]]]]].
  cbn beta. intros p (a & b & Ha & Hb & ->).
  assert (Hb8 : b = j \/ b = j + 1 \/ b = j + 2 \/ b = j + 3 \/ b = j + 4 \/ b = j + 5 \/ b = j + 6 \/ b = j + 7) by lia.
  destruct Hb8 as [-> | [-> | [-> | [-> | [-> | [-> | [-> | ->]]]]]]]; [left|right; left|right; right; left|right; right; right; left|right; right; right; right; left|right; right; right; right; right; left|right; right; right; right; right; right; left|right; right; right; right; right; right; right]; exists a; auto.
Qed.

Lemma arm_block22_ok i j (Y : buf A) : 0 <= i -> i + 2 <= H -> 0 <= j -> j + 2 <= W -> b_len Y = L ->
  exists Y', arm_block22 X x H W i j y Y = ROk Y' /\
    good G (fun p => exists a b, i <= a < i + 2 /\ j <= b < j + 2 /\ p = y + b * H + a) Y Y'.
Proof.
  intros Hi1 Hi2 Hj1 Hj2 HL.
  assert (R : forall a b, i <= a < i + 2 -> j <= b < j + 2 ->
     0 <= x + a * W + b < b_len X /\ 0 <= y + b * H + a < L /\ b_at X (x + a * W + b) = G (y + b * H + a)).
  { intros a b Ha Hb. apply Hx; lia. }
  assert (Row : forall a, i <= a < i + 2 -> loadu 2 X (x + a * W + j) = ROk [G (y + j * H + a); G (y + (j + 1) * H + a)]).
  { intros a Ha. destruct (R a j Ha ltac:(lia)) as (A1 & _ & A2). destruct (R a (j + 1) Ha ltac:(lia)) as (D1 & _ & D2).
    rewrite loadu2 by lia. rewrite !Z.add_assoc in *. rewrite A2, D2. reflexivity. }
  unfold arm_block22. rewrite (Row i ltac:(lia)), (Row (i + 1) ltac:(lia)). cbn [rbind]. unfold lane. cbn [nth].
  assert (Col : forall b Y0, j <= b < j + 2 -> b_len Y0 = L ->
    exists Y1, storeu Y0 (y + b * H + i) [G (y + b * H + i); G (y + b * H + (i + 1))] = ROk Y1 /\
      good G (fun p => exists a, i <= a < i + 2 /\ p = y + b * H + a) Y0 Y1).
  { intros b Y0 Hb HY0.
    destruct (good_storeu G [G (y + b * H + i); G (y + b * H + (i + 1))] Y0 (y + b * H + i)) as (Y1 & E1 & G1).
    - destruct (R i b ltac:(lia) Hb) as (_ & B1 & _). lia.
    - destruct (R (i + 1) b ltac:(lia) Hb) as (_ & B1 & _). unfold zlen. cbn [length]. lia.
    - intros k Hk. cbn [length] in Hk. do 2 (destruct k as [|k]; [cbn [nth]; f_equal; lia|]). lia.
    - exists Y1. split; [exact E1|]. eapply good_weaken; [|exact G1]. unfold zlen. cbn [length].
      intros p (a & Ha & ->). lia. }
  destruct (Col j Y ltac:(lia) HL) as (Y1 & E1 & G1). rewrite E1. cbn [rbind].
  destruct (Col (j + 1) Y1 ltac:(lia)) as (Y2 & E2 & G2). { rewrite (g_len _ _ _ _ G1); auto. } rewrite E2.
  exists Y2. split; [reflexivity|]. eapply good_weaken; [|eapply good_trans; [exact G1|exact G2]].
  cbn beta. intros p (a & b & Ha & Hb & ->). assert (Hb2 : b = j \/ b = j + 1) by lia.
  destruct Hb2 as [-> | ->]; [left|right]; exists a; auto.
Qed.
Lemma arm_hw_ok n c block (Y : buf A) : 0 < n -> 0 < c ->
  (forall i j (Y : buf A), 0 <= i -> i + n <= H -> 0 <= j -> j + c <= W -> b_len Y = L ->
    exists Y', block X x H W i j y Y = ROk Y' /\
      good G (fun p => exists a b, i <= a < i + n /\ j <= b < j + c /\ p = y + b * H + a) Y Y') ->
  b_len Y = L ->
  exists Y', arm_hw n c block X x H W y Y = ROk Y' /\
    good G (fun p => exists i j, 0 <= i < H /\ 0 <= j < W /\ p = y + j * H + i) Y Y'.
Proof.
  intros Hn0 Hc0 Hblock HL.
  assert (QH := Z_div_mod_eq_full H n). assert (QW := Z_div_mod_eq_full W c).
  assert (MH := Z.mod_pos_bound H n Hn0). assert (MW := Z.mod_pos_bound W c Hc0).
  assert (PH : 0 <= H / n) by (apply Z.div_pos; lia). assert (PW : 0 <= W / c) by (apply Z.div_pos; lia).
  unfold arm_hw.
  destruct (good_loop G (H / n) (fun bi p => exists a b, n * bi <= a < n * bi + n /\ 0 <= b < W /\ p = y + b * H + a)
    (fun bi Y =>
      let i := n * bi in
      do Y <- zloop (W / c) (fun bj Y => block X x H W i (c * bj) y Y) Y;
      let j_remain := W - W mod c in
      zloop (W - j_remain) (fun k Y => column n X x H W i (j_remain + k) y Y) Y) Y L HL) as (Y1 & E1 & G1).
  { intros bi Y0 Hbi HY0. cbv zeta. assert (Hbn : n * bi + n <= H) by nia.
    destruct (good_loop G (W / c) (fun bj p => exists a b, n * bi <= a < n * bi + n /\ c * bj <= b < c * bj + c /\ p = y + b * H + a)
      (fun bj Y => block X x H W (n * bi) (c * bj) y Y) Y0 L HY0) as (Y1 & E1 & G1).
    { intros bj Y1 Hbj HY1. assert (Hbm : c * bj + c <= W) by nia. apply Hblock; auto; nia. }
    rewrite E1. cbn [rbind].
    destruct (good_loop G (W - (W - W mod c)) (fun k p => exists a, n * bi <= a < n * bi + n /\ p = y + (W - W mod c + k) * H + a)
      (fun k Y => column n X x H W (n * bi) (W - W mod c + k) y Y) Y1 L) as (Y2 & E2 & G2).
    { rewrite (g_len _ _ _ _ G1). auto. }
    { intros k Y2 Hk HY2. unfold column.
      destruct (good_loop G n (fun r => eq (y + (W - W mod c + k) * H + (n * bi + r)))
        (fun r => copy1 X (x + (n * bi + r) * W + (W - W mod c + k)) (y + (W - W mod c + k) * H + (n * bi + r))) Y2 L HY2) as (Y3 & E3 & G3).
      { intros r Y3 Hr HY3. destruct (Hx (n * bi + r) (W - W mod c + k) ltac:(nia) ltac:(lia)) as (A1 & A2 & A3).
        apply good_copy1; [exact A1|lia|exact A3]. }
      exists Y3. split; [exact E3|]. eapply good_weaken; [|exact G3]. cbn beta. intros p (a & Ha & ->).
      exists (a - n * bi). split; [lia|]. f_equal. lia. }
    exists Y2. split; [exact E2|]. eapply good_weaken; [|eapply good_trans; [exact G1|exact G2]]. cbn beta.
    intros p (a & b & Ha & Hb & ->). destruct (Z_lt_le_dec b (W - W mod c)) as [Hlt|Hge].
    - left. exists (b / c). assert (Mb := Z.mod_pos_bound b c Hc0). assert (Qb := Z_div_mod_eq_full b c).
      split; [split; [apply Z.div_pos; lia|apply Z.div_lt_upper_bound; lia]|]. exists a, b. repeat split; lia.
    - right. exists (b - (W - W mod c)). split; [lia|]. exists a. split; [lia|]. f_equal. f_equal. f_equal. lia. }
  cbv zeta in E1 |- *. rewrite E1. cbn [rbind]. set (ir := H - H mod n) in *.
  destruct (good_loop G W (fun j p => exists k, 0 <= k < H - ir /\ p = y + j * H + (ir + k))
    (fun j Y => zloop (H - ir) (fun k Y => copy1 X (x + (ir + k) * W + j) (y + j * H + (ir + k)) Y) Y) Y1 L) as (Y2 & E2 & G2).
  { rewrite (g_len _ _ _ _ G1). auto. }
  { intros j Y2 Hj HY2.
    destruct (good_loop G (H - ir) (fun k p => p = y + j * H + (ir + k))
      (fun k Y => copy1 X (x + (ir + k) * W + j) (y + j * H + (ir + k)) Y) Y2 L HY2) as (Y3 & E3 & G3).
    { intros k Y3 Hk HY3. destruct (Hx (ir + k) j ltac:(unfold ir in *; nia) Hj) as (A1 & A2 & A3).
      destruct (good_copy1 G X (x + (ir + k) * W + j) (y + j * H + (ir + k)) Y3 A1 ltac:(lia) A3) as (Y4 & E4 & G4).
      exists Y4. split; [exact E4|]. eapply good_weaken; [|exact G4]. auto. }
    exists Y3. split; [exact E3|exact G3]. }
  exists Y2. split; [exact E2|]. eapply good_weaken; [|eapply good_trans; [exact G1|exact G2]]. cbn beta.
  intros p (i & j & Hi & Hj & ->). destruct (Z_lt_le_dec i ir) as [Hlt|Hge].
  - left. exists (i / n). assert (Mb := Z.mod_pos_bound i n Hn0). assert (Qb := Z_div_mod_eq_full i n). unfold ir in *.
    split; [split; [apply Z.div_pos; lia|apply Z.div_lt_upper_bound; lia]|]. exists i, j. repeat split; lia.
  - right. exists j. split; [auto|]. exists (i - ir). split; [lia|]. f_equal. lia.
Qed.
End Matrix.
