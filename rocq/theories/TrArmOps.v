(** The ARM transpose and permute operators. *)
From Verif Require Import Base DTypeModel ParamModel ParamSpec ParamProofs ParamMore TensorModel TensorSpec TensorProofs TensorViews TensorSplit TensorConcat TensorPermute TensorTranspose OpsIndex TrArmModel TrArmProofs.
Local Open Scope Z_scope.

Lemma arm_rounds_wide D n : 0 < n -> n <= D < 2 ^ 64 -> arm_rounds D n = D / n.
Proof.
  intros Hn HD. unfold arm_rounds, to_u64. rewrite Z.mod_small by lia.
  replace (D / n) with ((D - n + 1 * n) / n) by (f_equal; lia). rewrite Z.div_add by lia. reflexivity.
Qed.
Lemma arm_bshd_wide {A} n (X : buf A) x B S H D Y : 0 < n -> n <= D < 2 ^ 64 ->
  arm_bshd n X x B S H D Y = transpose_bshd n X x B S H D Y.
Proof. intros Hn HD. unfold arm_bshd. rewrite arm_rounds_wide by auto. reflexivity. Qed.

Lemma arm_permute_of_ok {A} dt (t : tns A) perm (o : buf A) :
  tensor_ok t -> contiguous t -> is_permutation (length (x_shape t)) perm ->
  b_len o = product (x_shape t) ->
  exists o', arm_permute_of dt (x_buf t) (x_offset t) (x_shape t) perm o = ROk o' /\
    good (perm_target t perm) (fun p => 0 <= p < product (x_shape t)) o o'.
Proof.
  intros Hok Hc Hp Hl. unfold arm_permute_of. destruct (dt =? 0); [|destruct (dt =? 1)].
  - apply arm_permute_rows_ok; auto; [lia|apply row_fp32_copies].
  - apply arm_permute_rows_ok; auto; [lia|apply row_fp16_copies].
  - apply permute_generic_ok; auto.
Qed.

Theorem arm_permute_correct {A} (t : tns A) dt axis :
  tensor_ok t -> contiguous t -> is_permutation (length (x_shape t)) axis -> permute_supported dt = true ->
  exists out, arm_permute_op dt t axis = ROk out /\ x_shape out = rearrange axis (x_shape t) /\
    tensor_ok out /\ owns_storage out /\
    forall idx, in_shape (x_shape t) idx ->
      in_shape (x_shape out) (rearrange axis idx) /\ elem out (rearrange axis idx) = elem t idx.
Proof.
  intros Hok Hc Hp Hdt. unfold arm_permute_op. rewrite (axis_ok (length (x_shape t))) by auto. cbn [negb].
  change (permuted_shape (x_shape t) axis) with (rearrange axis (x_shape t)).
  assert (Lr : length (rearrange axis (x_shape t)) = length (x_shape t)) by (apply rearrange_length; auto).
  assert (Hr : (1 <= length (rearrange axis (x_shape t)) <= 16)%nat) by (rewrite Lr; apply Hok).
  rewrite fresh_ok by auto. cbn [rbind x_buf x_view]. rewrite Hdt.
  assert (Hpr : product (rearrange axis (x_shape t)) = product (x_shape t)) by (apply (product_rearrange (length (x_shape t))); auto).
  destruct (arm_permute_of_ok dt t axis (mkBuf (product (rearrange axis (x_shape t))) (fun _ => None)) Hok Hc Hp) as (o' & E & G).
  { cbn [b_len]. auto. }
  rewrite E. cbn [rbind]. eexists. split; [reflexivity|].
  destruct (owner_ok (rearrange axis (x_shape t)) o' Hr) as [O1 O2].
  { apply rearrange_nonneg, Hok. }
  { rewrite (g_len _ _ _ _ G). reflexivity. }
  split; [reflexivity|]. split; [exact O1|]. split; [exact O2|].
  intros idx Hi. destruct (perm_target_at t axis idx Hp Hi) as [I1 I2]. split; [exact I1|].
  rewrite owner_elem by (apply in_shape_length; auto).
  rewrite (g_set _ _ _ _ G); [exact I2|]. rewrite <- Hpr. apply ravel_bounds. auto.
Qed.

Section Transpose.
Context {A : Type}.
Variables (t : tns A) (a b : nat).
Hypothesis Hok : tensor_ok t.
Hypothesis Hc : contiguous t.
Hypothesis Ha : (a < length (x_shape t))%nat.
Hypothesis Hb : (b < length (x_shape t))%nat.
Let n := length (x_shape t).
Let perm := exchange a b (ids n).
Lemma arm_pair_ok dt (o : buf A) : x_shape t = [nth 0 (x_shape t) 0; nth 1 (x_shape t) 0] ->
  a <> b -> b_len o = product (x_shape t) ->
  exists o', arm_hw_of dt (x_buf t) (x_offset t) (nth 0 (x_shape t) 0) (nth 1 (x_shape t) 0) 0 o = ROk o' /\
    good (perm_target t perm) (fun p => 0 <= p < product (x_shape t)) o o'.
Proof.
  intros Hs Hab Hl. set (H := nth 0 (x_shape t) 0) in *. set (W := nth 1 (x_shape t) 0) in *.
  assert (Hd := ok_dims _ Hok). rewrite Hs in Hd. inversion Hd as [|? ? HH Hd']; subst. inversion Hd' as [|? ? HW _]; subst.
  assert (Hab2 : a = 0%nat /\ b = 1%nat \/ a = 1%nat /\ b = 0%nat).
  { rewrite Hs in Ha, Hb. cbn [length] in Ha, Hb. lia. }
  assert (Hpr : product (x_shape t) = H * W) by (rewrite Hs; unfold product; cbn [fold_right]; lia).
  assert (Hxs : exchange a b (x_shape t) = [W; H]) by (rewrite Hs; destruct Hab2 as [[-> ->]|[-> ->]]; reflexivity).
  assert (Hel : forall i j, 0 <= i < H -> 0 <= j < W ->
    0 <= x_offset t + i * W + j < b_len (x_buf t) /\ 0 <= 0 + j * H + i < b_len o /\
    b_at (x_buf t) (x_offset t + i * W + j) = perm_target t perm (0 + j * H + i)).
  { intros i j Hi Hj.
    assert (Hin : in_shape (x_shape t) [i; j]).
    { rewrite Hs. apply in_shape_cons. split; [auto|]. apply in_shape_cons. split; [auto|constructor]. }
    destruct (taddress t Hok Hc _ Hin) as [T1 T2]. destruct (tperm_target t a b Ha Hb _ Hin) as [T3 T4].
    assert (Er : ravel (x_shape t) [i; j] = i * W + j).
    { rewrite Hs. cbn [ravel]. unfold product. cbn [fold_right]. lia. }
    assert (Ex : exchange a b [i; j] = [j; i]) by (destruct Hab2 as [[-> ->]|[-> ->]]; reflexivity).
    rewrite Er, Z.add_assoc in T1, T2. rewrite Hxs, Ex in T3, T4.
    assert (Er2 : ravel [W; H] [j; i] = 0 + j * H + i) by (cbn [ravel]; unfold product; cbn [fold_right]; lia).
    assert (B := ravel_bounds _ _ T3). rewrite Er2 in T4, B. split; [auto|]. split; [|etransitivity; [exact T2|symmetry; exact T4]].
    rewrite Hl, Hpr. unfold product in B. cbn [fold_right] in B. lia. }
  assert (Hw : exists o', arm_hw_of dt (x_buf t) (x_offset t) H W 0 o = ROk o' /\
    good (perm_target t perm) (fun p => exists i j, 0 <= i < H /\ 0 <= j < W /\ p = 0 + j * H + i) o o').
  { unfold arm_hw_of. destruct (dt =? 0); [|destruct (dt =? 1)].
    - apply (arm_hw_ok (perm_target t perm) (x_buf t) (x_offset t) H W 0 (b_len o)); auto; try lia.
      intros; eapply arm_block44_ok; eauto.
    - apply (arm_hw_ok (perm_target t perm) (x_buf t) (x_offset t) H W 0 (b_len o)); auto; try lia.
      intros; eapply arm_block48_ok; eauto.
    - apply (arm_hw_ok (perm_target t perm) (x_buf t) (x_offset t) H W 0 (b_len o)); auto; try lia.
      intros; eapply arm_block22_ok; eauto. }
  destruct Hw as (o' & E & G).
  exists o'. split; [exact E|]. eapply good_weaken; [|exact G]. cbn beta. intros p Hp. rewrite Hpr in Hp.
  assert (HH0 : 0 < H) by nia. exists (p mod H), (p / H).
  assert (M := Z.mod_pos_bound p H HH0). assert (Q := Z_div_mod_eq_full p H).
  split; [lia|]. split; [split; [apply Z.div_pos; lia|apply Z.div_lt_upper_bound; lia]|lia].
Qed.

Theorem arm_transpose_correct dt d0 d1 : arm_transpose_supported dt = true ->
  norm_dim (zlen (x_shape t)) d0 = Z.of_nat a -> norm_dim (zlen (x_shape t)) d1 = Z.of_nat b ->
  (length (x_shape t) = 2%nat \/ (a + b <> 1)%nat) ->
  (length (x_shape t) = 4%nat -> (a = 1%nat /\ b = 2%nat) \/ (a = 2%nat /\ b = 1%nat) ->
    arm_lanes dt <= nth 3 (x_shape t) 0 < 2 ^ 64) ->
  exists out, arm_transpose_op dt t d0 d1 = ROk out /\ x_shape out = exchange a b (x_shape t) /\
    tensor_ok out /\ owns_storage out /\
    forall idx, in_shape (x_shape t) idx ->
      in_shape (x_shape out) (exchange a b idx) /\ elem out (exchange a b idx) = elem t idx.
Proof.
  intros Hdt N0 N1 Hns Hw. unfold arm_transpose_op. rewrite N0, N1. cbv zeta.
  replace ((0 <=? Z.of_nat a) && (Z.of_nat a <? zlen (x_shape t)) && (0 <=? Z.of_nat b) && (Z.of_nat b <? zlen (x_shape t))) with true
    by (unfold zlen; lia).
  rewrite swap_at_exchange by auto.
  assert (Hr : (1 <= length (exchange a b (x_shape t)) <= 16)%nat) by (rewrite exchange_length; apply Hok).
  rewrite fresh_ok by auto. cbn [rbind x_buf x_view].
  set (o := mkBuf (product (exchange a b (x_shape t))) (fun _ => None)).
  assert (Hl : b_len o = product (x_shape t)) by apply (texchange_product t a b Ha Hb).
  assert (Hf : exists o', arm_transpose_forward dt t (Z.of_nat a) (Z.of_nat b) o = ROk o' /\
     good (perm_target t perm) (fun p => 0 <= p < product (x_shape t)) o o').
  { unfold arm_transpose_forward. rewrite Hdt. cbn [negb].
    cbv zeta. unfold zlen.
    destruct ((Z.of_nat (length (x_shape t)) =? 2) && (Z.of_nat a + Z.of_nat b =? 1)) eqn:B1.
    { apply arm_pair_ok; auto; [|lia].
      assert (L : length (x_shape t) = 2%nat) by lia. destruct (x_shape t) as [|? [|? [|? ?]]]; cbn in L; try lia. reflexivity. }
    destruct ((Z.of_nat (length (x_shape t)) =? 4) && ((Z.of_nat a =? 1) && (Z.of_nat b =? 2) || (Z.of_nat a =? 2) && (Z.of_nat b =? 1))) eqn:B2.
    { assert (L : length (x_shape t) = 4%nat) by lia. assert (W := Hw L ltac:(lia)).
      rewrite arm_bshd_wide by (auto; unfold arm_lanes; destruct (dt =? 0), (dt =? 1); lia).
      apply transpose_bshd_ok; auto; [|lia|unfold arm_lanes; destruct (dt =? 0), (dt =? 1); lia].
      destruct (x_shape t) as [|? [|? [|? [|? [|? ?]]]]]; cbn in L; try lia. reflexivity. }
    replace (negb (Z.of_nat (length (x_shape t)) =? 2) && (Z.of_nat a + Z.of_nat b =? 1)) with false by lia.
    fold (ids (length (x_shape t))). rewrite swap_at_exchange by (rewrite ids_length; auto). fold n perm.
    apply arm_permute_of_ok; auto; apply tperm; auto. }
  destruct Hf as (o' & E & G). rewrite E. cbn [rbind]. eexists. split; [reflexivity|].
  destruct (owner_ok (exchange a b (x_shape t)) o' Hr) as [O1 O2].
  { rewrite <- (tperm_shape t a b Ha Hb). apply rearrange_nonneg, Hok. }
  { rewrite (g_len _ _ _ _ G). reflexivity. }
  split; [reflexivity|]. split; [exact O1|]. split; [exact O2|].
  intros idx Hi. destruct (tperm_target t a b Ha Hb idx Hi) as [I1 I2]. split; [exact I1|].
  rewrite owner_elem by (apply in_shape_length; auto).
  rewrite (g_set _ _ _ _ G); [exact I2|]. rewrite <- (texchange_product t a b Ha Hb). apply ravel_bounds. auto.
Qed.
End Transpose.

(* ---------------- heads narrower than a register ---------------- *)
Lemma copy1_ok_or_ub {A} (X : buf A) s d Y : copy1 X s d Y = RUB \/ exists Y', copy1 X s d Y = ROk Y'.
Proof.
  unfold copy1, load, store. destruct ((0 <=? s) && (s <? b_len X)); cbn [rbind]; auto.
  destruct ((0 <=? d) && (d <? b_len Y)); eauto.
Qed.
Lemma arm_bshd_narrow {A} n (X : buf A) x B S H D Y :
  n = 4 \/ n = 8 \/ n = 2 -> 0 <= D < n -> 0 < B -> 0 < S -> 0 < H -> 0 <= x -> b_len X < 2 ^ 62 ->
  arm_bshd n X x B S H D Y = RUB.
Proof.
  intros Hn HD HB HS HH Hx HX. unfold arm_bshd.
  assert (HR : arm_rounds D n = 2 ^ 64 / n).
  { unfold arm_rounds, to_u64. replace ((D - n) mod 2 ^ 64) with (D - n + 2 ^ 64).
    2:{ symmetry. rewrite <- (Z.mod_add (D - n) 1 (2 ^ 64)) by lia. rewrite Z.mod_small; lia. }
    destruct Hn as [-> | [-> | ->]].
    - change (2 ^ 64) with (2 ^ 62 * 4). rewrite Z.div_add, Z.div_mul by lia. replace ((D - 4) / 4) with (-1); [lia|]. clear - HD. Z.to_euclidean_division_equations; lia.
    - change (2 ^ 64) with (2 ^ 61 * 8). rewrite Z.div_add, Z.div_mul by lia. replace ((D - 8) / 8) with (-1); [lia|]. clear - HD. Z.to_euclidean_division_equations; lia.
    - change (2 ^ 64) with (2 ^ 63 * 2). rewrite Z.div_add, Z.div_mul by lia. replace ((D - 2) / 2) with (-1); [lia|]. clear - HD. Z.to_euclidean_division_equations; lia. }
  assert (HR2 : 0 < arm_rounds D n /\ n * arm_rounds D n = 2 ^ 64).
  { rewrite HR. destruct Hn as [-> | [-> | ->]]; split; reflexivity. }
  clear HR. destruct HR2 as [R1 R2]. set (R := arm_rounds D n) in *.
  apply (zloop_ub (fun _ => True) B _ 0); auto; [lia| |].
  { intros b Y0 Hb _. destruct (zloop_ok_or_ub H (fun h Y => zloop S (fun s Y =>
    let src := x + b * S * H * D + s * H * D + h * D in
    let dst := b * H * S * D + h * S * D + s * D in
    do Y <- zloop R (fun k Y => memcpy X (src + n * k) (dst + n * k) n Y) Y;
    let d := n * R in
    zloop (D - d) (fun k Y => copy1 X (src + (d + k)) (dst + (d + k)) Y) Y) Y) Y0) as [E|(Y' & E)]; [|left; exact E|right; exists Y'; split; [exact E|exact I]].
    intros h Y1 Hh. apply zloop_ok_or_ub. intros s Y2 Hs. cbv zeta.
    destruct (zloop_ok_or_ub R (fun k Y => memcpy X (x + b * S * H * D + s * H * D + h * D + n * k) (b * H * S * D + h * S * D + s * D + n * k) n Y) Y2) as [E|(Y3 & E)].
    { intros k Y3 _. apply memcpy_ok_or_ub. }
    - rewrite E. left. reflexivity.
    - rewrite E. cbn [rbind]. apply zloop_ok_or_ub. intros k Y4 _. apply copy1_ok_or_ub. }
  intros Y0 _. apply (zloop_ub (fun _ => True) H _ 0); auto; [lia| |].
  { intros h Y1 Hh _. destruct (zloop_ok_or_ub S (fun s Y =>
    let src := x + 0 * S * H * D + s * H * D + h * D in
    let dst := 0 * H * S * D + h * S * D + s * D in
    do Y <- zloop R (fun k Y => memcpy X (src + n * k) (dst + n * k) n Y) Y;
    let d := n * R in
    zloop (D - d) (fun k Y => copy1 X (src + (d + k)) (dst + (d + k)) Y) Y) Y1) as [E|(Y' & E)]; [|left; exact E|right; exists Y'; split; [exact E|exact I]].
    intros s Y2 Hs. cbv zeta.
    destruct (zloop_ok_or_ub R (fun k Y => memcpy X (x + 0 * S * H * D + s * H * D + h * D + n * k) (0 * H * S * D + h * S * D + s * D + n * k) n Y) Y2) as [E|(Y3 & E)].
    { intros k Y3 _. apply memcpy_ok_or_ub. }
    - rewrite E. left. reflexivity.
    - rewrite E. cbn [rbind]. apply zloop_ok_or_ub. intros k Y4 _. apply copy1_ok_or_ub. }
  intros Y1 _. apply (zloop_ub (fun _ => True) S _ 0); auto; [lia| |].
  { intros s Y2 Hs _. cbv zeta.
    destruct (zloop_ok_or_ub R (fun k Y => memcpy X (x + 0 * S * H * D + s * H * D + 0 * D + n * k) (0 * H * S * D + 0 * S * D + s * D + n * k) n Y) Y2) as [E|(Y3 & E)].
    { intros k Y3 _. apply memcpy_ok_or_ub. }
    - rewrite E. left. reflexivity.
    - rewrite E. cbn [rbind].
      destruct (zloop_ok_or_ub (D - n * R) (fun k Y => copy1 X (x + 0 * S * H * D + s * H * D + 0 * D + (n * R + k)) (0 * H * S * D + 0 * S * D + s * D + (n * R + k)) Y) Y3) as [E2|(Y4 & E2)].
      { intros k Y4 _. apply copy1_ok_or_ub. }
      + left. exact E2.
      + right. exists Y4. split; [exact E2|exact I]. }
  intros Y2 _. cbv zeta.
  assert (E : zloop R (fun k Y => memcpy X (x + 0 * S * H * D + 0 * H * D + 0 * D + n * k) (0 * H * S * D + 0 * S * D + 0 * D + n * k) n Y) Y2 = RUB).
  { apply (zloop_ub (fun _ => True) R _ (R - 1)); auto; [lia| |].
    - intros k Y3 _ _. destruct (memcpy_ok_or_ub X (x + 0 * S * H * D + 0 * H * D + 0 * D + n * k) (0 * H * S * D + 0 * S * D + 0 * D + n * k) n Y3) as [E|(Y4 & E)]; [left; exact E|right; exists Y4; split; [exact E|exact I]].
    - intros Y3 _. apply memcpy_outside; [lia|]. right. rewrite !Z.mul_0_l. 
      replace (n * (R - 1)) with (2 ^ 64 - n) by lia. lia. }
  rewrite E. reflexivity.
Qed.
