(** Proofs about transpose. *)
From Verif Require Import Base DTypeModel ParamModel ParamSpec ParamProofs ParamMore TensorModel TensorSpec TensorProofs TensorViews TensorSplit TensorConcat TensorPermute.
Local Open Scope Z_scope.

Definition swap2 (a b k : nat) : nat := if Nat.eqb k a then b else if Nat.eqb k b then a else k.
Definition ids (n : nat) : list Z := map Z.of_nat (seq 0 n).

Lemma exchange_eq a b l : exchange a b l = map (fun k => nth (swap2 a b k) l 0) (seq 0 (length l)).
Proof. reflexivity. Qed.
Lemma exchange_length a b l : length (exchange a b l) = length l.
Proof. unfold exchange. rewrite map_length, seq_length. reflexivity. Qed.
Lemma exchange_nth a b l k : (k < length l)%nat -> nth k (exchange a b l) 0 = nth (swap2 a b k) l 0.
Proof.
  intro H. rewrite exchange_eq. rewrite (nth_indep _ 0 ((fun k => nth (swap2 a b k) l 0) 0%nat)) by (rewrite map_length, seq_length; auto).
  rewrite (map_nth (fun k => nth (swap2 a b k) l 0)). rewrite seq_nth by auto. reflexivity.
Qed.
Lemma swap2_bound a b n k : (a < n)%nat -> (b < n)%nat -> (k < n)%nat -> (swap2 a b k < n)%nat.
Proof. unfold swap2. destruct (Nat.eqb k a), (Nat.eqb k b); auto. Qed.
Lemma swap2_invol a b k : swap2 a b (swap2 a b k) = k.
Proof.
  unfold swap2. destruct (Nat.eqb_spec k a) as [->|H1].
  - destruct (Nat.eqb_spec b a) as [->|]; auto. rewrite Nat.eqb_refl. auto.
  - destruct (Nat.eqb_spec k b) as [->|H2]; [rewrite Nat.eqb_refl; auto|].
    destruct (Nat.eqb_spec k a); [contradiction|]. destruct (Nat.eqb_spec k b); [contradiction|auto].
Qed.
Lemma exchange_twice a b l : (a < length l)%nat -> (b < length l)%nat -> exchange a b (exchange a b l) = l.
Proof.
  intros Ha Hb. apply (nth_ext _ _ 0 0); [rewrite !exchange_length; auto|]. intros k Hk. rewrite !exchange_length in Hk.
  rewrite exchange_nth by (rewrite exchange_length; auto). rewrite exchange_nth by (apply swap2_bound; auto).
  rewrite swap2_invol. reflexivity.
Qed.
Lemma swap_at_exchange l a b : (a < length l)%nat -> (b < length l)%nat ->
  swap_at l (Z.of_nat a) (Z.of_nat b) = exchange a b l.
Proof.
  intros Ha Hb. unfold swap_at. rewrite !Nat2Z.id.
  apply (nth_ext _ _ 0 0); [rewrite !length_upd_nth, exchange_length; auto|]. intros k Hk. rewrite !length_upd_nth in Hk.
  rewrite exchange_nth by auto. rewrite !nth_upd_nth, !length_upd_nth. unfold swap2.
  destruct (Nat.eqb_spec b k) as [->|H1]; destruct (Nat.eqb_spec a k) as [->|H2]; rewrite ?Nat.eqb_refl.
  - replace (k <? length l)%nat with true by lia. reflexivity.
  - replace (k <? length l)%nat with true by lia. destruct (Nat.eqb_spec k a); [congruence|]. reflexivity.
  - replace (k <? length l)%nat with true by lia. reflexivity.
  - destruct (Nat.eqb_spec k a); [congruence|]. destruct (Nat.eqb_spec k b); [congruence|]. reflexivity.
Qed.
Lemma nth_ids n k : (k < n)%nat -> nth k (ids n) 0 = Z.of_nat k.
Proof.
  intro H. unfold ids. rewrite (nth_indep _ 0 (Z.of_nat 0)) by (rewrite map_length, seq_length; auto).
  rewrite map_nth, seq_nth by auto. reflexivity.
Qed.
Lemma ids_length n : length (ids n) = n.
Proof. unfold ids. rewrite map_length, seq_length. reflexivity. Qed.
Lemma exchange_perm n a b : (a < n)%nat -> (b < n)%nat -> is_permutation n (exchange a b (ids n)).
Proof.
  intros Ha Hb. unfold is_permutation. apply NoDup_Permutation.
  - apply (NoDup_nth _ 0). intros i j Hi Hj E. rewrite exchange_length, ids_length in *.
    rewrite !exchange_nth in E by (rewrite ids_length; auto).
    rewrite !nth_ids in E by (apply swap2_bound; auto). apply Nat2Z.inj in E.
    rewrite <- (swap2_invol a b i), <- (swap2_invol a b j), E. reflexivity.
  - apply FinFun.Injective_map_NoDup; [|apply seq_NoDup]. intros x y. lia.
  - intro x. fold (ids n). split; intro H.
    + apply (In_nth _ _ 0) in H as (k & Hk & <-). rewrite exchange_length, ids_length in Hk.
      rewrite exchange_nth by (rewrite ids_length; auto). apply nth_In. rewrite ids_length. apply swap2_bound; auto.
    + apply (In_nth _ _ 0) in H as (k & Hk & <-). rewrite ids_length in Hk.
      rewrite <- (swap2_invol a b k) at 1. rewrite <- (exchange_nth a b (ids n)) by (rewrite ids_length; apply swap2_bound; auto).
      apply nth_In. rewrite exchange_length, ids_length. apply swap2_bound; auto.
Qed.
Lemma rearrange_exchange n a b l : (a < n)%nat -> (b < n)%nat -> length l = n ->
  rearrange (exchange a b (ids n)) l = exchange a b l.
Proof.
  intros Ha Hb Hl. unfold rearrange. rewrite !exchange_eq, map_map, ids_length, Hl. apply map_ext_in.
  intros k Hk. apply in_seq in Hk. rewrite nth_ids by (apply swap2_bound; auto; lia). rewrite Nat2Z.id. reflexivity.
Qed.

Section Transpose.
Context {A : Type}.
Variables (t : tns A) (a b : nat).
Hypothesis Hok : tensor_ok t.
Hypothesis Hc : contiguous t.
Hypothesis Ha : (a < length (x_shape t))%nat.
Hypothesis Hb : (b < length (x_shape t))%nat.
Let n := length (x_shape t).
Let perm := exchange a b (ids n).

Lemma tperm : is_permutation n perm.
Proof. apply exchange_perm; auto. Qed.
Lemma tperm_shape : rearrange perm (x_shape t) = exchange a b (x_shape t).
Proof. apply rearrange_exchange; auto. Qed.
Lemma tperm_target idx : in_shape (x_shape t) idx ->
  in_shape (exchange a b (x_shape t)) (exchange a b idx) /\
  perm_target t perm (ravel (exchange a b (x_shape t)) (exchange a b idx)) = elem t idx.
Proof.
  intro Hi. destruct (perm_target_at t perm idx tperm Hi) as [I1 I2]. rewrite tperm_shape in *.
  unfold perm in I1, I2. rewrite (rearrange_exchange n) in I1, I2 by (auto; apply in_shape_length; auto). fold perm in I2. auto.
Qed.
Lemma texchange_product : product (exchange a b (x_shape t)) = product (x_shape t).
Proof. rewrite <- tperm_shape. apply (product_rearrange n); auto. apply tperm. Qed.
Lemma taddress idx : in_shape (x_shape t) idx ->
  0 <= x_offset t + ravel (x_shape t) idx < b_len (x_buf t) /\
  b_at (x_buf t) (x_offset t + ravel (x_shape t) idx) = elem t idx.
Proof.
  intro Hi. assert (O := ok_inside _ Hok _ Hi). unfold elem.
  rewrite contiguous_address in * by (auto; apply in_shape_length; auto). auto.
Qed.

Lemma transpose_pair_ok lanes (o : buf A) : x_shape t = [nth 0 (x_shape t) 0; nth 1 (x_shape t) 0] ->
  a <> b -> lanes = 4 \/ lanes = 2 -> b_len o = product (x_shape t) ->
  exists o', transpose_hw lanes (x_buf t) (x_offset t) (nth 0 (x_shape t) 0) (nth 1 (x_shape t) 0) 0 o = ROk o' /\
    good (perm_target t perm) (fun p => 0 <= p < product (x_shape t)) o o'.
Proof.
  intros Hs Hab Hla Hl. set (H := nth 0 (x_shape t) 0) in *. set (W := nth 1 (x_shape t) 0) in *.
  assert (Hd := ok_dims _ Hok). rewrite Hs in Hd. inversion Hd as [|? ? HH Hd']; subst. inversion Hd' as [|? ? HW _]; subst.
  assert (Hab2 : a = 0%nat /\ b = 1%nat \/ a = 1%nat /\ b = 0%nat).
  { rewrite Hs in Ha, Hb. cbn [length] in Ha, Hb. lia. }
  assert (Hpr : product (x_shape t) = H * W) by (rewrite Hs; unfold product; cbn [fold_right]; lia).
  assert (Hxs : exchange a b (x_shape t) = [W; H]) by (rewrite Hs; destruct Hab2 as [[-> ->]|[-> ->]]; reflexivity).
  assert (Hel : forall i j, 0 <= i < H -> 0 <= j < W ->
    0 <= x_offset t + i * W + j < b_len (x_buf t) /\ 0 <= 0 + j * H + i < b_len o /\
    b_at (x_buf t) (x_offset t + i * W + j) = perm_target t perm (0 + j * H + i)).
  { intros i j Hi Hj.
    assert (Hin : in_shape (x_shape t) [i; j]).
    { rewrite Hs. apply in_shape_cons. split; [auto|]. apply in_shape_cons. split; [auto|constructor]. }
    destruct (taddress _ Hin) as [T1 T2]. destruct (tperm_target _ Hin) as [T3 T4].
    assert (Er : ravel (x_shape t) [i; j] = i * W + j).
    { rewrite Hs. cbn [ravel]. unfold product. cbn [fold_right]. lia. }
    assert (Ex : exchange a b [i; j] = [j; i]) by (destruct Hab2 as [[-> ->]|[-> ->]]; reflexivity).
    rewrite Er, Z.add_assoc in T1, T2. rewrite Hxs, Ex in T3, T4.
    assert (Er2 : ravel [W; H] [j; i] = 0 + j * H + i) by (cbn [ravel]; unfold product; cbn [fold_right]; lia).
    assert (B := ravel_bounds _ _ T3). rewrite Er2 in T4, B. split; [auto|]. split; [|congruence].
    rewrite Hl, Hpr. unfold product in B. cbn [fold_right] in B. lia. }
  destruct (transpose_hw_ok (perm_target t perm) (x_buf t) (x_offset t) H W 0 (b_len o) HH HW Hel lanes o Hla eq_refl) as (o' & E & G).
  exists o'. split; [exact E|]. eapply good_weaken; [|exact G]. cbn beta. intros p Hp. rewrite Hpr in Hp.
  assert (HH0 : 0 < H) by nia. exists (p mod H), (p / H).
  assert (M := Z.mod_pos_bound p H HH0). assert (Q := Z_div_mod_eq_full p H).
  split; [lia|]. split; [split; [apply Z.div_pos; lia|apply Z.div_lt_upper_bound; lia]|lia].
Qed.

Lemma transpose_bshd_ok lanes (o : buf A) B S H D : x_shape t = [B; S; H; D] ->
  (a = 1%nat /\ b = 2%nat \/ a = 2%nat /\ b = 1%nat) -> 0 < lanes -> b_len o = product (x_shape t) ->
  exists o', transpose_bshd lanes (x_buf t) (x_offset t) B S H D o = ROk o' /\
    good (perm_target t perm) (fun p => 0 <= p < product (x_shape t)) o o'.
Proof.
  intros Hs Hab Hla Hl.
  assert (Hd := ok_dims _ Hok). rewrite Hs in Hd.
  inversion Hd as [|? ? HB Hd1]; subst. inversion Hd1 as [|? ? HS Hd2]; subst.
  inversion Hd2 as [|? ? HH Hd3]; subst. inversion Hd3 as [|? ? HD _]; subst. clear Hd Hd1 Hd2 Hd3.
  assert (Hxs : exchange a b (x_shape t) = [B; H; S; D]) by (rewrite Hs; destruct Hab as [[-> ->]|[-> ->]]; reflexivity).
  assert (Hpx : product [B; H; S; D] = product (x_shape t)) by (rewrite <- Hxs; apply texchange_product).
  assert (Hel : forall i0 i1 i2 i3, 0 <= i0 < B -> 0 <= i1 < S -> 0 <= i2 < H -> 0 <= i3 < D ->
    let src := x_offset t + i0 * S * H * D + i1 * H * D + i2 * D in
    let dst := i0 * H * S * D + i2 * S * D + i1 * D in
    0 <= src + i3 < b_len (x_buf t) /\ 0 <= dst + i3 < b_len o /\ b_at (x_buf t) (src + i3) = perm_target t perm (dst + i3)
    /\ in_shape [B; H; S; D] [i0; i2; i1; i3] /\ ravel [B; H; S; D] [i0; i2; i1; i3] = dst + i3).
  { intros i0 i1 i2 i3 H0 H1 H2 H3. cbv zeta.
    assert (Hin : in_shape (x_shape t) [i0; i1; i2; i3]) by (rewrite Hs; repeat (apply in_shape_cons; split; [auto|]); constructor).
    destruct (taddress _ Hin) as [T1 T2]. destruct (tperm_target _ Hin) as [T3 T4].
    assert (Ex : exchange a b [i0; i1; i2; i3] = [i0; i2; i1; i3]) by (destruct Hab as [[-> ->]|[-> ->]]; reflexivity).
    rewrite Hxs, Ex in T3, T4.
    assert (Er : x_offset t + ravel (x_shape t) [i0; i1; i2; i3] = x_offset t + i0 * S * H * D + i1 * H * D + i2 * D + i3).
    { rewrite Hs. cbn [ravel]. unfold product. cbn [fold_right]. ring. }
    assert (Er2 : ravel [B; H; S; D] [i0; i2; i1; i3] = i0 * H * S * D + i2 * S * D + i1 * D + i3).
    { cbn [ravel]. unfold product. cbn [fold_right]. ring. }
    assert (Bd := ravel_bounds _ _ T3). rewrite Hpx, <- Hl in Bd. rewrite Er in T1, T2. rewrite Er2 in *.
    repeat split; auto; try lia. congruence. }
  unfold transpose_bshd.
  destruct (good_loop (perm_target t perm) B (fun i0 p => exists i2, 0 <= i2 < H /\ exists i1, 0 <= i1 < S /\
      i0 * H * S * D + i2 * S * D + i1 * D <= p < i0 * H * S * D + i2 * S * D + i1 * D + D)
    (fun b Y => zloop H (fun h Y => zloop S (fun s Y =>
    let src := x_offset t + b * S * H * D + s * H * D + h * D in
    let dst := b * H * S * D + h * S * D + s * D in
    do Y <- zloop (D / lanes) (fun k Y => memcpy (x_buf t) (src + lanes * k) (dst + lanes * k) lanes Y) Y;
    let d := lanes * (D / lanes) in
    zloop (D - d) (fun k Y => copy1 (x_buf t) (src + (d + k)) (dst + (d + k)) Y) Y) Y) Y) o (b_len o) eq_refl) as (o' & E & G).
  { intros i0 b0 Hi0 Hb0. eapply good_loop; [exact Hb0|]. intros i2 b1 Hi2 Hb1. eapply good_loop; [exact Hb1|].
    intros i1 b2 Hi1 Hb2. cbv zeta.
    apply (good_chunked (perm_target t perm) lanes (x_buf t)); auto. intros k Hk.
    destruct (Hel i0 i1 i2 k Hi0 Hi1 Hi2 Hk) as (T1 & T2 & T3 & _ & _). cbv zeta in *. rewrite Hb2. auto. }
  exists o'. split; [exact E|]. eapply good_weaken; [|exact G]. cbn beta. intros p Hp. rewrite <- Hpx in Hp.
  destruct (unravel_spec [B; H; S; D] p ltac:(repeat constructor; auto) Hp) as [U1 U2].
  assert (UL := in_shape_length _ _ U1). destruct (unravel [B; H; S; D] p) as [|i0 [|i2 [|i1 [|i3 [|? ?]]]]]; cbn [length] in UL; try lia.
  apply in_shape_cons in U1 as [V0 U1]. apply in_shape_cons in U1 as [V2 U1]. apply in_shape_cons in U1 as [V1 U1]. apply in_shape_cons in U1 as [V3 _].
  destruct (Hel i0 i1 i2 i3 V0 V1 V2 V3) as (_ & _ & _ & _ & T). cbv zeta in T. rewrite U2 in T.
  exists i0. split; [auto|]. exists i2. split; [auto|]. exists i1. split; [auto|lia].
Qed.

Theorem transpose_correct dt d0 d1 : dt = 0 \/ dt = 132 ->
  norm_dim (zlen (x_shape t)) d0 = Z.of_nat a -> norm_dim (zlen (x_shape t)) d1 = Z.of_nat b ->
  (length (x_shape t) = 2%nat \/ (a + b <> 1)%nat) ->
  exists out, transpose_op dt t d0 d1 = ROk out /\ x_shape out = exchange a b (x_shape t) /\
    tensor_ok out /\ owns_storage out /\
    forall idx, in_shape (x_shape t) idx ->
      in_shape (x_shape out) (exchange a b idx) /\ elem out (exchange a b idx) = elem t idx.
Proof.
  intros Hdt N0 N1 Hns. unfold transpose_op. rewrite N0, N1. cbv zeta.
  replace ((0 <=? Z.of_nat a) && (Z.of_nat a <? zlen (x_shape t)) && (0 <=? Z.of_nat b) && (Z.of_nat b <? zlen (x_shape t))) with true
    by (unfold zlen; lia).
  rewrite swap_at_exchange by auto.
  assert (Hr : (1 <= length (exchange a b (x_shape t)) <= 16)%nat) by (rewrite exchange_length; apply Hok).
  rewrite fresh_ok by auto. cbn [rbind x_buf x_view].
  set (o := mkBuf (product (exchange a b (x_shape t))) (fun _ => None)).
  assert (Hl : b_len o = product (x_shape t)) by apply texchange_product.
  assert (Hf : exists o', transpose_forward dt t (Z.of_nat a) (Z.of_nat b) o = ROk o' /\
     good (perm_target t perm) (fun p => 0 <= p < product (x_shape t)) o o').
  { unfold transpose_forward. replace (negb ((dt =? 0) || (dt =? 132))) with false by (destruct Hdt as [-> | ->]; reflexivity).
    cbv zeta. unfold zlen.
    destruct ((Z.of_nat (length (x_shape t)) =? 2) && (Z.of_nat a + Z.of_nat b =? 1)) eqn:B1.
    { apply transpose_pair_ok; auto; [|lia|unfold transpose_lanes; destruct (dt =? 0); auto].
      assert (L : length (x_shape t) = 2%nat) by lia. destruct (x_shape t) as [|? [|? [|? ?]]]; cbn in L; try lia. reflexivity. }
    destruct ((Z.of_nat (length (x_shape t)) =? 4) && ((Z.of_nat a =? 1) && (Z.of_nat b =? 2) || (Z.of_nat a =? 2) && (Z.of_nat b =? 1))) eqn:B2.
    { apply transpose_bshd_ok; auto; [|lia|unfold transpose_lanes; destruct (dt =? 0); lia].
      assert (L : length (x_shape t) = 4%nat) by lia. destruct (x_shape t) as [|? [|? [|? [|? [|? ?]]]]]; cbn in L; try lia. reflexivity. }
    replace (negb (Z.of_nat (length (x_shape t)) =? 2) && (Z.of_nat a + Z.of_nat b =? 1)) with false by lia.
    fold (ids (length (x_shape t))). rewrite swap_at_exchange by (rewrite ids_length; auto). fold n perm.
    destruct (dt =? 0); [apply permute_fp32_ok|apply permute_generic_ok]; auto; apply tperm. }
  destruct Hf as (o' & E & G). rewrite E. cbn [rbind]. eexists. split; [reflexivity|].
  destruct (owner_ok (exchange a b (x_shape t)) o' Hr) as [O1 O2].
  { rewrite <- tperm_shape. apply rearrange_nonneg, Hok. }
  { rewrite (g_len _ _ _ _ G). reflexivity. }
  split; [reflexivity|]. split; [exact O1|]. split; [exact O2|].
  intros idx Hi. destruct (tperm_target idx Hi) as [I1 I2]. split; [exact I1|].
  rewrite owner_elem by (apply in_shape_length; auto).
  rewrite (g_set _ _ _ _ G); [exact I2|]. rewrite <- texchange_product. apply ravel_bounds. auto.
Qed.
End Transpose.
