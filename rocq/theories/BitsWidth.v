(** Round trip and footprint for every width and every buffer size. *)
From Verif Require Import Base BitsModel BitsSpec BitsProofs BitsPack BitsDispatch.
Open Scope Z_scope.

Definition packs (len : Z) (m M : mem) (p : Z) (back : mem -> list vec) (vs : list vec) : Prop :=
  only_changes m M p len /\ forall m', same_bytes M m' p len -> lanes_of (back m') vs.

Lemma packs_app : forall l1 l2 m M1 M2 p q back1 back2 vs1 vs2,
  0 <= l1 -> 0 <= l2 -> q = p + l1 ->
  packs l1 m M1 p back1 vs1 -> packs l2 M1 M2 q back2 vs2 ->
  packs (l1 + l2) m M2 p (fun m' => back1 m' ++ back2 m') (vs1 ++ vs2).
Proof.
  intros l1 l2 m M1 M2 p q back1 back2 vs1 vs2 H1 H2 -> (O1 & R1) (O2 & R2). split.
  - eapply only_trans; [eapply only_wider; [exact O1|lia|lia]|].
    eapply only_wider; [exact O2|lia|lia].
  - intros m' A. apply lanes_app.
    + apply R1. eapply same_before; [exact A|exact O2|lia|lia|lia].
    + apply R2. eapply same_part; [exact A|lia|lia].
Qed.

Lemma packs_vst1q : forall m p u, packs 16 m (vst1q m p u) p (fun m' => [vld m' p]) [u].
Proof.
  intros. split; [apply vst_only; lia|]. intros m' A. split; [reflexivity|].
  intros j i Hj Hi. destruct j as [|j]; [|cbn in Hj; lia]. cbn [nth]. unfold vld.
  rewrite (A (p + i)) by lia. apply (rd_hit 16 m p u (p + i) i); lia.
Qed.

Lemma packs_len : forall l l' m M p back vs, packs l m M p back vs -> l = l' -> packs l' m M p back vs.
Proof. intros. subst. assumption. Qed.

Ltac widths nbit W :=
  assert (nbit = 1 \/ nbit = 2 \/ nbit = 3 \/ nbit = 4 \/ nbit = 5 \/ nbit = 6 \/ nbit = 7 \/ nbit = 8)
    as KW by lia; clear W;
  destruct KW as [->|[->|[->|[->|[->|[->|[->| ->]]]]]]].

Lemma packs32_4 : forall m p u0 u1, below 16 u0 -> below 16 u1 ->
  packs 16 m (vec_pack_32_uint4_values m p u0 u1) p
    (fun m' => vec_unpack_32_uint4_values m' p) [u0; u1].
Proof.
  intros. split; [unfold vec_pack_32_uint4_values; cbv zeta; footprint|].
  intros. eapply pack32_4; eassumption.
Qed.
Lemma packs64_2 : forall m p u0 u1 u2 u3, below 4 u0 -> below 4 u1 -> below 4 u2 -> below 4 u3 ->
  packs 16 m (vec_pack_64_uint2_values m p u0 u1 u2 u3) p
    (fun m' => vec_unpack_uint2_values m' p) [u0; u1; u2; u3].
Proof.
  intros. split; [unfold vec_pack_64_uint2_values, vec_pack_uint2_values; cbv zeta; footprint|].
  intros. eapply pack64_2; [..|eassumption]; assumption.
Qed.
Lemma packs64_6 : forall m p u0 u1 u2 u3, below 64 u0 -> below 64 u1 -> below 64 u2 -> below 64 u3 ->
  packs 48 m (vec_pack_64_uint6_values m p u0 u1 u2 u3) p
    (fun m' => vec_unpack_64_uint6_values m' p) [u0; u1; u2; u3].
Proof.
  intros. split; [unfold vec_pack_64_uint6_values; cbv zeta; footprint|].
  intros. eapply pack64_6; [..|eassumption]; assumption.
Qed.

Theorem uintx_32 : forall nbit m p u0 u1, 1 <= nbit <= 8 ->
  below (2 ^ nbit) u0 -> below (2 ^ nbit) u1 ->
  packs (nbit * 4) m (vec_pack_32_uintx_values nbit m p u0 u1) p
    (fun m' => vec_unpack_32_uintx_values nbit m' p) [u0; u1].
Proof.
  intros nbit m p u0 u1 W B0 B1.
  widths nbit W; cbn [vec_pack_32_uintx_values vec_unpack_32_uintx_values];
    match type of B0 with below ?b _ => let e := lit b in change b with e in * end.
  - split; [apply (by_8_foot _ 1); [lia|apply foot8_1]|].
    intros m' A. eapply (by_8_round _ _ 1); [lia|apply foot8_1|apply pack8_1|exact B0|exact B1|exact A].
  - split; [unfold vec_pack_32_uint2_values, vec_pack_uint2_values; cbv zeta; footprint|].
    intros m' A. exact (pack32_2 m p u0 u1 m' B0 B1 A).
  - split; [apply (by_8_foot _ 3); [lia|apply foot8_3]|].
    intros m' A. eapply (by_8_round _ _ 3); [lia|apply foot8_3|apply pack8_3|exact B0|exact B1|exact A].
  - exact (packs32_4 m p u0 u1 B0 B1).
  - split; [apply (by_8_foot _ 5); [lia|apply foot8_5]|].
    intros m' A. eapply (by_8_round _ _ 5); [lia|apply foot8_5|apply pack8_5|exact B0|exact B1|exact A].
  - split; [unfold vec_pack_32_uint6_values; cbv zeta; footprint|].
    intros m' A. exact (pack32_6 m p u0 u1 m' B0 B1 A).
  - split; [apply (by_8_foot _ 7); [lia|apply foot8_7]|].
    intros m' A. eapply (by_8_round _ _ 7); [lia|apply foot8_7|apply pack8_7|exact B0|exact B1|exact A].
  - exact (packs_app 16 16 m _ _ p (p + 16) _ _ [u0] [u1] ltac:(lia) ltac:(lia) eq_refl
      (packs_vst1q m p u0) (packs_vst1q _ (p + 16) u1)).
Qed.

Theorem uintx_64 : forall nbit m p u0 u1 u2 u3, 1 <= nbit <= 8 ->
  below (2 ^ nbit) u0 -> below (2 ^ nbit) u1 -> below (2 ^ nbit) u2 -> below (2 ^ nbit) u3 ->
  packs (nbit * 8) m (vec_pack_64_uintx_values nbit m p u0 u1 u2 u3) p
    (fun m' => vec_unpack_64_uintx_values nbit m' p) [u0; u1; u2; u3].
Proof.
  intros nbit m p u0 u1 u2 u3 W B0 B1 B2 B3.
  widths nbit W; cbn [vec_pack_64_uintx_values vec_unpack_64_uintx_values];
    match type of B0 with below ?b _ => let e := lit b in change b with e in * end.
  - split; [unfold vec_pack_64_uint1_values; cbv zeta; footprint|].
    intros m' A. exact (pack64_1 m p u0 u1 u2 u3 m' B0 B1 B2 B3 A).
  - exact (packs64_2 m p u0 u1 u2 u3 B0 B1 B2 B3).
  - split; [unfold vec_pack_64_uint3_values; cbv zeta; footprint|].
    intros m' A. exact (pack64_3 m p u0 u1 u2 u3 m' B0 B1 B2 B3 A).
  - exact (packs_app 16 16 m _ _ p (p + 16) _ _ [u0; u1] [u2; u3] ltac:(lia) ltac:(lia) eq_refl
      (packs32_4 m p u0 u1 B0 B1) (packs32_4 _ (p + 16) u2 u3 B2 B3)).
  - split; [unfold vec_pack_64_uint5_values; cbv zeta; footprint|].
    intros m' A. exact (pack64_5 m p u0 u1 u2 u3 m' B0 B1 B2 B3 A).
  - exact (packs64_6 m p u0 u1 u2 u3 B0 B1 B2 B3).
  - split; [unfold vec_pack_64_uint7_values; cbv zeta; footprint|].
    intros m' A. exact (pack64_7 m p u0 u1 u2 u3 m' B0 B1 B2 B3 A).
  - assert (S1 := packs_vst1q m p u0).
    assert (S2 := packs_app 16 16 m _ _ p (p + 16) _ _ [u0] [u1] ltac:(lia) ltac:(lia) eq_refl
      S1 (packs_vst1q _ (p + 16) u1)).
    assert (S3 := packs_app 32 16 m _ _ p (p + 32) _ _ [u0; u1] [u2] ltac:(lia) ltac:(lia) eq_refl
      S2 (packs_vst1q _ (p + 32) u2)).
    exact (packs_app 48 16 m _ _ p (p + 48) _ _ [u0; u1; u2] [u3] ltac:(lia) ltac:(lia) eq_refl
      S3 (packs_vst1q _ (p + 48) u3)).
Qed.

Theorem uintx_128 : forall nbit m p u0 u1 u2 u3 u4 u5 u6 u7, 1 <= nbit <= 8 ->
  below (2 ^ nbit) u0 -> below (2 ^ nbit) u1 -> below (2 ^ nbit) u2 -> below (2 ^ nbit) u3 ->
  below (2 ^ nbit) u4 -> below (2 ^ nbit) u5 -> below (2 ^ nbit) u6 -> below (2 ^ nbit) u7 ->
  packs (nbit * 16) m (vec_pack_128_uintx_values nbit m p u0 u1 u2 u3 u4 u5 u6 u7) p
    (fun m' => vec_unpack_128_uintx_values nbit m' p) [u0; u1; u2; u3; u4; u5; u6; u7].
Proof.
  intros nbit m p u0 u1 u2 u3 u4 u5 u6 u7 W B0 B1 B2 B3 B4 B5 B6 B7.
  widths nbit W; cbn [vec_pack_128_uintx_values vec_unpack_128_uintx_values];
    match type of B0 with below ?b _ => let e := lit b in change b with e in * end.
  - split; [unfold vec_pack_128_uint1_values; cbv zeta; footprint|].
    intros m' A. exact (pack128_1 m p _ _ _ _ _ _ _ _ m' B0 B1 B2 B3 B4 B5 B6 B7 A).
  - exact (packs_app 16 16 m _ _ p (p + 16) _ _ [u0; u1; u2; u3] [u4; u5; u6; u7]
      ltac:(lia) ltac:(lia) eq_refl
      (packs64_2 m p u0 u1 u2 u3 B0 B1 B2 B3) (packs64_2 _ (p + 16) u4 u5 u6 u7 B4 B5 B6 B7)).
  - split; [unfold vec_pack_128_uint3_values; cbv zeta; footprint|].
    intros m' A. exact (pack128_3 m p _ _ _ _ _ _ _ _ m' B0 B1 B2 B3 B4 B5 B6 B7 A).
  - assert (S4 := packs32_4 (vec_pack_32_uint4_values (vec_pack_32_uint4_values
       (vec_pack_32_uint4_values m p u0 u1) (p + 16) u2 u3) (p + 32) u4 u5) (p + 48) u6 u7 B6 B7).
    assert (S3 := packs_app 16 16 _ _ _ (p + 32) (p + 48) _ _ [u4; u5] [u6; u7]
      ltac:(lia) ltac:(lia) ltac:(lia)
      (packs32_4 (vec_pack_32_uint4_values (vec_pack_32_uint4_values m p u0 u1) (p + 16) u2 u3)
        (p + 32) u4 u5 B4 B5) S4).
    assert (S2 := packs_app 16 32 _ _ _ (p + 16) (p + 32) _ _ [u2; u3] [u4; u5; u6; u7]
      ltac:(lia) ltac:(lia) ltac:(lia)
      (packs32_4 (vec_pack_32_uint4_values m p u0 u1) (p + 16) u2 u3 B2 B3) S3).
    exact (packs_app 16 48 _ _ _ p (p + 16) _ _ [u0; u1] [u2; u3; u4; u5; u6; u7]
      ltac:(lia) ltac:(lia) eq_refl (packs32_4 m p u0 u1 B0 B1) S2).
  - split; [unfold vec_pack_128_uint5_values; cbv zeta; footprint|].
    intros m' A. exact (pack128_5 m p _ _ _ _ _ _ _ _ m' B0 B1 B2 B3 B4 B5 B6 B7 A).
  - exact (packs_app 48 48 m _ _ p (p + 48) _ _ [u0; u1; u2; u3] [u4; u5; u6; u7]
      ltac:(lia) ltac:(lia) eq_refl
      (packs64_6 m p u0 u1 u2 u3 B0 B1 B2 B3) (packs64_6 _ (p + 48) u4 u5 u6 u7 B4 B5 B6 B7)).
  - split; [unfold vec_pack_128_uint7_values; cbv zeta; footprint|].
    intros m' A. exact (pack128_7 m p _ _ _ _ _ _ _ _ m' B0 B1 B2 B3 B4 B5 B6 B7 A).
  - assert (S1 := packs_vst1q m p u0).
    assert (S2 := packs_app 16 16 m _ _ p (p + 16) _ _ [u0] [u1] ltac:(lia) ltac:(lia) eq_refl
      S1 (packs_vst1q _ (p + 16) u1)).
    assert (S3 := packs_app 32 16 m _ _ p (p + 32) _ _ [u0; u1] [u2] ltac:(lia) ltac:(lia) eq_refl
      S2 (packs_vst1q _ (p + 32) u2)).
    assert (S4 := packs_app 48 16 m _ _ p (p + 48) _ _ [u0; u1; u2] [u3] ltac:(lia) ltac:(lia) eq_refl
      S3 (packs_vst1q _ (p + 48) u3)).
    assert (S5 := packs_app 64 16 m _ _ p (p + 64) _ _ [u0; u1; u2; u3] [u4] ltac:(lia) ltac:(lia) eq_refl
      S4 (packs_vst1q _ (p + 64) u4)).
    assert (S6 := packs_app 80 16 m _ _ p (p + 80) _ _ [u0; u1; u2; u3; u4] [u5] ltac:(lia) ltac:(lia)
      eq_refl S5 (packs_vst1q _ (p + 80) u5)).
    assert (S7 := packs_app 96 16 m _ _ p (p + 96) _ _ [u0; u1; u2; u3; u4; u5] [u6] ltac:(lia)
      ltac:(lia) eq_refl S6 (packs_vst1q _ (p + 96) u6)).
    exact (packs_app 112 16 m _ _ p (p + 112) _ _ [u0; u1; u2; u3; u4; u5; u6] [u7] ltac:(lia)
      ltac:(lia) eq_refl S7 (packs_vst1q _ (p + 112) u7)).
Qed.

(** ** Signed values *)
Lemma shifted_below : forall nbit buf o, 1 <= nbit <= 8 ->
  (forall i, 0 <= i < 16 -> fits nbit (buf (o + i))) -> below (2 ^ nbit) (shifted nbit (vld buf o)).
Proof.
  intros nbit buf o W H i Hi. specialize (H i Hi). unfold fits in H.
  unfold shifted, vld, u8, s8.
  widths nbit W; cbn in H; cbn - [Z.modulo Z.add];
    Z.to_euclidean_division_equations; lia.
Qed.

Lemma unshift_shift : forall nbit x, 1 <= nbit <= 8 -> fits nbit x ->
  unshifted nbit (fun _ => shifted nbit (fun _ => x) 0) 0 = x.
Proof.
  intros nbit x W H. unfold fits in H. unfold shifted, unshifted, u8, s8.
  widths nbit W; cbn in H; cbn - [Z.modulo Z.add];
    Z.to_euclidean_division_equations; lia.
Qed.

Lemma stored_lanes : forall nbit buf vs (us : list vec) offs, 1 <= nbit <= 8 ->
  vs = map (fun o => shifted nbit (vld buf (16 * Z.of_nat o))) offs ->
  offs = seq 0 (length offs) ->
  (forall i, 0 <= i < 16 * Z.of_nat (length offs) -> fits nbit (buf i)) ->
  lanes_of us vs ->
  forall i, 0 <= i < 16 * Z.of_nat (length offs) -> stored (map (unshifted nbit) us) i = buf i.
Proof.
  intros nbit buf vs us offs W -> E H (L & R) i Hi. unfold stored.
  rewrite map_length in L.
  assert (Q := Z.div_mod i 16 ltac:(lia)). assert (M := Z.mod_pos_bound i 16 ltac:(lia)).
  set (j := Z.to_nat (i / 16)).
  assert (J : (j < length us)%nat) by (unfold j; lia).
  assert (JZ : Z.of_nat j = i / 16) by (unfold j; rewrite Z2Nat.id; lia).
  rewrite nth_indep with (d' := unshifted nbit (vdup 0)) by (rewrite map_length; exact J).
  rewrite map_nth. specialize (R j (i mod 16) J M).
  assert (X : nth j us (vdup 0) (i mod 16) = shifted nbit (vld buf (16 * Z.of_nat j)) (i mod 16)).
  { rewrite R.
    rewrite nth_indep with (d' := shifted nbit (vld buf (16 * Z.of_nat 0))) by (rewrite map_length; lia).
    rewrite (map_nth (fun o => shifted nbit (vld buf (16 * Z.of_nat o))) offs 0%nat j).
    rewrite E, seq_nth by lia. reflexivity. }
  assert (U : unshifted nbit (nth j us (vdup 0)) (i mod 16)
    = unshifted nbit (fun _ => nth j us (vdup 0) (i mod 16)) 0).
  { unfold unshifted. destruct (nbit <? 8); reflexivity. }
  rewrite U, X.
  assert (V : shifted nbit (vld buf (16 * Z.of_nat j)) (i mod 16)
    = shifted nbit (fun _ => buf i) 0).
  { unfold shifted, vld. destruct (nbit <? 8); cbv beta;
      replace (16 * Z.of_nat j + i mod 16) with i by lia; reflexivity. }
  rewrite V. apply unshift_shift; [exact W|]. apply H. lia.
Qed.

Theorem buffer_round : forall nbit count m p buf, 1 <= nbit <= 8 ->
  count = 32 \/ count = 64 \/ count = 128 ->
  (forall i, 0 <= i < count -> fits nbit (buf i)) ->
  only_changes m (pack_buffer nbit count m p buf) p (nbit * count / 8) /\
  forall m', same_bytes (pack_buffer nbit count m p buf) m' p (nbit * count / 8) ->
  forall i, 0 <= i < count -> unpack_buffer nbit count m' p i = buf i.
Proof.
  intros nbit count m p buf W C H.
  assert (SB : forall o, 0 <= o -> o + 16 <= count -> below (2 ^ nbit) (shifted nbit (vld buf o))).
  { intros o H1 H2. apply shifted_below; [exact W|]. intros i Hi. apply H. lia. }
  destruct C as [->|[->| ->]]; unfold pack_buffer, unpack_buffer;
    repeat match goal with |- context [Z.eqb ?a ?b] =>
      let v := eval compute in (Z.eqb a b) in change (Z.eqb a b) with v end; cbv iota.
  - replace (nbit * 32 / 8) with (nbit * 4) by (Z.to_euclidean_division_equations; lia).
    destruct (uintx_32 nbit m p _ _ W (SB 0 ltac:(lia) ltac:(lia)) (SB 16 ltac:(lia) ltac:(lia))) as (O & R).
    split; [exact O|]. intros m' A i Hi.
    apply (stored_lanes nbit buf _ _ [0; 1]%nat W eq_refl eq_refl H (R m' A) i Hi).
  - replace (nbit * 64 / 8) with (nbit * 8) by (Z.to_euclidean_division_equations; lia).
    destruct (uintx_64 nbit m p _ _ _ _ W (SB 0 ltac:(lia) ltac:(lia)) (SB 16 ltac:(lia) ltac:(lia))
      (SB 32 ltac:(lia) ltac:(lia)) (SB 48 ltac:(lia) ltac:(lia))) as (O & R).
    split; [exact O|]. intros m' A i Hi.
    apply (stored_lanes nbit buf _ _ [0; 1; 2; 3]%nat W eq_refl eq_refl H (R m' A) i Hi).
  - replace (nbit * 128 / 8) with (nbit * 16) by (Z.to_euclidean_division_equations; lia).
    destruct (uintx_128 nbit m p _ _ _ _ _ _ _ _ W (SB 0 ltac:(lia) ltac:(lia)) (SB 16 ltac:(lia) ltac:(lia))
      (SB 32 ltac:(lia) ltac:(lia)) (SB 48 ltac:(lia) ltac:(lia)) (SB 64 ltac:(lia) ltac:(lia))
      (SB 80 ltac:(lia) ltac:(lia)) (SB 96 ltac:(lia) ltac:(lia)) (SB 112 ltac:(lia) ltac:(lia))) as (O & R).
    split; [exact O|]. intros m' A i Hi.
    apply (stored_lanes nbit buf _ _ [0; 1; 2; 3; 4; 5; 6; 7]%nat W eq_refl eq_refl H (R m' A) i Hi).
Qed.
