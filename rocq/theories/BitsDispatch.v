(** The 8-value functions and the dispatch on the width. *)
From Verif Require Import Base BitsModel BitsSpec BitsProofs BitsPack.
Open Scope Z_scope.

Ltac one_of_8 i H :=
  assert (i = 0 \/ i = 1 \/ i = 2 \/ i = 3 \/ i = 4 \/ i = 5 \/ i = 6 \/ i = 7) as KI by lia;
  clear H; destruct KI as [->|[->|[->|[->|[->|[->|[->| ->]]]]]]].

Definition below8 (b : Z) (v : vec) : Prop := forall i, 0 <= i < 8 -> 0 <= v i < b.

Lemma eight : forall b v, below8 b v ->
  (0 <= v 0 < b /\ 0 <= v 1 < b /\ 0 <= v 2 < b /\ 0 <= v 3 < b) /\
  (0 <= v 4 < b /\ 0 <= v 5 < b /\ 0 <= v 6 < b /\ 0 <= v 7 < b).
Proof. intros b v H. repeat split; apply H; lia. Qed.

Lemma pack8_1 : forall m p u m', below8 2 u ->
  same_bytes (pack_8_uint1_values m p u) m' p 1 ->
  forall i, 0 <= i < 8 -> unpack_8_uint1_values m' p i = u i.
Proof.
  intros m p u m' B A i Hi. apply eight in B.
  destruct B as ((B0 & B1 & B2 & B3) & B4 & B5 & B6 & B7).
  unfold unpack_8_uint1_values, pack_8_uint1_values in *.
  cbn [fold_left] in A.
  one_of_8 i Hi; unmem m' A 0;
  repeat match goal with |- context [7 - ?k] => let e := lit (7 - k) in change (7 - k) with e end;
  bitwise.
Qed.

Ltac unlane :=
  match goal with |- context [lanes ?l ?i] =>
    let n := eval compute in (Z.to_nat i) in
    change (lanes l i) with (nth n l 0); cbn [nth] end.

Lemma pack8_3 : forall m p u m', below8 8 u ->
  same_bytes (pack_8_uint3_values m p u) m' p 3 ->
  forall i, 0 <= i < 8 -> unpack_8_uint3_values m' p i = u i.
Proof.
  intros m p u m' B A i Hi. apply eight in B.
  destruct B as ((B0 & B1 & B2 & B3) & B4 & B5 & B6 & B7).
  unfold unpack_8_uint3_values, pack_8_uint3_values in *. cbv zeta in *.
  one_of_8 i Hi; unlane; unmem m' A 0; bitwise.
Qed.

Lemma pack8_5 : forall m p u m', below8 32 u ->
  same_bytes (pack_8_uint5_values m p u) m' p 5 ->
  forall i, 0 <= i < 8 -> unpack_8_uint5_values m' p i = u i.
Proof.
  intros m p u m' B A i Hi. apply eight in B.
  destruct B as ((B0 & B1 & B2 & B3) & B4 & B5 & B6 & B7).
  unfold unpack_8_uint5_values, pack_8_uint5_values in *. cbv zeta in *.
  one_of_8 i Hi; unlane; unmem m' A 0; bitwise.
Qed.

(** The top bit of a byte of the 7-bit packing is a bit of the last value. *)
Lemma top_bit : forall x (c : bool), 0 <= x < 128 ->
  Z.land (Z.lor (Z.land x 127) (u8 (Z.shiftl (if c then 0 else 255) 7))) 128 =
  if c then 0 else 128.
Proof. intros x [|] H; bitwise. Qed.
Lemma low_bits : forall x (c : bool), 0 <= x < 128 ->
  Z.land (Z.lor (Z.land x 127) (u8 (Z.shiftl (if c then 0 else 255) 7))) 127 = x.
Proof. intros x [|] H; bitwise. Qed.

Definition gathered (x : Z) : Z :=
  u8 (Z.shiftr (if Z.land x 1 =? 0 then 0 else 128) 7 +
      Z.shiftr (if Z.land x 2 =? 0 then 0 else 128) 6 +
      Z.shiftr (if Z.land x 4 =? 0 then 0 else 128) 5 +
      Z.shiftr (if Z.land x 8 =? 0 then 0 else 128) 4 +
      Z.shiftr (if Z.land x 16 =? 0 then 0 else 128) 3 +
      Z.shiftr (if Z.land x 32 =? 0 then 0 else 128) 2 +
      Z.shiftr (if Z.land x 64 =? 0 then 0 else 128) 1 + 0).
Lemma gathered_all :
  forallb (fun i => gathered (Z.of_nat i) =? Z.of_nat i) (seq 0 128) = true.
Proof. vm_compute. reflexivity. Qed.
Lemma gathered_id : forall x, 0 <= x < 128 -> gathered x = x.
Proof.
  intros x H. pose proof gathered_all as F. rewrite forallb_forall in F.
  specialize (F (Z.to_nat x)). rewrite Z2Nat.id in F by lia.
  apply Z.eqb_eq, F. apply in_seq. lia.
Qed.

Lemma pack8_7 : forall m p u m', below8 128 u ->
  same_bytes (pack_8_uint7_values m p u) m' p 7 ->
  forall i, 0 <= i < 8 -> unpack_8_uint7_values m' p i = u i.
Proof.
  intros m p u m' B A i Hi. apply eight in B.
  destruct B as ((B0 & B1 & B2 & B3) & B4 & B5 & B6 & B7).
  unfold unpack_8_uint7_values, pack_8_uint7_values in *. cbv zeta in *.
  assert (R : forall j c, 0 <= j < 7 -> lanes [1; 2; 4; 8; 16; 32; 64; 128] j = c ->
     0 <= u j < 128 ->
     m' (p + j) = Z.lor (Z.land (u j) 127) (u8 (Z.shiftl (if Z.land (u 7) c =? 0 then 0 else 255) 7))).
  { intros j c Hj <- _.
    assert (j = 0 \/ j = 1 \/ j = 2 \/ j = 3 \/ j = 4 \/ j = 5 \/ j = 6) as KI by lia.
    destruct KI as [->|[->|[->|[->|[->|[->| ->]]]]]];
    try replace (p + 0) with p by lia;
    unmem m' A 0; unfold vsli_n, vtst, vdup; reflexivity. }
  pose proof (R 0 1 ltac:(lia) eq_refl B0) as R0. replace (p + 0) with p in R0 by lia.
  pose proof (R 1 2 ltac:(lia) eq_refl B1) as R1.
  pose proof (R 2 4 ltac:(lia) eq_refl B2) as R2.
  pose proof (R 3 8 ltac:(lia) eq_refl B3) as R3.
  pose proof (R 4 16 ltac:(lia) eq_refl B4) as R4.
  pose proof (R 5 32 ltac:(lia) eq_refl B5) as R5.
  pose proof (R 6 64 ltac:(lia) eq_refl B6) as R6.
  clear R A.
  rewrite R0, R1, R2, R3, R4, R5, R6.
  one_of_8 i Hi; unlane; unfold vand, vdup.
  1-7: unlane; apply low_bits; assumption.
  unfold vaddv8, vshl.
  repeat match goal with |- context [0 <=? lanes ?l ?i] =>
    let v := eval compute in (0 <=? lanes l i) in
    change (0 <=? lanes l i) with v; cbv iota end.
  repeat match goal with |- context [- lanes [-7; -6; -5; -4; -3; -2; -1; 0] ?i] =>
    let v := eval compute in (- lanes [-7; -6; -5; -4; -3; -2; -1; 0] i) in
    change (- lanes [-7; -6; -5; -4; -3; -2; -1; 0] i) with v end.
  repeat unlane.
  rewrite !top_bit by assumption.
  change (u8 (Z.shiftl (Z.land 0 128) 0)) with 0.
  apply (gathered_id (u 7) B7).
Qed.

(** 32 two-bit values: the four halves. *)
Lemma pack32_2 : forall m p u0 u1 m', below 4 u0 -> below 4 u1 ->
  same_bytes (vec_pack_32_uintx_values 2 m p u0 u1) m' p 8 ->
  lanes_of (vec_unpack_32_uintx_values 2 m' p) [u0; u1].
Proof.
  intros m p u0 u1 m' B0 B1 A. split; [reflexivity|]. intros j l Hj L.
  cbn [vec_unpack_32_uintx_values vec_pack_32_uintx_values] in *.
  cbv delta [vec_unpack_uint2_values vec_pack_32_uint2_values vec_pack_uint2_values] beta zeta iota in *.
  destruct (Z_lt_ge_dec l 8) as [L8|L8].
  - assert (0 <= l < 8) as L' by lia. at_lanes l L'.
    destruct j as [|[|j]]; [..|cbn in Hj; lia]; cbn [nth app]; halves l L; regs;
      unmem m' A l; regs.
    all: bitwise.
  - assert (exists l', l = l' + 8 /\ 0 <= l' < 8) as (l' & -> & L') by (exists (l - 8); lia).
    clear L L8. at_lanes l' L'.
    destruct j as [|[|j]]; [..|cbn in Hj; lia]; cbn [nth app]; halves' l' L'; regs;
      unmem m' A l'; regs.
    all: bitwise.
Qed.

(** ** What the packing functions change *)
Ltac footprint :=
  unfold put, vst1q, vst1;
  repeat match goal with
  | |- only_changes ?m (vst _ ?M _ _) _ _ =>
      apply (only_trans m M); [|apply vst_only; lia]
  end; apply only_refl.

Lemma foot8_1 : forall m p u, only_changes m (pack_8_uint1_values m p u) p 1.
Proof. intros. unfold pack_8_uint1_values. footprint. Qed.
Lemma foot8_3 : forall m p u, only_changes m (pack_8_uint3_values m p u) p 3.
Proof. intros. unfold pack_8_uint3_values. cbv zeta. footprint. Qed.
Lemma foot8_5 : forall m p u, only_changes m (pack_8_uint5_values m p u) p 5.
Proof. intros. unfold pack_8_uint5_values. cbv zeta. footprint. Qed.
Lemma foot8_7 : forall m p u, only_changes m (pack_8_uint7_values m p u) p 7.
Proof. intros. unfold pack_8_uint7_values. cbv zeta. footprint. Qed.

(** ** Sequences *)
Lemma same_before : forall M1 M2 m' p L q len l1 o,
  same_bytes M2 m' p L -> only_changes M1 M2 q len ->
  p <= o -> o + l1 <= p + L -> o + l1 <= q -> same_bytes M1 m' o l1.
Proof.
  intros M1 M2 m' p L q len l1 o S O H1 H2 H3 a Ha.
  rewrite (S a) by lia. apply O. lia.
Qed.
Lemma same_part : forall M m' p L o l, same_bytes M m' p L -> p <= o -> o + l <= p + L ->
  same_bytes M m' o l.
Proof. intros M m' p L o l S H1 H2 a Ha. apply S. lia. Qed.

Lemma lanes_app : forall us vs us' vs', lanes_of us vs -> lanes_of us' vs' ->
  lanes_of (us ++ us') (vs ++ vs').
Proof.
  intros us vs us' vs' (L1 & H1) (L2 & H2). split; [rewrite !app_length; lia|].
  intros j i Hj Hi. rewrite app_length in Hj.
  destruct (Nat.lt_ge_cases j (length us)).
  - rewrite !app_nth1 by lia. apply H1; lia.
  - rewrite !app_nth2 by lia. rewrite <- L1. apply H2; lia.
Qed.

Section ByEight.
  Variables (f : mem -> Z -> vec -> mem) (g : mem -> Z -> vec) (bytes b : Z).
  Hypothesis (P : 0 < bytes).
  Hypothesis (F : forall m p u, only_changes m (f m p u) p bytes).
  Hypothesis (R : forall m p u m', below8 b u -> same_bytes (f m p u) m' p bytes ->
    forall i, 0 <= i < 8 -> g m' p i = u i).

  Lemma by_8_foot : forall m p u0 u1,
    only_changes m (pack_by_8 f bytes m p u0 u1) p (4 * bytes).
  Proof using P F.
    clear R g. intros. unfold pack_by_8. cbv zeta.
    eapply only_trans; [|eapply only_wider; [apply F|lia|lia]].
    eapply only_trans; [|eapply only_wider; [apply F|lia|lia]].
    eapply only_trans; [|eapply only_wider; [apply F|lia|lia]].
    eapply only_wider; [apply F|lia|lia].
  Qed.

  Lemma by_8_round : forall m p u0 u1 m', below b u0 -> below b u1 ->
    same_bytes (pack_by_8 f bytes m p u0 u1) m' p (4 * bytes) ->
    lanes_of (unpack_by_8 g bytes m' p) [u0; u1].
  Proof.
    intros m p u0 u1 m' B0 B1 A. unfold pack_by_8 in A. cbv zeta in A.
    set (buf := cat16 u0 u1) in *.
    assert (BB : forall o, 0 <= o <= 24 -> below8 b (from buf o)).
    { intros o Ho i Hi. unfold from, buf, cat16.
      destruct (o + i <? 16) eqn:E; [apply B0; lia|apply B1; lia]. }
    set (M1 := f m p buf) in *.
    set (M2 := f M1 (p + bytes) (from buf 8)) in *.
    set (M3 := f M2 (p + 2 * bytes) (from buf 16)) in *.
    set (M4 := f M3 (p + 3 * bytes) (from buf 24)) in *.
    assert (A4 : same_bytes M4 m' (p + 3 * bytes) bytes) by (eapply same_part; [exact A|lia|lia]).
    assert (A3' : same_bytes M3 m' p (3 * bytes)).
    { eapply (same_before M3 M4); [exact A|apply F|lia|lia|lia]. }
    assert (A3 : same_bytes M3 m' (p + 2 * bytes) bytes) by (eapply same_part; [exact A3'|lia|lia]).
    assert (A2' : same_bytes M2 m' p (2 * bytes)).
    { eapply (same_before M2 M3); [exact A3'|apply F|lia|lia|lia]. }
    assert (A2 : same_bytes M2 m' (p + bytes) bytes) by (eapply same_part; [exact A2'|lia|lia]).
    assert (A1 : same_bytes M1 m' p bytes).
    { eapply (same_before M1 M2); [exact A2'|apply F|lia|lia|lia]. }
    assert (X1 := R _ _ _ _ (BB 0 ltac:(lia)) A1).
    assert (X2 := R _ _ _ _ (BB 8 ltac:(lia)) A2).
    assert (X3 := R _ _ _ _ (BB 16 ltac:(lia)) A3).
    assert (X4 := R _ _ _ _ (BB 24 ltac:(lia)) A4).
    assert (G : forall i, 0 <= i < 32 ->
      cat8 (g m' p) (g m' (p + bytes)) (g m' (p + 2 * bytes)) (g m' (p + 3 * bytes)) i = buf i).
    { intros i Hi. unfold cat8.
      destruct (i <? 8) eqn:E1; [rewrite X1 by lia; unfold from; f_equal; lia|].
      destruct (i <? 16) eqn:E2; [rewrite X2 by lia; unfold from; f_equal; lia|].
      destruct (i <? 24) eqn:E3; [rewrite X3 by lia; unfold from; f_equal; lia|].
      rewrite X4 by lia; unfold from; f_equal; lia. }
    split; [reflexivity|]. intros j i Hj Hi. unfold unpack_by_8. cbv zeta.
    destruct j as [|[|j]]; [..|cbn in Hj; lia]; cbn [nth]; unfold from at 1.
    - rewrite G by lia. unfold buf, cat16.
      replace (0 + i <? 16) with true by (symmetry; lia). f_equal; lia.
    - rewrite G by lia. unfold buf, cat16.
      replace (16 + i <? 16) with false by (symmetry; lia). f_equal; lia.
  Qed.
End ByEight.
