(** Round trips of the fixed-width packing functions. *)
From Verif Require Import Base BitsModel BitsSpec BitsProofs.
Open Scope Z_scope.

Ltac at_lane l L :=
  repeat match goal with B : below _ _ |- _ => specialize (B l L) end.
(** The two halves of a register. *)
Ltac at_lanes l L :=
  repeat match goal with B : below _ _ |- _ =>
    let B' := fresh "B" in
    pose proof (B l ltac:(lia)) as B'; specialize (B (l + 8) ltac:(lia)) end.
Ltac pick j Hj :=
  repeat (destruct j as [|j]; [|]); cbn [length app] in Hj; try lia; cbn [nth app].
Ltac halves l L :=
  regs; cbv beta delta [vcombine];
  replace (l <? 8) with true by (symmetry; lia); cbv iota; regs.
Ltac halves' l L :=
  regs; cbv beta delta [vcombine];
  replace (l + 8 <? 8) with false by (symmetry; lia); cbv iota;
  replace (l + 8 - 8) with l by lia; regs.

Lemma pack64_1 : forall m p u0 u1 u2 u3 m', below 2 u0 -> below 2 u1 -> below 2 u2 -> below 2 u3 ->
  same_bytes (vec_pack_64_uint1_values m p u0 u1 u2 u3) m' p 8 ->
  lanes_of (vec_unpack_64_uint1_values m' p) [u0; u1; u2; u3].
Proof.
  intros m p u0 u1 u2 u3 m' B0 B1 B2 B3 A.
  split; [reflexivity|]. intros j l Hj L.
  cbv delta [vec_pack_64_uint1_values vec_unpack_64_uint1_values ] beta zeta in *.
  destruct (Z_lt_ge_dec l 8) as [L8|L8].
  - assert (0 <= l < 8) as L' by lia. at_lanes l L'.
    destruct j as [|[|[|[|j]]]]; [..|cbn in Hj; lia]; cbn [nth app]; try halves l L; regs;
      unmem m' A l; regs.
    all: bitwise.
  - assert (exists l', l = l' + 8 /\ 0 <= l' < 8) as (l' & -> & L') by (exists (l - 8); lia).
    clear L L8. at_lanes l' L'.
    destruct j as [|[|[|[|j]]]]; [..|cbn in Hj; lia]; cbn [nth app]; try halves' l' L'; regs;
      unmem m' A l'; regs.
    all: bitwise.
Qed.

Lemma pack128_1 : forall m p u0 u1 u2 u3 u4 u5 u6 u7 m', below 2 u0 -> below 2 u1 -> below 2 u2 -> below 2 u3 -> below 2 u4 -> below 2 u5 -> below 2 u6 -> below 2 u7 ->
  same_bytes (vec_pack_128_uint1_values m p u0 u1 u2 u3 u4 u5 u6 u7) m' p 16 ->
  lanes_of (vec_unpack_128_uint1_values m' p) [u0; u1; u2; u3; u4; u5; u6; u7].
Proof.
  intros m p u0 u1 u2 u3 u4 u5 u6 u7 m' B0 B1 B2 B3 B4 B5 B6 B7 A.
  split; [reflexivity|]. intros j l Hj L.
  cbv delta [vec_pack_128_uint1_values vec_unpack_128_uint1_values ] beta zeta in *.
  at_lane l L.
  destruct j as [|[|[|[|[|[|[|[|j]]]]]]]]; [..|cbn in Hj; lia]; cbn [nth app]; regs; unmem m' A l; regs.
  all: bitwise.
Qed.

Lemma pack64_2 : forall m p u0 u1 u2 u3 m', below 4 u0 -> below 4 u1 -> below 4 u2 -> below 4 u3 ->
  same_bytes (vec_pack_64_uint2_values m p u0 u1 u2 u3) m' p 16 ->
  lanes_of (vec_unpack_uint2_values m' p) [u0; u1; u2; u3].
Proof.
  intros m p u0 u1 u2 u3 m' B0 B1 B2 B3 A.
  split; [reflexivity|]. intros j l Hj L.
  cbv delta [vec_pack_64_uint2_values vec_unpack_uint2_values vec_pack_uint2_values] beta zeta in *.
  at_lane l L.
  destruct j as [|[|[|[|j]]]]; [..|cbn in Hj; lia]; cbn [nth app]; regs; unmem m' A l; regs.
  all: bitwise.
Qed.

Lemma pack64_3 : forall m p u0 u1 u2 u3 m', below 8 u0 -> below 8 u1 -> below 8 u2 -> below 8 u3 ->
  same_bytes (vec_pack_64_uint3_values m p u0 u1 u2 u3) m' p 24 ->
  lanes_of (vec_unpack_64_uint3_values m' p) [u0; u1; u2; u3].
Proof.
  intros m p u0 u1 u2 u3 m' B0 B1 B2 B3 A.
  split; [reflexivity|]. intros j l Hj L.
  cbv delta [vec_pack_64_uint3_values vec_unpack_64_uint3_values ] beta zeta in *.
  destruct (Z_lt_ge_dec l 8) as [L8|L8].
  - assert (0 <= l < 8) as L' by lia. at_lanes l L'.
    destruct j as [|[|[|[|j]]]]; [..|cbn in Hj; lia]; cbn [nth app]; try halves l L; regs;
      unmem m' A l; regs.
    all: bitwise.
  - assert (exists l', l = l' + 8 /\ 0 <= l' < 8) as (l' & -> & L') by (exists (l - 8); lia).
    clear L L8. at_lanes l' L'.
    destruct j as [|[|[|[|j]]]]; [..|cbn in Hj; lia]; cbn [nth app]; try halves' l' L'; regs;
      unmem m' A l'; regs.
    all: bitwise.
Qed.

Lemma pack128_3 : forall m p u0 u1 u2 u3 u4 u5 u6 u7 m', below 8 u0 -> below 8 u1 -> below 8 u2 -> below 8 u3 -> below 8 u4 -> below 8 u5 -> below 8 u6 -> below 8 u7 ->
  same_bytes (vec_pack_128_uint3_values m p u0 u1 u2 u3 u4 u5 u6 u7) m' p 48 ->
  lanes_of (vec_unpack_128_uint3_values m' p) [u0; u1; u2; u3; u4; u5; u6; u7].
Proof.
  intros m p u0 u1 u2 u3 u4 u5 u6 u7 m' B0 B1 B2 B3 B4 B5 B6 B7 A.
  split; [reflexivity|]. intros j l Hj L.
  cbv delta [vec_pack_128_uint3_values vec_unpack_128_uint3_values ] beta zeta in *.
  at_lane l L.
  destruct j as [|[|[|[|[|[|[|[|j]]]]]]]]; [..|cbn in Hj; lia]; cbn [nth app]; regs; unmem m' A l; regs.
  all: bitwise.
Qed.

Lemma pack32_4 : forall m p u0 u1 m', below 16 u0 -> below 16 u1 ->
  same_bytes (vec_pack_32_uint4_values m p u0 u1) m' p 16 ->
  lanes_of (vec_unpack_32_uint4_values m' p) [u0; u1].
Proof.
  intros m p u0 u1 m' B0 B1 A.
  split; [reflexivity|]. intros j l Hj L.
  cbv delta [vec_pack_32_uint4_values vec_unpack_32_uint4_values ] beta zeta in *.
  at_lane l L.
  destruct j as [|[|j]]; [..|cbn in Hj; lia]; cbn [nth app]; regs; unmem m' A l; regs.
  all: bitwise.
Qed.

Lemma pack64_5 : forall m p u0 u1 u2 u3 m', below 32 u0 -> below 32 u1 -> below 32 u2 -> below 32 u3 ->
  same_bytes (vec_pack_64_uint5_values m p u0 u1 u2 u3) m' p 40 ->
  lanes_of (vec_unpack_64_uint5_values m' p) [u0; u1; u2; u3].
Proof.
  intros m p u0 u1 u2 u3 m' B0 B1 B2 B3 A.
  split; [reflexivity|]. intros j l Hj L.
  cbv delta [vec_pack_64_uint5_values vec_unpack_64_uint5_values ] beta zeta in *.
  destruct (Z_lt_ge_dec l 8) as [L8|L8].
  - assert (0 <= l < 8) as L' by lia. at_lanes l L'.
    destruct j as [|[|[|[|j]]]]; [..|cbn in Hj; lia]; cbn [nth app]; try halves l L; regs;
      unmem m' A l; regs.
    all: bitwise.
  - assert (exists l', l = l' + 8 /\ 0 <= l' < 8) as (l' & -> & L') by (exists (l - 8); lia).
    clear L L8. at_lanes l' L'.
    destruct j as [|[|[|[|j]]]]; [..|cbn in Hj; lia]; cbn [nth app]; try halves' l' L'; regs;
      unmem m' A l'; regs.
    all: bitwise.
Qed.

Lemma pack128_5 : forall m p u0 u1 u2 u3 u4 u5 u6 u7 m', below 32 u0 -> below 32 u1 -> below 32 u2 -> below 32 u3 -> below 32 u4 -> below 32 u5 -> below 32 u6 -> below 32 u7 ->
  same_bytes (vec_pack_128_uint5_values m p u0 u1 u2 u3 u4 u5 u6 u7) m' p 80 ->
  lanes_of (vec_unpack_128_uint5_values m' p) [u0; u1; u2; u3; u4; u5; u6; u7].
Proof.
  intros m p u0 u1 u2 u3 u4 u5 u6 u7 m' B0 B1 B2 B3 B4 B5 B6 B7 A.
  split; [reflexivity|]. intros j l Hj L.
  cbv delta [vec_pack_128_uint5_values vec_unpack_128_uint5_values ] beta zeta in *.
  at_lane l L.
  destruct j as [|[|[|[|[|[|[|[|j]]]]]]]]; [..|cbn in Hj; lia]; cbn [nth app]; regs; unmem m' A l; regs.
  all: bitwise.
Qed.

Lemma pack32_6 : forall m p u0 u1 m', below 64 u0 -> below 64 u1 ->
  same_bytes (vec_pack_32_uint6_values m p u0 u1) m' p 24 ->
  lanes_of (vec_unpack_32_uint6_values m' p) [u0; u1].
Proof.
  intros m p u0 u1 m' B0 B1 A.
  split; [reflexivity|]. intros j l Hj L.
  cbv delta [vec_pack_32_uint6_values vec_unpack_32_uint6_values ] beta zeta in *.
  destruct (Z_lt_ge_dec l 8) as [L8|L8].
  - assert (0 <= l < 8) as L' by lia. at_lanes l L'.
    destruct j as [|[|j]]; [..|cbn in Hj; lia]; cbn [nth app]; try halves l L; regs;
      unmem m' A l; regs.
    all: bitwise.
  - assert (exists l', l = l' + 8 /\ 0 <= l' < 8) as (l' & -> & L') by (exists (l - 8); lia).
    clear L L8. at_lanes l' L'.
    destruct j as [|[|j]]; [..|cbn in Hj; lia]; cbn [nth app]; try halves' l' L'; regs;
      unmem m' A l'; regs.
    all: bitwise.
Qed.

Lemma pack64_6 : forall m p u0 u1 u2 u3 m', below 64 u0 -> below 64 u1 -> below 64 u2 -> below 64 u3 ->
  same_bytes (vec_pack_64_uint6_values m p u0 u1 u2 u3) m' p 48 ->
  lanes_of (vec_unpack_64_uint6_values m' p) [u0; u1; u2; u3].
Proof.
  intros m p u0 u1 u2 u3 m' B0 B1 B2 B3 A.
  split; [reflexivity|]. intros j l Hj L.
  cbv delta [vec_pack_64_uint6_values vec_unpack_64_uint6_values ] beta zeta in *.
  at_lane l L.
  destruct j as [|[|[|[|j]]]]; [..|cbn in Hj; lia]; cbn [nth app]; regs; unmem m' A l; regs.
  all: bitwise.
Qed.

Lemma pack64_7 : forall m p u0 u1 u2 u3 m', below 128 u0 -> below 128 u1 -> below 128 u2 -> below 128 u3 ->
  same_bytes (vec_pack_64_uint7_values m p u0 u1 u2 u3) m' p 56 ->
  lanes_of (vec_unpack_64_uint7_values m' p) [u0; u1; u2; u3].
Proof.
  intros m p u0 u1 u2 u3 m' B0 B1 B2 B3 A.
  split; [reflexivity|]. intros j l Hj L.
  cbv delta [vec_pack_64_uint7_values vec_unpack_64_uint7_values ] beta zeta in *.
  destruct (Z_lt_ge_dec l 8) as [L8|L8].
  - assert (0 <= l < 8) as L' by lia. at_lanes l L'.
    destruct j as [|[|[|[|j]]]]; [..|cbn in Hj; lia]; cbn [nth app]; try halves l L; regs;
      unmem m' A l; regs.
    all: bitwise.
  - assert (exists l', l = l' + 8 /\ 0 <= l' < 8) as (l' & -> & L') by (exists (l - 8); lia).
    clear L L8. at_lanes l' L'.
    destruct j as [|[|[|[|j]]]]; [..|cbn in Hj; lia]; cbn [nth app]; try halves' l' L'; regs;
      unmem m' A l'; regs.
    all: bitwise.
Qed.

Lemma pack128_7 : forall m p u0 u1 u2 u3 u4 u5 u6 u7 m', below 128 u0 -> below 128 u1 -> below 128 u2 -> below 128 u3 -> below 128 u4 -> below 128 u5 -> below 128 u6 -> below 128 u7 ->
  same_bytes (vec_pack_128_uint7_values m p u0 u1 u2 u3 u4 u5 u6 u7) m' p 112 ->
  lanes_of (vec_unpack_128_uint7_values m' p) [u0; u1; u2; u3; u4; u5; u6; u7].
Proof.
  intros m p u0 u1 u2 u3 u4 u5 u6 u7 m' B0 B1 B2 B3 B4 B5 B6 B7 A.
  split; [reflexivity|]. intros j l Hj L.
  cbv delta [vec_pack_128_uint7_values vec_unpack_128_uint7_values ] beta zeta in *.
  at_lane l L.
  destruct j as [|[|[|[|[|[|[|[|j]]]]]]]]; [..|cbn in Hj; lia]; cbn [nth app]; regs; unmem m' A l; regs.
  all: bitwise.
Qed.
