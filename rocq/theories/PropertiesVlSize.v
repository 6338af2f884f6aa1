(** Properties of the image size chosen for Qwen2-VL: C105. *)
From Coq Require Import Reals Lra.
From Flocq Require Import Core.
From Verif Require Import Base DTypeModel QuantModel QuantFloat VlSizeModel VlSize VlSize2 VlSize3.
Local Open Scope Z_scope.

(** ** C105: the size of the resized image *)
(** Partial: images up to 46000 x 46000, limits at least as far apart as 17 min <= max, 156800 <= max. *)
Theorem C105_size_partial : forall h w minp maxp,
  1 <= h <= 46000 -> 1 <= w <= 46000 -> Z.max h w <= 200 * Z.min h w ->
  784 <= minp -> 17 * minp <= maxp -> 156800 <= maxp <= 2147483647 ->
  exists h' w', smart_resize h w 28 minp maxp = ROk (h', w') /\ (28 | h') /\ (28 | w') /\ 28 <= h' /\ 28 <= w' /\ minp <= h' * w' <= maxp.
Proof.
  intros h w minp maxp Hh Hw Hr Hmin H17 Hmax. unfold smart_resize. rewrite not_long by lia.
  destruct (round_ok h ltac:(lia)) as (r & Er & Hr0 & Br). destruct (round_ok w ltac:(lia)) as (s & Es & Hs0 & Bs).
  rewrite Er, Es. cbn [rbind].
  assert (Bp : 0 <= r * 28 * (s * 28) <= 2147483647).
  { split; [apply Z.mul_nonneg_nonneg; lia|]. apply Z.le_trans with (46014 * 46014); [apply Z.mul_le_mono_nonneg; lia|lia]. }
  rewrite int_ok by lia. cbn [rbind]. destruct (maxp <? r * 28 * (s * 28)) eqn:C1.
  - destruct (down_ok h w maxp Hh Hw ltac:(lia) ltac:(lia) Hmax minp Hmin ltac:(lia)) as (n & m & En & Em & Hn & Hm & B).
    cbv zeta in En, Em. cbv zeta. rewrite En. cbn [rbind]. rewrite Em. cbn [rbind]. exists (n * 28), (m * 28).
    split; [reflexivity|]. split; [exists n; reflexivity|]. split; [exists m; reflexivity|]. lia.
  - destruct (r * 28 * (s * 28) <? minp) eqn:C2.
    + rewrite int_ok by nia. cbn [rbind].
      destruct (up_ok h w minp Hh Hw ltac:(lia) ltac:(lia) ltac:(lia) maxp H17) as (n & m & En & Em & Hn & Hm & B).
      cbv zeta in En, Em. cbv zeta. rewrite En. cbn [rbind]. rewrite Em. cbn [rbind]. exists (n * 28), (m * 28).
      split; [reflexivity|]. split; [exists n; reflexivity|]. split; [exists m; reflexivity|]. lia.
    + exists (r * 28), (s * 28). assert (r <> 0) by (intros ->; lia). assert (s <> 0) by (intros ->; lia).
      split; [reflexivity|]. split; [exists r; reflexivity|]. split; [exists s; reflexivity|]. lia.
Qed.
(** Exactly the images longer than 200 : 1 are refused. *)
Theorem C105_refused : forall h w factor minp maxp, 1 <= h <= 2147483647 -> 1 <= w <= 2147483647 ->
  200 * Z.min h w < Z.max h w -> smart_resize h w factor minp maxp = RAbort.
Proof. intros. unfold smart_resize. rewrite is_long by lia. reflexivity. Qed.
(** A size near multiples of 28 within the limits moves by at most half a block; multiples stay. *)
Theorem C105_keeps : forall h w minp maxp h' w', 1 <= h <= 46000 -> 1 <= w <= 46000 -> Z.max h w <= 200 * Z.min h w ->
  (28 | h') -> (28 | w') -> Z.abs (h' - h) < 14 -> Z.abs (w' - w) < 14 -> minp <= h' * w' <= maxp ->
  smart_resize h w 28 minp maxp = ROk (h', w').
Proof.
  intros h w minp maxp h' w' Hh Hw Hr [n Dn] [m Dm] Dh Dw B. unfold smart_resize. rewrite not_long by lia.
  destruct (round_ok h ltac:(lia)) as (r & Er & Hr0 & Br). destruct (round_ok w ltac:(lia)) as (s & Es & Hs0 & Bs).
  assert (E1 : r = n) by lia. assert (E2 : s = m) by lia. subst r s. rewrite Er, Es. cbn [rbind]. rewrite <- Dn, <- Dm.
  assert (Bp : 0 <= h' * w' <= 2147483647).
  { split; [apply Z.mul_nonneg_nonneg; lia|]. apply Z.le_trans with (46014 * 46014); [apply Z.mul_le_mono_nonneg; lia|lia]. }
  rewrite int_ok by lia. cbn [rbind]. replace (maxp <? h' * w') with false by lia. replace (h' * w' <? minp) with false by lia. reflexivity.
Qed.
(** An area of more than 2^31 pixels overflows an int, whatever the limits. *)
Theorem C105_overflow_refuted : forall minp maxp, smart_resize 46368 46368 28 minp maxp = RUB.
Proof.
  intros. unfold smart_resize. rewrite not_long by lia. destruct (round_ok 46368 ltac:(lia)) as (r & Er & Hr0 & Br).
  assert (r = 1656) by lia. subst r. rewrite Er. cbn [rbind]. rewrite int_bad by reflexivity. reflexivity.
Qed.
(** A small limit is not kept: 28 x 5488 with at most 784 pixels gives 28 x 392 = 10976 pixels. *)
Theorem C105_small_limit_refuted : smart_resize 28 5488 28 196 784 = ROk (28, 392) /\ 784 < 28 * 392.
Proof.
  split; [|lia]. unfold smart_resize. rewrite not_long by lia.
  destruct (round_ok 28 ltac:(lia)) as (r & Er & Hr0 & Br). destruct (round_ok 5488 ltac:(lia)) as (s & Es & Hs0 & Bs).
  assert (r = 1) by lia. assert (s = 196) by lia. subst r s. rewrite Er, Es. cbn [rbind Z.mul Pos.mul]. rewrite int_ok by lia. cbn [rbind].
  change (784 <? 1 * 28 * (196 * 28)) with true. cbv iota zeta.
  assert (Eb : d64 (sqrt (d64 (d64 (28 * 5488) / 784))) = 14%R).
  { rewrite <- mult_IZR. rewrite d64_int by (cbn; lia). replace (IZR (28 * 5488) / 784)%R with 196%R by (rewrite mult_IZR; lra). rewrite (d64_int 196) by (cbn; lia).
    replace 196%R with (14 * 14)%R by lra. rewrite sqrt_square by lra. apply (d64_int 14). cbn. lia. }
  rewrite Eb. unfold shrink.
  replace (28 / 14)%R with 2%R by lra. replace (5488 / 14)%R with 392%R by lra. rewrite (d64_int 2) by (cbn; lia). rewrite (d64_int 392) by (cbn; lia).
  rewrite !Zfloor_IZR. reflexivity.
Qed.
(** The library's defaults. *)
Example C105_example : forall h w, 1 <= h <= 46000 -> 1 <= w <= 46000 -> Z.max h w <= 200 * Z.min h w ->
  exists h' w', smart_resize h w 28 (56 * 56) (14 * 14 * 4 * 1280) = ROk (h', w') /\ (28 | h') /\ (28 | w') /\ 28 <= h' /\ 28 <= w' /\ 56 * 56 <= h' * w' <= 14 * 14 * 4 * 1280.
Proof. intros. apply C105_size_partial; lia. Qed.
Lemma C105_hypotheses : 1 <= 1080 <= 46000 /\ Z.max 1080 1920 <= 200 * Z.min 1080 1920 /\ 784 <= 56 * 56 /\ 17 * (56 * 56) <= 14 * 14 * 4 * 1280 /\
  smart_resize 1000 500 28 (56 * 56) (14 * 14 * 4 * 1280) = ROk (1008, 504).
Proof. do 4 (split; [lia|]). apply C105_keeps; try lia; [exists 36|exists 18]; reflexivity. Qed.

Print Assumptions C105_size_partial.
Print Assumptions C105_refused.
Print Assumptions C105_keeps.
Print Assumptions C105_overflow_refuted.
Print Assumptions C105_small_limit_refuted.
