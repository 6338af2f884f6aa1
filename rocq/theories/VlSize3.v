(** smartResize: the result. *)
From Coq Require Import Reals Lra.
From Flocq Require Import Core.
From Verif Require Import Base DTypeModel QuantModel QuantFloat VlSizeModel VlSize VlSize2.
Local Open Scope R_scope.

Lemma sqrt_bounds : forall q a b, 0 <= a -> 0 <= b -> a * a <= q <= b * b -> a <= sqrt q <= b.
Proof.
  intros q a b Ha Hb [H1 H2]. rewrite <- (sqrt_square a) by exact Ha. rewrite <- (sqrt_square b) by exact Hb. split; apply sqrt_le_1_alt; assumption.
Qed.
Lemma div_bounds : forall a b lo hi, 0 < b -> lo * b <= a <= hi * b -> lo <= a / b <= hi.
Proof.
  intros a b lo hi Hb [H1 H2]. split; apply Rmult_le_reg_r with b; auto; replace (a / b * b) with a by (field; lra); assumption.
Qed.
(** The shape bound: x y = P up to rounding and ratios at most k give an upper bound of either factor. *)
Lemma square_bound : forall x y k P, 0 < x -> 0 < y -> y <= k * x -> x * y <= P -> y * y <= k * P.
Proof.
  intros x y k P Hx Hy Hr Hp. assert (Hk : 0 < k). { destruct (Rlt_le_dec 0 k) as [L|L]; [exact L|]. exfalso. assert (k * x <= 0) by (rewrite <- (Rmult_0_l x); apply Rmult_le_compat_r; lra). lra. }
  apply Rle_trans with (k * x * y); [apply Rmult_le_compat_r; lra|]. rewrite Rmult_assoc. apply Rmult_le_compat_l; lra.
Qed.
Lemma square_lt : forall y m, 0 <= m -> y * y < m * m -> y < m.
Proof. intros y m Hm H. destruct (Rlt_le_dec y m) as [L|L]; [exact L|]. exfalso. assert (m * m <= y * y) by (apply Rmult_le_compat; lra). lra. Qed.

Section Shrink.
Variables (h w maxp : Z).
Hypothesis Hh : (1 <= h <= 46000)%Z.
Hypothesis Hw : (1 <= w <= 46000)%Z.
Hypothesis Hr1 : (w <= 200 * h)%Z.
Hypothesis Hr2 : (h <= 200 * w)%Z.
Hypothesis Hmax : (156800 <= maxp <= 2147483647)%Z.

Lemma down_ok : forall minp, (784 <= minp)%Z -> (5 * minp <= maxp)%Z ->
  let beta := d64 (sqrt (d64 (d64 (IZR h * IZR w) / IZR maxp))) in
  exists n m, shrink h 28 beta = ROk (n * 28)%Z /\ shrink w 28 beta = ROk (m * 28)%Z /\ (1 <= n)%Z /\ (1 <= m)%Z /\
    (minp <= n * 28 * (m * 28) <= maxp)%Z.
Proof.
  intros minp Hmin H5 beta.
  assert (RH : 1 <= IZR h <= 46000) by (split; apply IZR_le; lia). assert (RW : 1 <= IZR w <= 46000) by (split; apply IZR_le; lia).
  assert (RR1 : IZR w <= 200 * IZR h) by (rewrite <- mult_IZR; apply IZR_le; lia). assert (RR2 : IZR h <= 200 * IZR w) by (rewrite <- mult_IZR; apply IZR_le; lia).
  assert (RM : 156800 <= IZR maxp <= 2147483647) by (split; apply IZR_le; lia).
  assert (R5 : 784 <= IZR minp /\ 5 * IZR minp <= IZR maxp) by (rewrite <- mult_IZR; split; apply IZR_le; lia).
  assert (Eprod : d64 (IZR h * IZR w) = IZR h * IZR w) by (rewrite <- mult_IZR; apply d64_int; nia).
  unfold beta. rewrite Eprod. clear beta Eprod.
  assert (BP : 1 <= IZR h * IZR w <= 2116000000) by (clear - RH RW; nra).
  assert (B0 : / 2147483647 <= IZR h * IZR w / IZR maxp <= 13500) by (apply div_bounds; lra).
  assert (N0 := d64_near (IZR h * IZR w / IZR maxp) ltac:(lra)). set (q := d64 (IZR h * IZR w / IZR maxp)) in *.
  assert (Bq : / 10000000000 <= q <= 14000) by (unfold near, eps in N0; lra).
  assert (Bs : / 100000 <= sqrt q <= 120) by (apply sqrt_bounds; lra).
  assert (N1 := d64_near (sqrt q) ltac:(lra)). set (b := d64 (sqrt q)) in *.
  assert (Bb : / 200000 <= b <= 200) by (unfold near, eps in N1; lra).
  assert (BH : / 200 <= IZR h / b <= 9200000000) by (apply div_bounds; lra).
  assert (BW : / 200 <= IZR w / b <= 9200000000) by (apply div_bounds; lra).
  assert (NX := d64_near (IZR h / b) ltac:(lra)). assert (NY := d64_near (IZR w / b) ltac:(lra)).
  set (x := d64 (IZR h / b)) in *. set (y := d64 (IZR w / b)) in *.
  assert (Px : 0 < x) by (unfold near, eps in NX; lra). assert (Py : 0 < y) by (unfold near, eps in NY; lra).
  assert (Prod := down_product (IZR h) (IZR w) (IZR maxp) q b x y ltac:(lra) ltac:(lra) ltac:(lra) ltac:(lra) ltac:(lra) Px Py N0 N1 NX NY).
  assert (Ryx := down_ratio (IZR h) (IZR w) b x y 200 ltac:(lra) ltac:(lra) ltac:(lra) Px NX NY ltac:(lra) RR1).
  assert (Rxy := down_ratio (IZR w) (IZR h) b y x 200 ltac:(lra) ltac:(lra) ltac:(lra) Py NY NX ltac:(lra) RR2).
  assert (Sy := square_bound x y (200 * (1 + 3 * eps)) (IZR maxp * (1 + 6 * eps)) Px Py Ryx (proj2 Prod)).
  assert (Sx := square_bound y x (200 * (1 + 3 * eps)) (IZR maxp * (1 + 6 * eps)) Py Px Rxy ltac:(rewrite Rmult_comm; exact (proj2 Prod))).
  assert (Big : 156800 * ((1 + 3 * eps) * (1 + 6 * eps)) * IZR maxp < (IZR maxp + 1) * (IZR maxp + 1)).
  { clear - RM. set (M := IZR maxp) in *. clearbody M. apply Rle_lt_trans with (M * ((1 + 3 * eps) * (1 + 6 * eps)) * M).
    - apply Rmult_le_compat_r; [lra|]. apply Rmult_le_compat_r; [unfold eps; lra|lra].
    - replace (M * ((1 + 3 * eps) * (1 + 6 * eps)) * M) with (M * M + M * (M * (9 * eps + 18 * eps * eps))) by ring.
      assert (M * (9 * eps + 18 * eps * eps) <= 1) by (unfold eps; lra).
      assert (M * (M * (9 * eps + 18 * eps * eps)) <= M * 1) by (apply Rmult_le_compat_l; lra). lra. }
  assert (U : forall z, 0 < z -> z * z <= 200 * (1 + 3 * eps) * (IZR maxp * (1 + 6 * eps)) -> 28 * z < IZR maxp + 1).
  { intros z Hz Hzz. apply square_lt; [lra|]. apply Rle_lt_trans with (2 := Big).
    replace (28 * z * (28 * z)) with (784 * (z * z)) by ring.
    replace (156800 * ((1 + 3 * eps) * (1 + 6 * eps)) * IZR maxp) with (784 * (200 * (1 + 3 * eps) * (IZR maxp * (1 + 6 * eps)))) by ring. lra. }
  assert (Uy := U y Py Sy). assert (Ux := U x Px Sx).
  destruct (shrink_ok h b) as (n & En & Hn & Un & Ln); [fold x; lra|]. destruct (shrink_ok w b) as (m & Em & Hm & Um & Lm); [fold y; lra|].
  fold x in Un, Ln. fold y in Um, Lm. exists n, m. split; [exact En|]. split; [exact Em|]. split; [exact Hn|]. split; [exact Hm|].
  assert (PX : 28 <= IZR (n * 28)) by (apply IZR_le; lia). assert (PY : 28 <= IZR (m * 28)) by (apply IZR_le; lia).
  set (X := IZR (n * 28)) in *. set (Y := IZR (m * 28)) in *.
  assert (Lo : x * y <= 4 * (X * Y)). { replace (4 * (X * Y)) with (2 * X * (2 * Y)) by ring. apply Rmult_le_compat; lra. }
  assert (Hi : X * Y < IZR maxp + 1).
  { destruct Un as [Un|[En1 Xs]].
    - destruct Um as [Um|[Em1 Ys]].
      + apply Rle_lt_trans with (x * y); [apply Rmult_le_compat; lra|]. apply Rle_lt_trans with (1 := proj2 Prod). unfold eps. lra.
      + replace Y with 28 by (unfold Y; rewrite Em1; reflexivity). lra.
    - replace X with 28 by (unfold X; rewrite En1; reflexivity). destruct Um as [Um|[Em1 Ys]]; [lra|]. replace Y with 28 by (unfold Y; rewrite Em1; reflexivity). lra. }
  clearbody x y. unfold X, Y in *. rewrite <- mult_IZR in Lo, Hi. split.
  - apply le_IZR. unfold eps in Prod. lra.
  - cut (n * 28 * (m * 28) < maxp + 1)%Z; [lia|]. apply lt_IZR. rewrite plus_IZR. exact Hi.
Qed.
End Shrink.

Section Grow.
Variables (h w minp : Z).
Hypothesis Hh : (1 <= h <= 46000)%Z.
Hypothesis Hw : (1 <= w <= 46000)%Z.
Hypothesis Hr1 : (w <= 200 * h)%Z.
Hypothesis Hr2 : (h <= 200 * w)%Z.
Hypothesis Hmin : (784 <= minp <= 126322567)%Z.

Lemma up_ok : forall maxp, (17 * minp <= maxp)%Z ->
  let beta := d64 (sqrt (d64 (IZR minp / IZR (h * w)))) in
  exists n m, grow h 28 beta = ROk (n * 28)%Z /\ grow w 28 beta = ROk (m * 28)%Z /\ (1 <= n)%Z /\ (1 <= m)%Z /\
    (minp <= n * 28 * (m * 28) <= maxp)%Z.
Proof.
  intros maxp H17 beta.
  assert (RH : 1 <= IZR h <= 46000) by (split; apply IZR_le; lia). assert (RW : 1 <= IZR w <= 46000) by (split; apply IZR_le; lia).
  assert (RR1 : IZR w <= 200 * IZR h) by (rewrite <- mult_IZR; apply IZR_le; lia). assert (RR2 : IZR h <= 200 * IZR w) by (rewrite <- mult_IZR; apply IZR_le; lia).
  assert (RM : 784 <= IZR minp <= 126322567) by (split; apply IZR_le; lia).
  assert (R17 : 17 * IZR minp <= IZR maxp) by (rewrite <- mult_IZR; apply IZR_le; lia).
  unfold beta. rewrite mult_IZR. clear beta.
  assert (BP : 1 <= IZR h * IZR w <= 2116000000) by (clear - RH RW; nra).
  assert (B0 : / 10000000 <= IZR minp / (IZR h * IZR w) <= 2147483647) by (apply div_bounds; lra).
  assert (N0 := d64_near (IZR minp / (IZR h * IZR w)) ltac:(lra)). set (q := d64 (IZR minp / (IZR h * IZR w))) in *.
  assert (Bq : / 100000000 <= q <= 2500000000) by (unfold near, eps in N0; lra).
  assert (Bs : / 10000 <= sqrt q <= 50000) by (apply sqrt_bounds; lra).
  assert (N1 := d64_near (sqrt q) ltac:(lra)). set (b := d64 (sqrt q)) in *.
  assert (Bb : / 20000 <= b <= 60000) by (unfold near, eps in N1; lra).
  assert (BH : / 20000 <= IZR h * b) by (clear - RH Bb; nra). assert (BW : / 20000 <= IZR w * b) by (clear - RW Bb; nra).
  assert (NX := d64_near (IZR h * b) ltac:(lra)). assert (NY := d64_near (IZR w * b) ltac:(lra)).
  set (x := d64 (IZR h * b)) in *. set (y := d64 (IZR w * b)) in *.
  assert (Px : 0 < x) by (unfold near, eps in NX; lra). assert (Py : 0 < y) by (unfold near, eps in NY; lra).
  assert (Prod := up_product (IZR h) (IZR w) (IZR minp) q b x y ltac:(lra) ltac:(lra) ltac:(lra) ltac:(lra) ltac:(lra) Px Py N0 N1 NX NY).
  assert (Ryx := up_ratio (IZR h) (IZR w) b x y 200 ltac:(lra) ltac:(lra) ltac:(lra) Px NX NY ltac:(lra) RR1).
  assert (Rxy := up_ratio (IZR w) (IZR h) b y x 200 ltac:(lra) ltac:(lra) ltac:(lra) Py NY NX ltac:(lra) RR2).
  set (M := IZR minp) in *.
  (* 28 (x + y) <= 15 M *)
  assert (Sum : 28 * (x + y) <= 15 * M).
  { assert (A : 0 <= (201 * x - y) * (201 * y - x)) by (apply Rmult_le_pos; unfold eps in *; lra).
    assert (A' : 201 * (x * x + y * y) <= 40402 * (x * y)) by lra.
    assert (S2 : (28 * (x + y)) * (28 * (x + y)) <= 784 * 204 * (x * y)) by (replace ((28 * (x + y)) * (28 * (x + y))) with (784 * (x * x + y * y) + 1568 * (x * y)) by ring; assert (0 < x * y) by (apply Rmult_lt_0_compat; auto); lra).
    assert (S3 : 784 * 204 * (x * y) <= 205 * (M * M)).
    { assert (C : 784 * (x * y) <= M * (M * (1 + 6 * eps))) by (apply Rmult_le_compat; try lra; apply Rlt_le, Rmult_lt_0_compat; auto).
      assert (0 <= M * M) by (apply Rmult_le_pos; lra). unfold eps in C. lra. }
    destruct (Rle_lt_dec (28 * (x + y)) (15 * M)) as [L|L]; [exact L|]. exfalso.
    assert (D : 15 * M * (15 * M) <= 28 * (x + y) * (28 * (x + y))) by (apply Rmult_le_compat; lra).
    assert (0 < M * M) by (apply Rmult_lt_0_compat; lra). lra. }
  assert (Bx : x <= 1000000000) by (clear - Sum RM Px Py; lra).
  assert (By : y <= 1000000000) by (clear - Sum RM Px Py; lra).
  destruct (grow_ok h b) as (n & En & Hn & Un); [fold x; lra|]. destruct (grow_ok w b) as (m & Em & Hm & Um); [fold y; lra|].
  fold x in Un. fold y in Um. exists n, m. split; [exact En|]. split; [exact Em|]. split; [exact Hn|]. split; [exact Hm|].
  set (X := IZR (n * 28)) in *. set (Y := IZR (m * 28)) in *.
  assert (Lo : x * y <= X * Y) by (apply Rmult_le_compat; lra).
  assert (Hi : X * Y <= (x + 28) * (y + 28)) by (apply Rmult_le_compat; lra).
  assert (Hi2 : (x + 28) * (y + 28) < 17 * M + 1) by (replace ((x + 28) * (y + 28)) with (x * y + 28 * (x + y) + 784) by ring; unfold eps in Prod; lra).
  unfold X, Y in *. rewrite <- mult_IZR in Lo, Hi. split.
  - cut (minp - 1 < n * 28 * (m * 28))%Z; [lia|]. apply lt_IZR. rewrite minus_IZR. fold M. unfold eps in Prod. lra.
  - cut (n * 28 * (m * 28) < maxp + 1)%Z; [lia|]. apply lt_IZR. rewrite plus_IZR. lra.
Qed.
End Grow.
