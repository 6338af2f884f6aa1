(** smartResize. *)
From Coq Require Import Reals Lra.
From Flocq Require Import Core.
From Verif Require Import Base DTypeModel QuantModel QuantFloat VlSizeModel.
Local Open Scope R_scope.

Definition eps : R := / 1000000000000000.
Definition near (x y : R) : Prop := x * (1 - eps) <= y <= x * (1 + eps).

Lemma tiny : bpow radix2 (-1074 + 53 - 1) <= / 100000000000000000000.
Proof.
  apply Rle_trans with (bpow radix2 (-100)); [apply bpow_le; lia|]. change (bpow radix2 (-100)) with (/ IZR (2 ^ 100)). apply Rinv_le; [lra|].
  apply IZR_le. vm_compute. discriminate.
Qed.
Lemma d64_near : forall x, / 100000000000000000000 <= x -> near x (d64 x).
Proof.
  intros x Hx. assert (P : 0 < x) by lra. assert (N := nearest_rel (-1074) 53 x ltac:(lia)). fold (d64 x) in N.
  rewrite (Rabs_pos_eq x) in N by lra. specialize (N ltac:(apply Rle_trans with (2 := Hx); apply tiny)).
  assert (E : bpow radix2 (-53) * x <= eps * x).
  { apply Rmult_le_compat_r; [lra|]. change (bpow radix2 (-53)) with (/ IZR (2 ^ 53)). unfold eps. apply Rinv_le; [lra|]. apply IZR_le. vm_compute. discriminate. }
  change (- (53))%Z with (-53)%Z in N. assert (K := Rle_trans _ _ _ N E). apply Rabs_le_inv in K. unfold near. lra.
Qed.
Lemma d64_int : forall z, (Z.abs z <= 2 ^ 53)%Z -> d64 (IZR z) = IZR z.
Proof.
  intros z Hz. unfold d64, nearest. apply round_generic; [apply valid_rnd_N|].
  destruct (Z.eq_dec (Z.abs z) (2 ^ 53)) as [E|E].
  - assert (z = 2 ^ 53 \/ z = - 2 ^ 53)%Z as [-> | ->] by lia.
    + change (IZR (2 ^ 53)) with (bpow radix2 53). apply generic_format_bpow. unfold FLT_exp. cbn. lia.
    + change (- 2 ^ 53)%Z with (Z.opp (2 ^ 53)). rewrite opp_IZR. apply generic_format_opp. change (IZR (2 ^ 53)) with (bpow radix2 53). apply generic_format_bpow. unfold FLT_exp. cbn. lia.
  - apply generic_format_FLT. exists (Float radix2 z 0).
    + unfold F2R. cbn [Fnum Fexp bpow]. lra.
    + cbn [Fnum]. change (radix2 ^ 53)%Z with (2 ^ 53)%Z. lia.
    + cbn [Fexp]. lia.
Qed.
Lemma d64_mono : forall x y, x <= y -> d64 x <= d64 y.
Proof. intros. unfold d64, nearest. apply round_le; auto. apply FLT_exp_valid. unfold Prec_gt_0. lia. apply valid_rnd_N. Qed.

(** The arithmetic of a scale computed with rounding. *)
Lemma pos_sq : forall a b, 0 <= a -> 0 <= b -> 0 <= a * b.
Proof. intros. apply Rmult_le_pos; auto. Qed.

Lemma down_product : forall h w M q b x y, 0 < h -> 0 < w -> 0 < M -> 0 < q -> 0 < b -> 0 < x -> 0 < y ->
  near (h * w / M) q -> near (sqrt q) b -> near (h / b) x -> near (w / b) y ->
  M * (1 - 6 * eps) <= x * y <= M * (1 + 6 * eps).
Proof.
  intros h w M q b x y Hh Hw HM Hq Hb Hx Hy [Q1 Q2] [B1 B2] [X1 X2] [Y1 Y2].
  assert (Hs : 0 < sqrt q) by (apply sqrt_lt_R0; auto). assert (Ss : sqrt q * sqrt q = q) by (apply sqrt_def; lra).
  set (s := sqrt q) in *. clearbody s. assert (Em : 0 < 1 - eps) by (unfold eps; lra). assert (Ep : 0 < 1 + eps) by (unfold eps; lra).
  set (P := h * w). assert (HP : 0 < P) by (apply Rmult_lt_0_compat; auto).
  assert (Q1' : P * (1 - eps) <= q * M). { replace (P * (1 - eps)) with (P / M * (1 - eps) * M) by (field; lra). apply Rmult_le_compat_r; [lra|exact Q1]. }
  assert (Q2' : q * M <= P * (1 + eps)). { replace (P * (1 + eps)) with (P / M * (1 + eps) * M) by (field; lra). apply Rmult_le_compat_r; [lra|exact Q2]. }
  assert (X1' : h * (1 - eps) <= x * b). { replace (h * (1 - eps)) with (h / b * (1 - eps) * b) by (field; lra). apply Rmult_le_compat_r; [lra|exact X1]. }
  assert (X2' : x * b <= h * (1 + eps)). { replace (h * (1 + eps)) with (h / b * (1 + eps) * b) by (field; lra). apply Rmult_le_compat_r; [lra|exact X2]. }
  assert (Y1' : w * (1 - eps) <= y * b). { replace (w * (1 - eps)) with (w / b * (1 - eps) * b) by (field; lra). apply Rmult_le_compat_r; [lra|exact Y1]. }
  assert (Y2' : y * b <= w * (1 + eps)). { replace (w * (1 + eps)) with (w / b * (1 + eps) * b) by (field; lra). apply Rmult_le_compat_r; [lra|exact Y2]. }
  (* b^2 M between P (1 -+ eps)^3 *)
  assert (Bs1 : q * ((1 - eps) * (1 - eps)) <= b * b).
  { rewrite <- Ss. replace (s * s * ((1 - eps) * (1 - eps))) with (s * (1 - eps) * (s * (1 - eps))) by ring.
    assert (0 <= s * (1 - eps)) by (apply pos_sq; lra). apply Rmult_le_compat; auto. }
  assert (Bs2 : b * b <= q * ((1 + eps) * (1 + eps))).
  { rewrite <- Ss. replace (s * s * ((1 + eps) * (1 + eps))) with (s * (1 + eps) * (s * (1 + eps))) by ring. apply Rmult_le_compat; lra. }
  assert (Z1 : P * ((1 - eps) * (1 - eps)) <= x * y * (b * b)).
  { replace (P * ((1 - eps) * (1 - eps))) with (h * (1 - eps) * (w * (1 - eps))) by (unfold P; ring). replace (x * y * (b * b)) with (x * b * (y * b)) by ring.
    apply Rmult_le_compat; auto; apply pos_sq; lra. }
  assert (Z2 : x * y * (b * b) <= P * ((1 + eps) * (1 + eps))).
  { replace (P * ((1 + eps) * (1 + eps))) with (h * (1 + eps) * (w * (1 + eps))) by (unfold P; ring). replace (x * y * (b * b)) with (x * b * (y * b)) by ring.
    apply Rmult_le_compat; auto; apply pos_sq; lra. }
  assert (T1 : P * ((1 - eps) * (1 - eps) * (1 - eps)) <= b * b * M).
  { apply Rle_trans with (q * M * ((1 - eps) * (1 - eps))).
    - replace (P * ((1 - eps) * (1 - eps) * (1 - eps))) with (P * (1 - eps) * ((1 - eps) * (1 - eps))) by ring. apply Rmult_le_compat_r; [apply pos_sq; lra|exact Q1'].
    - replace (q * M * ((1 - eps) * (1 - eps))) with (q * ((1 - eps) * (1 - eps)) * M) by ring. apply Rmult_le_compat_r; [lra|exact Bs1]. }
  assert (T2 : b * b * M <= P * ((1 + eps) * (1 + eps) * (1 + eps))).
  { apply Rle_trans with (q * M * ((1 + eps) * (1 + eps))).
    - replace (q * M * ((1 + eps) * (1 + eps))) with (q * ((1 + eps) * (1 + eps)) * M) by ring. apply Rmult_le_compat_r; [lra|exact Bs2].
    - replace (P * ((1 + eps) * (1 + eps) * (1 + eps))) with (P * (1 + eps) * ((1 + eps) * (1 + eps))) by ring. apply Rmult_le_compat_r; [apply pos_sq; lra|exact Q2']. }
  assert (Hxy : 0 < x * y) by (apply Rmult_lt_0_compat; auto).
  clear Q1 Q2 B1 B2 X1 X2 Y1 Y2 Q1' Q2' X1' X2' Y1' Y2' Bs1 Bs2.
  set (v := x * y) in *. set (bb := b * b) in *. clearbody v bb P. clear h w x y b s q Hh Hw Hq Hb Hx Hy Hs Ss.
  split.
  - (* v P (1+e)^3 >= v bb M >= P (1-e)^2 M *)
    assert (A : P * (M * ((1 - eps) * (1 - eps))) <= P * (v * ((1 + eps) * (1 + eps) * (1 + eps)))).
    { apply Rle_trans with (v * bb * M).
      - replace (P * (M * ((1 - eps) * (1 - eps)))) with (P * ((1 - eps) * (1 - eps)) * M) by ring. apply Rmult_le_compat_r; [lra|exact Z1].
      - replace (v * bb * M) with (v * (bb * M)) by ring. replace (P * (v * ((1 + eps) * (1 + eps) * (1 + eps)))) with (v * (P * ((1 + eps) * (1 + eps) * (1 + eps)))) by ring.
        apply Rmult_le_compat_l; [lra|exact T2]. }
    apply Rmult_le_reg_l in A; [|exact HP]. unfold eps in *. lra.
  - assert (A : P * (v * ((1 - eps) * (1 - eps) * (1 - eps))) <= P * (M * ((1 + eps) * (1 + eps)))).
    { apply Rle_trans with (v * bb * M).
      - replace (v * bb * M) with (v * (bb * M)) by ring. replace (P * (v * ((1 - eps) * (1 - eps) * (1 - eps)))) with (v * (P * ((1 - eps) * (1 - eps) * (1 - eps)))) by ring.
        apply Rmult_le_compat_l; [lra|exact T1].
      - replace (P * (M * ((1 + eps) * (1 + eps)))) with (P * ((1 + eps) * (1 + eps)) * M) by ring. apply Rmult_le_compat_r; [lra|exact Z2]. }
    apply Rmult_le_reg_l in A; [|exact HP]. unfold eps in *. lra.
Qed.
Lemma up_product : forall h w M q b x y, 0 < h -> 0 < w -> 0 < M -> 0 < q -> 0 < b -> 0 < x -> 0 < y ->
  near (M / (h * w)) q -> near (sqrt q) b -> near (h * b) x -> near (w * b) y ->
  M * (1 - 6 * eps) <= x * y <= M * (1 + 6 * eps).
Proof.
  intros h w M q b x y Hh Hw HM Hq Hb Hx Hy [Q1 Q2] [B1 B2] [X1 X2] [Y1 Y2].
  assert (Hs : 0 < sqrt q) by (apply sqrt_lt_R0; auto). assert (Ss : sqrt q * sqrt q = q) by (apply sqrt_def; lra).
  set (s := sqrt q) in *. clearbody s. assert (Em : 0 < 1 - eps) by (unfold eps; lra). assert (Ep : 0 < 1 + eps) by (unfold eps; lra).
  set (P := h * w) in *. assert (HP : 0 < P) by (apply Rmult_lt_0_compat; auto).
  assert (Q1' : M * (1 - eps) <= q * P). { replace (M * (1 - eps)) with (M / P * (1 - eps) * P) by (field; lra). apply Rmult_le_compat_r; [lra|exact Q1]. }
  assert (Q2' : q * P <= M * (1 + eps)). { replace (M * (1 + eps)) with (M / P * (1 + eps) * P) by (field; lra). apply Rmult_le_compat_r; [lra|exact Q2]. }
  assert (Bs1 : q * ((1 - eps) * (1 - eps)) <= b * b).
  { rewrite <- Ss. replace (s * s * ((1 - eps) * (1 - eps))) with (s * (1 - eps) * (s * (1 - eps))) by ring.
    assert (0 <= s * (1 - eps)) by (apply pos_sq; lra). apply Rmult_le_compat; auto. }
  assert (Bs2 : b * b <= q * ((1 + eps) * (1 + eps))).
  { rewrite <- Ss. replace (s * s * ((1 + eps) * (1 + eps))) with (s * (1 + eps) * (s * (1 + eps))) by ring. apply Rmult_le_compat; lra. }
  assert (Hhb : 0 <= h * b) by (apply pos_sq; lra). assert (Hwb : 0 <= w * b) by (apply pos_sq; lra).
  assert (Z1 : P * (b * b) * ((1 - eps) * (1 - eps)) <= x * y).
  { replace (P * (b * b) * ((1 - eps) * (1 - eps))) with (h * b * (1 - eps) * (w * b * (1 - eps))) by (unfold P; ring). apply Rmult_le_compat; auto; apply pos_sq; lra. }
  assert (Z2 : x * y <= P * (b * b) * ((1 + eps) * (1 + eps))).
  { replace (P * (b * b) * ((1 + eps) * (1 + eps))) with (h * b * (1 + eps) * (w * b * (1 + eps))) by (unfold P; ring). apply Rmult_le_compat; lra. }
  assert (T1 : M * ((1 - eps) * (1 - eps) * (1 - eps)) <= P * (b * b)).
  { apply Rle_trans with (q * P * ((1 - eps) * (1 - eps))).
    - replace (M * ((1 - eps) * (1 - eps) * (1 - eps))) with (M * (1 - eps) * ((1 - eps) * (1 - eps))) by ring. apply Rmult_le_compat_r; [apply pos_sq; lra|exact Q1'].
    - replace (q * P * ((1 - eps) * (1 - eps))) with (P * (q * ((1 - eps) * (1 - eps)))) by ring. apply Rmult_le_compat_l; [lra|exact Bs1]. }
  assert (T2 : P * (b * b) <= M * ((1 + eps) * (1 + eps) * (1 + eps))).
  { apply Rle_trans with (q * P * ((1 + eps) * (1 + eps))).
    - replace (q * P * ((1 + eps) * (1 + eps))) with (P * (q * ((1 + eps) * (1 + eps)))) by ring. apply Rmult_le_compat_l; [lra|exact Bs2].
    - replace (M * ((1 + eps) * (1 + eps) * (1 + eps))) with (M * (1 + eps) * ((1 + eps) * (1 + eps))) by ring. apply Rmult_le_compat_r; [apply pos_sq; lra|exact Q2']. }
  set (v := x * y) in *. set (c := P * (b * b)) in *. clearbody v c. clear - Z1 Z2 T1 T2 HM. unfold eps in *. lra.
Qed.
Lemma down_ratio : forall h w b x y k, 0 < h -> 0 < w -> 0 < b -> 0 < x -> near (h / b) x -> near (w / b) y -> 0 < k -> w <= k * h -> y <= k * (1 + 3 * eps) * x.
Proof.
  intros h w b x y k Hh Hw Hb Hx [X1 _] [_ Y2] Hk Hr.
  assert (A : w / b <= k * (h / b)). { replace (k * (h / b)) with (k * h / b) by (field; lra). unfold Rdiv. apply Rmult_le_compat_r; [|exact Hr]. apply Rlt_le, Rinv_0_lt_compat; auto. }
  assert (Hp : 0 < h / b) by (apply Rdiv_lt_0_compat; auto). set (p := h / b) in *. set (r := w / b) in *. clearbody p r.
  assert (B : k * p * (1 - eps) <= k * x) by (rewrite Rmult_assoc; apply Rmult_le_compat_l; lra).
  assert (C : 0 < k * x) by (apply Rmult_lt_0_compat; auto).
  replace (k * (1 + 3 * eps) * x) with ((1 + 3 * eps) * (k * x)) by ring. set (kx := k * x) in *. set (kp := k * p) in *. clearbody kx kp. unfold eps in *. lra.
Qed.
Lemma up_ratio : forall h w b x y k, 0 < h -> 0 < w -> 0 < b -> 0 < x -> near (h * b) x -> near (w * b) y -> 0 < k -> w <= k * h -> y <= k * (1 + 3 * eps) * x.
Proof.
  intros h w b x y k Hh Hw Hb Hx [X1 _] [_ Y2] Hk Hr.
  assert (A : w * b <= k * (h * b)). { rewrite <- Rmult_assoc. apply Rmult_le_compat_r; lra. }
  assert (Hp : 0 < h * b) by (apply Rmult_lt_0_compat; auto). set (p := h * b) in *. set (r := w * b) in *. clearbody p r.
  assert (B : k * p * (1 - eps) <= k * x) by (rewrite Rmult_assoc; apply Rmult_le_compat_l; lra).
  assert (C : 0 < k * x) by (apply Rmult_lt_0_compat; auto).
  replace (k * (1 + 3 * eps) * x) with ((1 + 3 * eps) * (k * x)) by ring. set (kx := k * x) in *. set (kp := k * p) in *. clearbody kx kp. unfold eps in *. lra.
Qed.
