(** smartResize: the integers. *)
From Coq Require Import Reals Lra.
From Flocq Require Import Core.
From Verif Require Import Base DTypeModel QuantModel QuantFloat VlSizeModel VlSize.
Local Open Scope R_scope.

Lemma int_ok : forall z, (-2147483648 <= z <= 2147483647)%Z -> int_of z = ROk z.
Proof. intros z H. unfold int_of. replace ((-2147483648 <=? z) && (z <=? 2147483647))%Z with true by lia. reflexivity. Qed.
Lemma int_bad : forall z, (2147483647 < z)%Z -> int_of z = RUB.
Proof. intros z H. unfold int_of. replace ((-2147483648 <=? z) && (z <=? 2147483647))%Z with false by lia. reflexivity. Qed.

Lemma not_long : forall h w, (1 <= h)%Z -> (1 <= w)%Z -> (Z.max h w <= 200 * Z.min h w)%Z -> too_long h w = false.
Proof.
  intros h w Hh Hw H. unfold too_long. destruct (Rlt_dec 200 _) as [L|]; [exfalso|reflexivity].
  set (a := Z.max h w) in *. set (b := Z.min h w) in *. assert (Hb : (1 <= b)%Z) by lia. clearbody a b.
  assert (Pb : 0 < IZR b) by (apply IZR_lt; lia). assert (B : IZR a / IZR b <= 200).
  { apply Rmult_le_reg_r with (IZR b); [exact Pb|]. replace (IZR a / IZR b * IZR b) with (IZR a) by (field; lra). rewrite <- mult_IZR. apply IZR_le. lia. }
  apply d64_mono in B. rewrite (d64_int 200) in B by lia. lra.
Qed.
Lemma is_long : forall h w, (1 <= h)%Z -> (1 <= w)%Z -> (Z.min h w <= 2147483647)%Z -> (200 * Z.min h w < Z.max h w)%Z -> too_long h w = true.
Proof.
  intros h w Hh Hw Hm H. unfold too_long. destruct (Rlt_dec 200 _) as [|L]; [reflexivity|exfalso].
  set (a := Z.max h w) in *. set (b := Z.min h w) in *. assert (Hb : (1 <= b)%Z) by lia. clearbody a b.
  assert (Pb : 0 < IZR b) by (apply IZR_lt; lia). assert (Pm : IZR b <= 2147483647) by (apply IZR_le; lia).
  assert (B : 200 * IZR b + 1 <= IZR a) by (rewrite <- mult_IZR, <- plus_IZR; apply IZR_le; lia).
  assert (C : 200 + / 2147483647 <= IZR a / IZR b).
  { apply Rmult_le_reg_r with (IZR b); [exact Pb|]. replace (IZR a / IZR b * IZR b) with (IZR a) by (field; lra). lra. }
  destruct (d64_near (IZR a / IZR b)) as [D _]; [lra|]. unfold eps in D. lra.
Qed.

Lemma round_ok : forall x, (1 <= x <= 1000000)%Z -> exists r, round_to x 28 = ROk (r * 28)%Z /\ (0 <= r)%Z /\ (x - 14 <= r * 28 <= x + 14)%Z.
Proof.
  intros x Hx. unfold round_to. set (v := d64 (IZR x / 28)). set (r := ZnearestA v).
  assert (X1 : 1 <= IZR x) by (apply IZR_le; lia). assert (X2 : IZR x <= 1000000) by (apply IZR_le; lia).
  destruct (d64_near (IZR x / 28)) as [V1 V2]; [lra|]. fold v in V1, V2.
  assert (Hr := Znearest_half (Zle_bool 0) v). fold r in Hr. apply Rabs_le_inv in Hr.
  assert (A1 : IZR (x - 15) < IZR (r * 28)) by (rewrite minus_IZR, mult_IZR; unfold eps in *; lra).
  assert (A2 : IZR (r * 28) < IZR (x + 15)) by (rewrite plus_IZR, mult_IZR; unfold eps in *; lra).
  apply lt_IZR in A1, A2.
  rewrite (int_ok r) by lia. cbn [rbind]. rewrite int_ok by lia. exists r. split; [reflexivity|]. lia.
Qed.

Lemma shrink_ok : forall x beta, let v := d64 (IZR x / beta) in 0 < v <= 1000000000 ->
  exists n, shrink x 28 beta = ROk (n * 28)%Z /\ (1 <= n)%Z /\ (IZR (n * 28) <= v \/ (n = 1)%Z /\ v < 28) /\ v <= 2 * IZR (n * 28).
Proof.
  intros x beta v [V1 V2]. unfold shrink. fold v. set (f := Zfloor v). assert (F1 := Zfloor_lb v). assert (F2 := Zfloor_ub v). fold f in F1, F2.
  assert (G1 : (-1 < f)%Z) by (apply lt_IZR; lra). assert (G2 : (f <= 1000000000)%Z) by (apply le_IZR; lra).
  rewrite int_ok by lia. cbn [rbind]. cbv zeta. rewrite Z.quot_div_nonneg by lia.
  exists (Z.max 1 (Z.max 1 f / 28)). split; [f_equal; lia|]. split; [lia|].
  destruct (Z_lt_ge_dec f 28) as [C|C].
  - assert (E : Z.max 1 (Z.max 1 f / 28) = 1%Z) by (assert (Z.max 1 f / 28 < 1)%Z by (apply Z.div_lt_upper_bound; lia); lia). rewrite E.
    assert (B : IZR f + 1 <= 28) by (rewrite <- plus_IZR; apply IZR_le; lia). change (1 * 28)%Z with 28%Z. split; [right; split; [reflexivity|clear - F2 B; lra]|clear - F2 B; lra].
  - assert (E : Z.max 1 (Z.max 1 f / 28) = (f / 28)%Z) by (rewrite (Z.max_r 1 f) by lia; assert (1 <= f / 28)%Z by (apply Z.div_le_lower_bound; lia); lia). rewrite E.
    assert (D := Z.div_mod f 28 ltac:(lia)). assert (M := Z.mod_pos_bound f 28 ltac:(lia)). assert (1 <= f / 28)%Z by (apply Z.div_le_lower_bound; lia). split.
    + left. apply Rle_trans with (IZR f); [apply IZR_le; lia|exact F1].
    + apply Rle_trans with (IZR f + 1); [lra|]. rewrite <- plus_IZR, <- mult_IZR. apply IZR_le. lia.
Qed.
Lemma grow_ok : forall x beta, let v := d64 (IZR x * beta) in 0 < v <= 1000000000 ->
  exists n, grow x 28 beta = ROk (n * 28)%Z /\ (1 <= n)%Z /\ v <= IZR (n * 28) < v + 28.
Proof.
  intros x beta v [V1 V2]. unfold grow. fold v. set (f := Zceil v). assert (F1 := Zceil_ub v). fold f in F1.
  assert (F2 : IZR f < v + 1). { unfold f, Zceil. assert (K := Zfloor_ub (- v)). rewrite opp_IZR. lra. }
  assert (G1 : (0 < f)%Z) by (apply lt_IZR; lra). assert (G2 : (f <= 1000000001)%Z) by (apply le_IZR; lra).
  rewrite int_ok by lia. cbn [rbind]. rewrite int_ok by lia. cbn [rbind]. rewrite Z.quot_div_nonneg by lia.
  set (n := ((f + 28 - 1) / 28)%Z). assert (D := Z.div_mod (f + 28 - 1) 28 ltac:(lia)). assert (M := Z.mod_pos_bound (f + 28 - 1) 28 ltac:(lia)). fold n in D.
  rewrite int_ok by lia. exists n. split; [reflexivity|]. split; [lia|]. split.
  - apply Rle_trans with (IZR f); [exact F1|]. apply IZR_le. lia.
  - apply Rle_lt_trans with (IZR (f + 27)); [apply IZR_le; lia|]. rewrite plus_IZR. lra.
Qed.
