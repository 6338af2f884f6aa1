(** Integer division through floats. *)
From Coq Require Import Reals Lra.
From Flocq Require Import Core Relative.
From Verif Require Import Base DTypeModel QuantModel VlModel VlProofs CpmAudioModel CpmAudio DivModel.
From Verif Require AotModel.

Local Open Scope R_scope.
Lemma rel32 x : bpow radix2 (-126) <= Rabs x -> Rabs (to_f32 x - x) <= / 2 * bpow radix2 (-23) * Rabs x.
Proof. intro H. unfold to_f32, nearest. apply (relative_error_N_FLT radix2 (-149) 24); [lia|exact H]. Qed.
(** positive numbers *)
Lemma quot_pos a b : (0 < a < 2 ^ 24)%Z -> (0 < b)%Z -> Ztrunc (to_f32 (to_f32 (IZR a) / to_f32 (IZR b))) = (a / b)%Z.
Proof.
  intros Ha Hb. rewrite (int32 a) by lia.
  assert (PA : 1 <= IZR a <= 16777215) by (split; apply IZR_le; lia).
  destruct (Z_lt_dec b (2 ^ 24)) as [Lb|Lb].
  - rewrite (int32 b) by lia. assert (PB : 1 <= IZR b <= 16777215) by (split; apply IZR_le; lia).
    set (q := (a / b)%Z). assert (D : (a = b * q + a mod b)%Z) by (apply Z.div_mod; lia). assert (M := Z.mod_pos_bound a b Hb).
    assert (Q0 : (0 <= q)%Z) by (apply Z.div_pos; lia). assert (Q1 : (q <= a)%Z) by (apply Z.div_le_upper_bound; nia).
    assert (X0 : 0 < IZR a / IZR b) by (apply Rdiv_lt_0_compat; lra).
    assert (XL : / 16777216 <= IZR a / IZR b).
    { apply Rmult_le_reg_r with (IZR b); [lra|]. unfold Rdiv. rewrite Rmult_assoc, Rinv_l by lra. lra. }
    assert (LO : IZR q <= IZR a / IZR b).
    { apply Rmult_le_reg_r with (IZR b); [lra|]. unfold Rdiv. rewrite Rmult_assoc, Rinv_l, Rmult_1_r by lra. rewrite <- mult_IZR. apply IZR_le. lia. }
    assert (HI : IZR a / IZR b <= IZR q + 1 - / IZR b).
    { apply Rmult_le_reg_r with (IZR b); [lra|]. unfold Rdiv. rewrite Rmult_assoc, Rinv_l, Rmult_1_r by lra. rewrite Rmult_minus_distr_r, Rinv_l by lra.
      rewrite <- plus_IZR, <- mult_IZR, <- minus_IZR. apply IZR_le. lia. }
    assert (L1 : IZR q <= to_f32 (IZR a / IZR b)) by (rewrite <- (int32 q) by lia; apply mono32; exact LO).
    assert (L2 : to_f32 (IZR a / IZR b) < IZR q + 1).
    { assert (E := rel32 (IZR a / IZR b)). rewrite (Rabs_pos_eq (IZR a / IZR b)) in E by lra.
      assert (B126 : bpow radix2 (-126) <= / 16777216).
      { change (/ 16777216) with (bpow radix2 (-24)). apply bpow_le. lia. }
      specialize (E ltac:(lra)). change (bpow radix2 (-23)) with (/ 8388608) in E.
      assert (B : / 2 * / 8388608 * (IZR a / IZR b) < / IZR b).
      { apply Rmult_lt_reg_r with (IZR b); [lra|]. unfold Rdiv. rewrite !Rmult_assoc, Rinv_l by lra. lra. }
      assert (F := Rle_trans _ _ _ (Rle_abs _) E). lra. }
    assert (P : 0 <= to_f32 (IZR a / IZR b)) by (apply Rle_trans with (IZR q); [apply IZR_le; lia|exact L1]).
    rewrite Ztrunc_floor by exact P. apply Zfloor_imp. split; [exact L1|]. rewrite plus_IZR. exact L2.
  - rewrite Z.div_small by lia.
    assert (FB : 16777216 <= to_f32 (IZR b)).
    { replace 16777216 with (to_f32 (IZR 1 * bpow radix2 24)); [apply mono32|rewrite exact32 by lia; change (bpow radix2 24) with 16777216; lra].
      change (bpow radix2 24) with 16777216. rewrite Rmult_1_l. apply IZR_le. lia. }
    set (y := to_f32 (IZR b)) in *. clearbody y.
    assert (P0 : 0 <= IZR a / y) by (apply Rlt_le, Rdiv_lt_0_compat; lra).
    assert (P1 : IZR a / y <= IZR 16777215 * bpow radix2 (-24)).
    { change (bpow radix2 (-24)) with (/ 16777216). apply Rmult_le_reg_r with y; [lra|]. unfold Rdiv. rewrite Rmult_assoc, Rinv_l by lra. nra. }
    assert (L1 : 0 <= to_f32 (IZR a / y)) by (replace 0 with (to_f32 (IZR 0)) by (rewrite int32 by lia; reflexivity); apply mono32; exact P0).
    assert (L2 : to_f32 (IZR a / y) < 1).
    { apply Rle_lt_trans with (IZR 16777215 * bpow radix2 (-24)); [|change (bpow radix2 (-24)) with (/ 16777216); lra].
      rewrite <- exact32 by lia. apply mono32. exact P1. }
    rewrite Ztrunc_floor by exact L1. apply Zfloor_imp. split; [exact L1|]. cbn [Z.add]. exact L2.
Qed.
Lemma to_f32_opp x : to_f32 (- x) = - to_f32 x.
Proof. unfold to_f32, nearest. apply round_NE_opp. Qed.
Lemma Ztrunc_opp' x : Ztrunc (- x) = (- Ztrunc x)%Z. Proof. apply Ztrunc_opp. Qed.
Lemma quot_exact a b : (Z.abs a < 2 ^ 24)%Z -> b <> 0%Z -> Ztrunc (to_f32 (to_f32 (IZR a) / to_f32 (IZR b))) = Z.quot a b.
Proof.
  intros Ha Hb.
  assert (Z0 : to_f32 0 = 0) by (change 0 with (IZR 0); rewrite int32 by lia; reflexivity).
  assert (O : forall x y : R, - x / y = - (x / y)) by (intros; unfold Rdiv; ring).
  assert (N : forall c, (0 < c)%Z -> 0 < to_f32 (IZR c)).
  { intros c Hc. apply Rlt_le_trans with 1; [lra|]. replace 1 with (to_f32 (IZR 1)) by (rewrite int32 by lia; reflexivity). apply mono32, IZR_le. lia. }
  assert (P : forall a b, (0 <= a < 2 ^ 24)%Z -> (0 < b)%Z -> Ztrunc (to_f32 (to_f32 (IZR a) / to_f32 (IZR b))) = Z.quot a b).
  { clear a b Ha Hb. intros a b Ha Hb. destruct (Z.eq_dec a 0) as [->|Na].
    - rewrite Z0. unfold Rdiv. rewrite Rmult_0_l, Z0. rewrite Z.quot_0_l by lia. apply (Ztrunc_IZR 0).
    - rewrite quot_pos by lia. symmetry. apply Z.quot_div_nonneg; lia. }
  destruct (Z_le_dec 0 a) as [A|A], (Z_lt_dec 0 b) as [B|B].
  - apply P; lia.
  - replace b with (- - b)%Z by lia. set (c := (- b)%Z) in *. assert (C : (0 < c)%Z) by lia. rewrite opp_IZR, to_f32_opp. assert (Nc := N c C).
    replace (to_f32 (IZR a) / - to_f32 (IZR c)) with (- (to_f32 (IZR a) / to_f32 (IZR c))) by (field; lra).
    rewrite to_f32_opp, Ztrunc_opp, P by lia. rewrite Z.quot_opp_r by lia. reflexivity.
  - replace a with (- - a)%Z by lia. set (d := (- a)%Z) in *. rewrite opp_IZR, to_f32_opp, O, to_f32_opp, Ztrunc_opp, P by lia. rewrite Z.quot_opp_l by lia. reflexivity.
  - replace b with (- - b)%Z by lia. set (c := (- b)%Z) in *. assert (C : (0 < c)%Z) by lia.
    replace a with (- - a)%Z by lia. set (d := (- a)%Z) in *. rewrite !opp_IZR, !to_f32_opp. assert (Nc := N c C).
    replace (- to_f32 (IZR d) / - to_f32 (IZR c)) with (to_f32 (IZR d) / to_f32 (IZR c)) by (field; lra).
    rewrite P by lia. rewrite Z.quot_opp_opp by lia. reflexivity.
Qed.
