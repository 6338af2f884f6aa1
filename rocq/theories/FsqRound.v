(** Evaluating binary32 roundings of small rationals by computation: Flocq's
    executable operations give the value of [to_f32] of a quotient, a product or a
    sum of two machine numbers. *)
From Verif Require Import Base QuantModel CpmAudioModel CpmAudio.
From Coq Require Import Reals Lra List.
From Flocq Require Import Core BinarySingleNaN.
Open Scope R_scope.

Definition prec_pos : Prec_gt_0 24 := eq_refl.
Definition prec_max : Prec_lt_emax 24 128 := eq_refl.
Local Existing Instance prec_pos.
Local Existing Instance prec_max.
Definition b32 := binary_float 24 128.
Definition b_int (z : Z) : b32 := binary_normalize 24 128 prec_pos prec_max mode_NE z 0 false.
Definition b_div (x y : b32) : b32 := Bdiv mode_NE x y.
Definition b_mul (x y : b32) : b32 := Bmult mode_NE x y.
Definition b_add (x y : b32) : b32 := Bplus mode_NE x y.
Definition value (x : b32) : R := B2R x.

Lemma round_is_f32 x : round radix2 (SpecFloat.fexp 24 128) (round_mode mode_NE) x = to_f32 x.
Proof. reflexivity. Qed.

Lemma b_int_ok z : (Z.abs z < 2 ^ 24)%Z -> value (b_int z) = IZR z /\ is_finite (b_int z) = true.
Proof.
  intro H. assert (N := binary_normalize_correct 24 128 prec_pos prec_max mode_NE z 0 false). fold (b_int z) in N.
  cbv zeta in N. rewrite !round_is_f32 in N.
  assert (E : F2R (Float radix2 z 0) = IZR z) by (unfold F2R; cbn; lra).
  rewrite E, (int32 z H) in N. rewrite Rlt_bool_true in N.
  - destruct N as (A & B & _). split; assumption.
  - rewrite <- abs_IZR. apply Rlt_trans with (IZR (2 ^ 24)); [apply IZR_lt; exact H|]. change (bpow radix2 128) with (IZR (2 ^ 128)). apply IZR_lt. reflexivity.
Qed.
Lemma b_div_ok x y : value y <> 0 -> is_finite (b_div x y) = true -> value (b_div x y) = to_f32 (value x / value y).
Proof.
  intros Hy F. assert (N := Bdiv_correct 24 128 prec_pos prec_max mode_NE x y Hy). fold (b_div x y) in N.
  rewrite !round_is_f32 in N. destruct (Rlt_bool _ _); [exact (proj1 N)|].
  exfalso. assert (G : is_finite_SF (B2SF (b_div x y)) = false).
  { rewrite N. unfold binary_overflow. destruct (overflow_to_inf mode_NE _) eqn:O; [reflexivity|]. cbn in O. discriminate. }
  rewrite is_finite_SF_B2SF, F in G. discriminate.
Qed.
Lemma b_mul_ok x y : is_finite (b_mul x y) = true -> value (b_mul x y) = to_f32 (value x * value y).
Proof.
  intros F. assert (N := Bmult_correct 24 128 prec_pos prec_max mode_NE x y). fold (b_mul x y) in N.
  rewrite !round_is_f32 in N. destruct (Rlt_bool _ _); [exact (proj1 N)|].
  exfalso. assert (G : is_finite_SF (B2SF (b_mul x y)) = false).
  { rewrite N. unfold binary_overflow. destruct (overflow_to_inf mode_NE _) eqn:O; [reflexivity|]. cbn in O. discriminate. }
  rewrite is_finite_SF_B2SF, F in G. discriminate.
Qed.
Lemma b_add_ok x y : is_finite x = true -> is_finite y = true -> is_finite (b_add x y) = true -> value (b_add x y) = to_f32 (value x + value y).
Proof.
  intros Fx Fy F. assert (N := Bplus_correct 24 128 prec_pos prec_max mode_NE x y Fx Fy). fold (b_add x y) in N.
  rewrite !round_is_f32 in N. destruct (Rlt_bool _ _); [exact (proj1 N)|].
  exfalso. assert (G : is_finite_SF (B2SF (b_add x y)) = false).
  { destruct N as (N & _). rewrite N. unfold binary_overflow. destruct (overflow_to_inf mode_NE _) eqn:O; [reflexivity|]. cbn in O. discriminate. }
  rewrite is_finite_SF_B2SF, F in G. discriminate.
Qed.

(** One step of the trip: (c-h)/h, then times h, then plus h. *)
Definition there (h c : Z) : b32 := b_div (b_int (c - h)) (b_int h).
Definition back (h c : Z) : b32 := b_add (b_mul (there h c) (b_int h)) (b_int h).
Definition fine (h c : Z) : bool :=
  is_finite (there h c) && is_finite (b_mul (there h c) (b_int h)) && is_finite (back h c).
Lemma there_value h c : (0 < h < 2 ^ 23)%Z -> (0 <= c < 2 ^ 24)%Z -> fine h c = true ->
  value (there h c) = to_f32 (IZR (c - h) / IZR h) /\
  value (back h c) = to_f32 (to_f32 (to_f32 (IZR (c - h) / IZR h) * IZR h) + IZR h).
Proof.
  intros Hh Hc F. unfold fine in F. apply andb_prop in F. destruct F as (F & F3). apply andb_prop in F. destruct F as (F1 & F2).
  destruct (b_int_ok (c - h)) as (A1 & A2); [lia|]. destruct (b_int_ok h) as (B1 & B2); [lia|].
  assert (Hn : value (b_int h) <> 0) by (rewrite B1; apply not_0_IZR; lia).
  assert (T : value (there h c) = to_f32 (IZR (c - h) / IZR h)).
  { unfold there in *. rewrite (b_div_ok _ _ Hn F1), A1, B1. reflexivity. }
  split; [exact T|]. unfold back in *. rewrite (b_add_ok _ _ F2 B2 F3), (b_mul_ok _ _ F2), T, B1. reflexivity.
Qed.
Definition sf_eqb (x y : b32) : bool :=
  match B2SF x, B2SF y with
  | SpecFloat.S754_finite s m e, SpecFloat.S754_finite s' m' e' => Bool.eqb s s' && Pos.eqb m m' && Z.eqb e e'
  | SpecFloat.S754_zero _, SpecFloat.S754_zero _ => true
  | _, _ => false
  end.
Lemma sf_eqb_ok x y : sf_eqb x y = true -> value x = value y.
Proof.
  unfold sf_eqb, value. destruct x, y; cbn; try discriminate; auto.
  intro H. apply andb_prop in H. destruct H as (H & E). apply andb_prop in H. destruct H as (S & M).
  apply Bool.eqb_prop in S. apply Pos.eqb_eq in M. apply Z.eqb_eq in E. subst. reflexivity.
Qed.
(** All levels up to 25. *)
Definition sweep : bool :=
  forallb (fun l => forallb (fun c => fine (Z.of_nat l / 2) (Z.of_nat c) && sf_eqb (back (Z.of_nat l / 2) (Z.of_nat c)) (b_int (Z.of_nat c))) (seq 0 l)) (seq 2 24).
Lemma sweep_ok : sweep = true. Proof. vm_compute. reflexivity. Qed.
Lemma trip l c : (2 <= l <= 25)%Z -> (0 <= c < l)%Z ->
  to_f32 (to_f32 (to_f32 (IZR (c - l / 2) / IZR (l / 2)) * IZR (l / 2)) + IZR (l / 2)) = IZR c.
Proof.
  intros Hl Hc. assert (S := sweep_ok). unfold sweep in S. rewrite forallb_forall in S.
  specialize (S (Z.to_nat l)). rewrite in_seq in S. specialize (S ltac:(lia)). rewrite forallb_forall in S.
  specialize (S (Z.to_nat c)). rewrite in_seq in S. specialize (S ltac:(lia)). rewrite !Z2Nat.id in S by lia.
  apply andb_prop in S. destruct S as (F & E).
  assert (Hh : (0 < l / 2 < 2 ^ 23)%Z) by (clear - Hl; Z.to_euclidean_division_equations; lia).
  destruct (there_value (l / 2) c) as (_ & B); [exact Hh|lia|exact F|]. rewrite <- B, (sf_eqb_ok _ _ E). apply b_int_ok. lia.
Qed.
