(** Proofs about quantization, part 1: rounding. *)
From Coq Require Import Reals Lra.
From Flocq Require Import Core Relative.
From Verif Require Import Base DTypeModel ParamModel TensorModel OpsModel MatModel QuantModel.
Local Open Scope R_scope.

Lemma Rabs_bounds x y : Rabs x <= y <-> - y <= x <= y.
Proof. split; intro H; [apply Rabs_le_inv; auto|apply Rabs_le; auto]. Qed.

(** 2^-24 and a number no error of underflow exceeds. *)
Definition eps : R := / 16777216.
Definition tiny : R := bpow radix2 (-150).
Lemma tiny_pos : 0 < tiny.
Proof. apply bpow_gt_0. Qed.
Lemma tiny_small k : (-150 <= k)%Z -> tiny <= bpow radix2 k.
Proof. intro H. apply bpow_le. exact H. Qed.
Lemma eps_val : eps = bpow radix2 (-24).
Proof. unfold eps. simpl. lra. Qed.

Lemma nearest_err emin prec x : (0 < prec)%Z ->
  Rabs (nearest emin prec x - x) <= bpow radix2 (- prec) * Rabs x + bpow radix2 (emin - 1).
Proof.
  intro Hp. unfold nearest. destruct (error_N_FLT radix2 emin prec Hp (fun z => negb (Z.even z)) x) as (e & t & H1 & H2 & H3 & H4).
  rewrite H4. replace (x * (1 + e) + t - x) with (x * e + t) by ring.
  assert (P1 : / 2 * bpow radix2 (- prec + 1) = bpow radix2 (- prec)).
  { rewrite bpow_plus. change (bpow radix2 1) with 2. field. }
  assert (P2 : / 2 * bpow radix2 emin = bpow radix2 (emin - 1)).
  { unfold Z.sub. rewrite bpow_plus. simpl (bpow radix2 (- (1))). change (Z.pow_pos 2 1) with 2%Z. ring. }
  rewrite P1 in H1. rewrite P2 in H2. eapply Rle_trans; [apply Rabs_triang|]. rewrite Rabs_mult.
  assert (0 <= Rabs x) by apply Rabs_pos. assert (Rabs x * Rabs e <= Rabs x * bpow radix2 (- prec)) by (apply Rmult_le_compat_l; auto). lra.
Qed.
Lemma nearest_rel emin prec x : (0 < prec)%Z -> bpow radix2 (emin + prec - 1) <= Rabs x ->
  Rabs (nearest emin prec x - x) <= bpow radix2 (- prec) * Rabs x.
Proof.
  intros Hp Hx. unfold nearest. assert (H := relative_error_N_FLT radix2 emin prec Hp (fun z => negb (Z.even z)) x Hx).
  replace (bpow radix2 (- prec)) with (/ 2 * bpow radix2 (- prec + 1)) by (rewrite bpow_plus; change (bpow radix2 1) with 2; field). exact H.
Qed.
Lemma two127 : bpow radix2 128 = 2 * bpow radix2 127.
Proof. change 128%Z with (1 + 127)%Z. rewrite bpow_plus. reflexivity. Qed.
Lemma f32_ok x : Rabs x <= bpow radix2 127 -> exists r, f32 x = Some r /\ Rabs (r - x) <= eps * Rabs x + tiny.
Proof.
  intro Hx. assert (E := nearest_err (-149) 24 x ltac:(lia)). change (- (24))%Z with (-24)%Z in E. rewrite <- eps_val in E. change (bpow radix2 (-149 - 1)) with tiny in E.
  unfold f32. set (r := nearest (-149) 24 x) in *. exists r. split; auto.
  destruct (Rlt_dec (Rabs r) (bpow radix2 128)) as [|N]; auto. exfalso. apply N.
  assert (Rabs r <= Rabs x + Rabs (r - x)) by (replace r with (x + (r - x)) at 1 by ring; apply Rabs_triang).
  assert (T : tiny < / 4 * bpow radix2 127) by (unfold tiny; replace (/ 4 * bpow radix2 127) with (bpow radix2 125) by (change 127%Z with (2 + 125)%Z; rewrite bpow_plus; simpl (bpow radix2 2); lra); apply bpow_lt; lia).
  assert (B : 0 < bpow radix2 127) by apply bpow_gt_0. rewrite two127. unfold eps in *. lra.
Qed.
Lemma f32_rel x : bpow radix2 (-126) <= Rabs x <= bpow radix2 127 -> exists r, f32 x = Some r /\ Rabs (r - x) <= eps * Rabs x.
Proof.
  intros [H1 H2]. destruct (f32_ok x H2) as (r & E & _). exists r. split; auto. unfold f32 in E.
  destruct (Rlt_dec _ _); [|discriminate]. injection E as <-. rewrite eps_val. apply nearest_rel; [lia|exact H1].
Qed.
Lemma nearest_0 emin prec : nearest emin prec 0 = 0.
Proof. unfold nearest. apply round_0. apply valid_rnd_N. Qed.
Lemma f32_0 : f32 0 = Some 0.
Proof. unfold f32. rewrite nearest_0, Rabs_R0. destruct (Rlt_dec 0 _) as [|N]; auto. exfalso. apply N. apply bpow_gt_0. Qed.
Lemma f16_ok x : Rabs x <= 65000 -> exists r, f16 x = Some r /\ Rabs (r - x) <= Rabs x / 2048 + / 33554432.
Proof.
  intro Hx. assert (E := nearest_err (-24) 11 x ltac:(lia)).
  replace (bpow radix2 (-24 - 1)) with (/ 33554432) in E by (simpl; lra). replace (bpow radix2 (- (11))) with (/ 2048) in E by (simpl; lra).
  unfold f16. set (r := nearest (-24) 11 x) in *. exists r. split; [|unfold Rdiv; lra].
  destruct (Rlt_dec (Rabs r) (bpow radix2 16)) as [|N]; auto. exfalso. apply N.
  assert (Rabs r <= Rabs x + Rabs (r - x)) by (replace r with (x + (r - x)) at 1 by ring; apply Rabs_triang).
  simpl (bpow radix2 16). lra.
Qed.
Lemma f16_small x : Rabs x < bpow radix2 (-25) -> f16 x = Some 0.
Proof.
  intro Hx. unfold f16. assert (E : nearest (-24) 11 x = 0).
  { destruct (Req_dec x 0) as [->|N]; [apply nearest_0|]. unfold nearest. apply round_N_small with (ex := mag_val _ _ (mag radix2 x)).
    - destruct (mag radix2 x) as [ex B]. cbn [mag_val]. apply B. auto.
    - assert (M := mag_le_bpow radix2 x (-25) N Hx). unfold FLT_exp. lia. }
  rewrite E, Rabs_R0. destruct (Rlt_dec 0 _) as [|N]; auto. exfalso. apply N. apply bpow_gt_0.
Qed.

(* ---------------- nearest_int ---------------- *)
Lemma Zfloor_shift x n : Zfloor (x + IZR n) = (Zfloor x + n)%Z.
Proof.
  apply Zfloor_imp. rewrite !plus_IZR. assert (L := Zfloor_lb x). assert (U := Zfloor_ub x). lra.
Qed.
Lemma Zceil_shift x n : Zceil (x + IZR n) = (Zceil x + n)%Z.
Proof.
  unfold Zceil. replace (- (x + IZR n)) with (- x + IZR (- n)) by (rewrite opp_IZR; ring). rewrite Zfloor_shift. lia.
Qed.
Lemma ZnearestE_shift x n : Z.even n = true -> ZnearestE (x + IZR n) = (ZnearestE x + n)%Z.
Proof.
  intro He. unfold Znearest. rewrite Zfloor_shift, Zceil_shift.
  replace (x + IZR n - IZR (Zfloor x + n)) with (x - IZR (Zfloor x)) by (rewrite plus_IZR; ring).
  destruct (Rcompare _ _); auto. rewrite Z.even_add, He. destruct (Z.even (Zfloor x)); reflexivity.
Qed.
Lemma nearest_unit x : 8388608 <= x <= 16777215 -> nearest (-149) 24 x = IZR (ZnearestE x).
Proof.
  intros [H1 H2]. unfold nearest, round, F2R, scaled_mantissa, cexp.
  rewrite (mag_unique_pos radix2 x 24) by (simpl; lra). unfold FLT_exp. cbn [Z.sub Z.add Z.opp Z.pos_sub Z.max Z.compare Fnum Fexp].
  change (bpow radix2 0) with 1. rewrite !Rmult_1_r. reflexivity.
Qed.
Lemma nearest_int_ok x : Rabs x <= 4194303 -> nearest_int x = ROk (ZnearestE x).
Proof.
  intro H. apply Rabs_bounds in H. unfold nearest_int, fop, f32. rewrite nearest_unit by lra.
  assert (E : ZnearestE (x + 12582912) = (ZnearestE x + 12582912)%Z) by (apply (ZnearestE_shift x 12582912); reflexivity).
  assert (B : (-4194303 <= ZnearestE x <= 4194303)%Z).
  { assert (Hh := Znearest_half (fun z => negb (Z.even z)) x). apply Rabs_bounds in Hh.
    split; [assert (IZR (-4194304) < IZR (ZnearestE x)) by (simpl; lra)|assert (IZR (ZnearestE x) < IZR 4194304) by lra];
    [apply lt_IZR in H0; lia|apply lt_IZR in H0; lia]. }
  rewrite E. destruct (Rlt_dec _ _) as [L|N].
  - cbn [need rbind]. rewrite Ztrunc_IZR. replace _ with true by lia. f_equal. lia.
  - exfalso. apply N. rewrite <- abs_IZR. change (bpow radix2 128) with (IZR (2 ^ 128)). apply IZR_lt. lia.
Qed.
