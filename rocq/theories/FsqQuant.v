(** quantize: the rounded, clipped value. *)
From Verif Require Import Base DTypeModel ParamModel AotModel AotProofs VlModel VlProofs QuantModel CpmAudioModel CpmAudio FsqModel FsqSpec FsqProofs FsqCodes.
From Coq Require Import Reals Lra.
From Flocq Require Import Core.
Import ListNotations.
Open Scope R_scope.

Lemma rmax_z x y : (x <= y)%R -> (roundf x <= roundf y)%Z.
Proof. intro H. unfold roundf. apply Zrnd_le; [apply valid_rnd_NA|exact H]. Qed.
Lemma roundf_max x y : roundf (Rmax x y) = Z.max (roundf x) (roundf y).
Proof. unfold Rmax. destruct (Rle_dec x y) as [H|H]; [assert (A := rmax_z x y H)|assert (A := rmax_z y x ltac:(lra))]; lia. Qed.
Lemma roundf_min x y : roundf (Rmin x y) = Z.min (roundf x) (roundf y).
Proof. unfold Rmin. destruct (Rle_dec x y) as [H|H]; [assert (A := rmax_z x y H)|assert (A := rmax_z y x ltac:(lra))]; lia. Qed.
Lemma roundf_near x n : Rabs (x - IZR n) < / 2 -> roundf x = n.
Proof. apply Znearest_imp. Qed.

(** The clipping range, for levels up to 999 and the default epsilon. *)
Definition half_l (eps : R) (l : Z) : R := to_f32 (to_f32 (to_f32 (IZR l - 1) * to_f32 (1 + eps)) / 2).
Definition offset (l : Z) : R := if (Z.rem l 2 =? 0)%Z then 1 / 2 else 0.
Lemma rep m k : (Z.abs m < 2 ^ 24)%Z -> (0 <= k <= 149)%Z -> to_f32 (IZR m / IZR (2 ^ k)) = IZR m / IZR (2 ^ k).
Proof.
  intros Hm Hk. assert (E : IZR m / IZR (2 ^ k) = IZR m * bpow radix2 (- k)).
  { rewrite bpow_opp. unfold Rdiv. f_equal. f_equal. rewrite <- IZR_Zpower by lia. reflexivity. }
  rewrite E. apply exact32; [exact Hm|lia].
Qed.
Lemma half_bounds eps l : 0 <= eps <= 1001 / 1000000 -> (2 <= l <= 999)%Z ->
  (IZR l - 1) / 2 <= half_l eps l <= IZR (l * 2 ^ 12 - 1) / IZR (2 ^ 13).
Proof.
  intros He Hl. assert (Bl : 2 <= IZR l <= 999) by (split; apply IZR_le; lia).
  assert (E1 : to_f32 (IZR l - 1) = IZR l - 1). { rewrite <- (minus_IZR l 1). apply int32. lia. }
  assert (E2 : 1 <= to_f32 (1 + eps)). { apply Rle_trans with (to_f32 1); [rewrite (int32 1) by reflexivity; lra|apply mono32; lra]. }
  assert (E3 : to_f32 (1 + eps) <= 1 + 8401 / 8388608).
  { replace (1 + 8401 / 8388608) with (IZR 8397009 / IZR (2 ^ 23)) by (change (IZR (2 ^ 23)) with 8388608; lra).
    rewrite <- (rep 8397009 23) by lia. apply mono32. change (IZR (2 ^ 23)) with 8388608. lra. }
  unfold half_l. rewrite E1. set (p := (IZR l - 1) * to_f32 (1 + eps)).
  assert (P1 : IZR l - 1 <= p) by (unfold p; nra).
  assert (M : IZR (l * 2 ^ 12 - 1) = IZR l * 4096 - 1) by (rewrite minus_IZR, mult_IZR; reflexivity).
  assert (P2 : p <= IZR (l * 2 ^ 12 - 1) / IZR (2 ^ 12)).
  { rewrite M. change (IZR (2 ^ 12)) with 4096. unfold p.
    apply Rle_trans with ((IZR l - 1) * (1 + 8401 / 8388608)); [apply Rmult_le_compat_l; lra|]. lra. }
  assert (Q1 : IZR l - 1 <= to_f32 p). { rewrite <- E1 at 1. apply mono32. exact P1. }
  assert (Q2 : to_f32 p <= IZR (l * 2 ^ 12 - 1) / IZR (2 ^ 12)). { rewrite <- rep by lia. apply mono32. exact P2. }
  change (IZR (2 ^ 12)) with 4096 in Q2. change (IZR (2 ^ 13)) with 8192. split.
  - assert (R1 : to_f32 ((IZR l - 1) / 2) = (IZR l - 1) / 2).
    { rewrite <- (minus_IZR l 1). apply (rep (l - 1) 1); lia. }
    rewrite <- R1. apply mono32. lra.
  - change 8192 with (IZR (2 ^ 13)). rewrite <- rep by lia. apply mono32. change (IZR (2 ^ 13)) with 8192. lra.
Qed.
Lemma clip_round eps l : 0 <= eps <= 1001 / 1000000 -> (2 <= l <= 999)%Z ->
  roundf (to_f32 (half_l eps l + offset l)) = (l / 2)%Z /\ roundf (to_f32 (- half_l eps l + offset l)) = (- ((l - 1) / 2))%Z.
Proof.
  intros He Hl. destruct (half_bounds eps l He Hl) as (H1 & H2). assert (Bl : 2 <= IZR l <= 999) by (split; apply IZR_le; lia).
  assert (M : IZR (l * 2 ^ 12 - 1) = IZR l * 4096 - 1) by (rewrite minus_IZR, mult_IZR; reflexivity).
  rewrite M in H2. change (IZR (2 ^ 13)) with 8192 in H2.
  unfold offset. rewrite Z.rem_mod_nonneg by lia. destruct (l mod 2 =? 0)%Z eqn:Ev.
  - assert (El : l = (2 * (l / 2))%Z) by (Z.to_euclidean_division_equations; lia).
    assert (E2 : ((l - 1) / 2 = l / 2 - 1)%Z) by (Z.to_euclidean_division_equations; lia). rewrite E2.
    assert (Er : IZR l = 2 * IZR (l / 2)) by (rewrite El at 1; rewrite mult_IZR; reflexivity).
    split; apply roundf_near.
    + assert (A : IZR (l / 2) <= to_f32 (half_l eps l + 1 / 2)).
      { rewrite <- (int32 (l / 2)) at 1 by (Z.to_euclidean_division_equations; lia). apply mono32. lra. }
      assert (B : to_f32 (half_l eps l + 1 / 2) <= IZR (l * 2 ^ 12 - 1 + 2 ^ 12) / IZR (2 ^ 13)).
      { rewrite <- rep by lia. apply mono32. rewrite plus_IZR, M. change (IZR (2 ^ 12)) with 4096. change (IZR (2 ^ 13)) with 8192. lra. }
      rewrite plus_IZR, M in B. change (IZR (2 ^ 12)) with 4096 in B. change (IZR (2 ^ 13)) with 8192 in B. rewrite Rabs_pos_eq by lra. lra.
    + assert (A : to_f32 (- half_l eps l + 1 / 2) <= IZR (- (l / 2 - 1))).
      { rewrite <- (int32 (- (l / 2 - 1))) by (Z.to_euclidean_division_equations; lia). apply mono32. rewrite opp_IZR, minus_IZR. lra. }
      assert (B : IZR (2 ^ 12 - (l * 2 ^ 12 - 1)) / IZR (2 ^ 13) <= to_f32 (- half_l eps l + 1 / 2)).
      { rewrite <- rep by lia. apply mono32. rewrite minus_IZR, M. change (IZR (2 ^ 12)) with 4096. change (IZR (2 ^ 13)) with 8192. lra. }
      rewrite minus_IZR, M in B. change (IZR (2 ^ 12)) with 4096 in B. change (IZR (2 ^ 13)) with 8192 in B. rewrite opp_IZR, minus_IZR in *.
      rewrite Rabs_left1 by lra. lra.
  - assert (El : l = (2 * (l / 2) + 1)%Z) by (Z.to_euclidean_division_equations; lia).
    assert (E2 : ((l - 1) / 2 = l / 2)%Z) by (Z.to_euclidean_division_equations; lia). rewrite E2.
    assert (Er : IZR l = 2 * IZR (l / 2) + 1) by (rewrite El at 1; rewrite plus_IZR, mult_IZR; reflexivity).
    rewrite !Rplus_0_r. split; apply roundf_near.
    + assert (A : IZR (l / 2) <= to_f32 (half_l eps l)).
      { rewrite <- (int32 (l / 2)) at 1 by (Z.to_euclidean_division_equations; lia). apply mono32. lra. }
      assert (B : to_f32 (half_l eps l) <= IZR (l * 2 ^ 12 - 1) / IZR (2 ^ 13)).
      { rewrite <- rep by lia. apply mono32. rewrite M. change (IZR (2 ^ 13)) with 8192. lra. }
      rewrite M in B. change (IZR (2 ^ 13)) with 8192 in B. rewrite Rabs_pos_eq by lra. lra.
    + assert (A : to_f32 (- half_l eps l) <= IZR (- (l / 2))).
      { rewrite <- (int32 (- (l / 2))) by (Z.to_euclidean_division_equations; lia). apply mono32. rewrite opp_IZR. lra. }
      assert (B : IZR (- (l * 2 ^ 12 - 1)) / IZR (2 ^ 13) <= to_f32 (- half_l eps l)).
      { rewrite <- rep by lia. apply mono32. rewrite opp_IZR, M. change (IZR (2 ^ 13)) with 8192. lra. }
      rewrite opp_IZR, M in B. change (IZR (2 ^ 13)) with 8192 in B. rewrite opp_IZR in *.
      rewrite Rabs_left1 by lra. lra.
Qed.
Open Scope nat_scope.

Lemma quantize_ok ls eps z : ls <> [] -> (0 <= eps <= 1001 / 1000000)%R -> Forall (fun l => 2 <= l <= 999)%Z ls ->
  quantize (levels_tensor ls) eps z = ROk (map (fun p =>
    let l := nth (p mod length ls) ls 0%Z in
    to_f32 (IZR (Z.max (- ((l - 1) / 2)) (Z.min (l / 2) (roundf (nth p z 0%R)))) / (IZR l / 2))) (seq 0 (length z))).
Proof.
  intros Hn He Hl. set (D := length ls). assert (HD : 0 < D) by (unfold D; destruct ls; [congruence|cbn; lia]).
  assert (Lv : length (levels_tensor ls) = D) by (unfold levels_tensor; apply map_length).
  assert (LV : forall p, exists l, l = nth (p mod D) ls 0%Z /\ rd (levels_tensor ls) (p mod D) = ROk (IZR l) /\ f2i (IZR l) = ROk l /\ (2 <= l <= 999)%Z).
  { intro p. assert (B : p mod D < D) by (apply Nat.mod_upper_bound; lia). exists (nth (p mod D) ls 0%Z). split; [reflexivity|].
    assert (R9 : (2 <= nth (p mod D) ls 0 <= 999)%Z) by (rewrite Forall_forall in Hl; apply Hl, nth_In; exact B).
    rewrite (rd_ok _ _ (i2f (nth (p mod D) ls 0%Z))). 2:{ unfold levels_tensor. rewrite nth_error_map, (nth_of ls _ 0%Z) by exact B. reflexivity. }
    rewrite i2f_ok by lia. rewrite f2i_int by lia. auto. }
  unfold quantize, FsqModel.bound. rewrite (each_n _ (fun p => let l := nth (p mod D) ls 0%Z in
     Rmax (to_f32 (- half_l eps l + offset l)) (Rmin (to_f32 (half_l eps l + offset l)) (nth p z 0%R)))).
  2:{ intros p b Hp. destruct (LV p) as (l & El & L1 & L2 & L3). rewrite Lv. unfold nmod. replace (D =? 0) with false by lia. cbn [rbind].
      rewrite L1. cbn [rbind]. rewrite L2. cbn [rbind]. cbv zeta. rewrite (rd_ok _ _ _ (nth_of z p 0%R Hp)). cbn [rbind]. rewrite <- El. reflexivity. }
  cbn [rbind]. unfold round_ste. rewrite map_length, seq_length.
  rewrite (each_n _ (fun p => let l := nth (p mod D) ls 0%Z in IZR (Z.max (- ((l - 1) / 2)) (Z.min (l / 2) (roundf (nth p z 0%R)))))).
  2:{ intros p b Hp. destruct (LV p) as (l & El & L1 & L2 & L3). erewrite rd_ok by (rewrite nth_error_map_seq by exact Hp; reflexivity). cbn [rbind Nat.add].
      cbv zeta. rewrite <- El. rewrite roundf_max, roundf_min. destruct (clip_round eps l He L3) as (-> & ->). reflexivity. }
  cbn [rbind]. rewrite map_length, seq_length. apply each_n. intros p b Hp. destruct (LV p) as (l & El & L1 & L2 & L3).
  rewrite Lv. unfold nmod. replace (D =? 0) with false by lia. cbn [rbind]. rewrite L1. cbn [rbind].
  erewrite rd_ok by (rewrite nth_error_map_seq by exact Hp; reflexivity). cbn [rbind Nat.add]. fold D. cbv zeta. rewrite <- El.
  assert (E : to_f32 (IZR l / 2) = (IZR l / 2)%R) by (apply (rep l 1); lia). rewrite E.
  rewrite fdiv_ok; [reflexivity|]. assert (2 <= IZR l)%R by (apply IZR_le; lia). lra.
Qed.
