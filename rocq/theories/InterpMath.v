(** What the interpolating functions mean. *)
From Coq Require Import Reals Lra Psatz.
From Flocq Require Import Core.
From Verif Require Import Base DTypeModel ParamModel ParamSpec TensorModel TensorSpec OpsModel MatModel MatSpec AttnModel AttnSpec AttnProofs NumSoftmax InterpModel InterpSpec InterpProofs InterpOps.
Local Open Scope Z_scope.

Lemma edge_const n a i : edge n (fun _ => a) i = a. Proof. reflexivity. Qed.
Lemma edge_in n f i : 0 <= i < n -> edge n f i = f i.
Proof. intro H. unfold edge. f_equal. destruct (i <? 0) eqn:A; [lia|]. destruct (n - 1 <? i) eqn:B; lia. Qed.
Lemma edge_is n f i : 0 < n -> exists j, 0 <= j < n /\ edge n f i = f j.
Proof. intro H. unfold edge. eexists. split; [|reflexivity]. destruct (i <? 0) eqn:A; [lia|]. destruct (n - 1 <? i) eqn:B; lia. Qed.
Lemma edge_ext n f g i : 0 < n -> (forall j, 0 <= j < n -> f j = g j) -> edge n f i = edge n g i.
Proof. intros H E. unfold edge. apply E. destruct (i <? 0) eqn:A; [lia|]. destruct (n - 1 <? i) eqn:B; lia. Qed.
Lemma frac p : (0 <= p - IZR (Zfloor p) < 1)%R.
Proof. assert (A := Zfloor_lb p). assert (B := Zfloor_ub p). lra. Qed.

Lemma linear_const n a p : linear_at n (fun _ => a) p = a.
Proof. unfold linear_at. cbv zeta. rewrite !edge_const. ring. Qed.
Lemma linear_ext n f g p : 0 < n -> (forall j, 0 <= j < n -> f j = g j) -> linear_at n f p = linear_at n g p.
Proof. intros H E. unfold linear_at. cbv zeta. rewrite !(edge_ext n f g) by auto. reflexivity. Qed.
Lemma linear_node n f k : 0 <= k < n -> linear_at n f (IZR k) = f k.
Proof. intro H. unfold linear_at. cbv zeta. rewrite Zfloor_IZR, edge_in by exact H. ring. Qed.
Lemma linear_bounds n f lo hi p : 0 < n -> (forall j, 0 <= j < n -> (lo <= f j <= hi)%R) -> (lo <= linear_at n f p <= hi)%R.
Proof.
  intros H B. unfold linear_at. cbv zeta. destruct (edge_is n f (Zfloor p) H) as (i & Hi & ->). destruct (edge_is n f (Zfloor p + 1) H) as (j & Hj & ->).
  assert (X := frac p). assert (Y := B i Hi). assert (Z := B j Hj). set (u := (p - IZR (Zfloor p))%R) in *. clear - X Y Z. nra.
Qed.
Lemma linear_affine n a b p : 0 < n -> (0 <= p <= IZR (n - 1))%R -> linear_at n (fun i => a + b * IZR i)%R p = (a + b * p)%R.
Proof.
  intros H B. assert (L : 0 <= Zfloor p) by (apply Zfloor_lub; lra). assert (U := Zfloor_lb p).
  assert (M : Zfloor p <= n - 1) by (apply le_IZR; lra).
  destruct (Z.eq_dec (Zfloor p) (n - 1)) as [Q|Q].
  - assert (P : p = IZR (n - 1)) by (rewrite Q in U; lra). rewrite P at 1. rewrite linear_node by lia. rewrite P. reflexivity.
  - unfold linear_at. cbv zeta. rewrite !edge_in by lia. rewrite plus_IZR. ring.
Qed.
Lemma cubic_const n a p : cubic_at n (fun _ => a) p = a.
Proof. unfold cubic_at, slope. cbv zeta. rewrite !edge_const. field. Qed.
Lemma cubic_ext n f g p : 0 < n -> (forall j, 0 <= j < n -> f j = g j) -> cubic_at n f p = cubic_at n g p.
Proof. intros H E. unfold cubic_at, slope. cbv zeta. rewrite !(edge_ext n f g) by auto. reflexivity. Qed.
Lemma cubic_node n f k : 0 <= k < n -> cubic_at n f (IZR k) = f k.
Proof. intro H. unfold cubic_at. cbv zeta. rewrite Zfloor_IZR, edge_in by exact H. ring. Qed.
(** Lines are reproduced where the four neighbours are elements. *)
Lemma cubic_affine n a b p : 0 < n -> (1 <= p)%R -> (p < IZR (n - 2))%R -> cubic_at n (fun i => a + b * IZR i)%R p = (a + b * p)%R.
Proof.
  intros H B1 B2. assert (L : 1 <= Zfloor p) by (apply Zfloor_lub; lra). assert (U := Zfloor_lb p).
  assert (M : Zfloor p < n - 2) by (apply lt_IZR; lra).
  unfold cubic_at, slope. cbv zeta. rewrite !edge_in by lia. rewrite ?minus_IZR, ?plus_IZR. field.
Qed.
(** Positions. *)
Lemma position_same align n o : 0 <= o < n -> position align n n o = IZR o.
Proof.
  intro H. unfold position. destruct align.
  - destruct (n =? 1) eqn:Q; [apply Z.eqb_eq in Q; replace o with 0 by lia; reflexivity|]. apply Z.eqb_neq in Q. assert (IZR (n - 1) <> 0)%R by (apply not_0_IZR; lia). field. exact H0.
  - assert (IZR n <> 0)%R by (apply not_0_IZR; lia). field. exact H0.
Qed.
Lemma position_first n m : position true n m 0 = IZR 0.
Proof. unfold position. destruct (m =? 1); [reflexivity|]. unfold Rdiv. ring. Qed.
Lemma position_last n m : 1 < m -> position true n m (m - 1) = IZR (n - 1).
Proof. intro H. unfold position. replace (m =? 1) with false by lia. assert (IZR (m - 1) <> 0)%R by (apply not_0_IZR; lia). field. exact H0. Qed.
Lemma position_inside n m o : 0 < n -> 0 <= o < m -> (0 <= position true n m o <= IZR (n - 1))%R.
Proof.
  intros Hn Ho. unfold position. assert (0 <= IZR (n - 1))%R by (apply IZR_le; lia). destruct (m =? 1) eqn:Q; [lra|]. apply Z.eqb_neq in Q.
  assert (A : (0 < IZR (m - 1))%R) by (apply IZR_lt; lia). assert (B : (0 <= IZR o <= IZR (m - 1))%R) by (split; apply IZR_le; lia).
  assert (E : (IZR o * IZR (n - 1) / IZR (m - 1) = (IZR o / IZR (m - 1)) * IZR (n - 1))%R) by (field; lra). rewrite E.
  assert (D : (0 <= IZR o / IZR (m - 1) <= 1)%R). { split; [apply Rmult_le_pos; [lra|left; apply Rinv_0_lt_compat; exact A]|apply Rmult_le_reg_r with (IZR (m - 1)); [exact A|]; unfold Rdiv; rewrite Rmult_assoc, Rinv_l by lra; lra]. }
  clear - H D. nra.
Qed.
Lemma fair_same align n : 0 < n -> fair align n n.
Proof. intro H. split; [exact H|split; [lia|auto]]. Qed.
Lemma closest_node n k j : 0 <= k < n -> closest n (IZR k) j -> j = k.
Proof.
  intros Hk (Hj & A). assert (B := A k Hk). replace (IZR k - IZR k)%R with 0%R in B by ring. rewrite Rabs_R0 in B.
  assert (D := Rabs_pos (IZR j - IZR k)). assert (E : (IZR j - IZR k = 0)%R). { destruct (Req_dec (IZR j - IZR k) 0) as [Q|Q]; [exact Q|]. apply Rabs_no_R0 in Q. lra. }
  apply eq_IZR. lra.
Qed.
(** The smoothing is an average with positive weights. *)
Lemma averaged_bounds r sigma n f lo hi i : 1 <= r -> 0 < n -> (forall j, 0 <= j < n -> (lo <= f j <= hi)%R) -> (lo <= averaged r (gauss sigma) n f i <= hi)%R.
Proof.
  intros Hr Hn B. unfold averaged. assert (P := gauss_total_pos sigma r Hr). set (js := between (- r) (r + 1)) in *. set (T := total_over js (gauss sigma)) in *.
  assert (X : forall js, (lo * total_over js (gauss sigma) <= total_over js (fun k => gauss sigma k * edge n f (i + k)) <= hi * total_over js (gauss sigma))%R).
  { intro ks. induction ks as [|k ks IH]; [unfold total_over; cbn [map fold_right]; lra|]. unfold total_over in *. cbn [map fold_right].
    destruct (edge_is n f (i + k) Hn) as (j & Hj & ->). assert (Y := B j Hj). assert (Z := gauss_pos sigma k). clear - IH Y Z. nra. }
  destruct (X js) as [X1 X2]. fold T in X1, X2. split.
  - apply Rmult_le_reg_r with T; [exact P|]. unfold Rdiv. rewrite Rmult_assoc, Rinv_l by lra. lra.
  - apply Rmult_le_reg_r with T; [exact P|]. unfold Rdiv. rewrite Rmult_assoc, Rinv_l by lra. lra.
Qed.
Lemma smoothed_bounds H W sigma f lo hi y x : 0 < H -> 0 < W -> (forall j k, 0 <= j < H -> 0 <= k < W -> (lo <= f j k <= hi)%R) -> (lo <= smoothed H W sigma f y x <= hi)%R.
Proof.
  intros PH PW B. unfold smoothed. cbv zeta. assert (R1 : 1 <= Z.max 1 (Zceil (3 * sigma))) by lia.
  apply averaged_bounds; [exact R1|exact PH|]. intros j Hj. apply averaged_bounds; [exact R1|exact PW|]. intros k Hk. apply B; assumption.
Qed.
