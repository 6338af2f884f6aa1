(** Proofs about rotary position embeddings, part 3: the tables of sines and cosines. *)
From Coq Require Import Reals Lra Psatz.
From Verif Require Import Base DTypeModel ParamModel ParamSpec ParamProofs TensorModel TensorSpec TensorProofs TensorSplit
  OpsModel OpsSpec OpsProofs OpsIndex OpsSum MatModel MatSpec MatProofs MatKernel MatOps ExpModel ExpProofs
  AttnModel AttnSpec AttnProofs AttnOps NumModel NumSpec NumProofs NumNorm RopeModel RopeSpec RopeProofs RopeOps.
Local Open Scope Z_scope.

Definition changes2 (G1 G2 : Z -> option R) (P : Z -> Prop) (s s' : buf R * buf R) : Prop :=
  changes G1 P (fst s) (fst s') /\ changes G2 P (snd s) (snd s').
Lemma changes2_loop (G1 G2 : Z -> option R) n (P : Z -> Z -> Prop) body s :
  (forall i j d, 0 <= i < n -> 0 <= j < n -> P i d -> P j d -> i = j) ->
  (forall i s1, 0 <= i < n -> b_len (fst s1) = b_len (fst s) -> b_len (snd s1) = b_len (snd s) ->
     exists s2, body i s1 = ROk s2 /\ changes2 G1 G2 (P i) s1 s2) ->
  exists s', zloop n body s = ROk s' /\ changes2 G1 G2 (fun d => exists i, 0 <= i < n /\ P i d) s s'.
Proof.
  intros Hdis Hb. destruct (Z_le_gt_dec n 0) as [Hn|Hn].
  - rewrite zloop_0 by auto. exists s. split; auto. split; apply changes_refl; intros d (i & Hi & _); lia.
  - destruct (zloop_inv (fun k s' => changes2 G1 G2 (fun d => exists i, 0 <= i < k /\ P i d) s s') n body s) as (s' & E & HC).
    + lia.
    + split; apply changes_refl; intros d (i & Hi & _); lia.
    + assert (Step : forall (G : Z -> option R) i b b1 b2, 0 <= i < n -> changes G (fun d => exists i0, 0 <= i0 < i /\ P i0 d) b b1 -> changes G (P i) b1 b2 ->
         changes G (fun d => exists i0, 0 <= i0 < i + 1 /\ P i0 d) b b2).
      { intros G i b b1 b2 Hi [H1 H2 H3] [K1 K2 K3]. constructor; [congruence| |].
        * intros d (j & Hj & Hjd). destruct (Z.eq_dec j i) as [->|N]; [auto|].
          rewrite K3; [apply H2; exists j; split; auto; lia|]. intro Hid. apply N. apply (Hdis j i d); auto; lia.
        * intros d Hd. rewrite K3; [apply H3|]; intro Hx; apply Hd.
          { destruct Hx as (j & Hj & Hjd). exists j. split; auto; lia. }
          { exists i. split; auto; lia. } }
      intros i s1 Hi [C1 C2]. destruct (Hb i s1 Hi (c_len _ _ _ _ C1) (c_len _ _ _ _ C2)) as (s2 & E2 & K1 & K2).
      exists s2. split; auto. split; eapply Step; eauto.
    + exists s'. split; auto.
Qed.

Theorem tables_ok (pos : tns Z) (freq : tns R) (scaling : R) B S m P W :
  holds pos [B; S] P -> holds freq [m] W ->
  exists sn cs, rope_tables pos freq scaling = ROk (sn, cs) /\
    holds sn [B; S; 2 * m] (fun idx => sin (turn P W m idx) * scaling)%R /\
    holds cs [B; S; 2 * m] (fun idx => cos (turn P W m idx) * scaling)%R.
Proof.
  intros HP HF.
  assert (D1 := ok_dims _ (h_ok _ _ _ HP)). rewrite (h_shape _ _ _ HP) in D1.
  assert (D2 := ok_dims _ (h_ok _ _ _ HF)). rewrite (h_shape _ _ _ HF) in D2.
  assert (HB : 0 <= B /\ 0 <= S /\ 0 <= m). { inversion D1 as [|? ? Q1 Q2]. inversion Q2. inversion D2. subst. auto. }
  set (shape := [B; S; 2 * m]).
  assert (HD : Forall (fun d => 0 <= d) shape) by (repeat constructor; lia).
  assert (HPr : product shape = B * S * (2 * m)). { unfold shape. rewrite !product_cons. change (product []) with 1. ring. }
  set (V1 := fun k => Some (sin (turn P W m (unravel shape k)) * scaling)%R).
  set (V2 := fun k => Some (cos (turn P W m (unravel shape k)) * scaling)%R).
  set (o0 := mkBuf (product shape) (fun _ : Z => @None R)).
  assert (At : forall b s d, 0 <= b < B -> 0 <= s < S -> 0 <= d < 2 * m -> unravel shape (b * S * (2 * m) + s * (2 * m) + d) = [b; s; d]).
  { intros b s d Hb Hs Hd. rewrite <- (unravel_ravel shape [b; s; d]) by (auto; repeat constructor; lia). f_equal. unfold shape. cbn [ravel]. rewrite !product_cons. change (product []) with 1. ring. }
  assert (Room : forall b s d, 0 <= b < B -> 0 <= s < S -> 0 <= d < 2 * m -> 0 <= b * S * (2 * m) + s * (2 * m) + d < product shape).
  { intros b s d Hb Hs Hd. assert (I : in_shape shape [b; s; d]) by (repeat constructor; lia). assert (R0 := ravel_bounds shape _ I).
    replace (b * S * (2 * m) + s * (2 * m) + d) with (ravel shape [b; s; d]); [exact R0|]. unfold shape. cbn [ravel]. rewrite !product_cons. change (product []) with 1. ring. }
  assert (Inner : forall b s s1, 0 <= b < B -> 0 <= s < S -> b_len (fst s1) = product shape -> b_len (snd s1) = product shape ->
    exists s2, zloop m (fun d (st : buf R * buf R) =>
      do p <- loadv (x_buf pos) (x_offset pos + (b * S + s));
      do w <- loadv (x_buf freq) (x_offset freq + d);
      let q := (IZR p * w)%R in
      let i := b * S * (m * 2) + s * (m * 2) + d in
      do x <- store (fst st) i (Some (sin q * scaling)%R);
      do x <- store x (i + m) (Some (sin q * scaling)%R);
      do y <- store (snd st) i (Some (cos q * scaling)%R);
      do y <- store y (i + m) (Some (cos q * scaling)%R);
      ROk (x, y)) s1 = ROk s2 /\ changes2 V1 V2 (fun k => exists d, 0 <= d < m /\ (k = b * S * (2 * m) + s * (2 * m) + d \/ k = b * S * (2 * m) + s * (2 * m) + d + m)) s1 s2).
  { intros b s s1 Hb Hs L1 L2. set (base := b * S * (2 * m) + s * (2 * m)) in *.
    assert (Bs : forall d, 0 <= d < 2 * m -> 0 <= base + d < product shape) by (intros d Hd; apply Room; auto).
    assert (Au : forall d, 0 <= d < 2 * m -> unravel shape (base + d) = [b; s; d]) by (intros d Hd; apply At; auto).
    replace (m * 2) with (2 * m) by ring. fold base. clearbody base.
    apply (changes2_loop V1 V2 m (fun d k => k = base + d \/ k = base + d + m)).
    - intros i j d Hi Hj [Q1|Q1] [Q2|Q2]; lia.
    - intros d s2 Hd M1 M2.
      assert (E1 : loadv (x_buf pos) (x_offset pos + (b * S + s)) = ROk (P [b; s])).
      { apply (holds_at' pos [B; S]); auto; [repeat constructor; lia|]. cbn [ravel]. rewrite !product_cons. change (product []) with 1. ring. }
      assert (E2 : loadv (x_buf freq) (x_offset freq + d) = ROk (W [d])).
      { apply (holds_at' freq [m]); auto; [repeat constructor; lia|]. cbn [ravel]. change (product []) with 1. ring. }
      rewrite E1, E2. cbn [rbind]. cbv zeta.
      assert (TV : turn P W m (unravel shape (base + d)) = (IZR (P [b; s]) * W [d])%R).
      { rewrite Au by lia. unfold turn. cbn [removelast last]. rewrite Z.mod_small by lia. reflexivity. }
      assert (TV' : turn P W m (unravel shape (base + d + m)) = (IZR (P [b; s]) * W [d])%R).
      { replace (base + d + m) with (base + (d + m)) by ring. rewrite Au by lia. unfold turn. cbn [removelast last]. replace ((d + m) mod m) with d; [reflexivity|].
        rewrite <- (Z.mod_small d m) at 1 by lia. rewrite <- (Z_mod_plus_full d 1 m). f_equal. ring. }
      assert (Go : forall G x, b_len x = product shape -> G (base + d) = G (base + d + m) ->
        exists x1 x2, store x (base + d) (G (base + d)) = ROk x1 /\ store x1 (base + d + m) (G (base + d)) = ROk x2 /\
          changes (A := R) G (fun k => k = base + d \/ k = base + d + m) x x2).
      { intros G x Lx Eq. assert (R1 := Bs d ltac:(lia)). assert (R2 := Bs (d + m) ltac:(lia)).
        destruct (changes_store G x (base + d) (G (base + d))) as (x1 & S1 & C1); [lia|auto|].
        destruct (changes_store G x1 (base + d + m) (G (base + d))) as (x2 & S2 & C2); [rewrite (c_len _ _ _ _ C1); lia|auto|].
        exists x1, x2. split; auto. split; auto. constructor.
        - rewrite (c_len _ _ _ _ C2). apply C1.
        - intros k [->| ->]; [|apply C2; auto]. rewrite (c_other _ _ _ _ C2) by lia. apply C1. auto.
        - intros k Hk. rewrite (c_other _ _ _ _ C2), (c_other _ _ _ _ C1) by lia. reflexivity. }
      destruct (Go V1 (fst s2)) as (x1 & x2 & X1 & X2 & X3); [lia|unfold V1; rewrite TV, TV'; auto|].
      destruct (Go V2 (snd s2)) as (y1 & y2 & Y1 & Y2 & Y3); [lia|unfold V2; rewrite TV, TV'; auto|].
      unfold V1 in X1, X2. rewrite TV in X1, X2. unfold V2 in Y1, Y2. rewrite TV in Y1, Y2.
      rewrite X1. cbn [rbind]. rewrite X2. cbn [rbind]. rewrite Y1. cbn [rbind]. rewrite Y2. cbn [rbind].
      exists (x2, y2). split; auto. split; auto. }
  assert (Middle : forall b s1, 0 <= b < B -> b_len (fst s1) = product shape -> b_len (snd s1) = product shape ->
    exists s2, zloop S (fun s => zloop m (fun d (st : buf R * buf R) =>
      do p <- loadv (x_buf pos) (x_offset pos + (b * S + s));
      do w <- loadv (x_buf freq) (x_offset freq + d);
      let q := (IZR p * w)%R in
      let i := b * S * (m * 2) + s * (m * 2) + d in
      do x <- store (fst st) i (Some (sin q * scaling)%R);
      do x <- store x (i + m) (Some (sin q * scaling)%R);
      do y <- store (snd st) i (Some (cos q * scaling)%R);
      do y <- store y (i + m) (Some (cos q * scaling)%R);
      ROk (x, y))) s1 = ROk s2 /\ changes2 V1 V2 (fun k => exists s, 0 <= s < S /\ exists d, 0 <= d < 2 * m /\ k = b * S * (2 * m) + s * (2 * m) + d) s1 s2).
  { intros b s1 Hb L1 L2.
    apply (changes2_loop V1 V2 S (fun s k => exists d, 0 <= d < 2 * m /\ k = b * S * (2 * m) + s * (2 * m) + d)).
    - intros i j k Hi Hj (d & Hd & ->) (e & He & E). apply (Z.div_mod_unique (2 * m) i j d e); lia.
    - intros s s2 Hs M1 M2. destruct (Inner b s s2 Hb Hs ltac:(lia) ltac:(lia)) as (s3 & E & C1 & C2). exists s3. split; auto.
      split; (eapply changes_iff; [|eassumption]); intro k; (split; [intros (d & Hd & [->| ->]); [exists d|exists (d + m)]; split; lia|]);
        intros (d & Hd & ->); (destruct (Z_lt_le_dec d m); [exists d|exists (d - m)]); split; lia. }
  assert (All := fun Hd => changes2_loop V1 V2 B (fun b k => exists s, 0 <= s < S /\ exists d, 0 <= d < 2 * m /\ k = b * S * (2 * m) + s * (2 * m) + d)
    _ (o0, o0) Hd (fun b s1 Hb L1 L2 => Middle b s1 Hb L1 L2)).
  destruct All as ([x y] & E & C1 & C2).
  { intros i j k Hi Hj (s & Hs & d & Hd & ->) (s' & Hs' & e & He & E). 
    assert (Q : i * S + s = j * S + s') by (apply (Z.div_mod_unique (2 * m) (i * S + s) (j * S + s') d e); lia).
    apply (Z.div_mod_unique S i j s s'); lia. }
  cbn [fst snd] in *.
  assert (Full : forall G z, changes (A := R) G (fun k => exists b, 0 <= b < B /\ exists s, 0 <= s < S /\ exists d, 0 <= d < 2 * m /\ k = b * S * (2 * m) + s * (2 * m) + d) o0 z -> changes G (segment 0 (product shape)) o0 z).
  { intros G z. apply changes_iff. intro k. unfold segment. split.
    - intros (b & Hb & s & Hs & d & Hd & ->). assert (Q := Room b s d Hb Hs Hd). lia.
    - intro Hk. destruct (unravel_spec shape k HD ltac:(lia)) as [U1 U2]. unfold shape in U1. revert U1 U2. fold shape.
      destruct (unravel shape k) as [|b [|s [|d [|? ?]]]]; intros U1 U2; try (apply in_shape_length in U1; discriminate U1).
      unfold shape in U1. apply in_shape_cons in U1. destruct U1 as [Hb U1]. apply in_shape_cons in U1. destruct U1 as [Hs U1]. apply in_shape_cons in U1. destruct U1 as [Hd _].
      exists b. split; [lia|]. exists s. split; [lia|]. exists d. split; [lia|]. rewrite <- U2. unfold shape. cbn [ravel]. rewrite !product_cons. change (product []) with 1. ring. }
  assert (Hold : forall (f : R -> R) z, changes (fun k => Some (f (turn P W m (unravel shape k)) * scaling)%R) (segment 0 (product shape)) o0 z ->
     holds (mkTns (mkV shape (default_strides shape) 0) z) shape (fun idx => f (turn P W m idx) * scaling)%R).
  { intros f z C. assert (Rk : (1 <= length shape <= 16)%nat) by (cbn; lia).
    destruct (owner_ok shape z Rk HD) as [O1 O2]; [rewrite (c_len _ _ _ _ C); reflexivity|].
    constructor; auto. { apply default_strides_row_major. }
    intros idx Hi. unfold elem. cbn [x_view x_buf]. rewrite default_address by (apply in_shape_length; auto).
    rewrite (c_set _ _ _ _ C). { rewrite unravel_ravel by auto. reflexivity. }
    assert (R0 := ravel_bounds shape idx Hi). unfold segment. lia. }
  exists (mkTns (mkV shape (default_strides shape) 0) x), (mkTns (mkV shape (default_strides shape) 0) y).
  split; [|split; apply Hold, Full; auto].
  unfold rope_tables. rewrite (h_shape _ _ _ HP), (h_shape _ _ _ HF). 
  change (vget [B; S] 0) with (ROk B). change (vget [B; S] 1) with (ROk S). change (vget [m] 0) with (ROk m). cbn [rbind]. cbv zeta.
  replace [B; S; m * 2] with shape by (unfold shape; do 2 (apply f_equal); apply (f_equal (fun z => [z])); ring).
  rewrite fresh_ok by (auto; cbn; lia). cbn [rbind x_view x_buf]. fold o0.
  match goal with |- rbind ?X _ = _ => replace X with (ROk (x, y)) end. reflexivity.
Qed.
