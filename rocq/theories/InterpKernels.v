(** Proofs about resampling: the kernels and the operator. *)
From Coq Require Import Reals Lra Psatz.
From Flocq Require Import Core.
From Verif Require Import Base DTypeModel ParamModel ParamSpec ParamProofs TensorModel TensorSpec TensorProofs TensorSplit
  OpsModel OpsSpec OpsProofs MatModel MatSpec MatProofs MatKernel AttnModel AttnSpec AttnProofs NumModel NumSpec RopeProofs RopeOps QuantModel InterpModel InterpSpec InterpProofs.
Local Open Scope Z_scope.

(** Input data as the kernels read it. *)
Definition plane_src (x : buf R) (xo N C H W : Z) (f : Z -> Z -> Z -> Z -> R) : Prop :=
  forall n c h w, 0 <= n < N -> 0 <= c < C -> 0 <= h < H -> 0 <= w < W -> loadv x (xo + (((n * C + c) * H + h) * W + w)) = ROk (f n c h w).
Lemma bound4 N C H W n c h w : 0 <= n < N -> 0 <= c < C -> 0 <= h < H -> 0 <= w < W -> 0 <= ((n * C + c) * H + h) * W + w < N * C * H * W.
Proof.
  intros A B D E. assert (X := ravel_bounds [N; C; H; W] [n; c; h; w] ltac:(repeat constructor; lia)). unfold product in X. cbn [ravel] in X. unfold product in X. cbn [fold_right] in X.
  replace (((n * C + c) * H + h) * W + w) with (n * (C * (H * (W * 1))) + (c * (H * (W * 1)) + (h * (W * 1) + (w * 1 + 0)))) by ring.
  replace (N * C * H * W) with (N * (C * (H * (W * 1)))) by ring. exact X.
Qed.
Lemma bound5 N C D H W n c d h w : 0 <= n < N -> 0 <= c < C -> 0 <= d < D -> 0 <= h < H -> 0 <= w < W -> 0 <= (((n * C + c) * D + d) * H + h) * W + w < N * C * D * H * W.
Proof.
  intros A B Dd E F. assert (X := bound4 (N * C) D H W (n * C + c) d h w). apply X; auto. nia.
Qed.

Section Kernels.
Context (align : bool) (N C H W OH OW : Z) (x : buf R) (xo oo : Z) (f : Z -> Z -> Z -> Z -> R) (G : Z -> option R) (b : buf R).
Hypothesis HN : 0 <= N.
Hypothesis HC : 0 <= C.
Hypothesis FH : fair align H OH.
Hypothesis FW : fair align W OW.
Hypothesis HX : plane_src x xo N C H W f.
Hypothesis HO : 0 <= oo.
Hypothesis HB : oo + N * C * OH * OW <= b_len b.

Lemma nearest_ok :
  (forall n c h w, 0 <= n < N -> 0 <= c < C -> 0 <= h < OH -> 0 <= w < OW ->
     G (oo + (((n * C + c) * OH + h) * OW + w)) = Some (f n c (pick align H OH h) (pick align W OW w))) ->
  exists b', nearest_2d align N C H W OH OW x xo oo b = ROk b' /\ changes G (segment oo (N * C * OH * OW)) b b'.
Proof using All.
  intros HG. unfold nearest_2d. cbv zeta. apply fill4; [exact HN|exact HC|apply FH|apply FW|].
  intros n c h w b1 Hn Hc Hh Hw HL. fold (pick align H OH h) (pick align W OW w).
  assert (P1 := proj1 (pick_closest align H OH h FH Hh)). assert (P2 := proj1 (pick_closest align W OW w FW Hw)).
  rewrite HX by assumption. cbn [rbind]. apply changes_store; [|symmetry; apply HG; assumption].
  assert (B := bound4 N C OH OW n c h w Hn Hc Hh Hw). rewrite HL. revert B HO HB. clear. lia.
Qed.
Lemma bilinear_ok :
  (forall n c h w, 0 <= n < N -> 0 <= c < C -> 0 <= h < OH -> 0 <= w < OW ->
     G (oo + (((n * C + c) * OH + h) * OW + w)) =
     Some (linear_at H (fun y => linear_at W (f n c y) (position align W OW w)) (position align H OH h))) ->
  exists b', bilinear_2d align N C H W OH OW x xo oo b = ROk b' /\ changes G (segment oo (N * C * OH * OW)) b b'.
Proof using All.
  intros HG. unfold bilinear_2d. cbv zeta. apply fill4; [exact HN|exact HC|apply FH|apply FW|].
  intros n c h w b1 Hn Hc Hh Hw HL.
  assert (PH : 0 < H) by apply FH. assert (PW : 0 < W) by apply FW.
  rewrite !HX by (auto using clampi_in). cbn [rbind]. apply changes_store.
  - assert (B := bound4 N C OH OW n c h w Hn Hc Hh Hw). rewrite HL. revert B HO HB. clear. lia.
  - rewrite HG by assumption. f_equal. rewrite <- (linear_src align H OH h) by assumption.
    set (ph := source_pos align (scale_of align H OH) h). set (pw := source_pos align (scale_of align W OW) w).
    unfold linear_at at 1. cbv zeta. rewrite <- !(clampi_edge H) by exact PH.
    rewrite <- !(linear_src align W OW w) by assumption. fold pw. unfold linear_at. cbv zeta. rewrite <- !(clampi_edge W) by exact PW. ring.
Qed.
Lemma cubic_edges n (g : Z -> R) p : 
  cubic_interp1d (edge n g (Zfloor p - 1)) (edge n g (Zfloor p)) (edge n g (Zfloor p + 1)) (edge n g (Zfloor p + 2)) (p - IZR (Zfloor p)) = cubic_at n g p.
Proof using.
  unfold cubic_interp1d, cubic_at, slope. cbv zeta. replace (Zfloor p + 1 + 1) with (Zfloor p + 2) by ring. replace (Zfloor p + 1 - 1) with (Zfloor p) by ring. field.
Qed.
Lemma bicubic_ok :
  (forall n c h w, 0 <= n < N -> 0 <= c < C -> 0 <= h < OH -> 0 <= w < OW ->
     G (oo + (((n * C + c) * OH + h) * OW + w)) =
     Some (cubic_at H (fun y => cubic_at W (f n c y) (position align W OW w)) (position align H OH h))) ->
  exists b', bicubic_2d align N C H W OH OW x xo oo b = ROk b' /\ changes G (segment oo (N * C * OH * OW)) b b'.
Proof using All.
  intros HG. unfold bicubic_2d. cbv zeta. apply fill4; [exact HN|exact HC|apply FH|apply FW|].
  intros n c h w b1 Hn Hc Hh Hw HL.
  assert (PH : 0 < H) by apply FH. assert (PW : 0 < W) by apply FW.
  assert (LD : forall y z, loadv x (xo + (((n * C + c) * H + clampi y H) * W + clampi z W)) = ROk (edge W (f n c (clampi y H)) z)).
  { intros y z. rewrite HX by (auto using clampi_in). rewrite (clampi_edge W (f n c (clampi y H))) by exact PW. reflexivity. }
  rewrite !LD. cbn [rbind]. apply changes_store.
  - assert (B := bound4 N C OH OW n c h w Hn Hc Hh Hw). rewrite HL. revert B HO HB. clear. lia.
  - rewrite HG by assumption. f_equal. rewrite <- (cubic_src align H OH h) by assumption.
    set (ph := source_pos align (scale_of align H OH) h). set (pw := source_pos align (scale_of align W OW) w).
    assert (EC : forall y, cubic_interp1d (edge W (f n c (clampi y H)) (Zfloor pw + 0 - 1)) (edge W (f n c (clampi y H)) (Zfloor pw + 1 - 1))
       (edge W (f n c (clampi y H)) (Zfloor pw + 2 - 1)) (edge W (f n c (clampi y H)) (Zfloor pw + 3 - 1)) (pw - IZR (Zfloor pw))
       = edge H (fun y => cubic_at W (f n c y) (position align W OW w)) y).
    { intro y. replace (Zfloor pw + 0 - 1) with (Zfloor pw - 1) by ring. replace (Zfloor pw + 1 - 1) with (Zfloor pw) by ring.
      replace (Zfloor pw + 2 - 1) with (Zfloor pw + 1) by ring. replace (Zfloor pw + 3 - 1) with (Zfloor pw + 2) by ring.
      rewrite cubic_edges. rewrite <- (clampi_edge H (fun y => cubic_at W (f n c y) (position align W OW w)) y PH). cbv beta. apply cubic_src; assumption. }
    rewrite !EC. replace (Zfloor ph + 0 - 1) with (Zfloor ph - 1) by ring. replace (Zfloor ph + 1 - 1) with (Zfloor ph) by ring.
    replace (Zfloor ph + 2 - 1) with (Zfloor ph + 1) by ring. replace (Zfloor ph + 3 - 1) with (Zfloor ph + 2) by ring. apply cubic_edges.
Qed.
End Kernels.

Lemma linear_ok align N C L OL x xo f (G : Z -> option R) b : 0 <= N -> 0 <= C -> fair align L OL ->
  (forall n c l, 0 <= n < N -> 0 <= c < C -> 0 <= l < L -> loadv x (xo + ((n * C + c) * L + l)) = ROk (f n c l)) ->
  b_len b = N * C * OL ->
  (forall n c l, 0 <= n < N -> 0 <= c < C -> 0 <= l < OL -> G ((n * C + c) * OL + l) = Some (linear_at L (f n c) (position align L OL l))) ->
  exists b', linear_1d align N C L OL x xo 0 b = ROk b' /\ changes G (segment 0 (N * C * OL)) b b'.
Proof.
  intros HN HC FL HX HB HG. unfold linear_1d. cbv zeta. apply fill3; [exact HN|exact HC|apply FL|].
  intros n c l b1 Hn Hc Hl HL. assert (PL : 0 < L) by apply FL. rewrite !HX by (auto using clampi_in). cbn [rbind]. apply changes_store.
  - assert (B := bound4 1 N C OL 0 n c l ltac:(lia) Hn Hc Hl). rewrite HL, HB. revert B. clear. rewrite !Z.add_0_l, !Z.mul_1_l. auto.
  - rewrite Z.add_0_l, HG by assumption. f_equal. rewrite <- (linear_src align L OL l) by assumption. unfold linear_at. cbv zeta. rewrite <- !(clampi_edge L) by exact PL. reflexivity.
Qed.
Lemma trilinear_ok align N C D H W OD OH OW x xo f (G : Z -> option R) b : 0 <= N -> 0 <= C -> fair align D OD -> fair align H OH -> fair align W OW ->
  (forall n c d h w, 0 <= n < N -> 0 <= c < C -> 0 <= d < D -> 0 <= h < H -> 0 <= w < W -> loadv x (xo + ((((n * C + c) * D + d) * H + h) * W + w)) = ROk (f n c d h w)) ->
  b_len b = N * C * OD * OH * OW ->
  (forall n c d h w, 0 <= n < N -> 0 <= c < C -> 0 <= d < OD -> 0 <= h < OH -> 0 <= w < OW -> G ((((n * C + c) * OD + d) * OH + h) * OW + w) =
     Some (linear_at D (fun z => linear_at H (fun y => linear_at W (f n c z y) (position align W OW w)) (position align H OH h)) (position align D OD d))) ->
  exists b', trilinear_3d align N C D H W OD OH OW x xo 0 b = ROk b' /\ changes G (segment 0 (N * C * OD * OH * OW)) b b'.
Proof.
  intros HN HC FD FH FW HX HB HG. unfold trilinear_3d. cbv zeta. apply fill5; [exact HN|exact HC|apply FD|apply FH|apply FW|].
  intros n c d h w b1 Hn Hc Hd Hh Hw HL. assert (PD : 0 < D) by apply FD. assert (PH : 0 < H) by apply FH. assert (PW : 0 < W) by apply FW.
  rewrite !HX by (auto using clampi_in). cbn [rbind]. apply changes_store.
  - rewrite HL, HB. apply bound5; assumption.
  - rewrite Z.add_0_l, HG by assumption. f_equal. rewrite <- (linear_src align D OD d) by assumption.
    unfold linear_at at 1. cbv zeta. rewrite <- !(clampi_edge D) by exact PD.
    rewrite <- !(linear_src align H OH h) by assumption.
    unfold linear_at at 1 3. cbv zeta. rewrite <- !(clampi_edge H) by exact PH.
    rewrite <- !(linear_src align W OW w) by assumption.
    unfold linear_at. cbv zeta. rewrite <- !(clampi_edge W) by exact PW. ring.
Qed.
