(** Resampling: C124 - C128. *)
From Coq Require Import Reals Lra Psatz.
From Flocq Require Import Core.
From Verif Require Import Base DTypeModel ParamModel ParamSpec TensorModel TensorSpec TensorProofs OpsModel MatModel MatSpec AttnModel AttnSpec AttnProofs NumModel NumSpec NumSoftmax QuantModel
  PropertiesAttn InterpModel InterpSpec InterpProofs InterpKernels InterpOps InterpMath.
Local Open Scope Z_scope.

Lemma returns_ext {A} (r : res (tns A)) shape F G : returns r shape F -> (forall idx, in_shape shape idx -> F idx = G idx) -> returns r shape G.
Proof. intros (out & E & A1 & A2 & A3 & A4) H. exists out. split; [exact E|]. split; [exact A1|]. split; [exact A2|]. split; [exact A3|]. intros idx Hi. rewrite A4, H by exact Hi. reflexivity. Qed.
Lemma split3 N C W idx : in_shape [N; C; W] idx -> exists n c w, idx = [n; c; w] /\ 0 <= n < N /\ 0 <= c < C /\ 0 <= w < W.
Proof.
  intro Hi. destruct idx as [|n [|c [|w [|? ?]]]]; try (apply in_shape_length in Hi; discriminate Hi).
  apply in_shape_cons in Hi. destruct Hi as [A Hi]. apply in_shape_cons in Hi. destruct Hi as [B Hi]. apply in_shape_cons in Hi. destruct Hi as [D _]. exists n, c, w. auto.
Qed.
Lemma split4 N C H W idx : in_shape [N; C; H; W] idx -> exists n c h w, idx = [n; c; h; w] /\ 0 <= n < N /\ 0 <= c < C /\ 0 <= h < H /\ 0 <= w < W.
Proof.
  intro Hi. destruct idx as [|n idx]; [inversion Hi|]. apply in_shape_cons in Hi. destruct Hi as [A Hi]. destruct (split3 _ _ _ _ Hi) as (c & h & w & -> & B). exists n, c, h, w. tauto.
Qed.
Lemma split5 N C D H W idx : in_shape [N; C; D; H; W] idx -> exists n c d h w, idx = [n; c; d; h; w] /\ 0 <= n < N /\ 0 <= c < C /\ 0 <= d < D /\ 0 <= h < H /\ 0 <= w < W.
Proof.
  intro Hi. destruct idx as [|n idx]; [inversion Hi|]. apply in_shape_cons in Hi. destruct Hi as [A Hi]. destruct (split4 _ _ _ _ _ Hi) as (c & d & h & w & -> & B). exists n, c, d, h, w. tauto.
Qed.

(** ** C124: nearest-neighbour resampling copies, for every output element, an input element closest to its position. *)
Theorem C124_nearest_signals align aa size factor t N C W OW F :
  holds t [N; C; W] F -> asks size factor [W] [OW] -> fair align W OW ->
  exists cols, (forall i, 0 <= i < OW -> closest W (position align W OW i) (cols i)) /\
    returns (interpolate_op Nearest align aa size factor t) [N; C; OW] (on3 (fun n c w => F [n; c; cols w])).
Proof. intros HT HA FW. exists (pick align W OW). split; [intros; apply pick_closest; assumption|]. apply nearest3; assumption. Qed.
Theorem C124_nearest_images align aa size factor t N C H W OH OW F :
  holds t [N; C; H; W] F -> asks size factor [H; W] [OH; OW] -> fair align H OH -> fair align W OW ->
  exists rows cols, (forall i, 0 <= i < OH -> closest H (position align H OH i) (rows i)) /\ (forall i, 0 <= i < OW -> closest W (position align W OW i) (cols i)) /\
    returns (interpolate_op Nearest align aa size factor t) [N; C; OH; OW] (on4 (fun n c h w => F [n; c; rows h; cols w])).
Proof. intros HT HA FH FW. exists (pick align H OH), (pick align W OW). split; [intros; apply pick_closest; assumption|]. split; [intros; apply pick_closest; assumption|]. apply nearest4; assumption. Qed.
Theorem C124_nearest_volumes align aa size factor t N C D H W OD OH OW F :
  holds t [N; C; D; H; W] F -> asks size factor [D; H; W] [OD; OH; OW] -> fair align D OD -> fair align H OH -> fair align W OW ->
  exists planes rows cols, (forall i, 0 <= i < OD -> closest D (position align D OD i) (planes i)) /\
    (forall i, 0 <= i < OH -> closest H (position align H OH i) (rows i)) /\ (forall i, 0 <= i < OW -> closest W (position align W OW i) (cols i)) /\
    returns (interpolate_op Nearest align aa size factor t) [N; C; OD; OH; OW] (on5 (fun n c d h w => F [n; c; planes d; rows h; cols w])).
Proof.
  intros HT HA FD FH FW. exists (pick align D OD), (pick align H OH), (pick align W OW). do 3 (split; [intros; apply pick_closest; assumption|]). apply nearest5; assumption.
Qed.
(** The same size gives the same image. *)
Theorem C124_same_size align aa t N C H W F : holds t [N; C; H; W] F -> 0 < H -> 0 < W ->
  returns (interpolate_op Nearest align aa [H; W] [] t) [N; C; H; W] F.
Proof.
  intros HT PH PW. destruct (C124_nearest_images align aa [H; W] [] t N C H W H W F HT) as (rows & cols & A & B & E).
  - split; [discriminate|]. split; [reflexivity|]. left. reflexivity.
  - apply fair_same; exact PH.
  - apply fair_same; exact PW.
  - eapply returns_ext; [exact E|]. intros idx Hi. destruct (split4 _ _ _ _ _ Hi) as (n & c & h & w & -> & Hn & Hc & Hh & Hw). cbn [on4].
    assert (A1 := A h Hh). assert (B1 := B w Hw). rewrite position_same in A1, B1 by assumption. apply closest_node in A1; [|exact Hh]. apply closest_node in B1; [|exact Hw]. rewrite A1, B1. reflexivity.
Qed.
(** A single output element without aligned corners lies in the middle, but the code takes the first element. *)
Theorem C124_single_refuted : exists (t : tns R) F, holds t [1; 1; 4] F /\
  returns (interpolate_op Nearest false false [1] [] t) [1; 1; 1] (fun _ => F [0; 0; 0]) /\
  ~ closest 4 (position false 4 1 0) 0.
Proof.
  exists (reals [1; 1; 4] [0%R; 1%R; 2%R; 3%R]), (reals_at [1; 1; 4] [0%R; 1%R; 2%R; 3%R]).
  assert (HT : holds (reals [1; 1; 4] [0%R; 1%R; 2%R; 3%R]) [1; 1; 4] (reals_at [1; 1; 4] [0%R; 1%R; 2%R; 3%R])) by holds_reals.
  split; [exact HT|]. split.
  - rewrite (op_fresh false false [1] [] _ Nearest [1; 1; 4] [1; 1; 1] [1; 1] [4] [1] _ HT eq_refl eq_refl) by (try (split; [discriminate|split; [reflexivity|left; reflexivity]]); cbn; lia).
    cbn [interpolate_forward]. unfold nearest_2d. cbv zeta.
    assert (Z0 : forall n, 0 < n -> Z.max 0 (Z.min (roundf (source_pos false (scale_of false n 1) 0)) (n - 1)) = 0).
    { intros n Hn. unfold source_pos, scale_of. cbn [Z.eqb Pos.eqb]. replace ((0 + 1 / 2) * 0 - 1 / 2)%R with (- (1 / 2))%R by ring.
      assert (E := roundf_half (- (1 / 2))). apply Rabs_le_inv in E. assert (IZR (QuantModel.roundf (- (1 / 2))) <= 0)%R by lra. apply le_IZR in H. lia. }
    unfold zloop. change (Z.to_nat 1) with 1%nat. cbn [loop rbind]. change (Z.of_nat 0) with 0. rewrite (Z0 1), (Z0 4) by lia.
    unfold returns. eexists. split; [reflexivity|]. split; [reflexivity|]. 
    assert (O := @owner_ok R [1; 1; 1] (mkBuf 1 (fun i => if i =? 0 then Some 0%R else None)) ltac:(cbn; lia) ltac:(repeat constructor; lia) eq_refl).
    split; [apply O|]. split; [apply O|]. intros idx Hi. destruct (split3 _ _ _ _ Hi) as (n & c & w & -> & Hn & Hc & Hw). replace n with 0 by lia. replace c with 0 by lia. replace w with 0 by lia. reflexivity.
  - intros (_ & A). assert (B := A 1 ltac:(lia)). unfold position in B. replace ((0 + 1 / 2) * 4 / 1 - 1 / 2)%R with (3 / 2)%R in B by field. rewrite !Rabs_left in B by lra. lra.
Qed.
Lemma C124_hypotheses :
  holds (reals [1; 1; 1; 2] [5%R; 7%R]) [1; 1; 1; 2] (reals_at [1; 1; 1; 2] [5%R; 7%R]) /\
  asks [] [1%R; (5 / 2)%R] [1; 2] [1; 5] /\ fair true 2 5 /\ fair false 2 5 /\ fair false 1 1 /\ fair true 7 1.
Proof.
  split; [holds_reals|]. split.
  - split; [discriminate|]. split; [reflexivity|]. right. split; [reflexivity|]. split; [reflexivity|]. split; [repeat constructor; lra|].
    cbn [combine map fst snd]. replace (1 * 1)%R with (IZR 1) by ring. replace (2 * (5 / 2))%R with (IZR 5) by field. rewrite !Zfloor_IZR. reflexivity.
  - unfold fair. repeat split; try lia; auto.
Qed.

(** ** C125: linear, bilinear and trilinear resampling evaluate the piecewise linear interpolant at the position of every
    output element. *)
Lemma scale_le align inp out : 0 < inp -> inp <= out -> rgt (scale_of align inp out) 1 = false.
Proof.
  intros P H. unfold rgt. destruct (Rlt_dec 1 (scale_of align inp out)) as [L|L]; [exfalso|reflexivity]. revert L. apply Rle_not_lt.
  unfold scale_of. destruct (out =? 1) eqn:Q; [lra|]. apply Z.eqb_neq in Q.
  assert (X : forall a b, 0 < b -> a <= b -> (IZR a / IZR b <= 1)%R).
  { intros a b Hb Hab. apply IZR_lt in Hb. apply IZR_le in Hab. apply Rmult_le_reg_r with (IZR b); [exact Hb|]. unfold Rdiv. rewrite Rmult_assoc, Rinv_l by lra. lra. }
  destruct align; apply X; lia.
Qed.
Lemma source_plain align aa N C H W OH OW F n c y x : 0 < H -> 0 < W -> unsmoothed aa H OH W OW -> source align aa N C H W OH OW F n c y x = F [n; c; y; x].
Proof.
  intros PH PW [->|[A B]]; unfold source; [reflexivity|]. rewrite !scale_le by assumption. rewrite andb_false_r. reflexivity.
Qed.
Theorem C125_linear align aa size factor t N C W OW F :
  holds t [N; C; W] F -> asks size factor [W] [OW] -> fair align W OW ->
  returns (interpolate_op Linear align aa size factor t) [N; C; OW]
    (on3 (fun n c w => linear_at W (fun i => F [n; c; i]) (position align W OW w))).
Proof. apply linear3. Qed.
Theorem C125_bilinear align aa size factor t N C H W OH OW F :
  holds t [N; C; H; W] F -> asks size factor [H; W] [OH; OW] -> fair align H OH -> fair align W OW -> unsmoothed aa H OH W OW ->
  returns (interpolate_op Bilinear align aa size factor t) [N; C; OH; OW]
    (on4 (fun n c h w => linear_at H (fun y => linear_at W (fun x => F [n; c; y; x]) (position align W OW w)) (position align H OH h))).
Proof.
  intros HT HA FH FW HU. eapply returns_ext; [apply bilinear4; [exact HT|exact HA|exact FH|exact FW]|].
  intros idx Hi. destruct (split4 _ _ _ _ _ Hi) as (n & c & h & w & -> & Hn & Hc & Hh & Hw). cbn [on4].
  apply linear_ext; [apply FH|]. intros y Hy. apply linear_ext; [apply FW|]. intros x Hx. apply source_plain; [apply FH|apply FW|exact HU].
Qed.
Theorem C125_trilinear align aa size factor t N C D H W OD OH OW F :
  holds t [N; C; D; H; W] F -> asks size factor [D; H; W] [OD; OH; OW] -> fair align D OD -> fair align H OH -> fair align W OW ->
  returns (interpolate_op Trilinear align aa size factor t) [N; C; OD; OH; OW]
    (on5 (fun n c d h w => linear_at D (fun z => linear_at H (fun y => linear_at W (fun x => F [n; c; z; y; x])
       (position align W OW w)) (position align H OH h)) (position align D OD d))).
Proof. apply trilinear5. Qed.
(** The results stay between the smallest and the largest input. *)
Theorem C125_bounds align aa size factor t N C H W OH OW F lo hi :
  holds t [N; C; H; W] F -> asks size factor [H; W] [OH; OW] -> fair align H OH -> fair align W OW ->
  (forall idx, in_shape [N; C; H; W] idx -> (lo <= F idx <= hi)%R) ->
  exists G, returns (interpolate_op Bilinear align aa size factor t) [N; C; OH; OW] G /\ forall idx, in_shape [N; C; OH; OW] idx -> (lo <= G idx <= hi)%R.
Proof.
  intros HT HA FH FW HB. eexists. split; [apply bilinear4; [exact HT|exact HA|exact FH|exact FW]|].
  intros idx Hi. destruct (split4 _ _ _ _ _ Hi) as (n & c & h & w & -> & Hn & Hc & Hh & Hw). cbn [on4].
  apply linear_bounds; [apply FH|]. intros y Hy. apply linear_bounds; [apply FW|]. intros x Hx. unfold source.
  destruct (aa && _).
  - apply smoothed_bounds; [apply FH|apply FW|]. intros j k Hj Hk. apply HB. repeat constructor; lia.
  - apply HB. repeat constructor; lia.
Qed.
Theorem C125_bounds_signals align aa size factor t N C W OW F lo hi :
  holds t [N; C; W] F -> asks size factor [W] [OW] -> fair align W OW ->
  (forall idx, in_shape [N; C; W] idx -> (lo <= F idx <= hi)%R) ->
  exists G, returns (interpolate_op Linear align aa size factor t) [N; C; OW] G /\ forall idx, in_shape [N; C; OW] idx -> (lo <= G idx <= hi)%R.
Proof.
  intros HT HA FW HB. eexists. split; [apply linear3; [exact HT|exact HA|exact FW]|].
  intros idx Hi. destruct (split3 _ _ _ _ Hi) as (n & c & w & -> & Hn & Hc & Hw). cbn [on3]. apply linear_bounds; [apply FW|]. intros x Hx. apply HB. repeat constructor; lia.
Qed.
Theorem C125_bounds_volumes align aa size factor t N C D H W OD OH OW F lo hi :
  holds t [N; C; D; H; W] F -> asks size factor [D; H; W] [OD; OH; OW] -> fair align D OD -> fair align H OH -> fair align W OW ->
  (forall idx, in_shape [N; C; D; H; W] idx -> (lo <= F idx <= hi)%R) ->
  exists G, returns (interpolate_op Trilinear align aa size factor t) [N; C; OD; OH; OW] G /\ forall idx, in_shape [N; C; OD; OH; OW] idx -> (lo <= G idx <= hi)%R.
Proof.
  intros HT HA FD FH FW HB. eexists. split; [apply trilinear5; [exact HT|exact HA|exact FD|exact FH|exact FW]|].
  intros idx Hi. destruct (split5 _ _ _ _ _ _ Hi) as (n & c & d & h & w & -> & Hn & Hc & Hd & Hh & Hw). cbn [on5].
  apply linear_bounds; [apply FD|]. intros z Hz. apply linear_bounds; [apply FH|]. intros y Hy. apply linear_bounds; [apply FW|]. intros x Hx. apply HB. repeat constructor; lia.
Qed.
(** The same size gives the same image, whatever the options. *)
Theorem C125_same_size align aa t N C H W F : holds t [N; C; H; W] F -> 0 < H -> 0 < W ->
  returns (interpolate_op Bilinear align aa [H; W] [] t) [N; C; H; W] F.
Proof.
  intros HT PH PW. eapply returns_ext; [apply (C125_bilinear align aa [H; W] [] t N C H W H W F HT)|].
  - split; [discriminate|]. split; [reflexivity|]. left. reflexivity.
  - apply fair_same; exact PH.
  - apply fair_same; exact PW.
  - right. lia.
  - intros idx Hi. destruct (split4 _ _ _ _ _ Hi) as (n & c & h & w & -> & Hn & Hc & Hh & Hw). cbn [on4]. rewrite !position_same by assumption. rewrite linear_node by assumption. rewrite linear_node by assumption. reflexivity.
Qed.
(** With aligned corners the four corners of the image are kept. *)
Theorem C125_corners aa t N C H W OH OW F : holds t [N; C; H; W] F -> 0 < H -> 0 < W -> 1 < OH -> 1 < OW -> unsmoothed aa H OH W OW ->
  exists G, returns (interpolate_op Bilinear true aa [OH; OW] [] t) [N; C; OH; OW] G /\
    forall n c, 0 <= n < N -> 0 <= c < C ->
      G [n; c; 0; 0] = F [n; c; 0; 0] /\ G [n; c; 0; OW - 1] = F [n; c; 0; W - 1] /\
      G [n; c; OH - 1; 0] = F [n; c; H - 1; 0] /\ G [n; c; OH - 1; OW - 1] = F [n; c; H - 1; W - 1].
Proof.
  intros HT PH PW QH QW HU. eexists. split.
  - apply (C125_bilinear true aa [OH; OW] [] t N C H W OH OW F HT); [|split; [exact PH|split; [lia|auto]]|split; [exact PW|split; [lia|auto]]|exact HU].
    split; [discriminate|]. split; [reflexivity|]. left. reflexivity.
  - intros n c Hn Hc. cbn [on4]. rewrite !position_first, !position_last by assumption. rewrite !linear_node by lia. auto.
Qed.
(** A plane is reproduced at every position inside the image. *)
Theorem C125_planes align aa size factor t N C H W OH OW F a b d :
  holds t [N; C; H; W] F -> asks size factor [H; W] [OH; OW] -> fair align H OH -> fair align W OW -> unsmoothed aa H OH W OW ->
  (forall n c y x, in_shape [N; C; H; W] [n; c; y; x] -> F [n; c; y; x] = a + b * IZR y + d * IZR x)%R ->
  exists G, returns (interpolate_op Bilinear align aa size factor t) [N; C; OH; OW] G /\
    forall n c h w, in_shape [N; C; OH; OW] [n; c; h; w] ->
      (0 <= position align H OH h <= IZR (H - 1))%R -> (0 <= position align W OW w <= IZR (W - 1))%R ->
      G [n; c; h; w] = (a + b * position align H OH h + d * position align W OW w)%R.
Proof.
  intros HT HA FH FW HU HF. eexists. split; [apply C125_bilinear; [exact HT|exact HA|exact FH|exact FW|exact HU]|].
  intros n c h w Hi Ph Pw. destruct (split4 _ _ _ _ _ Hi) as (n' & c' & h' & w' & E & Hn & Hc & Hh & Hw). injection E as <- <- <- <-. cbn [on4].
  assert (PH : 0 < H) by apply FH. assert (PW : 0 < W) by apply FW.
  rewrite (linear_ext H _ (fun y => (a + d * position align W OW w) + b * IZR y)%R); [rewrite linear_affine by assumption; ring|exact PH|].
  intros y Hy. rewrite (linear_ext W _ (fun x => (a + b * IZR y) + d * IZR x)%R); [rewrite linear_affine by assumption; ring|exact PW|].
  intros x Hx. apply HF. repeat constructor; lia.
Qed.
(** With aligned corners every position is inside. *)
Theorem C125_aligned_inside n m o : 0 < n -> 0 <= o < m -> (0 <= position true n m o <= IZR (n - 1))%R.
Proof. apply position_inside. Qed.
Example C125_doubling : exists out,
  interpolate_op Linear true false [3] [] (reals [1; 1; 2] [5%R; 8%R]) = ROk out /\ elem out [0; 0; 1] = Some (13 / 2)%R.
Proof.
  assert (HT : holds (reals [1; 1; 2] [5%R; 8%R]) [1; 1; 2] (reals_at [1; 1; 2] [5%R; 8%R])) by holds_reals.
  destruct (C125_linear true false [3] [] _ 1 1 2 3 _ HT) as (out & E & A1 & A2 & A3 & A4).
  - split; [discriminate|]. split; [reflexivity|]. left. reflexivity.
  - split; [lia|split; [lia|auto]].
  - exists out. split; [exact E|]. rewrite A4 by (repeat constructor; lia). f_equal. cbn [on3]. unfold position. cbn [Z.eqb Pos.eqb]. change (2 - 1) with 1. change (3 - 1) with 2.
    unfold linear_at. cbv zeta. assert (Zf : Zfloor (1 * 1 / 2) = 0) by (apply Zfloor_imp; simpl; lra). rewrite Zf. rewrite !edge_in by lia. change (reals_at [1; 1; 2] [5%R; 8%R] [0; 0; 0]) with 5%R. change (reals_at [1; 1; 2] [5%R; 8%R] [0; 0; 0 + 1]) with 8%R. field.
Qed.

(** ** C126: bicubic resampling evaluates the Catmull-Rom curve along the rows, then along the columns. *)
Theorem C126_bicubic align aa size factor t N C H W OH OW F :
  holds t [N; C; H; W] F -> asks size factor [H; W] [OH; OW] -> fair align H OH -> fair align W OW -> unsmoothed aa H OH W OW ->
  returns (interpolate_op Bicubic align aa size factor t) [N; C; OH; OW]
    (on4 (fun n c h w => cubic_at H (fun y => cubic_at W (fun x => F [n; c; y; x]) (position align W OW w)) (position align H OH h))).
Proof.
  intros HT HA FH FW HU. eapply returns_ext; [apply bicubic4; [exact HT|exact HA|exact FH|exact FW]|].
  intros idx Hi. destruct (split4 _ _ _ _ _ Hi) as (n & c & h & w & -> & Hn & Hc & Hh & Hw). cbn [on4].
  apply cubic_ext; [apply FH|]. intros y Hy. apply cubic_ext; [apply FW|]. intros x Hx. apply source_plain; [apply FH|apply FW|exact HU].
Qed.
Theorem C126_same_size align aa t N C H W F : holds t [N; C; H; W] F -> 0 < H -> 0 < W ->
  returns (interpolate_op Bicubic align aa [H; W] [] t) [N; C; H; W] F.
Proof.
  intros HT PH PW. eapply returns_ext; [apply (C126_bicubic align aa [H; W] [] t N C H W H W F HT)|].
  - split; [discriminate|]. split; [reflexivity|]. left. reflexivity.
  - apply fair_same; exact PH.
  - apply fair_same; exact PW.
  - right. lia.
  - intros idx Hi. destruct (split4 _ _ _ _ _ Hi) as (n & c & h & w & -> & Hn & Hc & Hh & Hw). cbn [on4]. rewrite !position_same by assumption. rewrite cubic_node by assumption. rewrite cubic_node by assumption. reflexivity.
Qed.
(** One colour stays that colour, also when smoothed. *)
Theorem C126_constant align aa size factor t N C H W OH OW F a :
  holds t [N; C; H; W] F -> asks size factor [H; W] [OH; OW] -> fair align H OH -> fair align W OW ->
  (forall idx, in_shape [N; C; H; W] idx -> F idx = a) ->
  returns (interpolate_op Bicubic align aa size factor t) [N; C; OH; OW] (fun _ => a).
Proof.
  intros HT HA FH FW HF. eapply returns_ext; [apply bicubic4; [exact HT|exact HA|exact FH|exact FW]|].
  intros idx Hi. destruct (split4 _ _ _ _ _ Hi) as (n & c & h & w & -> & Hn & Hc & Hh & Hw). cbn [on4].
  rewrite (cubic_ext H _ (fun _ => a)); [apply cubic_const|apply FH|]. intros y Hy. rewrite (cubic_ext W _ (fun _ => a)); [apply cubic_const|apply FW|]. intros x Hx.
  unfold source. destruct (aa && _).
  - match goal with |- ?X = _ => assert (B : (a <= X <= a)%R); [|lra] end. apply smoothed_bounds; [apply FH|apply FW|]. intros j k Hj Hk. rewrite HF by (repeat constructor; lia). lra.
  - apply HF. repeat constructor; lia.
Qed.
(** A plane is reproduced at the positions with four neighbours on each axis. *)
Theorem C126_planes align aa size factor t N C H W OH OW F a b d :
  holds t [N; C; H; W] F -> asks size factor [H; W] [OH; OW] -> fair align H OH -> fair align W OW -> unsmoothed aa H OH W OW ->
  (forall n c y x, in_shape [N; C; H; W] [n; c; y; x] -> F [n; c; y; x] = a + b * IZR y + d * IZR x)%R ->
  exists G, returns (interpolate_op Bicubic align aa size factor t) [N; C; OH; OW] G /\
    forall n c h w, in_shape [N; C; OH; OW] [n; c; h; w] ->
      (1 <= position align H OH h < IZR (H - 2))%R -> (1 <= position align W OW w < IZR (W - 2))%R ->
      G [n; c; h; w] = (a + b * position align H OH h + d * position align W OW w)%R.
Proof.
  intros HT HA FH FW HU HF. eexists. split; [apply C126_bicubic; [exact HT|exact HA|exact FH|exact FW|exact HU]|].
  intros n c h w Hi Ph Pw. destruct (split4 _ _ _ _ _ Hi) as (n' & c' & h' & w' & E & Hn & Hc & Hh & Hw). injection E as <- <- <- <-. cbn [on4].
  assert (PH : 0 < H) by apply FH. assert (PW : 0 < W) by apply FW.
  rewrite (cubic_ext H _ (fun y => (a + d * position align W OW w) + b * IZR y)%R); [rewrite cubic_affine by tauto; ring|exact PH|].
  intros y Hy. rewrite (cubic_ext W _ (fun x => (a + b * IZR y) + d * IZR x)%R); [rewrite cubic_affine by tauto; ring|exact PW|].
  intros x Hx. apply HF. repeat constructor; lia.
Qed.
(** The results can leave the interval of the inputs: an image of zeros and ones gets 17/16. *)
Lemma reals_at_all (P : R -> Prop) shape l idx : P 0%R -> Forall P l -> P (reals_at shape l idx).
Proof. intros A B. unfold reals_at. rewrite Forall_forall in B. destruct (nth_in_or_default (Z.to_nat (ravel shape idx)) l 0%R) as [I|I]; [apply B; exact I|rewrite I; exact A]. Qed.
Theorem C126_bounds_refuted : exists (t : tns R) F out,
  holds t [1; 1; 1; 3] F /\ (forall idx, in_shape [1; 1; 1; 3] idx -> (0 <= F idx <= 1)%R) /\
  interpolate_op Bicubic true false [1; 5] [] t = ROk out /\ elem out [0; 0; 0; 3] = Some (17 / 16)%R.
Proof.
  set (l := [0%R; 1%R; 1%R]). assert (HT : holds (reals [1; 1; 1; 3] l) [1; 1; 1; 3] (reals_at [1; 1; 1; 3] l)) by holds_reals.
  destruct (C126_bicubic true false [1; 5] [] _ 1 1 1 3 1 5 _ HT) as (out & E & A1 & A2 & A3 & A4).
  - split; [discriminate|]. split; [reflexivity|]. left. reflexivity.
  - split; [lia|split; [lia|auto]].
  - split; [lia|split; [lia|auto]].
  - left. reflexivity.
  - exists (reals [1; 1; 1; 3] l), (reals_at [1; 1; 1; 3] l), out. split; [exact HT|]. split; [|split; [exact E|]].
    + intros idx Hi. apply (reals_at_all (fun v => (0 <= v <= 1)%R)); [lra|unfold l; repeat constructor; lra].
    + rewrite A4 by (repeat constructor; lia). f_equal. cbn [on4]. rewrite cubic1. unfold position. cbn [Z.eqb Pos.eqb]. change (3 - 1) with 2. change (5 - 1) with 4.
      unfold cubic_at, slope. cbv zeta. assert (Zf : Zfloor (3 * 2 / 4) = 1) by (apply Zfloor_imp; simpl; lra). rewrite Zf. unfold edge. cbn [Z.add Z.sub Z.ltb Z.compare Pos.compare Pos.compare_cont Pos.add Z.opp Z.pos_sub Pos.succ Z.pred_double Pos.pred_double].
      change (reals_at [1; 1; 1; 3] l [0; 0; 0; 0]) with 0%R. change (reals_at [1; 1; 1; 3] l [0; 0; 0; 1]) with 1%R. change (reals_at [1; 1; 1; 3] l [0; 0; 0; 2]) with 1%R. field.
Qed.

(** ** C127: with antialiasing, an image that shrinks is first smoothed by a Gaussian of half the largest reduction. *)
Theorem C127_smoothing align size factor t N C H W OH OW F :
  holds t [N; C; H; W] F -> asks size factor [H; W] [OH; OW] -> 0 < H -> 0 < W -> 1 < OH -> 1 < OW ->
  (1 < reduction align H OH \/ 1 < reduction align W OW)%R ->
  let blurred n c := smoothed H W (1 / 2 * Rmax (reduction align H OH) (reduction align W OW)) (fun y x => F [n; c; y; x]) in
  returns (interpolate_op Bilinear align true size factor t) [N; C; OH; OW]
    (on4 (fun n c h w => linear_at H (fun y => linear_at W (blurred n c y) (position align W OW w)) (position align H OH h))) /\
  returns (interpolate_op Bicubic align true size factor t) [N; C; OH; OW]
    (on4 (fun n c h w => cubic_at H (fun y => cubic_at W (blurred n c y) (position align W OW w)) (position align H OH h))).
Proof.
  intros HT HA PH PW QH QW HR blurred.
  assert (FH : fair align H OH) by (split; [exact PH|split; [lia|intro; lia]]). assert (FW : fair align W OW) by (split; [exact PW|split; [lia|intro; lia]]).
  assert (SH : scale_of align H OH = reduction align H OH) by (unfold scale_of, reduction; replace (OH =? 1) with false by lia; reflexivity).
  assert (SW : scale_of align W OW = reduction align W OW) by (unfold scale_of, reduction; replace (OW =? 1) with false by lia; reflexivity).
  assert (SE : forall n c y x, source align true N C H W OH OW F n c y x = blurred n c y x).
  { intros n c y x. unfold source, blurred. rewrite SH, SW. unfold rgt. destruct (Rlt_dec 1 (reduction align H OH)) as [A|A]; [reflexivity|].
    destruct (Rlt_dec 1 (reduction align W OW)) as [B|B]; [reflexivity|]. destruct HR; contradiction. }
  split.
  - eapply returns_ext; [apply bilinear4; [exact HT|exact HA|exact FH|exact FW]|]. intros idx Hi. destruct (split4 _ _ _ _ _ Hi) as (n & c & h & w & -> & Hn & Hc & Hh & Hw). cbn [on4].
    apply linear_ext; [exact PH|]. intros y Hy. apply linear_ext; [exact PW|]. intros x Hx. apply SE.
  - eapply returns_ext; [apply bicubic4; [exact HT|exact HA|exact FH|exact FW]|]. intros idx Hi. destruct (split4 _ _ _ _ _ Hi) as (n & c & h & w & -> & Hn & Hc & Hh & Hw). cbn [on4].
    apply cubic_ext; [exact PH|]. intros y Hy. apply cubic_ext; [exact PW|]. intros x Hx. apply SE.
Qed.
(** An axis that does not shrink is smoothed as well: a black row above a white row, with only the width halved, does not
    stay black. *)
Theorem C127_other_axis_refuted : exists (t : tns R) F out v,
  holds t [1; 1; 2; 4] F /\ (forall x, 0 <= x < 4 -> F [0; 0; 0; x] = 0%R) /\
  interpolate_op Bilinear false true [2; 2] [] t = ROk out /\ elem out [0; 0; 0; 0] = Some v /\ (0 < v)%R.
Proof.
  set (l := [0%R; 0%R; 0%R; 0%R; 1%R; 1%R; 1%R; 1%R]). assert (HT : holds (reals [1; 1; 2; 4] l) [1; 1; 2; 4] (reals_at [1; 1; 2; 4] l)) by holds_reals.
  destruct (C127_smoothing false [2; 2] [] _ 1 1 2 4 2 2 _ HT) as (E & _).
  - split; [discriminate|]. split; [reflexivity|]. left. reflexivity.
  - lia.
  - lia.
  - lia.
  - lia.
  - right. unfold reduction. lra.
  - destruct E as (out & E & A1 & A2 & A3 & A4). exists (reals [1; 1; 2; 4] l), (reals_at [1; 1; 2; 4] l), out. eexists. split; [exact HT|]. split; [|split; [exact E|split; [apply A4; repeat constructor; lia|]]].
    + intros x Hx. assert (Q : x = 0 \/ x = 1 \/ x = 2 \/ x = 3) by lia. destruct Q as [->|[->|[->| ->]]]; reflexivity.
    + cbn [on4]. rewrite (position_same false 2 0) by lia. rewrite linear_node by lia.
      set (s := (1 / 2 * Rmax (reduction false 2 2) (reduction false 4 2))%R).
      set (im := fun y x => reals_at [1; 1; 2; 4] l [0; 0; y; x]).
      assert (SP : forall x, (0 < smoothed 2 4 s im 0 x)%R).
      { intro x. unfold smoothed. cbv zeta. set (r := Z.max 1 (Zceil (3 * s))). assert (Hr : 1 <= r) by (unfold r; lia).
        set (g := fun y => averaged r (gauss s) 4 (im y) x).
        assert (G0 : (0 <= g 0%Z)%R). { apply (averaged_bounds r s 4 _ 0 1); [exact Hr|lia|]. intros j Hj. apply (reals_at_all (fun v => (0 <= v <= 1)%R)); [lra|unfold l; repeat constructor; lra]. }
        assert (G1 : (1 <= g 1%Z)%R). { apply (averaged_bounds r s 4 _ 1 1); [exact Hr|lia|]. intros j Hj. assert (Q : j = 0 \/ j = 1 \/ j = 2 \/ j = 3) by lia. destruct Q as [->|[->|[->| ->]]]; (match goal with |- (_ <= ?X <= _)%R => change X with 1%R end); lra. }
        unfold averaged. assert (P := gauss_total_pos s r Hr). apply Rmult_lt_0_compat; [|apply Rinv_0_lt_compat; exact P].
        assert (T : (gauss s 1%Z * edge 2 g (0 + 1)%Z <= total_over (between (- r) (r + 1)%Z) (fun k => gauss s k * edge 2 g (0 + k)%Z))%R).
        { apply (total_term (between (- r) (r + 1)) (fun k => gauss s k * edge 2 g (0 + k)%Z)%R 1).
          - intros k _. apply Rmult_le_pos; [left; apply gauss_pos|]. destruct (edge_is 2 g (0 + k) ltac:(lia)) as (j & Hj & ->). assert (Q : j = 0 \/ j = 1) by lia. destruct Q as [->| ->]; lra.
          - unfold between. apply in_map_iff. exists (1 + r). split; [ring|]. unfold range. apply in_map_iff. exists (Z.to_nat (1 + r)). split; [lia|]. apply in_seq. lia. }
        eapply Rlt_le_trans; [|exact T]. apply Rmult_lt_0_compat; [apply gauss_pos|]. change (edge 2 g (0 + 1)) with (g 1). lra. }
      assert (X := SP 0). assert (Y := SP 1).
      unfold position. replace ((0 + 1 / 2) * 4 / 2 - 1 / 2)%R with (1 / 2)%R by field. unfold linear_at. cbv zeta.
      assert (Zf : Zfloor (1 / 2) = 0) by (apply Zfloor_imp; simpl; lra). rewrite Zf. rewrite !edge_in by lia. change (0 + 1) with 1. clear - X Y. lra.
Qed.

(** ** C128: a request the operator cannot serve. *)
(** Modes that do not fit the rank give a tensor of the requested shape that nobody wrote. *)
Theorem C128_ranks_refuted (mode : imode) align aa (t : tns R) F N C H W OH OW :
  holds t [N; C; H; W] F -> 0 <= OH -> 0 <= OW -> mode = Linear \/ mode = Trilinear ->
  exists out, interpolate_op mode align aa [OH; OW] [] t = ROk out /\ x_shape out = [N; C; OH; OW] /\ forall idx, elem out idx = None.
Proof.
  intros HT PH PW HM. rewrite (op_fresh align aa [OH; OW] [] t mode [N; C; H; W] [N; C; OH; OW] [N; C] [H; W] [OH; OW] F HT eq_refl eq_refl) by (try (split; [discriminate|split; [reflexivity|left; reflexivity]]); cbn; lia).
  destruct HM as [->| ->]; cbn [interpolate_forward rbind]; (eexists; split; [reflexivity|]; split; [reflexivity|]; intro idx; reflexivity).
Qed.
(** The sizes may name the channels too; the kernels still loop over the input's channels, so more channels stay unwritten
    and fewer are overrun. *)
Theorem C128_channels_refuted :
  (exists out, interpolate_op Nearest true false [2; 1; 1] [] (reals [1; 1; 1; 1] [5%R]) = ROk out /\ x_shape out = [1; 2; 1; 1] /\ elem out [0; 1; 0; 0] = None) /\
  interpolate_op Nearest true false [1; 1; 1] [] (reals [1; 2; 1; 1] [5%R; 6%R]) = RUB.
Proof.
  assert (Z0 : Z.max 0 (Z.min (QuantModel.roundf (source_pos true (scale_of true 1 1) 0)) (1 - 1)) = 0) by lia.
  split.
  - eexists. split.
    + unfold interpolate_op. change (x_shape (reals [1; 1; 1; 1] [5%R])) with [1; 1; 1; 1]. cbn [interpolate_shape length firstn Nat.sub app zlen Z.of_nat Pos.of_succ_nat Pos.succ Z.leb Z.compare Pos.compare Pos.compare_cont rbind].
      rewrite fresh_ok by (cbn; lia). cbn [rbind interpolate_forward]. unfold nearest_2d, zloop. cbv zeta. change (Z.to_nat 1) with 1%nat. cbn [loop rbind]. change (Z.of_nat 0) with 0. rewrite !Z0. reflexivity.
    + split; reflexivity.
  - unfold interpolate_op. change (x_shape (reals [1; 2; 1; 1] [5%R; 6%R])) with [1; 2; 1; 1]. cbn [interpolate_shape length firstn Nat.sub app zlen Z.of_nat Pos.of_succ_nat Pos.succ Z.leb Z.compare Pos.compare Pos.compare_cont rbind].
    rewrite fresh_ok by (cbn; lia). cbn [rbind interpolate_forward]. unfold nearest_2d, zloop. cbv zeta. change (Z.to_nat 1) with 1%nat. change (Z.to_nat 2) with 2%nat. cbn [loop rbind]. change (Z.of_nat 0) with 0. rewrite !Z0. reflexivity.
Qed.
(** A transposed view is read as if it were stored row by row. *)
Theorem C128_views_refuted : exists (t : tns R) out,
  tensor_ok t /\ x_shape t = [1; 1; 2; 2] /\ interpolate_op Nearest false false [2; 2] [] t = ROk out /\
  elem t [0; 0; 0; 1] = Some 3%R /\ elem out [0; 0; 0; 1] = Some 2%R.
Proof.
  set (l := [1%R; 2%R; 3%R; 4%R]). set (p := reals [1; 1; 2; 2] l). assert (HT : holds p [1; 1; 2; 2] (reals_at [1; 1; 2; 2] l)) by holds_reals.
  destruct (C124_same_size false false p 1 1 2 2 _ HT ltac:(lia) ltac:(lia)) as (out & E & A1 & A2 & A3 & A4).
  exists (mkTns (mkV [1; 1; 2; 2] [4; 4; 1; 2] 0) (x_buf p)), out. split; [|split; [reflexivity|split; [exact E|split; [reflexivity|]]]].
  - constructor; [cbn; lia|reflexivity|repeat constructor; lia|]. intros idx Hi. destruct (split4 _ _ _ _ _ Hi) as (n & c & h & w & -> & Hn & Hc & Hh & Hw). unfold address, p, reals. cbn [x_view x_buf v_offset v_stride combine map fold_right fst snd b_len product]. unfold product. cbn [fold_right]. lia.
  - rewrite A4 by (repeat constructor; lia). reflexivity.
Qed.
(** What is asked for must fit the rank. *)
Theorem C128_too_many_sizes mode align aa size factor (t : tns R) : size <> [] -> zlen (x_shape t) < zlen size -> interpolate_op mode align aa size factor t = RAbort.
Proof.
  intros A B. unfold interpolate_op, interpolate_shape. destruct size as [|s size]; [congruence|]. replace (zlen (s :: size) <=? zlen (x_shape t)) with false by lia. reflexivity.
Qed.
Example C128_two_sizes : interpolate_op Linear true true [3; 3; 3; 3] [] (reals [1; 1; 2] [5%R; 8%R]) = RAbort.
Proof. apply C128_too_many_sizes; [discriminate|cbn; lia]. Qed.
Print Assumptions C124_nearest_signals.
Print Assumptions C124_nearest_images.
Print Assumptions C124_nearest_volumes.
Print Assumptions C124_same_size.
Print Assumptions C124_single_refuted.
Print Assumptions C125_linear.
Print Assumptions C125_bilinear.
Print Assumptions C125_trilinear.
Print Assumptions C125_bounds.
Print Assumptions C125_bounds_signals.
Print Assumptions C125_bounds_volumes.
Print Assumptions C125_same_size.
Print Assumptions C125_corners.
Print Assumptions C125_planes.
Print Assumptions C125_aligned_inside.
Print Assumptions C126_bicubic.
Print Assumptions C126_same_size.
Print Assumptions C126_constant.
Print Assumptions C126_planes.
Print Assumptions C126_bounds_refuted.
Print Assumptions C127_smoothing.
Print Assumptions C127_other_axis_refuted.
Print Assumptions C128_ranks_refuted.
Print Assumptions C128_channels_refuted.
Print Assumptions C128_views_refuted.
Print Assumptions C128_too_many_sizes.
