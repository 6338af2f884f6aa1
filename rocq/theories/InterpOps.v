(** Proofs about resampling: smoothing, and the operator. *)
From Coq Require Import Reals Lra Psatz.
From Flocq Require Import Core.
From Verif Require Import Base DTypeModel ParamModel ParamSpec ParamProofs TensorModel TensorSpec TensorProofs TensorSplit
  OpsModel OpsSpec OpsProofs MatModel MatSpec MatProofs MatKernel AttnModel AttnSpec AttnProofs NumModel NumSpec NumSoftmax RopeProofs RopeOps QuantModel
  InterpModel InterpSpec InterpProofs InterpKernels.
Local Open Scope Z_scope.

Lemma loadv_cell (b : buf R) d v : 0 <= d < b_len b -> b_at b d = Some v -> loadv b d = ROk v.
Proof. intros Hd E. unfold loadv, load. replace ((0 <=? d) && (d <? b_len b)) with true by lia. rewrite E. reflexivity. Qed.
Lemma radius_pos sigma : 1 <= blur_radius sigma.
Proof. unfold blur_radius. lia. Qed.
Lemma blur_weight_gauss sigma k : blur_weight sigma k = gauss sigma k.
Proof. unfold blur_weight, gauss. f_equal. f_equal; simpl; ring. Qed.
Lemma between_snoc a j : 0 <= j -> between a (a + (j + 1)) = between a (a + j) ++ [a + j].
Proof.
  intro Hj. unfold between. replace (a + (j + 1) - a) with (j + 1) by ring. replace (a + j - a) with j by ring.
  unfold range. replace (Z.to_nat (j + 1)) with (Z.to_nat j + 1)%nat by lia. rewrite seq_app, !map_app. cbn [seq map]. rewrite Nat.add_0_l, Z2Nat.id by lia. reflexivity.
Qed.
Lemma blur_sum_total sigma : blur_sum sigma = total_over (between (- blur_radius sigma) (blur_radius sigma + 1)) (gauss sigma).
Proof.
  unfold blur_sum. cbv zeta. set (r := blur_radius sigma). assert (Hr := radius_pos sigma). fold r in Hr.
  replace (r + 1) with (- r + (2 * r + 1)) by ring.
  assert (X : forall m, fold_left (fun s i => (s + blur_weight sigma (Z.of_nat i - r))%R) (seq 0 m) 0%R = total_over (between (- r) (- r + Z.of_nat m)) (gauss sigma)).
  { induction m as [|m IH].
    - cbn [seq fold_left Z.of_nat]. unfold between. replace (- r + 0 - - r) with 0 by ring. reflexivity.
    - rewrite seq_S, fold_left_app, IH. cbn [fold_left]. rewrite Nat.add_0_l. replace (Z.of_nat (S m)) with (Z.of_nat m + 1) by lia. rewrite total_snoc by lia.
      rewrite blur_weight_gauss. f_equal. f_equal. ring. }
  rewrite X, Z2Nat.id by lia. reflexivity.
Qed.
Lemma gauss_pos sigma k : (0 < gauss sigma k)%R.
Proof. apply exp_pos. Qed.
Lemma gauss_total_pos sigma r : 1 <= r -> (0 < total_over (between (- r) (r + 1)) (gauss sigma))%R.
Proof.
  intro Hr. apply total_pos.
  - intros j _. apply gauss_pos.
  - unfold between, range. replace (Z.to_nat (r + 1 - - r)) with (S (Z.to_nat (2 * r))) by lia. cbn [seq map]. discriminate.
Qed.
Lemma blur_acc_ok sigma src at_ g : (forall k, - blur_radius sigma <= k <= blur_radius sigma -> loadv src (at_ k) = ROk (g k)) ->
  blur_acc sigma src at_ = ROk (total_over (between (- blur_radius sigma) (blur_radius sigma + 1)) (fun k => gauss sigma k * g k) / total_over (between (- blur_radius sigma) (blur_radius sigma + 1)) (gauss sigma))%R.
Proof.
  intros HL. unfold blur_acc. cbv zeta. set (r := blur_radius sigma) in *. assert (Hr := radius_pos sigma). fold r in Hr.
  destruct (zloop_inv (fun i acc => acc = total_over (between (- r) (- r + i)) (fun k => blur_kernel sigma k * g k)%R) (2 * r + 1)
    (fun i acc => do v <- loadv src (at_ (i - r)); ROk (acc + blur_kernel sigma (i - r) * v)%R) 0%R) as (v & E & P).
  - lia.
  - unfold between. replace (- r + 0 - - r) with 0 by ring. reflexivity.
  - intros i s Hi ->. rewrite HL by lia. cbn [rbind]. eexists. split; [reflexivity|]. rewrite total_snoc by lia. replace (i - r) with (- r + i) by ring. reflexivity.
  - rewrite E. f_equal. rewrite P. replace (- r + (2 * r + 1)) with (r + 1) by ring. unfold Rdiv. rewrite Rmult_comm. rewrite <- total_mul. apply total_ext. intros k _.
    unfold blur_kernel. rewrite blur_weight_gauss, blur_sum_total. fold r. unfold Rdiv. ring.
Qed.
Lemma clamp_other i n : 0 < n -> Z.min (Z.max i 0) (n - 1) = clampi i n.
Proof. unfold clampi. lia. Qed.

Lemma ravel4 N C H W n c h w : ravel [N; C; H; W] [n; c; h; w] = ((n * C + c) * H + h) * W + w.
Proof. unfold ravel, product. cbn [fold_right]. ring. Qed.
Lemma ravel3 N C W n c w : ravel [N; C; W] [n; c; w] = (n * C + c) * W + w.
Proof. unfold ravel, product. cbn [fold_right]. ring. Qed.
Lemma ravel5 N C D H W n c d h w : ravel [N; C; D; H; W] [n; c; d; h; w] = (((n * C + c) * D + d) * H + h) * W + w.
Proof. unfold ravel, product. cbn [fold_right]. ring. Qed.
Lemma cell4 N C H W V n c h w : 0 <= n < N -> 0 <= c < C -> 0 <= h < H -> 0 <= w < W ->
  cell_value (out_view [N; C; H; W]) V (((n * C + c) * H + h) * W + w) = Some (V [n; c; h; w]).
Proof. intros. rewrite <- (ravel4 N C H W). apply out_cell; repeat constructor; lia. Qed.
Lemma cell3 N C W V n c w : 0 <= n < N -> 0 <= c < C -> 0 <= w < W ->
  cell_value (out_view [N; C; W]) V ((n * C + c) * W + w) = Some (V [n; c; w]).
Proof. intros. rewrite <- (ravel3 N C W). apply out_cell; repeat constructor; lia. Qed.
Lemma cell5 N C D H W V n c d h w : 0 <= n < N -> 0 <= c < C -> 0 <= d < D -> 0 <= h < H -> 0 <= w < W ->
  cell_value (out_view [N; C; D; H; W]) V ((((n * C + c) * D + d) * H + h) * W + w) = Some (V [n; c; d; h; w]).
Proof. intros. rewrite <- (ravel5 N C D H W). apply out_cell; repeat constructor; lia. Qed.
Lemma prod4 N C H W : product [N; C; H; W] = N * C * H * W. Proof. unfold product. cbn [fold_right]. ring. Qed.
Lemma prod3 N C W : product [N; C; W] = N * C * W. Proof. unfold product. cbn [fold_right]. ring. Qed.
Lemma prod5 N C D H W : product [N; C; D; H; W] = N * C * D * H * W. Proof. unfold product. cbn [fold_right]. ring. Qed.

(** One pass of the smoothing. *)
Lemma pass_ok N C H W body b g : 0 <= N -> 0 <= C -> 0 <= H -> 0 <= W -> b_len b = N * C * H * W ->
  (forall n c h w b1, 0 <= n < N -> 0 <= c < C -> 0 <= h < H -> 0 <= w < W -> body n c h w b1 = store b1 (((n * C + c) * H + h) * W + w) (Some (g n c h w))) ->
  exists b', zloop N (fun n => zloop C (fun c => zloop H (fun h => zloop W (body n c h)))) b = ROk b' /\ plane_src b' 0 N C H W g.
Proof.
  intros PN PC PH PW HB HE. destruct (fill4 (cell_value (out_view [N; C; H; W]) (on4 g)) N C H W 0 body b PN PC PH PW) as (b' & E & Ch).
  - intros n c h w b1 Hn Hc Hh Hw HL. rewrite HE, Z.add_0_l by assumption. apply changes_store.
    + rewrite HL, HB. apply bound4; assumption.
    + rewrite cell4 by assumption. reflexivity.
  - exists b'. split; [exact E|]. intros n c h w Hn Hc Hh Hw. assert (B := bound4 N C H W n c h w Hn Hc Hh Hw). rewrite Z.add_0_l. apply loadv_cell.
    + rewrite (c_len _ _ _ _ Ch), HB. exact B.
    + rewrite (c_set _ _ _ _ Ch); [|exact B]. rewrite cell4 by assumption. reflexivity.
Qed.
Lemma blur_ok N C H W sigma x xo f : 0 <= N -> 0 <= C -> 0 < H -> 0 < W -> plane_src x xo N C H W f ->
  exists b, blur N C H W sigma x xo = ROk b /\ plane_src b 0 N C H W (fun n c => smoothed H W sigma (f n c)).
Proof.
  intros PN PC PH PW HX. unfold blur. cbv zeta. set (r := blur_radius sigma).
  destruct (pass_ok N C H W (fun n c h w o =>
      do acc <- blur_acc sigma x (fun k => xo + (((n * C + c) * H + h) * W + Z.min (Z.max (w + k) 0) (W - 1)));
      store o (((n * C + c) * H + h) * W + w) (Some acc)) (mkBuf (N * C * H * W) (fun _ => Some 0%R))
      (fun n c h w => averaged r (gauss sigma) W (f n c h) w) PN PC ltac:(lia) ltac:(lia) eq_refl) as (tmp & E1 & P1).
  { intros n c h w b1 Hn Hc Hh Hw. rewrite (blur_acc_ok sigma x _ (fun k => edge W (f n c h) (w + k))); [reflexivity|].
    intros k _. rewrite clamp_other by lia. rewrite HX by (auto using clampi_in). rewrite (clampi_edge W (f n c h)) by lia. reflexivity. }
  rewrite E1. cbn [rbind].
  destruct (pass_ok N C H W (fun n c h w o =>
      do acc <- blur_acc sigma tmp (fun k => ((n * C + c) * H + Z.min (Z.max (h + k) 0) (H - 1)) * W + w);
      store o (((n * C + c) * H + h) * W + w) (Some acc)) (mkBuf (N * C * H * W) (fun _ => Some 0%R))
      (fun n c => smoothed H W sigma (f n c)) PN PC ltac:(lia) ltac:(lia) eq_refl) as (b & E2 & P2).
  { intros n c h w b1 Hn Hc Hh Hw. rewrite (blur_acc_ok sigma tmp _ (fun k => edge H (fun y => averaged r (gauss sigma) W (f n c y) w) (h + k))); [reflexivity|].
    intros k _. rewrite clamp_other by lia. rewrite <- (Z.add_0_l (_ * W + w)). rewrite P1 by (auto using clampi_in).
    rewrite <- (clampi_edge H (fun y => averaged r (gauss sigma) W (f n c y) w)) by lia. reflexivity. }
  exists b. split; [exact E2|exact P2].
Qed.

(** Shapes. *)
Lemma asks_shape pre ins outs size factor : asks size factor ins outs -> Forall (fun d => 0 <= d) ins -> interpolate_shape (pre ++ ins) size factor = ROk (pre ++ outs).
Proof.
  intros (A & B & [->|(-> & L & P & ->)]) HD.
  - unfold interpolate_shape. destruct outs as [|o outs]; [congruence|]. assert (Q : zlen (o :: outs) <=? zlen (pre ++ ins) = true).
    { apply Z.leb_le. unfold zlen. rewrite app_length, B. lia. } rewrite Q. f_equal. f_equal. rewrite app_length, B.
    replace (length pre + length ins - length ins)%nat with (length pre) by lia. apply firstn_app_exact || (rewrite firstn_app, Nat.sub_diag, firstn_all; cbn [firstn]; apply app_nil_r).
  - unfold interpolate_shape. destruct factor as [|g factor].
    { destruct ins; [|discriminate L]. cbn in A. congruence. }
    assert (Q : zlen (g :: factor) <=? zlen (pre ++ ins) = true). { apply Z.leb_le. unfold zlen. rewrite app_length, L. lia. }
    rewrite Q. f_equal. rewrite L, app_length. replace (length pre + length ins - length ins)%nat with (length pre) by lia.
    rewrite firstn_app, Nat.sub_diag, firstn_all. cbn [firstn]. rewrite app_nil_r. f_equal. rewrite skipn_app, skipn_all, Nat.sub_diag. cbn [skipn app].
    apply map_ext_in. intros [d v] Hin. cbn [fst snd]. apply Ztrunc_floor. apply Rmult_le_pos.
    + apply IZR_le. apply in_combine_l in Hin. rewrite Forall_forall in HD. auto.
    + apply in_combine_r in Hin. rewrite Forall_forall in P. auto.
Qed.

Section Op.
Context (align aa : bool) (size : list Z) (factor : list R) (t : tns R).
Lemma op_fresh mode ish osh pre ins outs F : holds t ish F -> ish = pre ++ ins -> osh = pre ++ outs -> asks size factor ins outs ->
  (1 <= length osh <= 16)%nat ->
  interpolate_op mode align aa size factor t = (do o <- interpolate_forward mode align aa ish osh (x_buf t) (x_offset t) (mkBuf (product osh) (fun _ => None)); ROk (mkTns (out_view osh) o)).
Proof using.
  intros HT E1 E2 HA HR. unfold interpolate_op. rewrite (h_shape _ _ _ HT), E1. rewrite (asks_shape pre ins outs); [|exact HA|].
  - cbn [rbind]. rewrite <- E1, <- E2. rewrite fresh_ok by exact HR. reflexivity.
  - assert (D := ok_dims _ (h_ok _ _ _ HT)). rewrite (h_shape _ _ _ HT), E1 in D. apply Forall_app in D. apply D.
Qed.
Lemma src4 N C H W F : holds t [N; C; H; W] F -> plane_src (x_buf t) (x_offset t) N C H W (fun n c h w => F [n; c; h; w]).
Proof using.
  intros HT n c h w Hn Hc Hh Hw. apply (load_ravel t [N; C; H; W] F [n; c; h; w] _ HT); [repeat constructor; lia|]. rewrite ravel4. reflexivity.
Qed.
Lemma dims4 N C H W F : holds t [N; C; H; W] F -> 0 <= N /\ 0 <= C.
Proof using. intro HT. assert (D := ok_dims _ (h_ok _ _ _ HT)). rewrite (h_shape _ _ _ HT) in D. inversion D as [|? ? ? D2]. inversion D2. split; assumption. Qed.
Lemma dims3 N C W F : holds t [N; C; W] F -> 0 <= N /\ 0 <= C.
Proof using. intro HT. assert (D := ok_dims _ (h_ok _ _ _ HT)). rewrite (h_shape _ _ _ HT) in D. inversion D as [|? ? ? D2]. inversion D2. split; assumption. Qed.
Lemma dims5 N C D H W F : holds t [N; C; D; H; W] F -> 0 <= N /\ 0 <= C.
Proof using. intro HT. assert (D1 := ok_dims _ (h_ok _ _ _ HT)). rewrite (h_shape _ _ _ HT) in D1. inversion D1 as [|? ? ? D2]. inversion D2. split; assumption. Qed.

Lemma nearest4 N C H W OH OW F : holds t [N; C; H; W] F -> asks size factor [H; W] [OH; OW] -> fair align H OH -> fair align W OW ->
  returns (interpolate_op Nearest align aa size factor t) [N; C; OH; OW] (on4 (fun n c h w => F [n; c; pick align H OH h; pick align W OW w])).
Proof using.
  intros HT HA FH FW. destruct (dims4 _ _ _ _ _ HT) as [PN PC]. assert (PH : 0 <= OH) by apply FH. assert (PW : 0 <= OW) by apply FW.
  rewrite (op_fresh Nearest [N; C; H; W] [N; C; OH; OW] [N; C] [H; W] [OH; OW] F HT eq_refl eq_refl HA) by (cbn; lia).
  set (V := on4 (fun n c h w => F [n; c; pick align H OH h; pick align W OW w])). cbn [interpolate_forward].
  destruct (nearest_ok align N C H W OH OW (x_buf t) (x_offset t) 0 _ (cell_value (out_view [N; C; OH; OW]) V) (mkBuf (product [N; C; OH; OW]) (fun _ => None)) PN PC FH FW (src4 _ _ _ _ _ HT)) as (b & E & Ch).
  - lia.
  - cbn [b_len]. rewrite prod4. lia.
  - intros n c h w Hn Hc Hh Hw. rewrite Z.add_0_l, cell4 by assumption. reflexivity.
  - rewrite E. cbn [rbind]. apply out_returns; [cbn; lia|repeat constructor; assumption|]. rewrite prod4 at 1. exact Ch.
Qed.
Lemma nearest3 N C W OW F : holds t [N; C; W] F -> asks size factor [W] [OW] -> fair align W OW ->
  returns (interpolate_op Nearest align aa size factor t) [N; C; OW] (on3 (fun n c w => F [n; c; pick align W OW w])).
Proof using.
  intros HT HA FW. destruct (dims3 _ _ _ _ HT) as [PN PC]. assert (PW : 0 <= OW) by apply FW.
  rewrite (op_fresh Nearest [N; C; W] [N; C; OW] [N; C] [W] [OW] F HT eq_refl eq_refl HA) by (cbn; lia).
  set (V := on3 (fun n c w => F [n; c; pick align W OW w])). cbn [interpolate_forward].
  assert (F1 : fair align 1 1) by (split; [lia|split; [lia|intros _; right; reflexivity]]).
  assert (HX : plane_src (x_buf t) (x_offset t) N C 1 W (fun n c _ w => F [n; c; w])).
  { intros n c h w Hn Hc Hh Hw. apply (load_ravel t [N; C; W] F [n; c; w] _ HT); [repeat constructor; lia|]. rewrite ravel3. replace h with 0 by lia. ring. }
  destruct (nearest_ok align N C 1 W 1 OW (x_buf t) (x_offset t) 0 _ (cell_value (out_view [N; C; OW]) V) (mkBuf (product [N; C; OW]) (fun _ => None)) PN PC F1 FW HX) as (b & E & Ch).
  - lia.
  - cbn [b_len]. rewrite prod3. lia.
  - intros n c h w Hn Hc Hh Hw. replace h with 0 by lia. rewrite Z.add_0_l. replace (((n * C + c) * 1 + 0) * OW + w) with ((n * C + c) * OW + w) by ring. rewrite cell3 by assumption. reflexivity.
  - rewrite E. cbn [rbind]. apply out_returns; [cbn; lia|repeat constructor; assumption|]. rewrite prod3 at 1. replace (N * C * OW) with (N * C * 1 * OW) by ring. exact Ch.
Qed.
Lemma linear3 N C W OW F : holds t [N; C; W] F -> asks size factor [W] [OW] -> fair align W OW ->
  returns (interpolate_op Linear align aa size factor t) [N; C; OW] (on3 (fun n c w => linear_at W (fun l => F [n; c; l]) (position align W OW w))).
Proof using.
  intros HT HA FW. destruct (dims3 _ _ _ _ HT) as [PN PC]. assert (PW : 0 <= OW) by apply FW.
  rewrite (op_fresh Linear [N; C; W] [N; C; OW] [N; C] [W] [OW] F HT eq_refl eq_refl HA) by (cbn; lia).
  set (V := on3 (fun n c w => linear_at W (fun l => F [n; c; l]) (position align W OW w))). cbn [interpolate_forward].
  destruct (linear_ok align N C W OW (x_buf t) (x_offset t) (fun n c l => F [n; c; l]) (cell_value (out_view [N; C; OW]) V) (mkBuf (product [N; C; OW]) (fun _ => None)) PN PC FW) as (b & E & Ch).
  - intros n c l Hn Hc Hl. apply (load_ravel t [N; C; W] F [n; c; l] _ HT); [repeat constructor; lia|]. rewrite ravel3. reflexivity.
  - cbn [b_len]. apply prod3.
  - intros n c w Hn Hc Hw. rewrite cell3 by assumption. reflexivity.
  - rewrite E. cbn [rbind]. apply out_returns; [cbn; lia|repeat constructor; assumption|]. rewrite prod3 at 1. exact Ch.
Qed.
Lemma trilinear5 N C D H W OD OH OW F : holds t [N; C; D; H; W] F -> asks size factor [D; H; W] [OD; OH; OW] -> fair align D OD -> fair align H OH -> fair align W OW ->
  returns (interpolate_op Trilinear align aa size factor t) [N; C; OD; OH; OW]
    (on5 (fun n c d h w => linear_at D (fun z => linear_at H (fun y => linear_at W (fun l => F [n; c; z; y; l]) (position align W OW w)) (position align H OH h)) (position align D OD d))).
Proof using.
  intros HT HA FD FH FW. destruct (dims5 _ _ _ _ _ _ HT) as [PN PC]. assert (PD : 0 <= OD) by apply FD. assert (PH : 0 <= OH) by apply FH. assert (PW : 0 <= OW) by apply FW.
  rewrite (op_fresh Trilinear [N; C; D; H; W] [N; C; OD; OH; OW] [N; C] [D; H; W] [OD; OH; OW] F HT eq_refl eq_refl HA) by (cbn; lia).
  match goal with |- returns _ _ ?X => set (V := X) end. cbn [interpolate_forward].
  destruct (trilinear_ok align N C D H W OD OH OW (x_buf t) (x_offset t) (fun n c d h w => F [n; c; d; h; w]) (cell_value (out_view [N; C; OD; OH; OW]) V) (mkBuf (product [N; C; OD; OH; OW]) (fun _ => None)) PN PC FD FH FW) as (b & E & Ch).
  - intros n c d h w Hn Hc Hd Hh Hw. apply (load_ravel t [N; C; D; H; W] F [n; c; d; h; w] _ HT); [repeat constructor; lia|]. rewrite ravel5. reflexivity.
  - cbn [b_len]. apply prod5.
  - intros n c d h w Hn Hc Hd Hh Hw. rewrite cell5 by assumption. reflexivity.
  - rewrite E. cbn [rbind]. apply out_returns; [cbn; lia|repeat constructor; assumption|]. rewrite prod5 at 1. exact Ch.
Qed.
Lemma nearest5 N C D H W OD OH OW F : holds t [N; C; D; H; W] F -> asks size factor [D; H; W] [OD; OH; OW] -> fair align D OD -> fair align H OH -> fair align W OW ->
  returns (interpolate_op Nearest align aa size factor t) [N; C; OD; OH; OW]
    (on5 (fun n c d h w => F [n; c; pick align D OD d; pick align H OH h; pick align W OW w])).
Proof using.
  intros HT HA FD FH FW. destruct (dims5 _ _ _ _ _ _ HT) as [PN PC]. assert (PD : 0 <= OD) by apply FD. assert (PH : 0 <= OH) by apply FH. assert (PW : 0 <= OW) by apply FW.
  rewrite (op_fresh Nearest [N; C; D; H; W] [N; C; OD; OH; OW] [N; C] [D; H; W] [OD; OH; OW] F HT eq_refl eq_refl HA) by (cbn; lia).
  match goal with |- returns _ _ ?X => set (V := X) end. cbn [interpolate_forward]. cbv zeta.
  set (G := cell_value (out_view [N; C; OD; OH; OW]) V). set (b0 := mkBuf (product [N; C; OD; OH; OW]) (fun _ : Z => @None R)).
  destruct (loop3_changes G OD N C (fun od n c => segment (((n * C + c) * OD + od) * OH * OW) (OH * OW))
    (fun od n c o => nearest_2d align 1 1 H W OH OW (x_buf t) (x_offset t + ((n * C + c) * D + pick align D OD od) * H * W) (((n * C + c) * OD + od) * OH * OW) o) b0) as (b & E & Ch).
  - intros i j k i' j' k' d Hi Hj Hk Hi' Hj' Hk' S1 S2. unfold segment in *.
    assert (PP : 0 < OH * OW) by lia.
    assert (E : (j * C + k) * OD + i = (j' * C + k') * OD + i').
    { revert S1 S2 PP. rewrite <- !Z.mul_assoc. generalize (OH * OW) ((j * C + k) * OD + i) ((j' * C + k') * OD + i'). clear. intros. nia. }
    assert (E1 : j * C + k = j' * C + k') by (clear - E Hi Hi'; nia). assert (E2 : i = i') by (clear - E E1; nia).
    assert (E3 : j = j') by (clear - E1 Hk Hk'; nia). split; [exact E2|]. split; [exact E3|]. clear - E1 E3. nia.
  - intros od n c b1 Hd Hn Hc HL _. replace (OH * OW) with (1 * 1 * OH * OW) by ring.
    assert (PK := proj1 (pick_closest align D OD od FD Hd)).
    apply (nearest_ok align 1 1 H W OH OW _ _ _ (fun _ _ h w => F [n; c; pick align D OD od; h; w])); [lia|lia|exact FH|exact FW| | | |].
    + intros n' c' h w Hn' Hc' Hh Hw. apply (load_ravel t [N; C; D; H; W] F [n; c; pick align D OD od; h; w] _ HT); [repeat constructor; lia|].
      rewrite ravel5. replace n' with 0 by lia. replace c' with 0 by lia. ring.
    + assert (0 <= (n * C + c) * OD + od) by (apply Z.add_nonneg_nonneg; [apply Z.mul_nonneg_nonneg; [apply Z.add_nonneg_nonneg; [apply Z.mul_nonneg_nonneg|]|]|]; lia). rewrite <- Z.mul_assoc. apply Z.mul_nonneg_nonneg; [assumption|]. apply Z.mul_nonneg_nonneg; assumption.
    + rewrite HL. unfold b0. cbn [b_len]. rewrite prod5. assert (B := bound4 1 N C OD 0 n c od ltac:(lia) Hn Hc Hd).
      rewrite !Z.mul_0_l, !Z.add_0_l, Z.mul_1_l in B. assert (PP : 0 <= OH * OW) by (apply Z.mul_nonneg_nonneg; assumption).
      replace (((n * C + c) * OD + od) * OH * OW + 1 * 1 * OH * OW) with ((((n * C + c) * OD + od) + 1) * (OH * OW)) by ring.
      replace (N * C * OD * OH * OW) with ((N * C * OD) * (OH * OW)) by ring. apply Z.mul_le_mono_nonneg_r; [exact PP|]. revert B. generalize (N * C * OD) ((n * C + c) * OD + od). clear. intros. lia.
    + intros n' c' h w Hn' Hc' Hh Hw. replace n' with 0 by lia. replace c' with 0 by lia. unfold G.
      replace (((n * C + c) * OD + od) * OH * OW + (((0 * 1 + 0) * OH + h) * OW + w)) with ((((n * C + c) * OD + od) * OH + h) * OW + w) by ring.
      rewrite cell5 by assumption. reflexivity.
  - match goal with |- returns (rbind ?X _) _ _ => assert (EX : X = ROk b) by exact E; rewrite EX end. cbn [rbind]. apply out_returns; [cbn; lia|repeat constructor; assumption|].
    eapply changes_iff; [|exact Ch]. intro d. cbv beta. split.
    + intros (od & n & c & Hd & Hn & Hc & S1). unfold segment in *. rewrite prod5. assert (B := bound4 1 N C OD 0 n c od ltac:(lia) Hn Hc Hd).
      rewrite !Z.mul_0_l, !Z.add_0_l, Z.mul_1_l in B.
      assert (PP : 0 <= OH * OW) by (apply Z.mul_nonneg_nonneg; assumption).
      replace (((n * C + c) * OD + od) * OH * OW) with (((n * C + c) * OD + od) * (OH * OW)) in S1 by ring.
      replace (N * C * OD * OH * OW) with ((N * C * OD) * (OH * OW)) by ring. revert B PP S1. generalize (OH * OW) (N * C * OD) ((n * C + c) * OD + od). clear. intros. nia.
    + unfold segment. rewrite prod5, Z.add_0_l. intro Hd. rewrite <- (Z.mul_assoc _ OH OW) in Hd. set (K := OH * OW) in *.
      assert (PK : 0 < K). { assert (0 <= K) by (apply Z.mul_nonneg_nonneg; assumption). destruct (Z.eq_dec K 0) as [Q|Q]; [rewrite Q in Hd|]; lia. }
      assert (M := Z.div_mod d K ltac:(lia)). assert (MB := Z.mod_pos_bound d K PK).
      assert (Q0 : 0 <= d / K < N * C * OD). { split; [apply Z.div_pos; lia|]. apply Z.div_lt_upper_bound; [exact PK|]. rewrite Z.mul_comm. apply Hd. }
      assert (PO : 0 < OD). { destruct (Z.eq_dec OD 0) as [Q|Q]; [rewrite Q in Q0|]; lia. }
      assert (M1 := Z.div_mod (d / K) OD ltac:(lia)). assert (MB1 := Z.mod_pos_bound (d / K) OD PO).
      assert (Q1 : 0 <= d / K / OD < N * C). { split; [apply Z.div_pos; lia|]. apply Z.div_lt_upper_bound; [exact PO|]. rewrite Z.mul_comm. apply Q0. }
      assert (PCC : 0 < C). { destruct (Z.eq_dec C 0) as [Q|Q]; [rewrite Q in Q1|]; lia. }
      assert (M2 := Z.div_mod (d / K / OD) C ltac:(lia)). assert (MB2 := Z.mod_pos_bound (d / K / OD) C PCC).
      assert (Q2 : 0 <= d / K / OD / C < N). { split; [apply Z.div_pos; lia|]. apply Z.div_lt_upper_bound; [exact PCC|]. rewrite Z.mul_comm. apply Q1. }
      exists ((d / K) mod OD), (d / K / OD / C), ((d / K / OD) mod C). split; [exact MB1|]. split; [exact Q2|]. split; [exact MB2|].
      assert (A : (d / K / OD / C * C + (d / K / OD) mod C) * OD + (d / K) mod OD = d / K) by lia.
      rewrite A. rewrite <- Z.mul_assoc. fold K. revert M MB. generalize (d / K) (d mod K). clear. intros. lia.
Qed.

(** The smoothed image, when the caller asked for it. *)
Definition source (N C H W OH OW : Z) (F : list Z -> R) (n c y x : Z) : R :=
  if aa && (rgt (scale_of align H OH) 1 || rgt (scale_of align W OW) 1)
  then smoothed H W (1 / 2 * Rmax (scale_of align H OH) (scale_of align W OW)) (fun y x => F [n; c; y; x]) y x else F [n; c; y; x].
Lemma antialiased_ok N C H W OH OW F : holds t [N; C; H; W] F -> 0 < H -> 0 < W ->
  exists s, antialiased aa align N C H W OH OW (x_buf t) (x_offset t) = ROk s /\ plane_src (fst s) (snd s) N C H W (source N C H W OH OW F).
Proof using.
  intros HT PH PW. destruct (dims4 _ _ _ _ _ HT) as [PN PC]. unfold antialiased, source. cbv zeta.
  destruct (aa && (rgt (scale_of align H OH) 1 || rgt (scale_of align W OW) 1)).
  - destruct (blur_ok N C H W (1 / 2 * Rmax (scale_of align H OH) (scale_of align W OW)) _ _ _ PN PC PH PW (src4 _ _ _ _ _ HT)) as (b & E & P).
    rewrite E. cbn [rbind]. eexists. split; [reflexivity|]. exact P.
  - eexists. split; [reflexivity|]. exact (src4 _ _ _ _ _ HT).
Qed.
Lemma bilinear4 N C H W OH OW F : holds t [N; C; H; W] F -> asks size factor [H; W] [OH; OW] -> fair align H OH -> fair align W OW ->
  returns (interpolate_op Bilinear align aa size factor t) [N; C; OH; OW]
    (on4 (fun n c h w => linear_at H (fun y => linear_at W (source N C H W OH OW F n c y) (position align W OW w)) (position align H OH h))).
Proof using.
  intros HT HA FH FW. destruct (dims4 _ _ _ _ _ HT) as [PN PC]. assert (PH : 0 <= OH) by apply FH. assert (PW : 0 <= OW) by apply FW.
  rewrite (op_fresh Bilinear [N; C; H; W] [N; C; OH; OW] [N; C] [H; W] [OH; OW] F HT eq_refl eq_refl HA) by (cbn; lia).
  match goal with |- returns _ _ ?X => set (V := X) end. cbn [interpolate_forward].
  destruct (antialiased_ok N C H W OH OW F HT (proj1 FH) (proj1 FW)) as (s & Es & Ps). rewrite Es. cbn [rbind].
  destruct (bilinear_ok align N C H W OH OW (fst s) (snd s) 0 _ (cell_value (out_view [N; C; OH; OW]) V) (mkBuf (product [N; C; OH; OW]) (fun _ => None)) PN PC FH FW Ps) as (b & E & Ch).
  - lia.
  - cbn [b_len]. rewrite prod4. lia.
  - intros n c h w Hn Hc Hh Hw. rewrite Z.add_0_l, cell4 by assumption. reflexivity.
  - rewrite E. cbn [rbind]. apply out_returns; [cbn; lia|repeat constructor; assumption|]. rewrite prod4 at 1. exact Ch.
Qed.
Lemma bicubic4 N C H W OH OW F : holds t [N; C; H; W] F -> asks size factor [H; W] [OH; OW] -> fair align H OH -> fair align W OW ->
  returns (interpolate_op Bicubic align aa size factor t) [N; C; OH; OW]
    (on4 (fun n c h w => cubic_at H (fun y => cubic_at W (source N C H W OH OW F n c y) (position align W OW w)) (position align H OH h))).
Proof using.
  intros HT HA FH FW. destruct (dims4 _ _ _ _ _ HT) as [PN PC]. assert (PH : 0 <= OH) by apply FH. assert (PW : 0 <= OW) by apply FW.
  rewrite (op_fresh Bicubic [N; C; H; W] [N; C; OH; OW] [N; C] [H; W] [OH; OW] F HT eq_refl eq_refl HA) by (cbn; lia).
  match goal with |- returns _ _ ?X => set (V := X) end. cbn [interpolate_forward].
  destruct (antialiased_ok N C H W OH OW F HT (proj1 FH) (proj1 FW)) as (s & Es & Ps). rewrite Es. cbn [rbind].
  destruct (bicubic_ok align N C H W OH OW (fst s) (snd s) 0 _ (cell_value (out_view [N; C; OH; OW]) V) (mkBuf (product [N; C; OH; OW]) (fun _ => None)) PN PC FH FW Ps) as (b & E & Ch).
  - lia.
  - cbn [b_len]. rewrite prod4. lia.
  - intros n c h w Hn Hc Hh Hw. rewrite Z.add_0_l, cell4 by assumption. reflexivity.
  - rewrite E. cbn [rbind]. apply out_returns; [cbn; lia|repeat constructor; assumption|]. rewrite prod4 at 1. exact Ch.
Qed.
End Op.
