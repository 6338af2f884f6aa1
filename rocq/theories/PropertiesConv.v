(** Property theorems C76 - C79 (convolutions and pooling on the CPU). *)
From Verif Require Import Base DTypeModel ParamModel ParamSpec ParamProofs TensorModel TensorSpec TensorProofs TensorSplit
  PropertiesTensor OpsModel OpsSpec OpsProofs OpsIndex OpsSum PropertiesOps MatModel MatSpec MatProofs MatKernel MatBlas MatGguf MatOps PropertiesMat
  ConvModel ConvSpec ConvProofs ConvOne ConvThree ConvTwo.
Local Open Scope Z_scope.

(* ------------------------------------------------------------------ *)
(** ** C76: one-dimensional convolution *)

(** Every output is the left-to-right sum of its products (plus bias), for every order in
    which the parallel loop runs; nothing is assumed of the arithmetic. *)
Theorem C76_conv1d_partial : forall (A : Type) (zero : A) add mul opt order (x weight : tns A) bias B L O FX FW fb,
  1 <= c1_stride opt -> 0 <= c1_kernel opt -> 1 <= c1_groups opt -> (c1_groups opt | c1_in opt) -> (c1_groups opt | c1_out opt) ->
  window_fits L (c1_kernel opt) (c1_stride opt) (c1_padding opt) (c1_dilation opt) 0 ->
  (forall o, 0 <= o < O <-> window_fits L (c1_kernel opt) (c1_stride opt) (c1_padding opt) (c1_dilation opt) o) ->
  Permutation order (range (B * c1_out opt * O)) ->
  holds x [B; c1_in opt; L] FX -> holds weight [c1_out opt; c1_in opt / c1_groups opt; c1_kernel opt] FW -> bias_holds bias fb (c1_out opt) ->
  exists out, conv1d_op zero add mul order opt weight bias x = ROk out /\
    x_shape out = [B; c1_out opt; O] /\ tensor_ok out /\ owns_storage out /\
    forall b c o, 0 <= b < B -> 0 <= c < c1_out opt -> 0 <= o < O ->
      elem out [b; c; o] = Some (with_bias add fb c (accumulate zero add (conv1d_terms mul opt L FX FW b c o))).
Proof.
  intros A zero add mul opt order x weight bias B L O FX FW fb Hs Hk Hg DI DO H0 HO HP HX HW HB.
  destruct (conv1d_correct zero add mul opt order x weight bias B L O FX FW fb Hs Hk Hg DI DO H0 HO HP HX HW HB) as (out & E & P1 & P2 & P3 & P4).
  exists out. split; [exact E|]. split; [exact P1|]. split; [exact P2|]. split; [exact P3|]. intros b c o Hb Hc Ho.
  rewrite P4 by (apply in_shape3; auto). reflexivity.
Qed.
(** In a ring-like arithmetic that is the textbook convolution with zero padding. *)
Theorem C76_textbook : forall (A : Type) (zero : A) add mul opt L (X W : list Z -> A) b c o,
  comm_monoid zero add -> (forall y, mul zero y = zero) ->
  accumulate zero add (conv1d_terms mul opt L X W b c o) =
  total zero add (c1_in opt / c1_groups opt) (fun i => total zero add (c1_kernel opt) (fun k =>
    mul (zero_padded zero L (fun pos => X [b; c / (c1_out opt / c1_groups opt) * (c1_in opt / c1_groups opt) + i; pos])
           (tap (c1_stride opt) (c1_padding opt) (c1_dilation opt) o k)) (W [c; i; k]))).
Proof. exact @conv1d_textbook. Qed.
(** Inputs that do not fit the layer are refused. *)
Theorem C76_refused : forall (A : Type) (zero : A) add mul opt order (x weight : tns A) bias,
  (length (x_shape x) <> 3%nat \/
   exists B IC L, x_shape x = [B; IC; L] /\
     (IC <> c1_in opt \/ (c1_groups opt <> 0 /\ (~ (c1_groups opt | c1_in opt) \/ ~ (c1_groups opt | c1_out opt))))) ->
  conv1d_op zero add mul order opt weight bias x = RAbort.
Proof.
  intros A zero add mul opt order x weight bias H. unfold conv1d_op.
  assert (E : conv1d_reshape opt (x_shape x) = RAbort); [|rewrite E; reflexivity].
  destruct H as [H|(B & IC & L & E & H)].
  - destruct (x_shape x) as [|a [|b [|c [|d r]]]]; cbn [length] in H; try reflexivity. lia.
  - rewrite E. cbn [conv1d_reshape]. destruct (IC =? c1_in opt) eqn:Q; cbn [negb]; [|reflexivity].
    assert (EI : IC = c1_in opt) by lia. subst IC. destruct H as [H|[Hg H]]; [lia|].
    replace (c1_groups opt =? 0) with false by lia.
    destruct (Z.rem (c1_in opt) (c1_groups opt) =? 0) eqn:Q1; cbn [negb]; [|reflexivity].
    destruct (Z.rem (c1_out opt) (c1_groups opt) =? 0) eqn:Q2; cbn [negb]; [|reflexivity].
    destruct H as [H|H]; exfalso; apply H; apply Z.rem_divide; lia.
Qed.
Definition c1_small : conv1d_options := mkConv1d 2 4 2 2 1 2 1.
Lemma C76_hypotheses :
  window_fits 3 2 2 1 1 0 /\ (forall o, 0 <= o < 2 <-> window_fits 3 2 2 1 1 o) /\ Permutation [7; 0; 1; 2; 6; 5; 4; 3] (range (1 * 4 * 2)) /\
  holds (ints [1; 2; 3] [1; 2; 3; 4; 5; 6]) [1; c1_in c1_small; 3] (fun idx => nth (Z.to_nat (ravel [1; 2; 3] idx)) [1; 2; 3; 4; 5; 6] 0) /\
  holds (ints [4; 1; 2] [1; 10; 1; 0; 0; 1; 2; 3]) [c1_out c1_small; c1_in c1_small / c1_groups c1_small; c1_kernel c1_small] (fun idx => nth (Z.to_nat (ravel [4; 1; 2] idx)) [1; 10; 1; 0; 0; 1; 2; 3] 0).
Proof.
  split; [unfold window_fits; lia|]. split; [intro o; unfold window_fits; lia|]. split.
  { change (range (1 * 4 * 2)) with [0; 1; 2; 3; 4; 5; 6; 7]. apply NoDup_Permutation.
    - repeat constructor; cbn; intuition lia.
    - repeat constructor; cbn; intuition lia.
    - intro i. cbn. intuition lia. }
  split; [holds_ints|holds_ints].
Qed.
Example C76_example :
  exists out, conv1d_op 0 Z.add Z.mul [7; 0; 1; 2; 6; 5; 4; 3] c1_small (ints [4; 1; 2] [1; 10; 1; 0; 0; 1; 2; 3]) (Some (ints [4] [100; 200; 300; 400])) (ints [1; 2; 3] [1; 2; 3; 4; 5; 6]) = ROk out /\
    x_shape out = [1; 4; 2] /\ contents out = map Some [110; 132; 200; 202; 304; 306; 412; 428].
Proof. by_run. Qed.
(** An input shorter than the kernel by less than the stride: there is no window, yet
    one output is produced (the division truncates towards zero). *)
Theorem C76_short_input_refuted : forall (A : Type) (zero : A) add mul opt order (x weight : tns A) bias B L FX FW fb,
  1 <= c1_stride opt -> 0 <= c1_kernel opt -> 1 <= c1_groups opt -> (c1_groups opt | c1_in opt) -> (c1_groups opt | c1_out opt) ->
  let excess := c1_dilation opt * (c1_kernel opt - 1) + 1 - (L + 2 * c1_padding opt) in
  0 < excess < c1_stride opt ->
  Permutation order (range (B * c1_out opt * 1)) ->
  holds x [B; c1_in opt; L] FX -> holds weight [c1_out opt; c1_in opt / c1_groups opt; c1_kernel opt] FW -> bias_holds bias fb (c1_out opt) ->
  (forall o, ~ window_fits L (c1_kernel opt) (c1_stride opt) (c1_padding opt) (c1_dilation opt) o) /\
  exists out, conv1d_op zero add mul order opt weight bias x = ROk out /\ x_shape out = [B; c1_out opt; 1].
Proof.
  intros A zero add mul opt order x weight bias B L FX FW fb Hs Hk Hg DI DO excess He HP HX HW HB. split.
  - intros o [H1 H2]. unfold excess in He. nia.
  - destruct (conv1d_general zero add mul opt order x weight bias B L 1 FX FW fb Hs Hk Hg DI DO) as (out & E & P1 & _); auto; [|lia|exists out; auto].
    unfold out_extent. replace (c1_stride opt =? 0) with false by lia. f_equal.
    replace (L + 2 * c1_padding opt - c1_dilation opt * (c1_kernel opt - 1) - 1) with (- excess) by (unfold excess; ring).
    rewrite Z.quot_opp_l, Z.quot_small by lia. reflexivity.
Qed.
(** Strides are ignored: a transposed view is read as if contiguous. *)
Example C76_noncontiguous_refuted :
  exists x, tensor_ok x /\ x_shape x = [1; 1; 2] /\ contents x = map Some [1; 3] /\
  exists out, conv1d_op 0 Z.add Z.mul [0; 1] (mkConv1d 1 1 1 1 0 1 1) (ints [1; 1; 1] [1]) None x = ROk out /\ contents out = map Some [1; 2].
Proof.
  exists (mkTns (mkV [1; 1; 2] [4; 4; 2] 0) (x_buf (ints [4] [1; 2; 3; 4]))). split.
  - constructor; cbn; try lia; try (repeat constructor; lia). intros idx Hi. destruct idx as [|a [|b [|c [|d r]]]]; repeat (apply in_shape_cons in Hi as [? Hi]); try solve [inversion Hi].
    unfold address. cbn. lia.
  - split; [reflexivity|]. split; [vm_compute; reflexivity|]. eexists. split; [vm_compute; reflexivity|]. vm_compute. reflexivity.
Qed.

(* ------------------------------------------------------------------ *)
(** ** C77: two-dimensional convolution *)
Theorem C77_conv2d_partial : forall (A : Type) (zero : A) add mul opt threads (x weight : tns A) bias B H W OH OW FX FW fb,
  comm_monoid zero add -> (forall a b, mul a b = mul b a) ->
  1 <= threads -> 1 <= c2_in opt -> 1 <= c2_kh opt -> 1 <= c2_kw opt -> 1 <= c2_sh opt -> 1 <= c2_sw opt ->
  window_fits H (c2_kh opt) (c2_sh opt) (c2_ph opt) (c2_dh opt) 0 -> window_fits W (c2_kw opt) (c2_sw opt) (c2_pw opt) (c2_dw opt) 0 ->
  (forall o, 0 <= o < OH <-> window_fits H (c2_kh opt) (c2_sh opt) (c2_ph opt) (c2_dh opt) o) ->
  (forall o, 0 <= o < OW <-> window_fits W (c2_kw opt) (c2_sw opt) (c2_pw opt) (c2_dw opt) o) ->
  holds x [B; c2_in opt; H; W] FX -> holds weight [c2_out opt; c2_in opt; c2_kh opt; c2_kw opt] FW -> bias_holds bias fb (c2_out opt) ->
  exists out, conv2d_op zero add mul Neon threads opt weight bias x = ROk out /\
    x_shape out = [B; c2_out opt; OH; OW] /\ tensor_ok out /\ owns_storage out /\
    forall b m oy ox, 0 <= b < B -> 0 <= m < c2_out opt -> 0 <= oy < OH -> 0 <= ox < OW ->
      elem out [b; m; oy; ox] = Some (with_bias add fb m (conv2d_value zero add mul opt H W FX FW b m oy ox)).
Proof.
  intros A zero add mul opt threads x weight bias B H W OH OW FX FW fb M0 MC HT PI PH PW Hsh Hsw F0H F0W FH FWd HX HW HB.
  destruct (conv2d_correct zero add mul M0 MC opt threads x weight bias B H W OH OW FX FW fb HT PI PH PW Hsh Hsw F0H F0W FH FWd HX HW HB) as (out & E & P1 & P2 & P3 & P4).
  exists out. split; [exact E|]. split; [exact P1|]. split; [exact P2|]. split; [exact P3|]. intros b m oy ox Hb Hm Hy Hx.
  rewrite P4 by (apply in_shape4; auto). reflexivity.
Qed.
(** Loading the layer stops the program on x86. *)
Theorem C77_x86_refused : forall (A : Type) (zero : A) add mul cpu opt threads (x weight : tns A) bias,
  cpu <> Neon -> conv2d_op zero add mul cpu threads opt weight bias x = RAbort.
Proof.
  intros A zero add mul cpu opt threads x weight bias H. unfold conv2d_op, conv2d_load. rewrite fresh_ok by (cbn [length]; lia). cbn [rbind].
  destruct cpu; [reflexivity|reflexivity|contradiction].
Qed.
Definition c2_small : conv2d_options := mkConv2d 1 2 2 2 1 1 1 0 1 1.
Lemma C77_hypotheses :
  window_fits 2 2 1 1 1 0 /\ window_fits 3 2 1 0 1 0 /\ (forall o, 0 <= o < 3 <-> window_fits 2 2 1 1 1 o) /\ (forall o, 0 <= o < 2 <-> window_fits 3 2 1 0 1 o) /\
  holds (ints [1; 1; 2; 3] [1; 2; 3; 4; 5; 6]) [1; c2_in c2_small; 2; 3] (fun idx => nth (Z.to_nat (ravel [1; 1; 2; 3] idx)) [1; 2; 3; 4; 5; 6] 0) /\
  holds (ints [2; 1; 2; 2] [1; 1; 1; 1; 1; 0; 0; -1]) [c2_out c2_small; c2_in c2_small; 2; 2] (fun idx => nth (Z.to_nat (ravel [2; 1; 2; 2] idx)) [1; 1; 1; 1; 1; 0; 0; -1] 0).
Proof.
  split; [unfold window_fits; lia|]. split; [unfold window_fits; lia|]. split; [intro o; unfold window_fits; lia|]. split; [intro o; unfold window_fits; lia|].
  split; holds_ints.
Qed.
Example C77_example :
  exists out, conv2d_op 0 Z.add Z.mul Neon 8 c2_small (ints [2; 1; 2; 2] [1; 1; 1; 1; 1; 0; 0; -1]) (Some (ints [2] [100; 200])) (ints [1; 1; 2; 3] [1; 2; 3; 4; 5; 6]) = ROk out /\
    x_shape out = [1; 2; 3; 2] /\ contents out = map Some [103; 105; 112; 116; 109; 111; 198; 197; 196; 196; 204; 205].
Proof. by_run. Qed.

(* ------------------------------------------------------------------ *)
(** ** C78: three-dimensional convolution *)
Theorem C78_conv3d_partial : forall (A : Type) (zero : A) add mul opt (x weight : tns A) bias B D H W OD OH OW FX FW fb,
  1 <= c3_sd opt -> 1 <= c3_sh opt -> 1 <= c3_sw opt ->
  (forall o, 0 <= o < OD <-> window_fits D (c3_kd opt) (c3_sd opt) 0 1 o) ->
  (forall o, 0 <= o < OH <-> window_fits H (c3_kh opt) (c3_sh opt) 0 1 o) ->
  (forall o, 0 <= o < OW <-> window_fits W (c3_kw opt) (c3_sw opt) 0 1 o) ->
  1 <= OD -> 1 <= OH -> 1 <= OW ->
  holds x [B; c3_in opt; D; H; W] FX -> holds weight [c3_out opt; c3_in opt; c3_kd opt; c3_kh opt; c3_kw opt] FW -> bias_holds bias fb (c3_out opt) ->
  exists out, conv3d_op zero add mul Neon opt weight bias x = ROk out /\
    x_shape out = [B; c3_out opt; OD; OH; OW] /\ tensor_ok out /\ owns_storage out /\
    forall b c z y t, 0 <= b < B -> 0 <= c < c3_out opt -> 0 <= z < OD -> 0 <= y < OH -> 0 <= t < OW ->
      elem out [b; c; z; y; t] = Some (with_bias add fb c (accumulate zero add (conv3d_terms mul opt FX FW b c z y t))).
Proof.
  intros A zero add mul opt x weight bias B D H W OD OH OW FX FW fb Hsd Hsh Hsw FD FH FWd P1 P2 P3 HX HW HB.
  destruct (conv3d_correct zero add mul opt x weight bias B D H W OD OH OW FX FW fb Hsd Hsh Hsw FD FH FWd HX HW HB P1 P2 P3) as (out & E & Q1 & Q2 & Q3 & Q4).
  exists out. split; [exact E|]. split; [exact Q1|]. split; [exact Q2|]. split; [exact Q3|]. intros b c z y t Hb Hc Hz Hy Ht.
  rewrite Q4 by (apply in_shape5; auto). reflexivity.
Qed.
Definition c3_small : conv3d_options := mkConv3d 1 1 2 1 2 1 1 1.
Lemma C78_hypotheses :
  (forall o, 0 <= o < 1 <-> window_fits 2 2 1 0 1 o) /\ (forall o, 0 <= o < 1 <-> window_fits 1 1 1 0 1 o) /\ (forall o, 0 <= o < 6 <-> window_fits 7 2 1 0 1 o) /\
  holds (ints [1; 1; 2; 1; 7] [1; 2; 3; 4; 5; 6; 7; 8; 9; 10; 11; 12; 13; 14]) [1; c3_in c3_small; 2; 1; 7]
    (fun idx => nth (Z.to_nat (ravel [1; 1; 2; 1; 7] idx)) [1; 2; 3; 4; 5; 6; 7; 8; 9; 10; 11; 12; 13; 14] 0) /\
  holds (ints [1; 1; 2; 1; 2] [1; 10; 100; 1000]) [1; 1; 2; 1; 2] (fun idx => nth (Z.to_nat (ravel [1; 1; 2; 1; 2] idx)) [1; 10; 100; 1000] 0).
Proof.
  split; [intro o; unfold window_fits; lia|]. split; [intro o; unfold window_fits; lia|]. split; [intro o; unfold window_fits; lia|]. split; holds_ints.
Qed.
Example C78_example :
  exists out, conv3d_op 0 Z.add Z.mul Neon c3_small (ints [1; 1; 2; 1; 2] [1; 10; 100; 1000]) (Some (ints [1] [5])) (ints [1; 1; 2; 1; 7] [1; 2; 3; 4; 5; 6; 7; 8; 9; 10; 11; 12; 13; 14]) = ROk out /\
    x_shape out = [1; 1; 1; 1; 6] /\ contents out = map Some [9826; 10937; 12048; 13159; 14270; 15381].
Proof. by_run. Qed.
(** On x86 the result is memory that was never written. *)
Theorem C78_x86_refuted : forall (A : Type) (zero : A) add mul cpu opt (x weight : tns A) bias B D H W OD OH OW,
  cpu <> Neon -> x_shape x = [B; c3_in opt; D; H; W] ->
  out_extent D (c3_kd opt) (c3_sd opt) 0 1 = ROk OD -> out_extent H (c3_kh opt) (c3_sh opt) 0 1 = ROk OH -> out_extent W (c3_kw opt) (c3_sw opt) 0 1 = ROk OW ->
  exists out, conv3d_op zero add mul cpu opt weight bias x = ROk out /\ x_shape out = [B; c3_out opt; OD; OH; OW] /\ forall idx, elem out idx = None.
Proof.
  intros A zero add mul cpu opt x weight bias B D H W OD OH OW NC E E1 E2 E3. unfold conv3d_op. rewrite E. cbn [conv3d_reshape]. rewrite Z.eqb_refl. cbn [negb].
  rewrite E1. cbn [rbind]. rewrite E2. cbn [rbind]. rewrite E3. cbn [rbind]. rewrite fresh_ok by (cbn [length]; lia). cbn [rbind].
  eexists. split; [destruct cpu; [reflexivity|reflexivity|contradiction]|]. split; reflexivity.
Qed.
(** A kernel that does not fit: one output is produced from memory outside the input. *)
Example C78_short_input_refuted :
  conv3d_op 0 Z.add Z.mul Neon (mkConv3d 1 1 2 1 1 2 1 1) (ints [1; 1; 2; 1; 1] [1; 1]) None (ints [1; 1; 1; 1; 1] [7]) = RUB /\
  forall o, ~ window_fits 1 2 2 0 1 o.
Proof. split; [vm_compute; reflexivity|]. intros o [H1 H2]. lia. Qed.

(* ------------------------------------------------------------------ *)
(** ** C79: average pooling *)
Theorem C79_avgpool1d_partial : forall (A : Type) (zero : A) add divn opt order (x : tns A) B C L O FX,
  pool_reshape opt [B; C; L] = ROk [B; C; O] -> 1 <= O -> 0 <= ap_kernel opt -> Permutation order (range (B * C * O)) ->
  holds x [B; C; L] FX ->
  exists out, pool_op zero add divn order opt x = ROk out /\
    x_shape out = [B; C; O] /\ tensor_ok out /\ owns_storage out /\
    forall b c o, 0 <= b < B -> 0 <= c < C -> 0 <= o < O ->
      elem out [b; c; o] = Some (pool_average zero add divn opt (pool_window opt L FX b c o)).
Proof.
  intros A zero add divn opt order x B C L O FX HR HO HK HP HX.
  destruct (pool_correct zero add divn opt order x B C L O FX HR HO HK HP HX) as (out & E & P1 & P2 & P3 & P4).
  exists out. split; [exact E|]. split; [exact P1|]. split; [exact P2|]. split; [exact P3|]. intros b c o Hb Hc Ho.
  rewrite P4 by (apply in_shape3; auto). reflexivity.
Qed.
(** Number of outputs: the windows that fit; with ceil_mode, one more if elements remain. *)
Theorem C79_extent : forall opt B C L O,
  1 <= ap_stride opt -> ap_kernel opt <= L + 2 * ap_padding opt -> pool_reshape opt [B; C; L] = ROk [B; C; O] ->
  if ap_ceil opt
  then 1 <= O /\ (O - 1) * ap_stride opt + ap_kernel opt >= L + 2 * ap_padding opt /\ (2 <= O -> (O - 2) * ap_stride opt + ap_kernel opt < L + 2 * ap_padding opt)
  else forall o, 0 <= o < O <-> window_fits L (ap_kernel opt) (ap_stride opt) (ap_padding opt) 1 o.
Proof.
  intros opt B C L O Hs HK H. unfold pool_reshape in H. replace (ap_stride opt =? 0) with false in H by lia.
  assert (INJ : forall a b : Z, ROk [B; C; a] = ROk [B; C; b] -> a = b) by congruence. cbv zeta in H. apply INJ in H. clear INJ.
  set (n := L + 2 * ap_padding opt - ap_kernel opt) in *. set (s := ap_stride opt) in *. assert (Hn : 0 <= n) by (unfold n; lia).
  destruct (ap_ceil opt).
  - assert (D := Z.div_mod (- n) s ltac:(lia)). assert (R := Z.mod_pos_bound (- n) s ltac:(lia)). set (q := (- n) / s) in *.
    assert (q <= 0) by nia. split; [lia|]. split; [unfold n in *; nia|]. intro. unfold n in *. nia.
  - rewrite Z.quot_div_nonneg in H by lia. assert (D := Z.div_mod n s ltac:(lia)). assert (R := Z.mod_pos_bound n s ltac:(lia)). set (q := n / s) in *.
    intro o. unfold window_fits. unfold n in *. split; intro; nia.
Qed.
Definition ap_small : pool_options := mkPool 2 2 1 false false.
Lemma C79_hypotheses :
  pool_reshape ap_small [1; 1; 4] = ROk [1; 1; 3] /\ Permutation [2; 0; 1] (range (1 * 1 * 3)) /\
  holds (ints [1; 1; 4] [10; 20; 40; 60]) [1; 1; 4] (fun idx => nth (Z.to_nat (ravel [1; 1; 4] idx)) [10; 20; 40; 60] 0).
Proof.
  split; [reflexivity|]. split; [|holds_ints]. change (range (1 * 1 * 3)) with [0; 1; 2].
  apply NoDup_Permutation; [repeat constructor; cbn; intuition lia|repeat constructor; cbn; intuition lia|]. intro i. cbn. intuition lia.
Qed.
Example C79_example :
  exists out, pool_op 0 Z.add Z.div [2; 0; 1] ap_small (ints [1; 1; 4] [10; 20; 40; 60]) = ROk out /\ x_shape out = [1; 1; 3] /\ contents out = map Some [10; 30; 60].
Proof. by_run. Qed.
(** With ceil_mode the last window may contain no element and no padding of the left side at all;
    the output is then 0 instead of not being there. *)
Theorem C79_empty_window_refuted : forall s, 2 <= s ->
  let opt := mkPool 1 s 0 true false in
  pool_reshape opt [1; 1; s] = ROk [1; 1; 2] /\
  forall (A : Type) (X : list Z -> A), pool_window opt s X 0 0 1 = [].
Proof.
  intros s Hs. cbv zeta. split.
  - cbn [pool_reshape ap_stride ap_ceil ap_padding ap_kernel]. replace (s =? 0) with false by lia. do 4 f_equal.
    replace (- (s + 2 * 0 - 1)) with (1 - s) by ring. replace ((1 - s) / s) with (-1); [reflexivity|]. apply (Z.div_unique _ s (-1) 1); lia.
  - intros A X. unfold pool_window, each_of. cbn [ap_kernel ap_stride ap_padding].
    change (range 1) with [0]. cbn [flat_map app]. unfold tap, inside. replace ((0 <=? 1 * s - 0 + 0 * 1) && (1 * s - 0 + 0 * 1 <? s)) with false by lia. reflexivity.
Qed.
Print Assumptions C76_conv1d_partial.
Print Assumptions C76_textbook.
Print Assumptions C76_refused.
Print Assumptions C76_short_input_refuted.
Print Assumptions C77_conv2d_partial.
Print Assumptions C77_x86_refused.
Print Assumptions C78_conv3d_partial.
Print Assumptions C78_x86_refuted.
Print Assumptions C79_avgpool1d_partial.
Print Assumptions C79_extent.
Print Assumptions C79_empty_window_refuted.
