(** Proofs about convolutions, part 3: Conv3D. *)
From Verif Require Import Base DTypeModel ParamModel ParamSpec ParamProofs TensorModel TensorSpec TensorProofs TensorSplit
  OpsModel OpsSpec OpsProofs OpsIndex OpsSum MatModel MatSpec MatProofs MatKernel MatOps ConvModel ConvSpec ConvProofs ConvOne.
Local Open Scope Z_scope.

(** The vector counterpart of [zloop_acc]: W independent accumulations. *)
Lemma zloop_acc_vec {A} (f : A -> A -> A) n (body : Z -> list A -> res (list A)) (g : Z -> Z -> list A) W h :
  (forall i h, 0 <= i < n -> body i (map h (range W)) = ROk (map (fun j => fold_left f (g j i) (h j)) (range W))) ->
  zloop n body (map h (range W)) = ROk (map (fun j => fold_left f (each_of n (g j)) (h j)) (range W)).
Proof.
  intro H. destruct (Z_le_gt_dec n 0) as [Hn|Hn].
  - rewrite zloop_0 by lia. f_equal. apply map_ext. intro j. unfold each_of. rewrite range_0 by lia. reflexivity.
  - destruct (zloop_inv (fun k s' => s' = map (fun j => fold_left f (each_of k (g j)) (h j)) (range W)) n body (map h (range W))) as (s' & E & Hs).
    + lia.
    + apply map_ext. intro j. unfold each_of. rewrite range_0 by lia. reflexivity.
    + intros i s1 Hi ->. rewrite H by lia. eexists. split; [reflexivity|]. apply map_ext. intro j.
      rewrite each_of_S by lia. rewrite fold_left_app. reflexivity.
    + rewrite E, Hs. reflexivity.
Qed.
Lemma in_shape5 a b c d e x y z u v : 0 <= x < a -> 0 <= y < b -> 0 <= z < c -> 0 <= u < d -> 0 <= v < e -> in_shape [a; b; c; d; e] [x; y; z; u; v].
Proof. intros. repeat constructor; lia. Qed.
Lemma in_shape5_inv a b c d e idx : in_shape [a; b; c; d; e] idx -> exists x y z u v, idx = [x; y; z; u; v] /\ 0 <= x < a /\ 0 <= y < b /\ 0 <= z < c /\ 0 <= u < d /\ 0 <= v < e.
Proof.
  intro H. destruct idx as [|x [|y [|z [|u [|v [|? ?]]]]]]; repeat (apply in_shape_cons in H as [? H]); try solve [inversion H].
  exists x, y, z, u, v. repeat split; auto; lia.
Qed.
Lemma holds_at5 {A} (t : tns A) a b c d e F x y z u v : holds t [a; b; c; d; e] F -> 0 <= x < a -> 0 <= y < b -> 0 <= z < c -> 0 <= u < d -> 0 <= v < e ->
  forall p, p = x_offset t + (x * (b * (c * (d * e))) + (y * (c * (d * e)) + (z * (d * e) + (u * e + v)))) -> loadv (x_buf t) p = ROk (F [x; y; z; u; v]).
Proof.
  intros H H1 H2 H3 H4 H5 p ->. rewrite <- (holds_at t _ F [x; y; z; u; v] H) by (apply in_shape5; auto).
  cbn [ravel]. rewrite !product_cons, product_nil. f_equal. ring.
Qed.
Lemma fits_tap L k s o t O : 0 <= t < k -> (forall o, 0 <= o < O <-> window_fits L k s 0 1 o) -> 0 <= s -> 0 <= o < O -> 0 <= tap s 0 1 o t < L.
Proof. intros Ht HO Hs Ho. apply HO in Ho. destruct Ho as [H1 H2]. unfold tap. nia. Qed.

Section Conv3d.
Context {A : Type}.
Variable zero : A.
Variable add : A -> A -> A.
Variable mul : A -> A -> A.
Variables (opt : conv3d_options) (x weight : tns A) (bias : option (tns A)) (B D H W OD OH OW : Z) (FX FW : list Z -> A) (fb : option (list Z -> A)).
Hypothesis Hsd : 1 <= c3_sd opt.
Hypothesis Hsh : 1 <= c3_sh opt.
Hypothesis Hsw : 1 <= c3_sw opt.
Hypothesis FD : forall o, 0 <= o < OD <-> window_fits D (c3_kd opt) (c3_sd opt) 0 1 o.
Hypothesis FH : forall o, 0 <= o < OH <-> window_fits H (c3_kh opt) (c3_sh opt) 0 1 o.
Hypothesis FWd : forall o, 0 <= o < OW <-> window_fits W (c3_kw opt) (c3_sw opt) 0 1 o.
Hypothesis HX : holds x [B; c3_in opt; D; H; W] FX.
Hypothesis HW : holds weight [c3_out opt; c3_in opt; c3_kd opt; c3_kh opt; c3_kw opt] FW.
Hypothesis HB : bias_holds bias fb (c3_out opt).
Hypothesis P1 : 1 <= OD. Hypothesis P2 : 1 <= OH. Hypothesis P3 : 1 <= OW.
Notation IC := (c3_in opt). Notation OC := (c3_out opt).
Notation value b c z y t := (with_bias add fb c (accumulate zero add (conv3d_terms mul opt FX FW b c z y t))).

Lemma conv3d_load_x b i z kz y ky t kx p : 0 <= b < B -> 0 <= i < IC -> 0 <= z < OD -> 0 <= kz < c3_kd opt -> 0 <= y < OH -> 0 <= ky < c3_kh opt ->
  0 <= t < OW -> 0 <= kx < c3_kw opt ->
  p = x_offset x + b * (IC * (D * (H * W))) + (z * c3_sd opt * (H * W) + y * c3_sh opt * W) + t * c3_sw opt + (i * (D * (H * W)) + kz * (H * W) + ky * W + kx) ->
  loadv (x_buf x) p = ROk (FX [b; i; tap (c3_sd opt) 0 1 z kz; tap (c3_sh opt) 0 1 y ky; tap (c3_sw opt) 0 1 t kx]).
Proof using Hsd Hsh Hsw FD FH FWd HX.
  clear zero add mul. intros Hb Hi Hz Hkz Hy Hky Ht Hkx ->.
  apply (holds_at5 x _ _ _ _ _ FX _ _ _ _ _ HX Hb Hi).
  - eapply fits_tap; eauto; lia.
  - eapply fits_tap; eauto; lia.
  - eapply fits_tap; eauto; lia.
  - unfold tap. ring.
Qed.
Lemma conv3d_load_w c i kz ky kx p : 0 <= c < OC -> 0 <= i < IC -> 0 <= kz < c3_kd opt -> 0 <= ky < c3_kh opt -> 0 <= kx < c3_kw opt ->
  p = x_offset weight + c * (IC * (c3_kd opt * (c3_kh opt * c3_kw opt))) + (i * (c3_kd opt * (c3_kh opt * c3_kw opt)) + kz * (c3_kh opt * c3_kw opt) + ky * c3_kw opt + kx) ->
  loadv (x_buf weight) p = ROk (FW [c; i; kz; ky; kx]).
Proof using HW. clear zero add mul. intros Hc Hi H1 H2 H3 ->. apply (holds_at5 weight _ _ _ _ _ FW _ _ _ _ _ HW Hc Hi H1 H2 H3). ring. Qed.

Lemma conv3d_scalar_spec b c z y t inp wp : 0 <= b < B -> 0 <= c < OC -> 0 <= z < OD -> 0 <= y < OH -> 0 <= t < OW ->
  inp = x_offset x + b * (IC * (D * (H * W))) + (z * c3_sd opt * (H * W) + y * c3_sh opt * W) + t * c3_sw opt ->
  wp = x_offset weight + c * (IC * (c3_kd opt * (c3_kh opt * c3_kw opt))) ->
  conv3d_scalar zero add mul IC (c3_kd opt) (c3_kh opt) (c3_kw opt) (x_buf x) inp (D * (H * W)) (H * W) W (x_buf weight) wp
    (c3_kd opt * (c3_kh opt * c3_kw opt)) (c3_kh opt * c3_kw opt) = ROk (accumulate zero add (conv3d_terms mul opt FX FW b c z y t)).
Proof using Hsd Hsh Hsw FD FH FWd HX HW.
  intros Hb Hc Hz Hy Ht -> ->. unfold conv3d_scalar, accumulate, conv3d_terms.
  apply zloop_acc. intros i s1 Hi. apply zloop_acc. intros kz s2 Hkz. apply zloop_acc. intros ky s3 Hky. apply zloop_acc. intros kx s4 Hkx.
  rewrite (conv3d_load_x b i z kz y ky t kx) by (auto; ring). cbn [rbind].
  rewrite (conv3d_load_w c i kz ky kx) by (auto; ring). reflexivity.
Qed.
Lemma conv3d_vector_spec b c z y t inp wp : 0 <= b < B -> 0 <= c < OC -> 0 <= z < OD -> 0 <= y < OH -> 0 <= t -> t + 4 <= OW -> c3_sw opt = 1 ->
  inp = x_offset x + b * (IC * (D * (H * W))) + (z * c3_sd opt * (H * W) + y * c3_sh opt * W) + t ->
  wp = x_offset weight + c * (IC * (c3_kd opt * (c3_kh opt * c3_kw opt))) ->
  conv3d_vector zero add mul IC (c3_kd opt) (c3_kh opt) (c3_kw opt) (x_buf x) inp (D * (H * W)) (H * W) W (x_buf weight) wp
    (c3_kd opt * (c3_kh opt * c3_kw opt)) (c3_kh opt * c3_kw opt) = ROk (map (fun j => accumulate zero add (conv3d_terms mul opt FX FW b c z y (t + j))) (range 4)).
Proof using Hsd Hsh Hsw FD FH FWd HX HW.
  intros Hb Hc Hz Hy Ht Ht4 S1 -> ->. unfold conv3d_vector, accumulate, conv3d_terms.
  change (repeat zero 4) with (map (fun _ : Z => zero) (range 4)).
  apply zloop_acc_vec. intros i h1 Hi. apply zloop_acc_vec. intros kz h2 Hkz. apply zloop_acc_vec. intros ky h3 Hky. apply zloop_acc_vec. intros kx h4 Hkx.
  erewrite (load_vec_map _ _ 4 (fun j => FX [b; i; tap (c3_sd opt) 0 1 z kz; tap (c3_sh opt) 0 1 y ky; tap (c3_sw opt) 0 1 (t + j) kx])).
  2:{ intros j Hj. apply conv3d_load_x; auto; [lia|]. rewrite S1. ring. }
  cbn [rbind]. rewrite (conv3d_load_w c i kz ky kx) by (auto; ring). cbn [rbind]. rewrite map_map, vadd_map. reflexivity.
Qed.

(** One row of outputs. *)
Definition conv3d_cell_pos b c z y : Z := b * (OC * (OD * (OH * OW))) + (c * (OD * (OH * OW)) + z * (OH * OW) + y * OW).
Lemma conv3d_baseline_spec (G : Z -> option A) (out : buf A) : b_len out = B * (OC * (OD * (OH * OW))) -> 0 <= B -> 0 <= OC ->
  (forall b c z y t, 0 <= b < B -> 0 <= c < OC -> 0 <= z < OD -> 0 <= y < OH -> 0 <= t < OW -> G (conv3d_cell_pos b c z y + t) = Some (value b c z y t)) ->
  exists out', conv3d_baseline zero add mul opt B IC D H W (x_buf x) (x_offset x) (x_buf weight) (x_offset weight) (bias_ptr bias) out = ROk out' /\
    good G (fun d => exists b, 0 <= b < B /\ exists c, 0 <= c < OC /\ exists z, 0 <= z < OD /\ exists y, 0 <= y < OH /\ segment (conv3d_cell_pos b c z y) OW d) out out'.
Proof using Hsd Hsh Hsw FD FH FWd HX HW HB P1 P2 P3.
  intros Hlen PB PC HG. unfold conv3d_baseline.
  assert (ED := proj1 (out_extent_ok D (c3_kd opt) (c3_sd opt) 0 1 OD Hsd (proj1 (FD 0) ltac:(lia)) FD)).
  assert (EH := proj1 (out_extent_ok H (c3_kh opt) (c3_sh opt) 0 1 OH Hsh (proj1 (FH 0) ltac:(lia)) FH)).
  assert (EW := proj1 (out_extent_ok W (c3_kw opt) (c3_sw opt) 0 1 OW Hsw (proj1 (FWd 0) ltac:(lia)) FWd)).
  unfold out_extent in ED, EH, EW.
  replace (c3_sd opt =? 0) with false in ED by lia. replace (c3_sh opt =? 0) with false in EH by lia. replace (c3_sw opt =? 0) with false in EW by lia.
  assert (INJ : forall a b : Z, ROk a = ROk b -> a = b) by congruence. apply INJ in ED. apply INJ in EH. apply INJ in EW. clear INJ.
  replace (Z.quot (D - c3_kd opt) (c3_sd opt) + 1) with OD by (rewrite <- ED at 1; f_equal; f_equal; ring).
  replace (Z.quot (H - c3_kh opt) (c3_sh opt) + 1) with OH by (rewrite <- EH at 1; f_equal; f_equal; ring).
  replace (Z.quot (W - c3_kw opt) (c3_sw opt) + 1) with OW by (rewrite <- EW at 1; f_equal; f_equal; ring).
  clear ED EH EW. cbv zeta.
  apply (good_loop G B (fun b d => exists c, 0 <= c < OC /\ exists z, 0 <= z < OD /\ exists y, 0 <= y < OH /\ segment (conv3d_cell_pos b c z y) OW d) _ out (b_len out) eq_refl).
  intros b o1 Hb L1.
  apply (good_loop G OC (fun c d => exists z, 0 <= z < OD /\ exists y, 0 <= y < OH /\ segment (conv3d_cell_pos b c z y) OW d) _ o1 (b_len out) L1).
  intros c o2 Hc L2.
  apply (good_loop G OD (fun z d => exists y, 0 <= y < OH /\ segment (conv3d_cell_pos b c z y) OW d) _ o2 (b_len out) L2).
  intros z o3 Hz L3.
  apply (good_loop G OH (fun y d => segment (conv3d_cell_pos b c z y) OW d) _ o3 (b_len out) L3).
  intros y o4 Hy L4.
  assert (CP : b * (OC * (OD * (OH * OW))) + (c * (OD * (OH * OW)) + z * (OH * OW) + y * OW) = conv3d_cell_pos b c z y) by reflexivity.
  rewrite CP.
  assert (PR : forall t, 0 <= t < OW -> 0 <= conv3d_cell_pos b c z y + t < b_len out).
  { intros t Ht. assert (RB := ravel_bounds _ _ (in_shape5 B OC OD OH OW b c z y t Hb Hc Hz Hy Ht)). cbn [ravel] in RB. rewrite !product_cons, product_nil in RB.
    rewrite Hlen. unfold conv3d_cell_pos. clear - RB.
    replace (B * (OC * (OD * (OH * OW)))) with (B * (OC * (OD * (OH * (OW * 1))))) by ring.
    replace (b * (OC * (OD * (OH * OW))) + (c * (OD * (OH * OW)) + z * (OH * OW) + y * OW) + t) with (b * (OC * (OD * (OH * (OW * 1)))) + (c * (OD * (OH * (OW * 1))) + (z * (OH * (OW * 1)) + (y * (OW * 1) + (t * 1 + 0))))) by ring.
    exact RB. }
  set (cp := conv3d_cell_pos b c z y) in *. clear CP Hlen.
  assert (SC : forall t o, 0 <= t < OW -> b_len o = b_len out ->
    exists o', (do s <- conv3d_scalar zero add mul IC (c3_kd opt) (c3_kh opt) (c3_kw opt) (x_buf x)
         (x_offset x + b * (IC * (D * (H * W))) + (z * c3_sd opt * (H * W) + y * c3_sh opt * W) + t * c3_sw opt) (D * (H * W)) (H * W) W (x_buf weight)
         (x_offset weight + c * (IC * (c3_kd opt * (c3_kh opt * c3_kw opt)))) (c3_kd opt * (c3_kh opt * c3_kw opt)) (c3_kh opt * c3_kw opt);
       do s <- plus_vec add (bias_ptr bias) c s; store o (cp + t) (Some s)) = ROk o' /\ good G (eq (cp + t)) o o').
  { intros t o Ht Lo. rewrite (conv3d_scalar_spec b c z y t) by auto. cbn [rbind].
    rewrite (plus_vec_holds add bias fb OC c) by auto. cbn [rbind]. apply good_store; [rewrite Lo; apply PR; auto|]. symmetry. apply HG; auto. }
  destruct (c3_sw opt =? 1) eqn:QS.
  - rewrite (Z.max_r 0 OW) by (clear - P3; lia). set (q := OW / 4). assert (Hq : 0 <= q) by (apply Z.div_pos; lia).
    assert (Hq4 : 4 * q <= OW < 4 * q + 4) by (unfold q; assert (DD := Z.div_mod OW 4 ltac:(lia)); assert (DM := Z.mod_pos_bound OW 4 ltac:(lia)); lia).
    clearbody q.
    match goal with |- context [rbind (zloop q ?bd o4)] =>
      destruct (good_loop G q (fun v d => segment (cp + 4 * v) 4 d) bd o4 (b_len out) L4) as (o5 & E5 & G5) end.
    { intros v o Hv Lo. rewrite (conv3d_vector_spec b c z y (4 * v)) by (auto; lia). cbn [rbind].
      assert (BV : match bias_ptr bias with
                   | None => ROk (map (fun j => accumulate zero add (conv3d_terms mul opt FX FW b c z y (4 * v + j))) (range 4))
                   | Some (p, po) => do u <- loadv p (po + c); ROk (map (fun e => add e u) (map (fun j => accumulate zero add (conv3d_terms mul opt FX FW b c z y (4 * v + j))) (range 4)))
                   end = ROk (map (fun j => value b c z y (4 * v + j)) (range 4))).
      { assert (HB' := HB). unfold bias_holds in HB'. destruct bias as [tb|], fb as [f|]; try contradiction; [|reflexivity].
        cbn [bias_ptr option_map]. assert (Eb := holds_at tb [OC] f [c] HB' ltac:(repeat constructor; lia)). cbn [ravel] in Eb. rewrite product_nil in Eb.
        replace (c * 1 + 0) with c in Eb by lia. rewrite Eb. cbn [rbind]. rewrite map_map. reflexivity. }
      rewrite BV. cbn [rbind].
      destruct (good_loop G 4 (fun j d => d = cp + 4 * v + j) (fun j o0 => store o0 (cp + 4 * v + j) (nth_error (map (fun j => value b c z y (4 * v + j)) (range 4)) (Z.to_nat j))) o (b_len out) Lo) as (o6 & E6 & G6).
      { intros j o0 Hj L0. destruct (good_store G o0 (cp + 4 * v + j) (nth_error (map (fun j => value b c z y (4 * v + j)) (range 4)) (Z.to_nat j))) as (o7 & E7 & G7).
        - rewrite L0, <- Z.add_assoc. apply PR. lia.
        - rewrite <- Z.add_assoc. unfold cp. rewrite HG by (auto; lia). change (range 4) with [0; 1; 2; 3].
          assert (j = 0 \/ j = 1 \/ j = 2 \/ j = 3) as [->|[->|[->| ->]]] by lia; reflexivity.
        - exists o7. split; [exact E7|]. eapply good_weaken; [|exact G7]. cbn beta. intros; lia. }
      exists o6. split; [exact E6|]. eapply good_weaken; [|exact G6]. cbn beta. unfold segment. intros d Hd. exists (d - (cp + 4 * v)). lia. }
    rewrite E5. cbn [rbind].
    match goal with |- context [zloop (OW - 4 * q) ?bd o5] =>
      destruct (good_loop G (OW - 4 * q) (fun t d => d = cp + (4 * q + t)) bd o5 (b_len out) ltac:(rewrite (g_len _ _ _ _ G5); exact L4)) as (o8 & E8 & G8) end.
    { intros t o Ht Lo. destruct (SC (4 * q + t) o ltac:(lia) Lo) as (o9 & E9 & G9). exists o9. split; [exact E9|].
      eapply good_weaken; [|exact G9]. cbn beta. intros; lia. }
    exists o8. split; [exact E8|]. eapply good_weaken; [|eapply good_trans; [exact G5|exact G8]]. cbn beta. unfold segment. intros d Hd.
    assert (DD := Z.div_mod (d - cp) 4 ltac:(lia)). assert (DM := Z.mod_pos_bound (d - cp) 4 ltac:(lia)).
    destruct (Z_lt_ge_dec (d - cp) (4 * q)) as [Hlt|Hge].
    + left. exists ((d - cp) / 4). lia.
    + right. exists (d - cp - 4 * q). lia.
  - match goal with |- context [zloop OW ?bd o4] =>
      destruct (good_loop G OW (fun t d => d = cp + t) bd o4 (b_len out) L4) as (o8 & E8 & G8) end.
    { intros t o Ht Lo. destruct (SC t o Ht Lo) as (o9 & E9 & G9). exists o9. split; [exact E9|]. eapply good_weaken; [|exact G9]. cbn beta. intros; lia. }
    exists o8. split; [exact E8|]. eapply good_weaken; [|exact G8]. cbn beta. unfold segment. intros d Hd. exists (d - cp). lia.
Qed.

Lemma conv3d_correct : exists out, conv3d_op zero add mul Neon opt weight bias x = ROk out /\
  produces [B; OC; OD; OH; OW] (fun idx => match idx with [b; c; z; y; t] => Some (value b c z y t) | _ => None end) out.
Proof using Hsd Hsh Hsw FD FH FWd HX HW HB P1 P2 P3.
  assert (SX := h_shape _ _ _ HX). assert (PX := holds_pos _ _ _ HX). assert (PW := holds_pos _ _ _ HW).
  assert (PB : 0 <= B) by (inversion PX; auto). assert (PC : 0 <= OC) by (inversion PW; auto).
  unfold conv3d_op. rewrite SX. cbn [conv3d_reshape]. rewrite Z.eqb_refl. cbn [negb].
  rewrite (proj1 (out_extent_ok D (c3_kd opt) (c3_sd opt) 0 1 OD Hsd (proj1 (FD 0) ltac:(lia)) FD)). cbn [rbind].
  rewrite (proj1 (out_extent_ok H (c3_kh opt) (c3_sh opt) 0 1 OH Hsh (proj1 (FH 0) ltac:(lia)) FH)). cbn [rbind].
  rewrite (proj1 (out_extent_ok W (c3_kw opt) (c3_sw opt) 0 1 OW Hsw (proj1 (FWd 0) ltac:(lia)) FWd)). cbn [rbind].
  rewrite fresh_ok by (cbn [length]; lia). cbn [rbind x_buf x_view].
  set (os := [B; OC; OD; OH; OW]). set (F := fun idx => match idx with [b; c; z; y; t] => Some (value b c z y t) | _ => None end).
  assert (RV : forall b c z y t, ravel os [b; c; z; y; t] = conv3d_cell_pos b c z y + t).
  { intros. unfold os, conv3d_cell_pos. cbn [ravel]. rewrite !product_cons, product_nil. ring. }
  assert (Dos : Forall (fun d => 0 <= d) os) by (repeat constructor; lia).
  destruct (conv3d_baseline_spec (at_pos os F) (mkBuf (product os) (fun _ => None))) as (o & E & G).
  - cbn [b_len]. unfold os. rewrite !product_cons, product_nil. ring.
  - exact PB.
  - exact PC.
  - intros b c z y t Hb Hc Hz Hy Ht. rewrite <- RV, at_pos_ravel by (apply in_shape5; auto). reflexivity.
  - rewrite E. cbn [rbind]. eexists. split; [reflexivity|]. eapply produces_good; [cbn; lia|exact Dos|exact G|].
    cbn beta. intros pos Hp. destruct (unravel_spec os pos Dos Hp) as [U1 U2].
    remember (unravel os pos) as idx eqn:Ei. clear Ei.
    destruct (in_shape5_inv _ _ _ _ _ _ U1) as (b & c & z & y & t & -> & Hb & Hc & Hz & Hy & Ht). rewrite <- U2.
    exists b. split; auto. exists c. split; auto. exists z. split; auto. exists y. split; auto. unfold segment. rewrite RV. lia.
Qed.
End Conv3d.
