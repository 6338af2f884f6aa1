(** Proofs about convolutions, part 2: Conv1D. *)
From Verif Require Import Base DTypeModel ParamModel ParamSpec ParamProofs TensorModel TensorSpec TensorProofs TensorSplit
  OpsModel OpsSpec OpsProofs OpsIndex OpsSum MatModel MatSpec MatProofs MatKernel MatOps ConvModel ConvSpec ConvProofs.
Local Open Scope Z_scope.

Lemma out_extent_ok L k s p d O : 1 <= s -> window_fits L k s p d 0 -> (forall o, 0 <= o < O <-> window_fits L k s p d o) ->
  out_extent L k s p d = ROk O /\ 1 <= O.
Proof.
  intros Hs [_ H0] HO. unfold out_extent. replace (s =? 0) with false by lia. rewrite Z.quot_div_nonneg by lia.
  set (e := L + 2 * p - d * (k - 1) - 1) in *. assert (He : 0 <= e) by (unfold e; lia).
  assert (D := Z.div_mod e s ltac:(lia)). assert (R := Z.mod_pos_bound e s ltac:(lia)). assert (Q := Z.div_pos e s He ltac:(lia)).
  assert (F : forall o, window_fits L k s p d o <-> 0 <= o /\ o * s <= e) by (intro o; unfold window_fits, e; lia).
  set (q := e / s) in *. assert (A1 : 0 <= q < O) by (apply HO, F; split; [lia|nia]).
  assert (A2 : 0 <= O - 1 < O) by lia. apply HO, F in A2. destruct A2 as [_ A2].
  split; [|lia]. f_equal. assert (O - 1 <= q) by nia. lia.
Qed.
Lemma product_nil : product [] = 1.
Proof. reflexivity. Qed.
Lemma plus_vec_holds {A} (add : A -> A -> A) bias fb N n s : bias_holds bias fb N -> 0 <= n < N ->
  plus_vec add (bias_ptr bias) n s = ROk (with_bias add fb n s).
Proof.
  intros H Hn. destruct bias as [t|], fb as [f|]; cbn [bias_holds] in H; try contradiction; [|reflexivity].
  cbn [bias_ptr option_map plus_vec with_bias]. assert (E := holds_at t [N] f [n] H ltac:(repeat constructor; lia)).
  cbn [ravel] in E. rewrite product_nil in E. replace (n * 1 + 0) with n in E by lia. rewrite E. reflexivity.
Qed.

Section Conv1d.
Context {A : Type}.
Variable zero : A.
Variable add : A -> A -> A.
Variable mul : A -> A -> A.

Lemma conv1d_general opt order (x weight : tns A) bias B L O FX FW fb :
  let IC := c1_in opt in let OC := c1_out opt in let g := c1_groups opt in
  1 <= c1_stride opt -> 0 <= c1_kernel opt -> 1 <= g -> (g | IC) -> (g | OC) ->
  out_extent L (c1_kernel opt) (c1_stride opt) (c1_padding opt) (c1_dilation opt) = ROk O -> 1 <= O ->
  Permutation order (range (B * OC * O)) ->
  holds x [B; IC; L] FX -> holds weight [OC; IC / g; c1_kernel opt] FW -> bias_holds bias fb OC ->
  exists out, conv1d_op zero add mul order opt weight bias x = ROk out /\
    produces [B; OC; O] (fun idx => match idx with
      | [b; c; o] => Some (with_bias add fb c (accumulate zero add (conv1d_terms mul opt L FX FW b c o)))
      | _ => None end) out.
Proof.
  cbv zeta. intros Hs Hk Hg DI DO EO PO HP HX HW HB.
  assert (SX := h_shape _ _ _ HX). assert (PX := holds_pos _ _ _ HX). assert (PW := holds_pos _ _ _ HW).
  inversion PX as [|? ? PB PX1]; subst. inversion PX1 as [|? ? PI PX2]; subst. inversion PX2 as [|? ? PL _]; subst. inversion PW as [|? ? POC _]; subst.
  unfold conv1d_op. rewrite SX. cbn [conv1d_reshape]. rewrite Z.eqb_refl. cbn [negb].
  replace (c1_groups opt =? 0) with false by lia.
  replace (Z.rem (c1_in opt) (c1_groups opt)) with 0 by (symmetry; apply Z.rem_divide; [lia|auto]).
  replace (Z.rem (c1_out opt) (c1_groups opt)) with 0 by (symmetry; apply Z.rem_divide; [lia|auto]).
  cbn [Z.eqb negb]. rewrite EO. cbn [rbind].
  set (IC := c1_in opt) in *. set (OC := c1_out opt) in *. set (g := c1_groups opt) in *.
  rewrite fresh_ok by (cbn [length]; lia). cbn [rbind x_buf x_view].
  rewrite numel_product.
  assert (PP : product [B; OC; O] = B * OC * O) by (rewrite !product_cons, product_nil; ring).
  assert (PN : 0 <= B * OC * O) by nia.
  destruct (fill_zero_ok zero (product [B; OC; O]) (mkBuf (product [B; OC; O]) (fun _ : Z => None))) as (b0 & E0 & L0 & _); [cbn [b_len]; lia|].
  rewrite E0. cbn [rbind].
  set (F := fun idx : list Z => match idx with
      | [b; c; o] => Some (with_bias add fb c (accumulate zero add (conv1d_terms mul opt L FX FW b c o)))
      | _ => None end).
  destruct (each_cells (at_pos [B; OC; O] F) (B * OC * O)
    (conv1d_cell zero add mul opt IC L OC O (x_buf weight) (x_offset weight) (bias_ptr bias) (x_buf x) (x_offset x)) order HP b0) as (b' & E & L' & S).
  { intros idx b1 Hi L1 _. cbn [b_len] in L0.
    assert (0 < OC) by nia. 
    destruct (split3 B OC O idx Hi ltac:(lia) ltac:(lia)) as (Hb & Hc & Ho & Ei).
    unfold conv1d_cell. set (b := idx / (OC * O)) in *. set (c := idx mod (OC * O) / O) in *. set (o := idx mod O) in *.
    fold g. clearbody b c o. cbv zeta.
    set (ipg := IC / g) in *. set (opg := OC / g) in *.
    assert (EI : IC = ipg * g) by (unfold ipg; destruct DI as [q ->]; rewrite Z.div_mul; lia).
    assert (EC : OC = opg * g) by (unfold opg; destruct DO as [q ->]; rewrite Z.div_mul; lia).
    assert (Hopg : 0 < opg) by nia. assert (Hipg : 0 <= ipg) by nia.
    assert (DC := Z.div_mod c opg ltac:(lia)). assert (RC := Z.mod_pos_bound c opg ltac:(lia)).
    set (gr := c / opg) in *. set (cr := c mod opg) in *.
    assert (Hgr : 0 <= gr < g). { assert (0 <= gr) by (unfold gr; apply Z.div_pos; lia). split; [lia|]. clearbody gr. nia. }
    erewrite (zloop_acc add ipg _ (fun i => each_of (c1_kernel opt) (fun k =>
      let pos := tap (c1_stride opt) (c1_padding opt) (c1_dilation opt) o k in
      if inside L pos then [mul (FX [b; gr * ipg + i; pos]) (FW [c; i; k])] else []))).
    2:{ intros i s Hii. apply zloop_acc. intros k s1 Hkk. cbv zeta. fold (tap (c1_stride opt) (c1_padding opt) (c1_dilation opt) o k).
        unfold inside. destruct ((0 <=? _) && (_ <? L)) eqn:Q; [|reflexivity].
        set (pos := tap (c1_stride opt) (c1_padding opt) (c1_dilation opt) o k) in *. clearbody pos.
        assert (G1 : 0 <= gr * ipg + i < IC) by (clearbody gr ipg; nia).
        assert (Hps : 0 <= pos < L) by lia. assert (Hkk' : 0 <= k < c1_kernel opt) by lia.
        assert (X1 := holds_at _ _ _ [b; gr * ipg + i; pos] HX (in_shape3 _ _ _ _ _ _ Hb G1 Hps)).
        cbn [ravel] in X1. rewrite !product_cons, product_nil in X1.
        replace (x_offset x + (b * (IC * L) + (gr * ipg + i) * L + pos)) with (x_offset x + (b * (IC * (L * 1)) + ((gr * ipg + i) * (L * 1) + (pos * 1 + 0)))) by ring.
        rewrite X1. cbn [rbind].
        assert (W1 := holds_at _ _ _ [c; i; k] HW (in_shape3 _ _ _ _ _ _ Hc Hii Hkk')).
        cbn [ravel] in W1. rewrite !product_cons, product_nil in W1.
        match goal with |- (do v <- loadv _ ?q; _) = _ => replace q with (x_offset weight + (c * (ipg * (c1_kernel opt * 1)) + (i * (c1_kernel opt * 1) + (k * 1 + 0)))) by (rewrite DC; ring) end.
        rewrite W1. reflexivity. }
    cbn [rbind].
    rewrite (plus_vec_holds add bias fb OC c) by auto. cbn [rbind].
    rewrite Ei. assert (Hpos : 0 <= idx < b_len b1) by lia.
    destruct (good_store (fun d => if d =? idx then Some (with_bias add fb c (accumulate zero add (conv1d_terms mul opt L FX FW b c o))) else b_at b1 d) b1 idx
      (Some (with_bias add fb c (accumulate zero add (conv1d_terms mul opt L FX FW b c o)))) Hpos) as (b2 & E2 & _).
    { rewrite Z.eqb_refl. reflexivity. }
    exists b2. split; [exact E2|]. unfold store in E2. replace ((0 <=? idx) && (idx <? b_len b1)) with true in E2 by lia. injection E2 as <-.
    cbn [b_len b_at]. split; [reflexivity|]. split.
    - rewrite Z.eqb_refl. assert (I3 := in_shape3 B OC O b c o Hb Hc Ho).
      replace idx with (ravel [B; OC; O] [b; c; o]) by (cbn [ravel]; rewrite !product_cons, product_nil; lia).
      rewrite at_pos_ravel by auto. reflexivity.
    - intros d Hd. replace (d =? idx) with false by lia. reflexivity. }
  rewrite E. cbn [rbind]. eexists. split; [reflexivity|].
  apply produces_intro.
  - cbn [length]; lia.
  - repeat constructor; lia.
  - rewrite L', L0. reflexivity.
  - intros idx Hi. rewrite S by (rewrite <- PP; apply ravel_bounds; auto). apply at_pos_ravel; auto.
Qed.
Lemma conv1d_correct opt order (x weight : tns A) bias B L O FX FW fb :
  let IC := c1_in opt in let OC := c1_out opt in let g := c1_groups opt in
  1 <= c1_stride opt -> 0 <= c1_kernel opt -> 1 <= g -> (g | IC) -> (g | OC) ->
  window_fits L (c1_kernel opt) (c1_stride opt) (c1_padding opt) (c1_dilation opt) 0 ->
  (forall o, 0 <= o < O <-> window_fits L (c1_kernel opt) (c1_stride opt) (c1_padding opt) (c1_dilation opt) o) ->
  Permutation order (range (B * OC * O)) ->
  holds x [B; IC; L] FX -> holds weight [OC; IC / g; c1_kernel opt] FW -> bias_holds bias fb OC ->
  exists out, conv1d_op zero add mul order opt weight bias x = ROk out /\
    produces [B; OC; O] (fun idx => match idx with
      | [b; c; o] => Some (with_bias add fb c (accumulate zero add (conv1d_terms mul opt L FX FW b c o)))
      | _ => None end) out.
Proof.
  cbv zeta. intros Hs Hk Hg DI DO H0 HO HP HX HW HB. destruct (out_extent_ok _ _ _ _ _ O Hs H0 HO) as [EO PO]. apply (conv1d_general opt order x weight bias B L O FX FW fb); auto.
Qed.
End Conv1d.

Lemma sum_each {A} (zero : A) add (M0 : comm_monoid zero add) n (f : Z -> list A) :
  sum zero add (each_of n f) = total zero add n (fun i => sum zero add (f i)).
Proof.
  unfold each_of, total. induction (range n) as [|i l IH]; [reflexivity|]. cbn [flat_map map]. rewrite (sum_app zero add M0), IH. reflexivity.
Qed.
Lemma total_ext {A} (zero : A) add n (f g : Z -> A) : (forall i, 0 <= i < n -> f i = g i) -> total zero add n f = total zero add n g.
Proof. intro H. unfold total. f_equal. apply map_ext_in. intros i Hi. apply H. apply in_range. exact Hi. Qed.
Lemma conv1d_textbook {A} (zero : A) add mul opt L (X W : list Z -> A) b c o :
  comm_monoid zero add -> (forall y, mul zero y = zero) ->
  accumulate zero add (conv1d_terms mul opt L X W b c o) =
  total zero add (c1_in opt / c1_groups opt) (fun i => total zero add (c1_kernel opt) (fun k =>
    mul (zero_padded zero L (fun pos => X [b; c / (c1_out opt / c1_groups opt) * (c1_in opt / c1_groups opt) + i; pos])
           (tap (c1_stride opt) (c1_padding opt) (c1_dilation opt) o k)) (W [c; i; k]))).
Proof.
  intros M0 Z0. unfold accumulate. rewrite (fold_left_sum zero add M0), (cm_zero _ _ M0).
  unfold conv1d_terms. rewrite (sum_each zero add M0). apply total_ext. intros i Hi. rewrite (sum_each zero add M0). apply total_ext. intros k Hk.
  cbv zeta. unfold zero_padded. destruct (inside L _); cbn [sum fold_right]; [apply (add_zero_r zero add M0)|rewrite Z0; reflexivity].
Qed.

Section Pool.
Context {A : Type}.
Variable zero : A.
Variable add : A -> A -> A.
Variable divn : A -> Z -> A.

Lemma each_of_S {B} n (f : Z -> list B) : 0 <= n -> each_of (n + 1) f = each_of n f ++ f n.
Proof. intro H. unfold each_of. rewrite range_S, flat_map_app by auto. cbn [flat_map]. rewrite app_nil_r. reflexivity. Qed.

Lemma pool_correct opt order (x : tns A) B C L O FX :
  pool_reshape opt [B; C; L] = ROk [B; C; O] -> 1 <= O -> 0 <= ap_kernel opt -> Permutation order (range (B * C * O)) ->
  holds x [B; C; L] FX ->
  exists out, pool_op zero add divn order opt x = ROk out /\
    produces [B; C; O] (fun idx => match idx with
      | [b; c; o] => Some (pool_average zero add divn opt (pool_window opt L FX b c o))
      | _ => None end) out.
Proof.
  intros ER PO HK HP HX. assert (SX := h_shape _ _ _ HX). assert (PX := holds_pos _ _ _ HX).
  inversion PX as [|? ? PB PX1]; subst. inversion PX1 as [|? ? PI PX2]; subst. inversion PX2 as [|? ? PL _]; subst.
  unfold pool_op. rewrite SX, ER. cbn [rbind]. rewrite fresh_ok by (cbn [length]; lia). cbn [rbind x_buf x_view]. rewrite numel_product.
  assert (PP : product [B; C; O] = B * C * O) by (rewrite !product_cons, product_nil; ring).
  assert (PN : 0 <= B * C * O) by nia.
  destruct (fill_zero_ok zero (product [B; C; O]) (mkBuf (product [B; C; O]) (fun _ : Z => None))) as (b0 & E0 & L0 & Z0); [cbn [b_len]; lia|].
  rewrite E0. cbn [rbind]. cbn [b_len] in L0.
  set (F := fun idx : list Z => match idx with
      | [b; c; o] => Some (pool_average zero add divn opt (pool_window opt L FX b c o))
      | _ => None end).
  destruct (each_cells (at_pos [B; C; O] F) (B * C * O) (pool_cell zero add divn opt C L O (x_buf x) (x_offset x)) order HP b0) as (b' & E & L' & S).
  { intros idx b1 Hi L1 U1. assert (0 < C) by nia.
    destruct (split3 B C O idx Hi ltac:(lia) ltac:(lia)) as (Hb & Hc & Ho & Ei).
    unfold pool_cell. set (b := idx / (C * O)) in *. set (c := idx mod (C * O) / O) in *. set (o := idx mod O) in *. clearbody b c o. cbv zeta.
    set (W := fun k => each_of k (fun k => let pos := tap (ap_stride opt) (ap_padding opt) 1 o k in if inside L pos then [FX [b; c; pos]] else [])).
    match goal with |- context [zloop (ap_kernel opt) ?bd _] =>
      destruct (zloop_inv (fun k sc => sc = (accumulate zero add (W k), if ap_include_pad opt then k else zlen (W k))) (ap_kernel opt) bd (zero, 0) HK) as (sc & Esc & Hsc) end.
    { unfold W, each_of. rewrite range_0 by lia. destruct (ap_include_pad opt); reflexivity. }
    { intros k sc Hk ->. cbn [fst snd].
      assert (EW : W (k + 1) = W k ++ (let pos := tap (ap_stride opt) (ap_padding opt) 1 o k in if inside L pos then [FX [b; c; pos]] else [])) by (unfold W; apply each_of_S; lia).
      rewrite EW. cbv zeta.
      replace (o * ap_stride opt - ap_padding opt + k) with (tap (ap_stride opt) (ap_padding opt) 1 o k) by (unfold tap; ring).
      unfold inside. destruct ((0 <=? _) && (_ <? L)) eqn:Q.
      - set (pos := tap (ap_stride opt) (ap_padding opt) 1 o k) in *. clearbody pos. assert (Hps : 0 <= pos < L) by lia.
        assert (X1 := holds_at _ _ _ [b; c; pos] HX (in_shape3 _ _ _ _ _ _ Hb Hc Hps)). cbn [ravel] in X1. rewrite !product_cons, product_nil in X1.
        replace (x_offset x + (b * (C * L) + c * L + pos)) with (x_offset x + (b * (C * (L * 1)) + (c * (L * 1) + (pos * 1 + 0)))) by ring.
        rewrite X1. cbn [rbind]. eexists. split; [reflexivity|]. unfold accumulate. rewrite fold_left_app. cbn [fold_left]. f_equal.
        destruct (ap_include_pad opt); [reflexivity|]. unfold zlen. rewrite app_length. cbn [length]. lia.
      - rewrite app_nil_r. destruct (ap_include_pad opt); eexists; split; reflexivity. }
    rewrite Esc. cbn [rbind]. rewrite Hsc. cbn [fst snd]. clear Esc Hsc sc.
    assert (EP : F [b; c; o] = Some (if 0 <? (if ap_include_pad opt then ap_kernel opt else zlen (W (ap_kernel opt))) then divn (accumulate zero add (W (ap_kernel opt))) (if ap_include_pad opt then ap_kernel opt else zlen (W (ap_kernel opt))) else zero)) by reflexivity.
    rewrite Ei. assert (Hpos : 0 <= idx < b_len b1) by lia.
    assert (AP : at_pos [B; C; O] F idx = F [b; c; o]).
    { replace idx with (ravel [B; C; O] [b; c; o]) by (cbn [ravel]; rewrite !product_cons, product_nil; lia). apply at_pos_ravel. apply in_shape3; auto. }
    rewrite AP, EP. destruct (0 <? _) eqn:Q.
    - unfold store. replace ((0 <=? idx) && (idx <? b_len b1)) with true by lia. eexists. split; [reflexivity|]. cbn [b_len b_at].
      split; [reflexivity|]. split; [rewrite Z.eqb_refl; reflexivity|]. intros d Hd. replace (d =? idx) with false by lia. reflexivity.
    - exists b1. split; [reflexivity|]. split; [reflexivity|]. split; [|reflexivity]. rewrite U1. apply Z0. lia. }
  rewrite E. cbn [rbind]. eexists. split; [reflexivity|].
  apply produces_intro.
  - cbn [length]; lia.
  - repeat constructor; lia.
  - rewrite L', L0. reflexivity.
  - intros idx Hi. rewrite S by (rewrite <- PP; apply ravel_bounds; auto). apply at_pos_ravel; auto.
Qed.
End Pool.
