(** Proofs about attention, part 2: operators. *)
From Coq Require Import Reals Lra.
From Verif Require Import Base DTypeModel ParamModel ParamSpec ParamProofs TensorModel TensorSpec TensorProofs TensorSplit
  OpsModel OpsSpec OpsProofs OpsIndex OpsSum MatModel MatSpec MatProofs MatKernel MatOps AttnModel AttnSpec AttnProofs.
Local Open Scope Z_scope.

Lemma holds_at {A} (t : tns A) shape F idx : holds t shape F -> in_shape shape idx -> loadv (x_buf t) (x_offset t + ravel shape idx) = ROk (F idx).
Proof.
  intros [h1 h2 h3 h4] I. assert (Ad := contiguous_address t idx h3). rewrite h1 in Ad. specialize (Ad (in_shape_length _ _ I)).
  rewrite <- Ad. apply loadv_at; [apply (ok_inside _ h2); rewrite h1; auto|]. apply h4. auto.
Qed.
Lemma holds_at' {A} (t : tns A) shape F idx a : holds t shape F -> in_shape shape idx -> a = x_offset t + ravel shape idx -> loadv (x_buf t) a = ROk (F idx).
Proof. intros H I ->. apply holds_at; auto. Qed.
Lemma holds_contiguous {A} (t : tns A) shape F : holds t shape F -> is_contiguous (x_view t) = true.
Proof. intros [h1 h2 h3 h4]. apply is_contiguous_spec; auto. apply h2. Qed.
Lemma ravel4 a b c d w x y z : ravel [a; b; c; d] [w; x; y; z] = ((w * b + x) * c + y) * d + z.
Proof. cbn [ravel]. rewrite !product_cons. change (product []) with 1. ring. Qed.

Lemma fwd_tensor K B H_Q H_KV S_Q D_QK D_V key value first last sink tq order g FQ KK VV (ex : Z -> R) :
  kernels_ok K -> holds tq [B; S_Q; H_Q; D_QK] FQ -> H_Q = H_KV * g -> 1 <= H_KV -> 1 <= g -> 1 <= D_QK -> 0 <= D_V ->
  Permutation order (range H_Q) ->
  (forall b hk s j, 0 <= b < B -> 0 <= hk < H_KV -> 0 <= s < S_Q -> first s <= j < last s ->
     exists p, key b hk j = ROk p /\ forall d, 0 <= d < D_QK -> loadv (fst p) (snd p + d) = ROk (KK b hk j d)) ->
  (forall b hk s j, 0 <= b < B -> 0 <= hk < H_KV -> 0 <= s < S_Q -> first s <= j < last s ->
     exists p, value b hk j = ROk p /\ forall d, 0 <= d < D_V -> loadv (fst p) (snd p + d) = ROk (VV b hk j d)) ->
  (forall h, 0 <= h < H_Q -> match sink with None => ex h = 0%R | Some f => exists x, f h = ROk x /\ ex h = exp x end) ->
  (sink <> None -> forall s, 0 <= s < S_Q -> first s <= last s) ->
  exists o, fwd_bshd K B H_Q H_KV S_Q D_QK D_V key value first last sink (x_buf tq) (x_offset tq) 0 order
        (mkBuf (product [B; S_Q; H_Q; D_V]) (fun _ => None)) = ROk o /\
    let out := mkTns (mkV [B; S_Q; H_Q; D_V] (default_strides [B; S_Q; H_Q; D_V]) 0) o in
    tensor_ok out /\ owns_storage out /\
    forall b s h d, 0 <= b < B -> 0 <= s < S_Q -> 0 <= h < H_Q -> 0 <= d < D_V -> elem out [b; s; h; d] =
      if (first s <? last s) || (match sink with None => false | Some _ => true end)
      then Some (attend D_QK (fun d => FQ [b; s; h; d]) (fun j => KK b (h / g) j) (fun j => VV b (h / g) j d) (ex h) (between (first s) (last s)))
      else None.
Proof.
  intros KO HT Hg Hk Hg1 HD HDV HO HK HV HS HL. assert (D4 := ok_dims _ (h_ok _ _ _ HT)). rewrite (h_shape _ _ _ HT) in D4.
  assert (0 <= B /\ 0 <= S_Q /\ 0 <= H_Q) as (HB & HSQ & HHQ).
  { inversion D4 as [|? ? X1 D5]; subst. inversion D5 as [|? ? X2 D6]; subst. inversion D6 as [|? ? X3 D7]; subst. auto. }
  clear D4. apply fwd_out with (g := g); auto. intros b h s o1 Hb Hh Hs L HR.
  assert (HH : 0 <= h / g < H_KV).
  { split; [apply Z.div_pos; lia|]. apply Z.div_lt_upper_bound; lia. }
  assert (HQ : forall d, 0 <= d < D_QK -> loadv (x_buf tq) (x_offset tq + (b * H_Q * S_Q * D_QK + s * H_Q * D_QK + h * D_QK) + d) = ROk (FQ [b; s; h; d])).
  { intros d Hd. apply (holds_at' tq [B; S_Q; H_Q; D_QK]); auto; [repeat constructor; lia|]. rewrite ravel4. ring. }
  replace (row_start H_Q S_Q D_V b h s) with (0 + (b * H_Q * S_Q * D_V + s * H_Q * D_V + h * D_V)) in * by reflexivity.
  destruct (first s <? last s) eqn:FL.
  - cbn [orb]. apply query_row_ok with (Q := fun d => FQ [b; s; h; d]) (KK := KK b (h / g)) (VV := VV b (h / g)); auto; try lia.
    + intros j Hj. apply (HK b (h / g) s j); auto.
    + intros j Hj. apply (HV b (h / g) s j); auto.
    + apply (HS h Hh).
  - cbn [orb]. destruct sink as [f|].
    + specialize (HL ltac:(discriminate) s Hs). apply query_row_ok with (Q := fun d => FQ [b; s; h; d]) (KK := KK b (h / g)) (VV := VV b (h / g)); auto; try lia.
      all: first [apply (HS h Hh) | right; discriminate | intros j Hj; lia].
    + apply query_row_empty; auto. lia.
Qed.

Lemma dim4_ok a b c d : dim4 [a; b; c; d] = ROk (a, b, c, d).
Proof. reflexivity. Qed.

Lemma flash_kernels_ok a : match a with X86 L => 0 < L | Arm => True end -> kernels_ok (flash_kernels a).
Proof. destruct a; intro; [apply arm_ok|apply simd_ok; auto]. Qed.

Theorem flash_correct a order tq tk tv B S_Q S_KV H_Q H_KV g D FQ FK FV :
  match a with X86 L => 0 < L | Arm => True end ->
  holds tq [B; S_Q; H_Q; D] FQ -> holds tk [B; S_KV; H_KV; D] FK -> holds tv [B; S_KV; H_KV; D] FV ->
  H_Q = H_KV * g -> 1 <= H_KV -> 1 <= g -> 1 <= D -> Permutation order (range H_Q) ->
  exists out, flash_attention_op a order H_Q H_KV tq tk tv = ROk out /\
    x_shape out = [B; S_Q; H_Q; D] /\ tensor_ok out /\ owns_storage out /\
    forall b s h d, 0 <= b < B -> 0 <= s < S_Q -> 0 <= h < H_Q -> 0 <= d < D -> elem out [b; s; h; d] =
      if 0 <? S_KV - S_Q + s + 1
      then Some (attend D (fun d => FQ [b; s; h; d]) (fun j d => FK [b; j; h / g; d]) (fun j => FV [b; j; h / g; d]) 0 (range (S_KV - S_Q + s + 1)))
      else None.
Proof.
  intros HA HQ HK HV Hg Hk Hg1 HD HO. unfold flash_attention_op.
  rewrite (h_shape _ _ _ HQ), (h_shape _ _ _ HK), (h_shape _ _ _ HV), fresh_ok by (cbn; lia). cbn [rbind].
  rewrite (holds_contiguous _ _ _ HQ). cbn [negb]. rewrite dim4_ok. cbn [rbind]. rewrite Z.eqb_refl. cbn [negb]. cbn [vget]. change (vget [B; S_KV; H_KV; D] 1) with (ROk S_KV). cbn [rbind].
  rewrite Z.eqb_refl. cbn [negb]. cbv zeta. unfold x_offset at 4. cbn [x_view v_offset].
  change (x_buf (mkTns (mkV [B; S_Q; H_Q; D] (default_strides [B; S_Q; H_Q; D]) 0) (mkBuf (product [B; S_Q; H_Q; D]) (fun _ => @None R)))) with (mkBuf (product [B; S_Q; H_Q; D]) (fun _ => @None R)).
  destruct (fwd_tensor (flash_kernels a) B H_Q H_KV S_Q D D
    (fun b hk s => ROk (x_buf tk, x_offset tk + (b * S_KV * H_KV * D + s * H_KV * D + hk * D)))
    (fun b hk s => ROk (x_buf tv, x_offset tv + (b * S_KV * H_KV * D + s * H_KV * D + hk * D)))
    (fun _ => 0) (causal_last S_Q S_KV) None tq order g FQ (fun b hk j d => FK [b; j; hk; d]) (fun b hk j d => FV [b; j; hk; d]) (fun _ => 0%R)) as (o & E & O1 & O2 & O3); auto.
  - apply flash_kernels_ok; auto.
  - lia.
  - intros b hk s j Hb Hhk Hs Hj. eexists. split; [reflexivity|]. cbn [fst snd]. intros d Hd. unfold causal_last in Hj.
    apply (holds_at' tk [B; S_KV; H_KV; D]); auto; [repeat constructor; lia|]. rewrite ravel4. ring.
  - intros b hk s j Hb Hhk Hs Hj. eexists. split; [reflexivity|]. cbn [fst snd]. intros d Hd. unfold causal_last in Hj.
    apply (holds_at' tv [B; S_KV; H_KV; D]); auto; [repeat constructor; lia|]. rewrite ravel4. ring.
  - contradiction.
  - rewrite E. cbn [rbind]. eexists. split; [reflexivity|]. split; [reflexivity|]. split; [exact O1|]. split; [exact O2|].
    intros b s h d Hb Hs Hh Hd. rewrite O3 by auto. unfold causal_last. rewrite orb_false_r. replace (Z.min (S_KV - S_Q + s + 1) S_KV) with (S_KV - S_Q + s + 1) by lia.
    destruct (0 <? S_KV - S_Q + s + 1); auto. do 2 f_equal. unfold between. rewrite Z.sub_0_r. apply map_id.
Qed.

Lemma token_ok B H_KV ps W F b hk j : tokens_hold ps B H_KV W F -> 0 <= b < B -> 0 <= hk < H_KV -> 0 <= j < zlen ps ->
  exists p, (do p <- pointer ps j; ROk (fst p, snd p + (b * H_KV * W + hk * W))) = ROk p /\
    forall d, 0 <= d < W -> loadv (fst p) (snd p + d) = ROk (F j b hk d).
Proof.
  intros HT Hb Hh Hj. unfold pointer. replace (0 <=? j) with true by lia. destruct (nth_error ps (Z.to_nat j)) as [p|] eqn:E.
  2:{ apply nth_error_None in E. unfold zlen in Hj. lia. }
  cbn [rbind]. eexists. split; [reflexivity|]. cbn [fst snd]. intros d Hd. destruct (HT j b hk d p ltac:(lia) E Hb Hh Hd) as [A1 A2].
  apply loadv_at; [|rewrite <- A2; f_equal; ring]. replace (snd p + (b * H_KV * W + hk * W) + d) with (snd p + ((b * H_KV + hk) * W + d)) by ring. exact A1.
Qed.

Theorem radix_correct junk order tq ks vs B S_Q H_Q H_KV g D FQ FK FV :
  holds tq [B; S_Q; H_Q; D] FQ -> tokens_hold ks B H_KV D FK -> tokens_hold vs B H_KV D FV -> zlen ks = zlen vs ->
  H_Q = H_KV * g -> 1 <= H_KV -> 1 <= g -> 1 <= D -> Permutation order (range H_Q) ->
  exists out, radix_attention_op Arm junk order H_Q H_KV tq ks vs = ROk out /\
    x_shape out = [B; S_Q; H_Q; D] /\ tensor_ok out /\ owns_storage out /\
    forall b s h d, 0 <= b < B -> 0 <= s < S_Q -> 0 <= h < H_Q -> 0 <= d < D -> elem out [b; s; h; d] =
      if 0 <? zlen ks - S_Q + s + 1
      then Some (attend D (fun d => FQ [b; s; h; d]) (fun j d => FK j b (h / g) d) (fun j => FV j b (h / g) d) 0 (range (zlen ks - S_Q + s + 1)))
      else None.
Proof.
  intros HQ HK HV EL Hg Hk Hg1 HD HO. unfold radix_attention_op.
  rewrite (h_shape _ _ _ HQ), fresh_ok by (cbn; lia). cbn [rbind]. rewrite dim4_ok. cbn [rbind]. rewrite Z.eqb_refl. cbn [negb]. cbv zeta.
  rewrite EL, Z.eqb_refl. rewrite <- EL. cbn [negb]. unfold x_offset at 2. cbn [x_view v_offset].
  change (x_buf (mkTns (mkV [B; S_Q; H_Q; D] (default_strides [B; S_Q; H_Q; D]) 0) (mkBuf (product [B; S_Q; H_Q; D]) (fun _ => @None R)))) with (mkBuf (product [B; S_Q; H_Q; D]) (fun _ => @None R)).
  destruct (fwd_tensor (radix_kernels Arm junk) B H_Q H_KV S_Q D D
    (fun b hk s => do p <- pointer ks s; ROk (fst p, snd p + (b * H_KV * D + hk * D)))
    (fun b hk s => do p <- pointer vs s; ROk (fst p, snd p + (b * H_KV * D + hk * D)))
    (fun _ => 0) (causal_last S_Q (zlen ks)) None tq order g FQ (fun b hk j d => FK j b hk d) (fun b hk j d => FV j b hk d) (fun _ => 0%R)) as (o & E & O1 & O2 & O3); auto.
  - apply arm_ok.
  - lia.
  - intros b hk s j Hb Hhk Hs Hj. unfold causal_last in Hj. apply (token_ok B H_KV ks D FK); auto; lia.
  - intros b hk s j Hb Hhk Hs Hj. unfold causal_last in Hj. apply (token_ok B H_KV vs D FV); auto; lia.
  - contradiction.
  - rewrite E. cbn [rbind]. eexists. split; [reflexivity|]. split; [reflexivity|]. split; [exact O1|]. split; [exact O2|].
    intros b s h d Hb Hs Hh Hd. rewrite O3 by auto. unfold causal_last. rewrite orb_false_r. replace (Z.min (zlen ks - S_Q + s + 1) (zlen ks)) with (zlen ks - S_Q + s + 1) by lia.
    destruct (0 <? zlen ks - S_Q + s + 1); auto. do 2 f_equal. unfold between. rewrite Z.sub_0_r. apply map_id.
Qed.

Theorem relax_correct junk order tq ks vs B S_Q H_Q H_KV g D_QK D_V FQ FK FV :
  holds tq [B; S_Q; H_Q; D_QK] FQ -> tokens_hold ks B H_KV D_QK FK -> tokens_hold vs B H_KV D_V FV -> zlen ks = zlen vs ->
  H_Q = H_KV * g -> 1 <= H_KV -> 1 <= g -> 1 <= D_QK -> 0 <= D_V -> Permutation order (range H_Q) ->
  exists out, radix_relax_op Arm junk order B H_Q H_KV D_QK D_V tq ks vs = ROk out /\
    x_shape out = [B; S_Q; H_Q; D_V] /\ tensor_ok out /\ owns_storage out /\
    forall b s h d, 0 <= b < B -> 0 <= s < S_Q -> 0 <= h < H_Q -> 0 <= d < D_V -> elem out [b; s; h; d] =
      if 0 <? zlen ks - S_Q + s + 1
      then Some (attend D_QK (fun d => FQ [b; s; h; d]) (fun j d => FK j b (h / g) d) (fun j => FV j b (h / g) d) 0 (range (zlen ks - S_Q + s + 1)))
      else None.
Proof.
  intros HQ HK HV EL Hg Hk Hg1 HD HDV HO. unfold radix_relax_op.
  rewrite (h_shape _ _ _ HQ). change (negb (zlen [B; S_Q; H_Q; D_QK] =? 4)) with false. cbv iota. rewrite dim4_ok. cbn [rbind]. rewrite fresh_ok by (cbn; lia). cbn [rbind].
  rewrite (holds_contiguous _ _ _ HQ). cbn [negb]. rewrite Z.eqb_refl. cbn [negb]. cbv zeta.
  rewrite EL, Z.eqb_refl. rewrite <- EL. cbn [negb]. unfold x_offset at 2. cbn [x_view v_offset].
  change (x_buf (mkTns (mkV [B; S_Q; H_Q; D_V] (default_strides [B; S_Q; H_Q; D_V]) 0) (mkBuf (product [B; S_Q; H_Q; D_V]) (fun _ => @None R)))) with (mkBuf (product [B; S_Q; H_Q; D_V]) (fun _ => @None R)).
  destruct (fwd_tensor (radix_kernels Arm junk) B H_Q H_KV S_Q D_QK D_V
    (fun b hk s => do p <- pointer ks s; ROk (fst p, snd p + (b * H_KV * D_QK + hk * D_QK)))
    (fun b hk s => do p <- pointer vs s; ROk (fst p, snd p + (b * H_KV * D_V + hk * D_V)))
    (fun _ => 0) (causal_last S_Q (zlen ks)) None tq order g FQ (fun b hk j d => FK j b hk d) (fun b hk j d => FV j b hk d) (fun _ => 0%R)) as (o & E & O1 & O2 & O3); auto.
  - apply arm_ok.
  - intros b hk s j Hb Hhk Hs Hj. unfold causal_last in Hj. apply (token_ok B H_KV ks D_QK FK); auto; lia.
  - intros b hk s j Hb Hhk Hs Hj. unfold causal_last in Hj. apply (token_ok B H_KV vs D_V FV); auto; lia.
  - contradiction.
  - rewrite E. cbn [rbind]. eexists. split; [reflexivity|]. split; [reflexivity|]. split; [exact O1|]. split; [exact O2|].
    intros b s h d Hb Hs Hh Hd. rewrite O3 by auto. unfold causal_last. rewrite orb_false_r. replace (Z.min (zlen ks - S_Q + s + 1) (zlen ks)) with (zlen ks - S_Q + s + 1) by lia.
    destruct (0 <? zlen ks - S_Q + s + 1); auto. do 2 f_equal. unfold between. rewrite Z.sub_0_r. apply map_id.
Qed.

(** The variant with sinks and a window: any visible range inside the address list. *)
Lemma swa_core junk pat order tq ks vs ta B S_Q H_Q H_KV g D_QK D_V cur w FQ FK FV FA first last :
  holds tq [B; S_Q; H_Q; D_QK] FQ -> tokens_hold ks B H_KV D_QK FK -> tokens_hold vs B H_KV D_V FV -> holds ta [H_Q] FA -> zlen ks = zlen vs ->
  H_Q = H_KV * g -> 1 <= H_KV -> 1 <= g -> 1 <= D_QK -> 0 <= D_V -> Permutation order (range H_Q) -> w <> -1 ->
  (pat = Prefill /\ first = prefill_first S_Q (zlen ks) w /\ last = prefill_last S_Q (zlen ks) \/
   pat = Decode /\ first = (fun _ => 0) /\ last = decode_last S_Q cur w) ->
  (forall s, 0 <= s < S_Q -> 0 <= first s <= last s /\ last s <= zlen ks) ->
  exists out, radix_swa_op Arm junk pat order B H_Q H_KV D_QK D_V cur w tq ks vs (Some ta) = ROk out /\
    x_shape out = [B; S_Q; H_Q; D_V] /\ tensor_ok out /\ owns_storage out /\
    forall b s h d, 0 <= b < B -> 0 <= s < S_Q -> 0 <= h < H_Q -> 0 <= d < D_V -> elem out [b; s; h; d] =
      Some (attend D_QK (fun d => FQ [b; s; h; d]) (fun j d => FK j b (h / g) d) (fun j => FV j b (h / g) d) (exp (FA [h])) (between (first s) (last s))).
Proof.
  intros HQ HK HV HA EL Hg Hk Hg1 HD HDV HO Hw HP HB. unfold radix_swa_op. replace (w =? -1) with false by lia.
  rewrite (h_shape _ _ _ HQ). change (negb (zlen [B; S_Q; H_Q; D_QK] =? 4)) with false. cbv iota. rewrite dim4_ok. cbn [rbind]. rewrite fresh_ok by (cbn; lia). cbn [rbind].
  rewrite (holds_contiguous _ _ _ HQ). cbn [negb]. rewrite Z.eqb_refl. cbn [negb]. cbv zeta.
  rewrite EL, Z.eqb_refl. rewrite <- EL. cbn [negb].
  destruct (fwd_tensor (radix_kernels Arm junk) B H_Q H_KV S_Q D_QK D_V
    (fun b hk s => do p <- pointer ks s; ROk (fst p, snd p + (b * H_KV * D_QK + hk * D_QK)))
    (fun b hk s => do p <- pointer vs s; ROk (fst p, snd p + (b * H_KV * D_V + hk * D_V)))
    first last (Some (fun h => loadv (x_buf ta) (x_offset ta + h))) tq order g FQ (fun b hk j d => FK j b hk d) (fun b hk j d => FV j b hk d) (fun h => exp (FA [h]))) as (o & E & O1 & O2 & O3); auto.
  - apply arm_ok.
  - intros b hk s j Hb Hhk Hs Hj. specialize (HB s Hs). apply (token_ok B H_KV ks D_QK FK); auto; lia.
  - intros b hk s j Hb Hhk Hs Hj. specialize (HB s Hs). apply (token_ok B H_KV vs D_V FV); auto; lia.
  - intros h Hh. exists (FA [h]). split; auto. apply (holds_at' ta [H_Q]); auto; [repeat constructor; lia|]. cbn [ravel]. change (product []) with 1. ring.
  - intros _ s Hs. specialize (HB s Hs). lia.
  - exists (mkTns (mkV [B; S_Q; H_Q; D_V] (default_strides [B; S_Q; H_Q; D_V]) 0) o). split.
    + destruct HP as [(-> & -> & ->)|(-> & -> & ->)]; unfold x_offset in E |- *; cbn [x_view v_offset x_buf] in *; rewrite E; reflexivity.
    + split; [reflexivity|]. split; [exact O1|]. split; [exact O2|]. intros b s h d Hb Hs Hh Hd. rewrite O3 by auto. rewrite orb_true_r. reflexivity.
Qed.

Lemma flash_swa_core a order tq tk tv ta B S_Q S_KV H_Q H_KV g D_QK D_V cur w FQ FK FV FA :
  match a with X86 L => 0 < L | Arm => True end ->
  holds tq [B; S_Q; H_Q; D_QK] FQ -> holds tk [B; S_KV; H_KV; D_QK] FK -> holds tv [B; S_KV; H_KV; D_V] FV -> holds ta [H_Q] FA ->
  H_Q = H_KV * g -> 1 <= H_KV -> 1 <= g -> 1 <= D_QK -> Permutation order (range H_Q) -> 0 <= S_KV <= w ->
  (forall s, 0 <= s < S_Q -> 0 <= decode_last S_Q cur w s <= S_KV) ->
  exists out, flash_swa_op a order H_Q H_KV cur w tq tk tv (Some ta) = ROk out /\
    x_shape out = [B; S_Q; H_Q; D_V] /\ tensor_ok out /\ owns_storage out /\
    forall b s h d, 0 <= b < B -> 0 <= s < S_Q -> 0 <= h < H_Q -> 0 <= d < D_V -> elem out [b; s; h; d] =
      Some (attend D_QK (fun d => FQ [b; s; h; d]) (fun j d => FK [b; j; h / g; d]) (fun j => FV [b; j; h / g; d]) (exp (FA [h])) (range (decode_last S_Q cur w s))).
Proof.
  intros HAr HQ HK HV HA Hg Hk Hg1 HD HO Hw HB. unfold flash_swa_op. replace (w =? -1) with false by lia.
  assert (HDV : 0 <= D_V).
  { assert (D4 := ok_dims _ (h_ok _ _ _ HV)). rewrite (h_shape _ _ _ HV) in D4. apply Forall_forall with (x := D_V) in D4; [auto|cbn; auto]. }
  rewrite (h_shape _ _ _ HQ), (h_shape _ _ _ HK), (h_shape _ _ _ HV).
  change (negb ((zlen [B; S_Q; H_Q; D_QK] =? 4) && (zlen [B; S_KV; H_KV; D_QK] =? 4) && (zlen [B; S_KV; H_KV; D_V] =? 4))) with false. cbv iota.
  rewrite !dim4_ok. cbn [rbind]. rewrite Z.eqb_refl. cbn [negb]. rewrite Z.eqb_refl. cbn [negb]. rewrite fresh_ok by (cbn; lia). cbn [rbind].
  rewrite (holds_contiguous _ _ _ HQ). cbn [negb]. rewrite !Z.eqb_refl. cbn [negb]. replace (w <? S_KV) with false by lia. cbv zeta.
  destruct (fwd_tensor (flash_kernels a) B H_Q H_KV S_Q D_QK D_V
    (fun b hk s => ROk (x_buf tk, x_offset tk + (b * S_KV * H_KV * D_QK + s * H_KV * D_QK + hk * D_QK)))
    (fun b hk s => ROk (x_buf tv, x_offset tv + (b * S_KV * H_KV * D_V + s * H_KV * D_V + hk * D_V)))
    (fun _ => 0) (decode_last S_Q cur w) (Some (fun h => loadv (x_buf ta) (x_offset ta + h))) tq order g FQ (fun b hk j d => FK [b; j; hk; d]) (fun b hk j d => FV [b; j; hk; d]) (fun h => exp (FA [h]))) as (o & E & O1 & O2 & O3); auto.
  - apply flash_kernels_ok; auto.
  - intros b hk s j Hb Hhk Hs Hj. eexists. split; [reflexivity|]. cbn [fst snd]. intros d Hd. specialize (HB s Hs).
    apply (holds_at' tk [B; S_KV; H_KV; D_QK]); auto; [repeat constructor; lia|]. rewrite ravel4. ring.
  - intros b hk s j Hb Hhk Hs Hj. eexists. split; [reflexivity|]. cbn [fst snd]. intros d Hd. specialize (HB s Hs).
    apply (holds_at' tv [B; S_KV; H_KV; D_V]); auto; [repeat constructor; lia|]. rewrite ravel4. ring.
  - intros h Hh. exists (FA [h]). split; auto. apply (holds_at' ta [H_Q]); auto; [repeat constructor; lia|]. cbn [ravel]. change (product []) with 1. ring.
  - intros _ s Hs. specialize (HB s Hs). lia.
  - exists (mkTns (mkV [B; S_Q; H_Q; D_V] (default_strides [B; S_Q; H_Q; D_V]) 0) o). split.
    + unfold x_offset in E |- *; cbn [x_view v_offset x_buf] in *; rewrite E; reflexivity.
    + split; [reflexivity|]. split; [exact O1|]. split; [exact O2|]. intros b s h d Hb Hs Hh Hd. rewrite O3 by auto. rewrite orb_true_r. do 2 f_equal. unfold between. rewrite Z.sub_0_r. apply map_id.
Qed.

(** With empty primitives nothing is written. *)
Lemma each_same {S X} (l : list X) (body : X -> S -> res S) s : (forall x, In x l -> body x s = ROk s) -> each l body s = ROk s.
Proof. induction l as [|x l IH]; intro H; [reflexivity|]. cbn [each]. rewrite H by (left; auto). cbn [rbind]. apply IH. intros; apply H; right; auto. Qed.
Lemma zloop_same {S} n (body : Z -> S -> res S) s : (forall i, 0 <= i < n -> body i s = ROk s) -> zloop n body s = ROk s.
Proof.
  intro H. destruct (Z_le_gt_dec n 0) as [Hn|Hn]; [apply zloop_0; auto|].
  destruct (zloop_inv (fun _ x => x = s) n body s ltac:(lia) eq_refl) as (x & E & ->); auto. intros i x Hi ->. exists s. auto.
Qed.
Lemma fwd_empty junk B H_Q H_KV S_Q D_QK D_V key value first last q qo oo order g (o : buf R) :
  H_Q = H_KV * g -> 1 <= H_KV -> 1 <= g -> Permutation order (range H_Q) ->
  (forall b hk s j, 0 <= b < B -> 0 <= hk < H_KV -> 0 <= s < S_Q -> first s <= j < last s -> (exists p, key b hk j = ROk p) /\ (exists p, value b hk j = ROk p)) ->
  fwd_bshd (empty_kernels junk) B H_Q H_KV S_Q D_QK D_V key value first last None q qo oo order o = ROk o.
Proof.
  intros Hg Hk Hg1 HO HT. unfold fwd_bshd. replace (H_KV =? 0) with false by lia.
  assert (EG : Z.quot H_Q H_KV = g) by (rewrite Hg, Z.mul_comm; apply Z.quot_mul; lia). cbv zeta. rewrite EG. replace (g =? 0) with false by lia.
  apply zloop_same. intros b Hb. apply each_same. intros h Hh. apply (order_in order H_Q _ HO) in Hh. apply zloop_same. intros s Hs.
  unfold query_row. cbn [k_fill k_scale empty_kernels rbind sink_step].
  destruct (Z_le_gt_dec (last s - first s) 0) as [HL|HL]; [rewrite zloop_0 by auto; reflexivity|].
  destruct (zloop_inv (fun _ x => snd x = o) (last s - first s) (key_step (empty_kernels junk) H_Q S_Q D_QK D_V key value first q qo b h (Z.quot h g) s (oo + (b * H_Q * S_Q * D_V + s * H_Q * D_V + h * D_V))) (soft0, o)) as (x & E & Hx).
  - lia.
  - reflexivity.
  - intros i x Hi Hx. rewrite Z.quot_div_nonneg by lia. destruct (HT b (h / g) s (first s + i)) as [(p1 & E1) (p2 & E2)]; auto; try lia.
    { split; [apply Z.div_pos; lia|]. apply Z.div_lt_upper_bound; lia. }
    unfold key_step. rewrite E1, E2. cbn [rbind k_dot k_scale k_fma empty_kernels]. destruct (soft_step (soft_scale D_QK) (fst x) junk) as [[st sc] p]. cbn [rbind]. eexists. split; [reflexivity|]. exact Hx.
  - rewrite E. cbn [rbind]. rewrite Hx. reflexivity.
Qed.
