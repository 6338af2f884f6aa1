(** The patches of an image: the whole of operator(). *)
From Verif Require Import Base DTypeModel ParamModel ParamSpec TensorModel TensorSpec TensorProofs TensorSplit TensorViews OpsModel OpsSpec OpsProofs.
From Verif Require Import PropertiesTensor PropertiesOps VlSpec VlImgModel VlProofs VlGrid VlImg.
Local Open Scope Z_scope.

Ltac in_s := unfold in_shape; repeat (constructor; [lia|]); constructor.
Ltac perm_ok := unfold is_permutation; cbn [length seq map Z.of_nat Pos.of_succ_nat Pos.succ];
  apply NoDup_Permutation_bis; [repeat (constructor; [cbn [In]; lia|]); constructor|cbn; lia|intros ? I; cbn [In] in *; lia].

Section Img.
Context {A : Type}.
Variables (conv : Z -> A) (mul sub div : A -> A -> A) (rescale : A) (mean std : Z -> A) (N : Z).

(** The value of a byte of channel c in the patches. *)
Definition pixel (c v : Z) : A := div (sub (mul (conv v) rescale) (mean c)) (std c).

Lemma flatten_ok : forall bytes a b, 0 < N -> 0 < a -> 0 < b -> zlen bytes = 28 * a * (28 * b) * 3 ->
  exists out, flatten_patches conv mul sub div rescale mean std N bytes (28 * a) (28 * b) = ROk (out, (1, 2 * a, 2 * b)) /\
    x_shape out = [1 * (2 * a) * (2 * b); 1176] /\ tensor_ok out /\ contiguous out /\
    forall by_ bx jh jw c tt py px, 0 <= by_ < a -> 0 <= bx < b -> 0 <= jh < 2 -> 0 <= jw < 2 -> 0 <= c < 3 -> 0 <= tt < 2 -> 0 <= py < 14 -> 0 <= px < 14 ->
      elem out [((by_ * b + bx) * 2 + jh) * 2 + jw; ((c * 2 + tt) * 14 + py) * 14 + px] =
      Some (pixel c (byte bytes ((((by_ * 2 + jh) * 14 + py) * (28 * b) + ((bx * 2 + jw) * 14 + px)) * 3 + c))).
Proof.
  intros bytes a b HN Ha Hb Hl. set (H := 28 * a) in *. set (W := 28 * b) in *. unfold flatten_patches.
  destruct (image_tensor_ok conv bytes H W ltac:(lia) ltac:(lia) Hl) as (t0 & E0 & S0 & Ok0 & Ow0 & El0). rewrite E0. cbn [rbind]. clear E0.
  destruct (C18_permute_partial A t0 0 [2; 0; 1] Ok0 (os_layout _ Ow0)) as (t1 & E1 & S1 & Ok1 & Ow1 & El1); [rewrite S0; perm_ok|left; reflexivity|].
  rewrite E1. cbn [rbind]. clear E1. rewrite S0 in S1, El1. cbn [rearrange map nth Z.to_nat Pos.to_nat Pos.iter_op Nat.add] in S1. change (x_shape t1 = [3; H; W]) in S1.
  assert (Sh1 : shows3 t1 3 H W (fun c y x => Some (conv (byte bytes ((y * W + x) * 3 + c))))).
  { split; [exact S1|]. split; [exact Ok1|]. split; [exact Ow1|]. intros c y x Hc Hy Hx. destruct (El1 [y; x; c]) as [_ E]; [apply in3; auto|].
    change (rearrange [2; 0; 1] [y; x; c]) with [c; y; x] in E. rewrite E. apply El0; auto. }
  destruct (mul_scalar_ok mul N t1 rescale 3 H W _ HN ltac:(lia) ltac:(lia) ltac:(lia) Sh1) as (t2 & E2 & Sh2). rewrite E2. cbn [rbind]. clear E2.
  destruct (normalize_ok sub div mean std t2 H W _ ltac:(lia) ltac:(lia) Sh2) as (t3 & E3 & S3 & Ok3 & Ow3 & El3). rewrite E3. cbn [rbind]. clear E3.
  assert (P3 : product (x_shape t3) = 3 * H * W) by (rewrite S3; unfold product; cbn [fold_right]; ring).
  assert (E4 : unsqueeze t3 0 = to_view t3 [1; 3; H; W]).
  { unfold unsqueeze. rewrite S3. reflexivity. }
  rewrite E4. clear E4.
  destruct (view_ok t3 [1; 3; H; W] Ok3 (os_layout _ Ow3)) as (t4 & E4 & S4 & Ok4 & C4 & El4); [cbn; lia|repeat (constructor; [lia|]); constructor|rewrite P3; unfold product; cbn [fold_right]; ring|].
  rewrite E4. cbn [rbind]. clear E4. rewrite S3 in El4.
  destruct (C38_repeat_partial A 0 0 0%nat t4 2 (or_introl eq_refl)) as (t5 & E5 & S5 & Ok5 & Ow5 & El5); [rewrite S4; split; [cbn; lia|left; reflexivity]|lia|exact Ok4|exact C4|].
  rewrite E5. cbn [rbind]. clear E5. rewrite S4 in S5. change (x_shape t5 = [2; 3; H; W]) in S5. rewrite S5 in El5. rewrite S5.
  change (vget [2; 3; H; W] 1) with (ROk 3). change (vget [2; 3; H; W] 0) with (ROk 2). cbn [rbind]. cbv zeta.
  unfold temporal_patch_size, patch_size, merge_size. change (2 / 2) with 1.
  assert (Eh : H / 14 = 2 * a) by (symmetry; apply (Z.div_unique H 14 (2 * a) 0); lia). assert (Ew : W / 14 = 2 * b) by (symmetry; apply (Z.div_unique W 14 (2 * b) 0); lia).
  rewrite Eh, Ew. replace (2 * a / 2) with a by (apply (Z.div_unique (2 * a) 2 a 0); lia). replace (2 * b / 2) with b by (apply (Z.div_unique (2 * b) 2 b 0); lia).
  destruct (view_ok t5 [1; 2; 3; a; 2; 14; b; 2; 14] Ok5 (os_layout _ Ow5)) as (t6 & E6 & S6 & Ok6 & C6 & El6);
    [cbn; lia|repeat (constructor; [lia|]); constructor|rewrite S5; unfold product, H, W; cbn [fold_right]; ring|].
  rewrite E6. cbn [rbind]. clear E6. rewrite S5 in El6.
  destruct (C18_permute_partial A t6 0 [0; 3; 6; 4; 7; 2; 1; 5; 8] Ok6 C6) as (t7 & E7 & S7 & Ok7 & Ow7 & El7); [rewrite S6; perm_ok|left; reflexivity|].
  rewrite E7. cbn [rbind]. clear E7. rewrite S6 in S7, El7. change (x_shape t7 = [1; a; b; 2; 2; 3; 2; 14; 14]) in S7.
  change (3 * 2 * 14 * 14) with 1176.
  destruct (view_ok t7 [1 * (2 * a) * (2 * b); 1176] Ok7 (os_layout _ Ow7)) as (t8 & E8 & S8 & Ok8 & C8 & El8);
    [cbn; lia| |rewrite S7; unfold product; cbn [fold_right]; ring|].
  { assert (0 < a * b) by (apply Z.mul_pos_pos; auto). constructor; [lia|]. constructor; [lia|constructor]. }
  rewrite E8. cbn [rbind]. exists t8. split; [reflexivity|]. split; [exact S8|]. split; [exact Ok8|]. split; [exact C8|].
  intros by_ bx jh jw c tt py px Hby Hbx Hjh Hjw Hc Htt Hpy Hpx. rewrite S7 in El8.
  assert (I7 : in_shape [1; a; b; 2; 2; 3; 2; 14; 14] [0; by_; bx; jh; jw; c; tt; py; px]) by in_s.
  assert (Bi : 0 <= ((by_ * b + bx) * 2 + jh) * 2 + jw < 1 * (2 * a) * (2 * b)).
  { assert (B : 0 <= by_ * b + bx < a * b). { assert (by_ * b <= (a - 1) * b) by (apply Z.mul_le_mono_nonneg_r; lia). assert (0 <= by_ * b) by (apply Z.mul_nonneg_nonneg; lia). lia. }
    lia. }
  rewrite (El8 [0; by_; bx; jh; jw; c; tt; py; px]); [|exact I7|in_s|unfold ravel, product; cbn [fold_right]; ring].
  destruct (El7 [0; tt; c; by_; jh; py; bx; jw; px]) as [_ El7']; [in_s|].
  change (rearrange [0; 3; 6; 4; 7; 2; 1; 5; 8] [0; tt; c; by_; jh; py; bx; jw; px]) with [0; by_; bx; jh; jw; c; tt; py; px] in El7'. rewrite El7'.
  set (Y := (by_ * 2 + jh) * 14 + py). set (X := (bx * 2 + jw) * 14 + px). assert (BY : 0 <= Y < H) by (unfold Y, H; lia). assert (BX : 0 <= X < W) by (unfold X, W; lia).
  rewrite (El6 [tt; c; Y; X]); [|in_s|in_s|unfold ravel, product, Y, X, H, W; cbn [fold_right]; ring].
  destruct (El5 [tt; c; Y; X]) as [_ El5']; [in_s|]. cbn [nth] in El5'. replace (tt / 2) with 0 in El5' by (symmetry; apply Z.div_small; lia).
  change (with_coord 0 0 [tt; c; Y; X]) with [0; c; Y; X] in El5'. rewrite El5'.
  rewrite (El4 [c; Y; X]); [|in_s|in_s|unfold ravel, product; cbn [fold_right]; ring].
  rewrite El3 by auto. reflexivity.
Qed.
End Img.
