(** Property theorems C139, C140 (transpose and permute on ARM). *)
From Verif Require Import Base DTypeModel ParamModel ParamSpec ParamProofs ParamMore TensorModel TensorSpec TensorProofs TensorViews TensorSplit TensorConcat TensorStack TensorPermute TensorTranspose TensorContig OpsIndex TrArmModel TrArmProofs TrArmOps PropertiesTensor.
Local Open Scope Z_scope.

(** Bytes per element: float32 (0), float16 (1), int64 (132). *)
Inductive element_bytes : Z -> Z -> Prop :=
| bytes_fp32 : element_bytes 0 4
| bytes_fp16 : element_bytes 1 2
| bytes_int64 : element_bytes 132 8.

Lemma element_bytes_lanes dt w : element_bytes dt w ->
  arm_transpose_supported dt = true /\ arm_lanes dt = 16 / w /\ (arm_lanes dt = 4 \/ arm_lanes dt = 8 \/ arm_lanes dt = 2).
Proof. intros []; repeat split; auto. Qed.

(** ** C139: transpose on ARM *)

(** Every element moves to its place, for fp32, fp16 and int64, except for
    dimensions 0 and 1 of a tensor of rank other than 2, and for dimensions 1 and 2
    of a rank-4 tensor whose rows are shorter than a 16-byte register (both refuted
    below). *)
Theorem C139_transpose_partial : forall (A : Type) (t : tns A) dt w d0 d1 a b,
  tensor_ok t -> contiguous t -> element_bytes dt w ->
  names_dim (length (x_shape t)) d0 a -> names_dim (length (x_shape t)) d1 b ->
  length (x_shape t) = 2%nat \/ (a + b <> 1)%nat ->
  (length (x_shape t) = 4%nat -> (a = 1 /\ b = 2 \/ a = 2 /\ b = 1)%nat -> 16 <= w * nth 3 (x_shape t) 0 /\ nth 3 (x_shape t) 0 < 2 ^ 64) ->
  exists out, arm_transpose_op dt t d0 d1 = ROk out /\ x_shape out = exchange a b (x_shape t) /\
    tensor_ok out /\ owns_storage out /\
    forall idx, in_shape (x_shape t) idx ->
      in_shape (x_shape out) (exchange a b idx) /\ elem out (exchange a b idx) = elem t idx.
Proof.
  intros A t dt w d0 d1 a b Hok Hc Hdt Ha Hb Hn Hw. destruct (element_bytes_lanes _ _ Hdt) as (E1 & E2 & _).
  apply arm_transpose_correct; auto; try apply Ha; try apply Hb; try (apply names_dim_norm; auto).
  intros L Hab. destruct (Hw L Hab) as [W1 W2]. split; [|exact W2].
  rewrite E2. destruct Hdt; [change (16 / 4) with 4|change (16 / 2) with 8|change (16 / 8) with 2]; lia.
Qed.
(** The ARM and the x86 build compute the same transposed tensor. *)
Theorem C139_same_as_x86 : forall (A : Type) (t : tns A) dt w d0 d1 a b,
  tensor_ok t -> contiguous t -> element_bytes dt w -> dt = 0 \/ dt = 132 ->
  names_dim (length (x_shape t)) d0 a -> names_dim (length (x_shape t)) d1 b ->
  length (x_shape t) = 2%nat \/ (a + b <> 1)%nat ->
  (length (x_shape t) = 4%nat -> (a = 1 /\ b = 2 \/ a = 2 /\ b = 1)%nat -> 16 <= w * nth 3 (x_shape t) 0 /\ nth 3 (x_shape t) 0 < 2 ^ 64) ->
  exists out out', arm_transpose_op dt t d0 d1 = ROk out /\ transpose_op dt t d0 d1 = ROk out' /\ is_packed_copy out' out.
Proof.
  intros A t dt w d0 d1 a b Hok Hc Hdt Hdt2 Ha Hb Hn Hw.
  destruct (C139_transpose_partial A t dt w d0 d1 a b Hok Hc Hdt Ha Hb Hn Hw) as (out & E & S1 & O1 & W1 & El1).
  destruct (C18_transpose_partial A t dt d0 d1 a b Hok Hc Hdt2 Ha Hb Hn) as (out' & E' & S2 & O2 & W2 & El2).
  exists out, out'. split; [exact E|]. split; [exact E'|].
  assert (He : forall idx, in_shape (x_shape out') idx -> elem out idx = elem out' idx).
  { intros idx Hi. rewrite S2 in Hi. assert (L := in_shape_length _ _ Hi). rewrite exchange_length in L.
    assert (Hi2 : in_shape (x_shape t) (exchange a b idx)).
    { apply in_shape_of_nth; [rewrite exchange_length; congruence|]. intros k Hk.
      assert (Hs : (swap2 a b k < length (x_shape t))%nat) by (apply swap2_bound; auto; [apply Ha|apply Hb]).
      assert (H := in_shape_nth _ _ (swap2 a b k) Hi ltac:(rewrite exchange_length; auto)).
      rewrite (exchange_nth a b (x_shape t)) in H by auto. rewrite swap2_invol in H.
      rewrite exchange_nth by lia. exact H. }
    destruct (El1 _ Hi2) as [_ X1]. destruct (El2 _ Hi2) as [_ X2].
    rewrite exchange_twice in X1, X2 by (rewrite L; first [apply Ha|apply Hb]). congruence. }
  split; [congruence|]. split; [exact O1|]. split; [exact W1|]. split; [|exact He].
  unfold contents. replace (x_shape out) with (x_shape out') by congruence. apply map_ext_in. intros idx Hx. apply He. apply in_indices. auto.
Qed.
Example C139_case : exists out, arm_transpose_op 1 (ramp_tensor [5; 9]) (-1) 0 = ROk out /\ x_shape out = [9; 5] /\
  contents out = map Some [0; 9; 18; 27; 36; 1; 10; 19; 28; 37; 2; 11; 20; 29; 38; 3; 12; 21; 30; 39; 4; 13; 22; 31; 40;
    5; 14; 23; 32; 41; 6; 15; 24; 33; 42; 7; 16; 25; 34; 43; 8; 17; 26; 35; 44].
Proof. by_run. Qed.
Example C139_case4 : exists out, arm_transpose_op 0 (ramp_tensor [1; 2; 2; 5]) 1 2 = ROk out /\ x_shape out = [1; 2; 2; 5] /\
  contents out = map Some [0; 1; 2; 3; 4; 10; 11; 12; 13; 14; 5; 6; 7; 8; 9; 15; 16; 17; 18; 19].
Proof. by_run. Qed.
Lemma C139_hypotheses : tensor_ok (ramp_tensor [1; 2; 2; 8]) /\ contiguous (ramp_tensor [1; 2; 2; 8]) /\
  element_bytes 1 2 /\ names_dim 4 (-3) 1 /\ names_dim 4 2 2 /\ 16 <= 2 * nth 3 [1; 2; 2; 8] 0 /\ nth 3 [1; 2; 2; 8] 0 < 2 ^ 64.
Proof.
  split; [ramp|]. split; [apply os_layout; ramp|]. split; [constructor|].
  split; [split; [lia|right; reflexivity]|]. split; [split; [lia|left; reflexivity]|]. cbn. lia.
Qed.

(** Exchanging dimensions 1 and 2 of a rank-4 tensor whose rows are shorter than a
    16-byte register accesses memory outside the tensor: the loop bound D - lanes is
    computed in size_t and wraps. *)
Theorem C139_short_rows_refuted : forall (A : Type) (t : tns A) dt w d0 d1 a b B S H D,
  tensor_ok t -> element_bytes dt w -> x_shape t = [B; S; H; D] ->
  names_dim 4 d0 a -> names_dim 4 d1 b -> (a = 1 /\ b = 2 \/ a = 2 /\ b = 1)%nat ->
  0 < B -> 0 < S -> 0 < H -> 0 <= x_offset t -> b_len (x_buf t) < 2 ^ 62 ->
  w * D < 16 ->
  arm_transpose_op dt t d0 d1 = RUB.
Proof.
  intros A t dt w d0 d1 a b B S H D Hok Hdt Hs Ha Hb Hab HB HS HH Hx HX HD.
  destruct (element_bytes_lanes _ _ Hdt) as (E1 & E2 & E3).
  assert (HD0 : 0 <= D).
  { assert (X := ok_dims _ Hok). rewrite Hs in X. inversion X as [|? ? _ X1]; inversion X1 as [|? ? _ X2]; inversion X2 as [|? ? _ X3]; inversion X3; auto. }
  assert (LL : length (x_shape t) = 4%nat) by (rewrite Hs; reflexivity).
  unfold arm_transpose_op. cbv zeta. unfold zlen. rewrite LL.
  rewrite (names_dim_norm _ _ _ Ha), (names_dim_norm _ _ _ Hb).
  replace ((0 <=? Z.of_nat a) && (Z.of_nat a <? Z.of_nat 4) && (0 <=? Z.of_nat b) && (Z.of_nat b <? Z.of_nat 4)) with true by lia.
  rewrite swap_at_exchange by lia. rewrite fresh_ok by (rewrite exchange_length; lia). cbn [rbind x_buf x_view].
  unfold arm_transpose_forward, zlen. rewrite E1, LL. cbn [negb].
  change (Z.of_nat 4 =? 2) with false. change (Z.of_nat 4 =? 4) with true. cbn [andb].
  replace ((Z.of_nat a =? 1) && (Z.of_nat b =? 2) || (Z.of_nat a =? 2) && (Z.of_nat b =? 1)) with true by lia.
  rewrite Hs. cbn [nth].
  match goal with |- rbind ?r _ = _ => assert (E : r = RUB) end; [|rewrite E; reflexivity].
  apply arm_bshd_narrow; auto. split; [exact HD0|]. rewrite E2.
  destruct Hdt; [change (16 / 4) with 4|change (16 / 2) with 8|change (16 / 8) with 2]; lia.
Qed.
(** It happens: rows of 2 floats. *)
Example C139_short_rows_case : arm_transpose_op 0 (ramp_tensor [1; 3; 2; 2]) 1 2 = RUB.
Proof.
  apply (C139_short_rows_refuted Z (ramp_tensor [1; 3; 2; 2]) 0 4 1 2 1 2 1 3 2 2); auto; try (vm_compute; lia); try constructor; auto; try ramp; try (vm_compute; intuition congruence).
Qed.

(** Dimensions 0 and 1 of a tensor of rank 3 or more: the output is never written. *)
Theorem C139_batch_refuted : forall (A : Type) (t : tns A) dt w d0 d1 a b,
  tensor_ok t -> element_bytes dt w -> (2 < length (x_shape t))%nat ->
  names_dim (length (x_shape t)) d0 a -> names_dim (length (x_shape t)) d1 b -> (a + b = 1)%nat ->
  exists out, arm_transpose_op dt t d0 d1 = ROk out /\ x_shape out = exchange a b (x_shape t) /\
    forall idx, elem out idx = None.
Proof.
  intros A t dt w d0 d1 a b Hok Hdt Hr Ha Hb Hab. destruct (element_bytes_lanes _ _ Hdt) as (E1 & _ & _).
  unfold arm_transpose_op. cbv zeta. unfold zlen.
  rewrite (names_dim_norm _ _ _ Ha), (names_dim_norm _ _ _ Hb). destruct Ha as [Ha _], Hb as [Hb _].
  replace ((0 <=? Z.of_nat a) && (Z.of_nat a <? Z.of_nat (length (x_shape t))) && (0 <=? Z.of_nat b) && (Z.of_nat b <? Z.of_nat (length (x_shape t)))) with true by lia.
  rewrite swap_at_exchange by auto. rewrite fresh_ok by (rewrite exchange_length; apply Hok). cbn [rbind x_buf x_view].
  unfold arm_transpose_forward, zlen. rewrite E1. cbn [negb].
  replace ((Z.of_nat (length (x_shape t)) =? 2) && (Z.of_nat a + Z.of_nat b =? 1)) with false by lia.
  replace ((Z.of_nat (length (x_shape t)) =? 4) && ((Z.of_nat a =? 1) && (Z.of_nat b =? 2) || (Z.of_nat a =? 2) && (Z.of_nat b =? 1))) with false by lia.
  replace (negb (Z.of_nat (length (x_shape t)) =? 2) && (Z.of_nat a + Z.of_nat b =? 1)) with true by lia.
  cbv zeta. rewrite fold_mul. unfold arm_last. rewrite zloop_0 by lia. cbn [rbind].
  eexists. split; [reflexivity|]. split; [reflexivity|]. reflexivity.
Qed.
Example C139_batch_case : exists out, arm_transpose_op 1 (ramp_tensor [2; 2; 1]) 0 1 = ROk out /\ x_shape out = [2; 2; 1] /\ contents out = [None; None; None; None].
Proof. by_run. Qed.

(** ** C140: permute on ARM *)

Theorem C140_permute_partial : forall (A : Type) (t : tns A) dt axis,
  tensor_ok t -> contiguous t -> is_permutation (length (x_shape t)) axis ->
  In dt [0; 1; 16; 17; 18; 129; 130; 131; 132; 133] ->
  exists out, arm_permute_op dt t axis = ROk out /\ x_shape out = rearrange axis (x_shape t) /\
    tensor_ok out /\ owns_storage out /\
    forall idx, in_shape (x_shape t) idx ->
      in_shape (x_shape out) (rearrange axis idx) /\ elem out (rearrange axis idx) = elem t idx.
Proof.
  intros A t dt axis Hok Hc Hp Hdt. apply arm_permute_correct; auto.
  cbn [In] in Hdt. repeat (destruct Hdt as [<- | Hdt]; [reflexivity|]). contradiction.
Qed.
(** Permuting with a permutation and then with its inverse gives back the tensor. *)
Theorem C140_permute_inverse : forall (A : Type) (t : tns A) dt axis inv,
  tensor_ok t -> contiguous t -> is_permutation (length (x_shape t)) axis -> is_permutation (length (x_shape t)) inv ->
  (forall k, (k < length (x_shape t))%nat -> nth (Z.to_nat (nth k inv 0)) axis 0 = Z.of_nat k) ->
  In dt [0; 1; 16; 17; 18; 129; 130; 131; 132; 133] ->
  exists mid out, arm_permute_op dt t axis = ROk mid /\ arm_permute_op dt mid inv = ROk out /\ is_packed_copy t out.
Proof.
  intros A t dt axis inv Hok Hc Hp Hi Hinv Hdt.
  destruct (C140_permute_partial A t dt axis Hok Hc Hp Hdt) as (mid & E1 & S1 & O1 & W1 & El1).
  set (n := length (x_shape t)) in *.
  assert (L1 : length (x_shape mid) = n) by (rewrite S1; apply (rearrange_length n); auto).
  destruct (C140_permute_partial A mid dt inv O1 (os_layout _ W1)) as (out & E2 & S2 & O2 & W2 & El2); auto.
  { rewrite L1. exact Hi. }
  assert (Hid : forall l, length l = n -> rearrange inv (rearrange axis l) = l).
  { intros l Hl. apply (nth_ext _ _ 0 0); [rewrite (rearrange_length n); auto|].
    intros k Hk. rewrite (rearrange_length n) in Hk by auto. rewrite (rearrange_nth n) by auto.
    assert (B := perm_bound n inv Hi k Hk). rewrite (rearrange_nth n) by (auto; lia). rewrite (Hinv k Hk), Nat2Z.id. reflexivity. }
  exists mid, out. split; [exact E1|]. split; [exact E2|].
  assert (Hs : x_shape out = x_shape t) by (rewrite S2, S1; apply Hid; reflexivity).
  assert (He : forall idx, in_shape (x_shape t) idx -> elem out idx = elem t idx).
  { intros idx Hx. destruct (El1 idx Hx) as [I1 I2]. destruct (El2 _ I1) as [_ I4].
    rewrite Hid in I4 by (apply in_shape_length; auto). congruence. }
  split; [exact Hs|]. split; [exact O2|]. split; [exact W2|]. split; [|exact He].
  unfold contents. rewrite Hs. apply map_ext_in. intros idx Hx. apply He. apply in_indices. auto.
Qed.
Example C140_case : exists out, arm_permute_op 1 (ramp_tensor [2; 1; 13]) [1; 0; 2] = ROk out /\ x_shape out = [1; 2; 13] /\
  contents out = map Some (map Z.of_nat (seq 0 26)).
Proof. by_run. Qed.
Example C140_case2 : exists out, arm_permute_op 0 (ramp_tensor [2; 2; 5]) [1; 0; 2] = ROk out /\ x_shape out = [2; 2; 5] /\
  contents out = map Some [0; 1; 2; 3; 4; 10; 11; 12; 13; 14; 5; 6; 7; 8; 9; 15; 16; 17; 18; 19].
Proof. by_run. Qed.
Lemma C140_hypotheses : tensor_ok (ramp_tensor [2; 2; 5]) /\ contiguous (ramp_tensor [2; 2; 5]) /\ is_permutation 3 [1; 0; 2].
Proof. split; [ramp|]. split; [apply os_layout; ramp|]. exact (perm_swap 0 1 [2]). Qed.
(** Strides of the input are ignored, as on x86. *)
Theorem C140_noncontiguous_refuted :
  contents two_columns = map Some [0; 1; 3; 4] /\
  exists out, arm_permute_op 0 two_columns [1; 0] = ROk out /\ x_shape out = [2; 2] /\ contents out = map Some [0; 2; 1; 3].
Proof. split; [reflexivity|by_run]. Qed.

Print Assumptions C139_transpose_partial.
Print Assumptions C139_same_as_x86.
Print Assumptions C139_short_rows_refuted.
Print Assumptions C139_batch_refuted.
Print Assumptions C140_permute_partial.
Print Assumptions C140_permute_inverse.
Print Assumptions C140_noncontiguous_refuted.
