(** Property theorems C117 - C118 (maxima, minima, means) and C54 (sums) on ARM hosts and on x86 hosts. *)
From Coq Require Import Reals Lra.
From Flocq Require Import Core.
From Verif Require Import Base DTypeModel ParamModel ParamSpec TensorModel TensorSpec TensorProofs TensorSplit OpsModel OpsSpec OpsProofs QuantModel CpmAudioModel CpmAudio DivProofs
  OpsIndex OpsMask OpsSort OpsSum ParamProofs RedModel RedSpec RedProofs RedOp RedKernels PropertiesTensor PropertiesOps PropertiesMoe.
Local Open Scope Z_scope.

(** What all of these theorems ask of the tensor: it is contiguous and all its elements have been written. *)
Definition readable {A} (x : tns A) : Prop :=
  tensor_ok x /\ contiguous x /\ forall idx, in_shape (x_shape x) idx -> elem x idx <> None.
(** [dim] (negative: from the end) names dimension d, and something remains if it is dropped. *)
Definition good_dim {A} (x : tns A) (dim : Z) (d : nat) (keep : bool) : Prop :=
  dim <> all_dims /\ names_dim (length (x_shape x)) dim d /\ (keep = true \/ (2 <= length (x_shape x))%nat).
(** Elements are numbers of [bits] bits. *)
Definition holds_ints (bits : Z) (x : tns Z) : Prop := forall idx v, elem x idx = Some v -> representable bits v.

(* ------------------------------------------------------------------ *)
(** ** C117: maxima and minima *)
Theorem C117_int_partial : forall bits (x : tns Z) dim d keep,
  bits = 8 \/ bits = 16 \/ bits = 32 -> readable x -> good_dim x dim d keep ->
  (exists out, int_reduce HostArm bits RedMax x dim keep = ROk out /\ reduces_along greatest x d keep out) /\
  (exists out, int_reduce HostArm bits RedMin x dim keep = ROk out /\ reduces_along least x d keep out).
Proof.
  intros bits x dim d keep B (O & C & W) (D1 & D2 & D3).
  split; (apply reduce_correct; auto; intros idx vals _ _; [apply max_run || apply min_run]; exact B).
Qed.
Theorem C117_int_all_partial : forall bits (x : tns Z) keep,
  bits = 8 \/ bits = 16 \/ bits = 32 -> readable x ->
  (exists out, int_reduce HostArm bits RedMax x all_dims keep = ROk out /\ reduces_all greatest x keep out) /\
  (exists out, int_reduce HostArm bits RedMin x all_dims keep = ROk out /\ reduces_all least x keep out).
Proof.
  intros bits x keep B (O & C & W).
  split; (apply reduce_all_correct; auto; intros vals _; [apply max_run || apply min_run]; exact B).
Qed.
(** Floating point numbers without NaN: 4 lanes of float, 8 of half. *)
Theorem C117_real_partial : forall lanes (x : tns R) dim d keep,
  0 < lanes -> readable x -> good_dim x dim d keep ->
  (exists out, real_reduce HostArm lanes RedMax x dim keep = ROk out /\ reduces_along greatest_real x d keep out) /\
  (exists out, real_reduce HostArm lanes RedMin x dim keep = ROk out /\ reduces_along least_real x d keep out).
Proof.
  intros lanes x dim d keep B (O & C & W) (D1 & D2 & D3).
  split; (apply reduce_correct; auto; intros idx vals _ _; [apply real_max_run || apply real_min_run]; exact B).
Qed.
Theorem C117_real_all_partial : forall lanes (x : tns R) keep,
  0 < lanes -> readable x ->
  (exists out, real_reduce HostArm lanes RedMax x all_dims keep = ROk out /\ reduces_all greatest_real x keep out) /\
  (exists out, real_reduce HostArm lanes RedMin x all_dims keep = ROk out /\ reduces_all least_real x keep out).
Proof.
  intros lanes x keep B (O & C & W).
  split; (apply reduce_all_correct; auto; intros vals _; [apply real_max_run || apply real_min_run]; exact B).
Qed.

(** On x86 hosts nothing is computed: the result is memory nobody has written, and no error is reported. *)
Lemma zloop_id {S} (body : Z -> S -> res S) s n : (forall i, body i s = ROk s) -> zloop n body s = ROk s.
Proof. intro H. unfold zloop. induction (Z.to_nat n) as [|m IH]; cbn [loop]; [reflexivity|]. rewrite IH. cbn [rbind]. apply H. Qed.
Lemma no_kernel {A} (a0 : A) (x : tns A) dim d keep : readable x -> good_dim x dim d keep ->
  exists out, reduce_op None x dim keep = ROk out /\ x_shape out = reduced_shape (x_shape x) d keep /\ forall idx, elem out idx = None.
Proof.
  intros (Ox & C & W) (D1 & D2 & D3).
  destruct (reduce_correct (fun _ _ _ _ => ROk a0) (fun _ _ => True) x dim d keep) as (out & E & P); auto.
  { intros idx vals _ _ p stride _. exists a0. auto. }
  destruct P as (P1 & _). rewrite <- P1. unfold reduce_op in *.
  destruct (reduce_shape (x_shape x) dim keep) as [os| | |]; try discriminate. cbn [rbind] in *.
  destruct (fresh_tensor os) as [o| | |] eqn:EF; try discriminate. cbn [rbind] in *.
  assert (NB : forall i, b_at (x_buf o) i = None). { unfold fresh_tensor in EF. destruct (create_view os) as [v| | |]; try discriminate. cbn [rbind] in EF. injection EF as <-. reflexivity. }
  replace (dim =? all_dims) with false in * by lia.
  destruct (vget (x_shape x) _) as [n| | |]; try discriminate. cbn [rbind] in *.
  rewrite zloop_id by (intro i; apply zloop_id; reflexivity). cbn [rbind]. eexists. split; [reflexivity|]. split; [|intro idx; apply NB].
  destruct (zloop _ _ _) as [b| | |]; try discriminate. cbn [rbind] in E. injection E as <-. reflexivity.
Qed.
Theorem C117_x86_refuted : forall bits k (x : tns Z) (y : tns R) lanes keep,
  readable x -> readable y ->
  (exists out, int_reduce HostX86 bits k x all_dims keep = ROk out /\ forall idx, elem out idx = None) /\
  (k <> RedSum -> exists out, real_reduce HostX86 lanes k y all_dims keep = ROk out /\ forall idx, elem out idx = None).
Proof.
  assert (G : forall A (x : tns A) keep, readable x -> exists out, reduce_op None x all_dims keep = ROk out /\ forall idx, elem out idx = None).
  { intros A x keep (Ox & C & W). unfold reduce_op, reduce_shape. rewrite Z.eqb_refl. cbn [rbind].
    set (os := if keep then map (fun _ => 1) (x_shape x) else [1]).
    assert (R := ok_rank _ Ox).
    assert (Hos : Forall (fun d => 0 <= d) os) by (unfold os; destruct keep; [apply Forall_forall; intros y Hy; apply in_map_iff in Hy as (? & <- & _); lia|repeat constructor; lia]).
    assert (Ros : (1 <= length os <= 16)%nat) by (unfold os; destruct keep; [rewrite map_length; exact R|cbn; lia]).
    rewrite fresh_ok by auto. cbn [rbind]. eexists. split; [reflexivity|]. intro idx. reflexivity. }
  intros bits k x y lanes keep Rx Ry. split; [apply G; exact Rx|]. intro K. destruct k; try congruence; apply G; exact Ry.
Qed.
Theorem C117_x86_lanes_refuted : forall bits k (x : tns Z) (y : tns R) lanes dim d keep,
  readable x -> good_dim x dim d keep -> readable y -> good_dim y dim d keep ->
  (exists out, int_reduce HostX86 bits k x dim keep = ROk out /\ x_shape out = reduced_shape (x_shape x) d keep /\ forall idx, elem out idx = None) /\
  (k <> RedSum -> exists out, real_reduce HostX86 lanes k y dim keep = ROk out /\ x_shape out = reduced_shape (x_shape y) d keep /\ forall idx, elem out idx = None).
Proof.
  intros bits k x y lanes dim d keep Rx Dx Ry Dy. split; [apply (no_kernel 0); auto|].
  intro K. destruct k; try congruence; apply (no_kernel 0%R); auto.
Qed.
(** Reducing a vector along its only dimension without keeping it fails. *)
Theorem C117_rank_one_refuted : forall h bits k (x : tns Z) n, x_shape x = [n] -> int_reduce h bits k x 0 false = RUB.
Proof. intros h bits k x n E. unfold int_reduce, reduce_op. rewrite E. reflexivity. Qed.
Example C117_example : exists out, int_reduce HostArm 8 RedMax (ints [2; 19] (map (fun i => Z.of_nat i * 7 mod 23 - 11) (seq 0 38))) (-1) false = ROk out /\
  x_shape out = [2] /\ contents out = map Some [11; 11].
Proof. by_run. Qed.
Example C117_example_column : exists out, int_reduce HostArm 32 RedMin (ints [3; 2] [5; -1; -2; 4; 0; 0]) 0 true = ROk out /\
  x_shape out = [1; 2] /\ contents out = map Some [-2; -1].
Proof. by_run. Qed.
Ltac readable := split; [ints|split; [cont|apply written_all; vm_compute; reflexivity]].
Lemma C117_hypotheses : readable (ints [2; 3] [5; -1; -2; 4; 0; 0]) /\ good_dim (ints [2; 3] [5; -1; -2; 4; 0; 0]) (-1) 1 false.
Proof. split; [readable|]. split; [discriminate|]. split; [|right; cbn; lia]. split; [cbn; lia|right; cbn; lia]. Qed.

(* ------------------------------------------------------------------ *)
(** ** C54: sums on ARM hosts *)
Lemma lane_elems {A} (x : tns A) d keep idx vals v : lane_of x d keep idx = map Some vals -> In v vals -> exists i, elem x i = Some v.
Proof.
  intros E I. apply (in_map Some) in I. rewrite <- E in I. unfold lane_of, along in I. apply in_map_iff in I as (i & Ei & _). eauto.
Qed.
Lemma content_elems {A} (x : tns A) vals v : contents x = map Some vals -> In v vals -> exists i, elem x i = Some v.
Proof. intros E I. apply (in_map Some) in I. rewrite <- E in I. unfold contents in I. apply in_map_iff in I as (i & Ei & _). eauto. Qed.
Lemma wrap_modulo bits z : bits_ok bits -> modulo_bits bits z (wrap bits z).
Proof. intro B. split; [apply wrap_range; exact B|apply wrap_mod; exact B]. Qed.
Lemma along_weaken {A} (r1 r2 : list A -> A -> Prop) x d keep out : (forall idx vals r, in_shape (x_shape out) idx -> lane_of x d keep idx = map Some vals -> r1 vals r -> r2 vals r) ->
  reduces_along r1 x d keep out -> reduces_along r2 x d keep out.
Proof. intros W (P1 & P2 & P3 & P4). split; [exact P1|split; [exact P2|split; [exact P3|]]]. intros idx I. destruct (P4 idx I) as (vals & r & L & E & H). exists vals, r. eauto. Qed.
Lemma all_weaken {A} (r1 r2 : list A -> A -> Prop) x keep out : (forall vals r, contents x = map Some vals -> r1 vals r -> r2 vals r) ->
  reduces_all r1 x keep out -> reduces_all r2 x keep out.
Proof. intros W (P1 & P2 & P3 & vals & r & L & E & H). split; [exact P1|split; [exact P2|split; [exact P3|]]]. exists vals, r. eauto. Qed.
(** int8 and int16: the sum modulo 2^bits. *)
Theorem C54_arm_int_partial : forall bits (x : tns Z) dim d keep,
  bits = 8 \/ bits = 16 -> readable x -> holds_ints bits x -> good_dim x dim d keep ->
  exists out, int_reduce HostArm bits RedSum x dim keep = ROk out /\ reduces_along (fun vals r => modulo_bits bits (total vals) r) x d keep out.
Proof.
  intros bits x dim d keep B (O & C & W) HI (D1 & D2 & D3). assert (B' : bits_ok bits) by (unfold bits_ok; tauto).
  destruct (reduce_correct (arm_int bits RedSum) (fun vals r => r = wrap bits (total vals)) x dim d keep) as (out & E & P); auto.
  - intros idx vals _ L. apply sum_run; [exact B'|]. split; [|intros ->; destruct B; discriminate].
    apply Forall_forall. intros v Iv. destruct (lane_elems _ _ _ _ _ _ L Iv) as [i Ei]. eapply HI. exact Ei.
  - exists out. split; [exact E|]. eapply along_weaken; [|exact P]. intros idx vals r _ _ ->. apply wrap_modulo. exact B'.
Qed.
(** int32: the sum, if no partial sum overflows. *)
Theorem C54_arm_int32_partial : forall (x : tns Z) dim d keep,
  readable x -> holds_ints 32 x -> good_dim x dim d keep ->
  (forall idx vals, in_shape (reduced_shape (x_shape x) d keep) idx -> lane_of x d keep idx = map Some vals -> prefixes_fit 32 vals) ->
  exists out, int_reduce HostArm 32 RedSum x dim keep = ROk out /\ reduces_along (fun vals r => r = total vals) x d keep out.
Proof.
  intros x dim d keep (O & C & W) HI (D1 & D2 & D3) PF. assert (B' : bits_ok 32) by (unfold bits_ok; tauto).
  destruct (reduce_correct (arm_int 32 RedSum) (fun vals r => r = wrap 32 (total vals)) x dim d keep) as (out & E & P); auto.
  - intros idx vals I L. apply sum_run; [exact B'|]. split; [|intros _; eapply PF; eauto].
    apply Forall_forall. intros v Iv. destruct (lane_elems _ _ _ _ _ _ L Iv) as [i Ei]. eapply HI. exact Ei.
  - exists out. split; [exact E|]. assert (ES := proj1 P). eapply along_weaken; [|exact P]. intros idx vals r I L ->. apply wrap_id; [exact B'|].
    rewrite ES in I. assert (F := PF idx vals I L (length vals) (le_n _)). rewrite firstn_all in F. exact F.
Qed.
Theorem C54_arm_int_all_partial : forall bits (x : tns Z) keep,
  bits = 8 \/ bits = 16 -> readable x -> holds_ints bits x ->
  exists out, int_reduce HostArm bits RedSum x all_dims keep = ROk out /\ reduces_all (fun vals r => modulo_bits bits (total vals) r) x keep out.
Proof.
  intros bits x keep B (O & C & W) HI. assert (B' : bits_ok bits) by (unfold bits_ok; tauto).
  destruct (reduce_all_correct (arm_int bits RedSum) (fun vals r => r = wrap bits (total vals)) x keep) as (out & E & P); auto.
  - intros vals L. apply sum_run; [exact B'|]. split; [|intros ->; destruct B; discriminate].
    apply Forall_forall. intros v Iv. destruct (content_elems _ _ _ L Iv) as [i Ei]. eapply HI. exact Ei.
  - exists out. split; [exact E|]. eapply all_weaken; [|exact P]. intros vals r _ ->. apply wrap_modulo. exact B'.
Qed.
(** fp32 and fp16, without rounding. *)
Theorem C54_arm_real_partial : forall lanes (x : tns R) dim d keep,
  0 < lanes -> readable x -> good_dim x dim d keep ->
  exists out, real_reduce HostArm lanes RedSum x dim keep = ROk out /\ reduces_along (fun vals r => r = total_real vals) x d keep out.
Proof.
  intros lanes x dim d keep B (O & C & W) (D1 & D2 & D3). apply reduce_correct; auto. intros idx vals _ _. apply real_sum_run. exact B.
Qed.
Theorem C54_arm_real_all_partial : forall lanes (x : tns R) keep, 0 < lanes -> readable x ->
  exists out, real_reduce HostArm lanes RedSum x all_dims keep = ROk out /\ reduces_all (fun vals r => r = total_real vals) x keep out.
Proof. intros lanes x keep B (O & C & W). apply reduce_all_correct; auto. intros vals _. apply real_sum_run. exact B. Qed.

(* ------------------------------------------------------------------ *)
(** ** C118: means *)
(** fp32 and fp16, without rounding. *)
Theorem C118_real_partial : forall lanes (x : tns R) dim d keep,
  0 < lanes -> readable x -> good_dim x dim d keep -> 1 <= nth d (x_shape x) 0 ->
  exists out, real_reduce HostArm lanes RedMean x dim keep = ROk out /\ reduces_along (fun vals r => r = total_real vals / IZR (zlen vals))%R x d keep out.
Proof.
  intros lanes x dim d keep B (O & C & W) (D1 & D2 & D3) N. apply reduce_correct; auto. intros idx vals _ L. apply real_mean_run; [exact B|].
  intros ->. unfold lane_of, along in L. apply (f_equal (@length _)) in L. rewrite map_length, seq_length in L. cbn in L. lia.
Qed.
Theorem C118_real_all_partial : forall lanes (x : tns R) keep, 0 < lanes -> readable x -> product (x_shape x) <> 0 ->
  exists out, real_reduce HostArm lanes RedMean x all_dims keep = ROk out /\ reduces_all (fun vals r => r = total_real vals / IZR (zlen vals))%R x keep out.
Proof.
  intros lanes x keep B (O & C & W) N. apply reduce_all_correct; auto. intros vals L. apply real_mean_run; [exact B|].
  intros ->. rewrite contents_contiguous in L; [|apply O|exact C]. apply (f_equal (@length _)) in L. rewrite map_length, seq_length in L. cbn in L.
  assert (0 <= product (x_shape x)) by (apply product_nonneg; apply O). lia.
Qed.
(** Integers: the mean rounded towards zero, when the sum of the lane is a number of the element type and below 2^24. *)
Definition sum_small (bits : Z) (vals : list Z) : Prop :=
  if bits =? 32 then prefixes_fit 32 vals /\ Z.abs (total vals) < 2 ^ 24 else representable bits (total vals).
Lemma small_ok bits vals : bits_ok bits -> sum_small bits vals -> Forall (representable bits) vals ->
  sum_defined bits vals /\ wrap bits (total vals) = total vals /\ Z.abs (wrap bits (total vals)) < 2 ^ 24.
Proof.
  intros B S F.
  assert (R : representable bits (total vals)).
  { unfold sum_small in S. destruct (bits =? 32) eqn:Q; [|exact S]. assert (bits = 32) as -> by lia. destruct S as [S _]. assert (G := S (length vals) (le_n _)). rewrite firstn_all in G. exact G. }
  rewrite (wrap_id bits B) by exact R. split; [|split; [reflexivity|]].
  - split; [exact F|]. intros ->. apply S.
  - unfold sum_small in S. destruct B as [-> |[-> | ->]]; cbn [Z.eqb Pos.eqb] in S; [| |apply S]; unfold representable in R; cbn in R; lia.
Qed.
Theorem C118_int_partial : forall bits (x : tns Z) dim d keep,
  bits = 8 \/ bits = 16 \/ bits = 32 -> readable x -> holds_ints bits x -> good_dim x dim d keep -> 1 <= nth d (x_shape x) 0 ->
  (forall idx vals, in_shape (reduced_shape (x_shape x) d keep) idx -> lane_of x d keep idx = map Some vals -> sum_small bits vals) ->
  exists out, int_reduce HostArm bits RedMean x dim keep = ROk out /\ reduces_along (fun vals r => r = Z.quot (total vals) (zlen vals)) x d keep out.
Proof.
  intros bits x dim d keep B (O & C & W) HI (D1 & D2 & D3) N S.
  assert (G : forall idx vals, in_shape (reduced_shape (x_shape x) d keep) idx -> lane_of x d keep idx = map Some vals ->
    sum_defined bits vals /\ wrap bits (total vals) = total vals /\ Z.abs (wrap bits (total vals)) < 2 ^ 24).
  { intros idx vals I L. apply small_ok; [exact B|eapply S; eauto|]. apply Forall_forall. intros v Iv. destruct (lane_elems _ _ _ _ _ _ L Iv) as [i Ei]. eapply HI. exact Ei. }
  destruct (reduce_correct (arm_int bits RedMean) (fun vals r => r = Z.quot (wrap bits (total vals)) (zlen vals)) x dim d keep) as (out & E & P); auto.
  - intros idx vals I L. destruct (G idx vals I L) as (G1 & G2 & G3). apply mean_run; auto.
    intros ->. unfold lane_of, along in L. apply (f_equal (@length _)) in L. rewrite map_length, seq_length in L. cbn in L. lia.
  - exists out. split; [exact E|]. assert (ES := proj1 P). eapply along_weaken; [|exact P]. intros idx vals r I L ->. rewrite ES in I.
    destruct (G idx vals I L) as (G1 & G2 & G3). rewrite G2. reflexivity.
Qed.
Theorem C118_int_all_partial : forall bits (x : tns Z) keep,
  bits = 8 \/ bits = 16 \/ bits = 32 -> readable x -> holds_ints bits x -> product (x_shape x) <> 0 ->
  (forall vals, contents x = map Some vals -> sum_small bits vals) ->
  exists out, int_reduce HostArm bits RedMean x all_dims keep = ROk out /\ reduces_all (fun vals r => r = Z.quot (total vals) (zlen vals)) x keep out.
Proof.
  intros bits x keep B (O & C & W) HI N S.
  assert (G : forall vals, contents x = map Some vals -> sum_defined bits vals /\ wrap bits (total vals) = total vals /\ Z.abs (wrap bits (total vals)) < 2 ^ 24).
  { intros vals L. apply small_ok; [exact B|apply S; exact L|]. apply Forall_forall. intros v Iv. destruct (content_elems _ _ _ L Iv) as [i Ei]. eapply HI. exact Ei. }
  destruct (reduce_all_correct (arm_int bits RedMean) (fun vals r => r = Z.quot (wrap bits (total vals)) (zlen vals)) x keep) as (out & E & P); auto.
  - intros vals L. destruct (G vals L) as (G1 & G2 & G3). apply mean_run; auto.
    intros ->. rewrite contents_contiguous in L; [|apply O|exact C]. apply (f_equal (@length _)) in L. rewrite map_length, seq_length in L. cbn in L.
    assert (0 <= product (x_shape x)) by (apply product_nonneg; apply O). lia.
  - exists out. split; [exact E|]. eapply all_weaken; [|exact P]. intros vals r L ->. destruct (G vals L) as (G1 & G2 & G3). rewrite G2. reflexivity.
Qed.
(** The mean of two int8 values 100 is -28: the sum is kept in int8. *)
Theorem C118_int8_overflow_refuted : exists out, int_reduce HostArm 8 RedMean (ints [2] [100; 100]) all_dims false = ROk out /\ contents out = [Some (-28)].
Proof.
  assert (R : readable (ints [2] [100; 100])) by readable. destruct R as (O & C & W).
  destruct (reduce_all_correct (arm_int 8 RedMean) (fun vals r => r = Z.quot (wrap 8 (total vals)) (zlen vals)) (ints [2] [100; 100]) false O C W) as (out & E & P).
  - intros vals L. change (contents (ints [2] [100; 100])) with (map Some [100; 100]) in L. assert (vals = [100; 100]) as -> by (destruct vals as [|a [|b [|]]]; cbn in L; congruence).
    apply mean_run; [left; reflexivity| |discriminate|reflexivity]. split; [repeat constructor; cbn; lia|discriminate].
  - exists out. split; [exact E|]. destruct P as (_ & _ & _ & vals & r & L & E2 & ->). rewrite E2.
    change (contents (ints [2] [100; 100])) with (map Some [100; 100]) in L. assert (vals = [100; 100]) as -> by (destruct vals as [|a [|b [|]]]; cbn in L; congruence). reflexivity.
Qed.
(** The mean of the one int32 value 67108863 is 67108864: the division is made in float. *)
Theorem C118_int32_rounding_refuted : exists out, int_reduce HostArm 32 RedMean (ints [1] [67108863]) all_dims false = ROk out /\ contents out = [Some 67108864].
Proof.
  assert (R : readable (ints [1] [67108863])) by readable. destruct R as (O & C & W).
  assert (V : forall vals, contents (ints [1] [67108863]) = map Some vals -> vals = [67108863]).
  { intros vals L. change (contents (ints [1] [67108863])) with (map Some [67108863]) in L. destruct vals as [|a [|]]; cbn in L; congruence. }
  destruct (reduce_all_correct (arm_int 32 RedMean) (fun vals r => r = 67108864) (ints [1] [67108863]) false O C W) as (out & E & P).
  - intros vals L. rewrite (V vals L). intros p stride HL.
    destruct (sum_run 32 (x_buf (ints [1] [67108863])) [67108863]) with (p := p) (stride := stride) as (v & E & Ev); auto; [right; right; reflexivity| |].
    { split; [repeat constructor; cbn; lia|]. intros _ k Hk. destruct k as [|[|k]]; [| |cbn in Hk; lia]; cbn; unfold representable; cbn; lia. }
    assert (v = 67108863) as -> by (rewrite Ev; reflexivity). exists 67108864. split; [|reflexivity].
    cbn [arm_int] in *. unfold int_mean. rewrite E. cbn [rbind]. change (zlen [67108863]) with 1. cbn [Z.eqb]. cbv zeta.
    rewrite to_f32_big, (int32 1) by lia. replace (IZR 67108864 / IZR 1)%R with (IZR 67108864) by (simpl; lra).
    rewrite <- to_f32_big at 1. rewrite to_f32_big. replace (to_f32 (IZR 67108864)) with (IZR 67108864); [rewrite Ztrunc_IZR; reflexivity|].
    symmetry. rewrite <- to_f32_big. apply round_generic; [apply valid_rnd_N|]. apply generic_format_round; [apply FLT_exp_valid; reflexivity|apply valid_rnd_N].
  - exists out. split; [exact E|]. destruct P as (_ & _ & _ & vals & r & L & E2 & ->). exact E2.
Qed.
Lemma C118_hypotheses : readable (ints [2; 2] [100; -100; 7; 1]) /\ holds_ints 8 (ints [2; 2] [100; -100; 7; 1]) /\ sum_small 8 [100; -100].
Proof.
  split; [readable|]. split; [|unfold sum_small, representable; cbn; lia]. intros idx v E. unfold elem in E. cbn [x_buf ints b_at] in E. destruct (0 <=? _); [|discriminate].
  apply nth_error_In in E. cbn in E. unfold representable. cbn. lia.
Qed.
Print Assumptions C117_int_partial.
Print Assumptions C117_int_all_partial.
Print Assumptions C117_real_partial.
Print Assumptions C117_real_all_partial.
Print Assumptions C117_x86_refuted.
Print Assumptions C117_x86_lanes_refuted.
Print Assumptions C117_rank_one_refuted.
Print Assumptions C54_arm_int_partial.
Print Assumptions C54_arm_int32_partial.
Print Assumptions C54_arm_int_all_partial.
Print Assumptions C54_arm_real_partial.
Print Assumptions C54_arm_real_all_partial.
Print Assumptions C118_real_partial.
Print Assumptions C118_real_all_partial.
Print Assumptions C118_int_partial.
Print Assumptions C118_int_all_partial.
Print Assumptions C118_int8_overflow_refuted.
Print Assumptions C118_int32_rounding_refuted.
