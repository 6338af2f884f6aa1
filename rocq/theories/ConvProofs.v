(** Proofs about convolutions, part 1: accumulation loops, schedules, Conv1D. *)
From Verif Require Import Base DTypeModel ParamModel ParamSpec ParamProofs TensorModel TensorSpec TensorProofs TensorSplit
  OpsModel OpsSpec OpsProofs OpsIndex OpsSum MatModel MatSpec MatProofs MatKernel MatOps ConvModel ConvSpec.
Local Open Scope Z_scope.

Lemma range_S n : 0 <= n -> range (n + 1) = range n ++ [n].
Proof. intro H. unfold range. replace (Z.to_nat (n + 1)) with (S (Z.to_nat n)) by lia. rewrite seq_S, map_app. cbn. rewrite Z2Nat.id by lia. reflexivity. Qed.
Lemma range_0 n : n <= 0 -> range n = [].
Proof. intro H. unfold range. replace (Z.to_nat n) with 0%nat by lia. reflexivity. Qed.
Lemma in_range n i : In i (range n) <-> 0 <= i < n.
Proof.
  unfold range. rewrite in_map_iff. split.
  - intros (k & <- & H). apply in_seq in H. lia.
  - intro H. exists (Z.to_nat i). split; [lia|]. apply in_seq. lia.
Qed.
Lemma NoDup_range n : NoDup (range n).
Proof. unfold range. apply FinFun.Injective_map_NoDup; [intros a b; lia|apply seq_NoDup]. Qed.

(** A loop whose iterations append what they accumulate. *)
Lemma zloop_acc {A S} (f : S -> A -> S) n (body : Z -> S -> res S) (g : Z -> list A) s :
  (forall i s, 0 <= i < n -> body i s = ROk (fold_left f (g i) s)) ->
  zloop n body s = ROk (fold_left f (each_of n g) s).
Proof.
  intro H. unfold each_of. destruct (Z_le_gt_dec n 0) as [Hn|Hn]; [rewrite range_0, zloop_0 by lia; reflexivity|].
  destruct (zloop_inv (fun k s' => s' = fold_left f (flat_map g (range k)) s) n body s) as (s' & E & Hs).
  - lia.
  - rewrite range_0 by lia. reflexivity.
  - intros i s1 Hi ->. rewrite H by lia. eexists. split; [reflexivity|].
    rewrite range_S by lia. rewrite flat_map_app, fold_left_app. cbn [flat_map]. rewrite app_nil_r. reflexivity.
  - rewrite E, Hs. reflexivity.
Qed.

(** A contiguous tensor read by row-major position. *)
Lemma holds_at {A} (t : tns A) shape F idx : holds t shape F -> in_shape shape idx ->
  loadv (x_buf t) (x_offset t + ravel shape idx) = ROk (F idx).
Proof.
  intros [h1 h2 h3 h4] Hi. assert (Ad := contiguous_address t idx h3). rewrite h1 in Ad. specialize (Ad (in_shape_length _ _ Hi)).
  rewrite <- Ad. apply loadv_at; [apply (ok_inside _ h2); rewrite h1; auto|]. exact (h4 _ Hi).
Qed.
Lemma holds_pos {A} (t : tns A) shape F : holds t shape F -> Forall (fun d => 0 <= d) shape.
Proof. intros [h1 h2 _ _]. rewrite <- h1. apply ok_dims; auto. Qed.
Lemma in_shape3 a b c x y z : 0 <= x < a -> 0 <= y < b -> 0 <= z < c -> in_shape [a; b; c] [x; y; z].
Proof. intros. repeat constructor; lia. Qed.

(** Iterations, each setting its own cell to a value, in any order. *)
Lemma each_cells {A} (G : Z -> option A) n (body : Z -> buf A -> res (buf A)) order : Permutation order (range n) ->
  forall b : buf A, (forall i b1, 0 <= i < n -> b_len b1 = b_len b -> b_at b1 i = b_at b i -> exists b2, body i b1 = ROk b2 /\ b_len b2 = b_len b1 /\ b_at b2 i = G i /\ forall d, d <> i -> b_at b2 d = b_at b1 d) ->
  exists b', each order body b = ROk b' /\ b_len b' = b_len b /\ forall d, 0 <= d < n -> b_at b' d = G d.
Proof.
  intros HP b H. assert (ND : NoDup order) by (eapply Permutation_NoDup; [apply Permutation_sym; exact HP|apply NoDup_range]).
  assert (HI : forall i, In i order <-> 0 <= i < n) by (intro i; rewrite <- in_range; split; apply Permutation_in; [|apply Permutation_sym]; exact HP).
  assert (G1 : forall l, NoDup l -> (forall i, In i l -> 0 <= i < n) -> forall b1, b_len b1 = b_len b -> (forall i, In i l -> b_at b1 i = b_at b i) ->
    exists b', each l body b1 = ROk b' /\ b_len b' = b_len b /\ (forall d, In d l -> b_at b' d = G d) /\ forall d, ~ In d l -> b_at b' d = b_at b1 d).
  { induction l as [|i l IH]; intros Hnd Hin b1 L1 K1.
    - exists b1. repeat split; auto. intros d [].
    - inversion Hnd; subst. destruct (H i b1) as (b2 & E2 & L2 & S2 & O2); [apply Hin; left; auto|exact L1|apply K1; left; auto|].
      destruct (IH ltac:(assumption) ltac:(intros; apply Hin; right; auto) b2) as (b' & E' & L' & S' & O').
      { congruence. }
      { intros j Hj. rewrite O2 by (intros ->; contradiction). apply K1. right; auto. }
      exists b'. cbn [each]. rewrite E2. cbn [rbind]. split; [exact E'|]. split; [exact L'|]. split.
      + intros d [->|Hd]; [rewrite O' by assumption; exact S2|auto].
      + intros d Hd. rewrite O' by (intro; apply Hd; right; auto). apply O2. intros ->. apply Hd. left; auto. }
  destruct (G1 order ND (fun i => proj1 (HI i)) b eq_refl (fun _ _ => eq_refl)) as (b' & E & L & S & _).
  exists b'. repeat split; auto. intros d Hd. apply S. apply HI. exact Hd.
Qed.

Lemma fill_zero_ok {A} (zero : A) n (b : buf A) : 0 <= n <= b_len b ->
  exists b', fill_zero zero n b = ROk b' /\ b_len b' = b_len b /\ forall d, 0 <= d < n -> b_at b' d = Some zero.
Proof.
  intro Hn. unfold fill_zero.
  destruct (good_loop (fun _ => Some zero) n (fun i d => d = i) (fun i o => store o i (Some zero)) b (b_len b)) as (b' & E & G).
  - reflexivity.
  - intros i b1 Hi L1. destruct (good_store (fun _ => Some zero) b1 i (Some zero)) as (b2 & E2 & G2); [lia|reflexivity|].
    exists b2. split; auto. eapply good_weaken; [|exact G2]. cbn beta. intros; lia.
  - exists b'. split; auto. split; [apply (g_len _ _ _ _ G)|]. intros d Hd. apply (g_set _ _ _ _ G). exists d. auto.
Qed.

(** Splitting an index of three coordinates as the code does. *)
Lemma split3 B C O idx : 0 <= idx < B * C * O -> 0 < C -> 0 < O ->
  let b := idx / (C * O) in let c := idx mod (C * O) / O in let o := idx mod O in
  0 <= b < B /\ 0 <= c < C /\ 0 <= o < O /\ b * (C * O) + c * O + o = idx.
Proof.
  intros H HC HO. cbv zeta. assert (0 < C * O) by nia.
  assert (D1 := Z.div_mod idx (C * O) ltac:(lia)). assert (B1 := Z.mod_pos_bound idx (C * O) ltac:(lia)).
  set (r := idx mod (C * O)) in *. set (b := idx / (C * O)) in *.
  assert (D2 := Z.div_mod r O ltac:(lia)). assert (B2 := Z.mod_pos_bound r O ltac:(lia)).
  assert (E : idx mod O = r mod O).
  { rewrite D1. replace (C * O * b + r) with (r + b * C * O) by ring. apply Z.mod_add. lia. }
  rewrite E. set (c := r / O) in *. set (o := r mod O) in *.
  assert (0 <= b) by (unfold b; apply Z.div_pos; lia). assert (0 <= c) by (unfold c; apply Z.div_pos; lia).
  clearbody r b c o. split; [split; [lia|]|split; [split; [lia|]|split; [lia|]]].
  - assert (b * (C * O) < B * (C * O)) by lia. nia.
  - assert (c * O < C * O) by lia. nia.
  - nia.
Qed.
