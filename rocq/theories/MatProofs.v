(** Proofs about matrix products, part 1: loops, sums, dot products, kernels. *)
From Verif Require Import Base DTypeModel ParamModel ParamSpec ParamProofs TensorModel TensorSpec TensorProofs TensorSplit
  OpsModel OpsSpec OpsProofs OpsSum MatModel MatSpec.
Local Open Scope Z_scope.

(* ---------------- loops ---------------- *)
Lemma loop_S_front {S} n (body : Z -> S -> res S) : forall s,
  loop (Datatypes.S n) body s = (do s1 <- body 0 s; loop n (fun i => body (i + 1)) s1).
Proof.
  induction n as [|n IH]; intro s.
  - cbn. destruct (body 0 s); reflexivity.
  - change (loop (Datatypes.S (Datatypes.S n)) body s) with (do s' <- loop (Datatypes.S n) body s; body (Z.of_nat (Datatypes.S n)) s').
    rewrite IH. destruct (body 0 s) as [s1| | |]; cbn [rbind]; auto. cbn [loop]. 
    destruct (loop n (fun i => body (i + 1)) s1) as [s2| | |]; cbn [rbind]; auto. f_equal. lia.
Qed.
Lemma loop_app {S} a b (body : Z -> S -> res S) s :
  loop (a + b) body s = (do s1 <- loop a body s; loop b (fun i => body (Z.of_nat a + i)) s1).
Proof.
  induction b as [|b IH]; [rewrite Nat.add_0_r; cbn; destruct (loop a body s); reflexivity|].
  rewrite Nat.add_succ_r. cbn [loop]. rewrite IH.
  destruct (loop a body s) as [s1| | |]; cbn [rbind]; auto.
  destruct (loop b _ s1) as [s2| | |]; cbn [rbind]; auto. f_equal. lia.
Qed.
Lemma loop_ext {S} n (f g : Z -> S -> res S) : (forall i s, 0 <= i < Z.of_nat n -> f i s = g i s) -> forall s, loop n f s = loop n g s.
Proof.
  intros H s. induction n as [|n IH]; [reflexivity|]. cbn [loop]. rewrite IH by (intros; apply H; lia).
  destruct (loop n g s); cbn [rbind]; auto. apply H. lia.
Qed.
Lemma zloop_ext {S} n (f g : Z -> S -> res S) : (forall i s, 0 <= i < n -> f i s = g i s) -> forall s, zloop n f s = zloop n g s.
Proof. intros H s. unfold zloop. apply loop_ext. intros. apply H. lia. Qed.
Lemma zloop_app {S} a b (body : Z -> S -> res S) s : 0 <= a -> 0 <= b ->
  zloop (a + b) body s = (do s1 <- zloop a body s; zloop b (fun i => body (a + i)) s1).
Proof.
  intros Ha Hb. unfold zloop. rewrite Z2Nat.inj_add by lia. rewrite loop_app. rewrite Z2Nat.id by lia. reflexivity.
Qed.
Lemma zloop_mul {S} q N (body : Z -> S -> res S) s : 0 <= q -> 0 <= N ->
  zloop (q * N) body s = zloop q (fun v s => zloop N (fun j s => body (v * N + j) s) s) s.
Proof.
  intros Hq HN. rewrite <- (Z2Nat.id q) by lia. induction (Z.to_nat q) as [|m IH]; [reflexivity|].
  replace (Z.of_nat (Datatypes.S m) * N) with (Z.of_nat m * N + N) by lia. rewrite zloop_app by lia. rewrite IH.
  unfold zloop at 4. rewrite Nat2Z.id. cbn [loop]. fold (zloop (Z.of_nat m) (fun v s0 => zloop N (fun j s1 => body (v * N + j) s1) s0) s).
  unfold zloop at 1. rewrite Nat2Z.id. reflexivity.
Qed.
Lemma vec_for_eq {S} N count (body : Z -> S -> res S) s : 0 < N -> 0 <= count -> vec_for N count body s = zloop count body s.
Proof.
  intros HN Hc. unfold vec_for. set (q := count / N). assert (Hq : 0 <= q) by (apply Z.div_pos; lia).
  assert (Hm : q * N <= count) by (unfold q; assert (D := Z.mul_div_le count N HN); lia).
  replace (zloop count body s) with (zloop (q * N + (count - q * N)) body s) by (f_equal; lia).
  rewrite zloop_app, zloop_mul by lia. cbv zeta.
  match goal with |- rbind ?e _ = _ => destruct e as [s1| | |] end; cbn [rbind]; auto.
  destruct (q * N <? count) eqn:Q; [reflexivity|]. rewrite zloop_0 by lia. reflexivity.
Qed.

(* ---------------- buffers ---------------- *)
(** [b'] is [b] with exactly the cells in [P] set to what [G] prescribes. *)
Record changes {A} (G : Z -> option A) (P : Z -> Prop) (b b' : buf A) : Prop := {
  c_len : b_len b' = b_len b;
  c_set : forall d, P d -> b_at b' d = G d;
  c_other : forall d, ~ P d -> b_at b' d = b_at b d;
}.
Lemma changes_refl {A} (G : Z -> option A) (P : Z -> Prop) b : (forall d, ~ P d) -> changes G P b b.
Proof. intro H. constructor; auto. intros d Hd. destruct (H d Hd). Qed.
Lemma changes_store {A} (G : Z -> option A) b d x : 0 <= d < b_len b -> x = G d -> exists b', store b d x = ROk b' /\ changes G (eq d) b b'.
Proof.
  intros Hd Hx. unfold store. replace ((0 <=? d) && (d <? b_len b)) with true by lia.
  eexists. split; [reflexivity|]. constructor; cbn [b_len b_at]; auto.
  - intros e <-. rewrite Z.eqb_refl. exact Hx.
  - intros e He. replace (e =? d) with false by lia. reflexivity.
Qed.
Lemma changes_loop {A} (G : Z -> option A) n (P : Z -> Z -> Prop) body b :
  (forall i j d, 0 <= i < n -> 0 <= j < n -> P i d -> P j d -> i = j) ->
  (forall i b1, 0 <= i < n -> b_len b1 = b_len b -> (forall d, P i d -> b_at b1 d = b_at b d) ->
     exists b2, body i b1 = ROk b2 /\ changes G (P i) b1 b2) ->
  exists b', zloop n body b = ROk b' /\ changes G (fun d => exists i, 0 <= i < n /\ P i d) b b'.
Proof.
  intros Hdis Hb. destruct (Z_le_gt_dec n 0) as [Hn|Hn].
  - rewrite zloop_0 by auto. exists b. split; auto. apply changes_refl. intros d (i & Hi & _). lia.
  - destruct (zloop_inv (fun k b' => changes G (fun d => exists i, 0 <= i < k /\ P i d) b b') n body b) as (b' & E & HC).
    + lia.
    + apply changes_refl. intros d (i & Hi & _). lia.
    + intros i b1 Hi [H1 H2 H3]. destruct (Hb i b1 Hi H1) as (b2 & E2 & [K1 K2 K3]).
      { intros d Hd. apply H3. intros (j & Hj & Hjd). assert (i = j) by (apply (Hdis i j d); auto; lia). lia. }
      exists b2. split; auto. constructor; [congruence| |].
      * intros d (j & Hj & Hjd). destruct (Z.eq_dec j i) as [->|N]; [auto|].
        rewrite K3; [apply H2; exists j; split; auto; lia|]. intro Hid. apply N. apply (Hdis j i d); auto; lia.
      * intros d Hd. rewrite K3; [apply H3|]; intro Hx; apply Hd.
        { destruct Hx as (j & Hj & Hjd). exists j. split; auto; lia. }
        { exists i. split; auto; lia. }
    + exists b'. split; auto.
Qed.
Lemma changes_again {A} (G1 G2 : Z -> option A) P b b1 b2 : changes G1 P b b1 -> changes G2 P b1 b2 -> changes G2 P b b2.
Proof.
  intros [a1 a2 a3] [c1 c2 c3]. constructor; [congruence|auto|]. intros d Hd. rewrite c3, a3 by auto. reflexivity.
Qed.
Lemma changes_iff {A} (G : Z -> option A) (P Q : Z -> Prop) b b' : (forall d, P d <-> Q d) -> changes G P b b' -> changes G Q b b'.
Proof. intros H [a1 a2 a3]. constructor; auto; intros d Hd; [apply a2|apply a3]; rewrite H; auto. Qed.
Lemma changes_ext {A} (G G' : Z -> option A) (P : Z -> Prop) b b' : (forall d, P d -> G d = G' d) -> changes G P b b' -> changes G' P b b'.
Proof. intros H [a1 a2 a3]. constructor; auto. intros d Hd. rewrite <- H by auto. auto. Qed.
Lemma changes_good {A} (G : Z -> option A) (P : Z -> Prop) b b' : (forall d, P d \/ ~ P d) -> changes G P b b' -> good G P b b'.
Proof. intros D [a1 a2 a3]. constructor; auto. intro d. destruct (D d); auto. Qed.

(* ---------------- sums ---------------- *)
Section Sums.
Context {A : Type}.
Variable zero : A.
Variable add : A -> A -> A.
Hypothesis M0 : comm_monoid zero add.

Fixpoint psum (f : Z -> A) (n : nat) : A :=
  match n with O => zero | S m => add (psum f m) (f (Z.of_nat m)) end.
Lemma psum_sum f n : psum f n = sum zero add (map f (map Z.of_nat (seq 0 n))).
Proof using M0.
  induction n as [|n IH]; [reflexivity|]. rewrite seq_S, !map_app. cbn [psum Nat.add]. rewrite IH.
  rewrite (sum_app zero add M0). f_equal. cbn. symmetry. apply add_zero_r; auto.
Qed.
Lemma psum_ext f g n : (forall i, 0 <= i < Z.of_nat n -> f i = g i) -> psum f n = psum g n.
Proof. intro H. induction n as [|n IH]; [reflexivity|]. cbn [psum]. rewrite IH by (intros; apply H; lia). f_equal. apply H. lia. Qed.
Lemma psum_add f a b : 0 <= a -> 0 <= b ->
  psum f (Z.to_nat (a + b)) = add (psum f (Z.to_nat a)) (psum (fun i => f (a + i)) (Z.to_nat b)).
Proof using M0.
  intros Ha Hb. rewrite Z2Nat.inj_add by lia. induction (Z.to_nat b) as [|m IH].
  - rewrite Nat.add_0_r. cbn [psum]. symmetry. apply add_zero_r; auto.
  - rewrite Nat.add_succ_r. cbn [psum]. rewrite IH. rewrite <- (cm_assoc _ _ M0). do 2 f_equal. f_equal. lia.
Qed.
Lemma psum_succ f a : 0 <= a -> psum f (Z.to_nat (a + 1)) = add (psum f (Z.to_nat a)) (f a).
Proof using. intro Ha. replace (Z.to_nat (a + 1)) with (S (Z.to_nat a)) by lia. cbn [psum]. rewrite Z2Nat.id by lia. reflexivity. Qed.
Lemma psum_range f n : psum f (Z.to_nat n) = sum zero add (map f (range n)).
Proof using M0. apply psum_sum. Qed.

End Sums.

Lemma load_vec_map {A} (x : buf A) p W (f : Z -> A) : (forall j, 0 <= j < W -> loadv x (p + j) = ROk (f j)) ->
  load_vec x p W = ROk (map f (range W)).
Proof.
  intro H. unfold load_vec, range, zloop. destruct (Z_le_gt_dec W 0) as [HW|HW]; [replace (Z.to_nat W) with 0%nat by lia; reflexivity|].
  assert (G : forall n, Z.of_nat n <= W -> loop n (fun j acc => do v <- load x (p + j); do v0 <- need v; ROk (acc ++ [v0])) [] = ROk (map f (map Z.of_nat (seq 0 n)))).
  { induction n as [|n IH]; intro Hn; [reflexivity|]. cbn [loop]. rewrite IH by lia. cbn [rbind].
    assert (E := H (Z.of_nat n) ltac:(lia)). unfold loadv in E. destruct (load x (p + Z.of_nat n)) as [v| | |]; cbn [rbind] in *; try discriminate.
    rewrite E. cbn [rbind]. rewrite seq_S, !map_app. reflexivity. }
  apply G. lia.
Qed.
Lemma vadd_map {A} (op : A -> A -> A) (f g : Z -> A) l : vadd op (map f l) (map g l) = map (fun i => op (f i) (g i)) l.
Proof. unfold vadd. induction l as [|i l IH]; [reflexivity|]. cbn [map combine fst snd]. f_equal. exact IH. Qed.
Lemma range_length n : length (range n) = Z.to_nat n.
Proof. unfold range. rewrite map_length, seq_length. reflexivity. Qed.

Section Kernels.
Context {A : Type}.
Variable zero : A.
Variable add : A -> A -> A.
Variable mul : A -> A -> A.
Hypothesis M0 : comm_monoid zero add.
Notation psum := (psum zero add).
Lemma dot_kernel_spec W (x : buf A) xo (y : buf A) yo K (f g : Z -> A) :
  0 < W -> 0 <= K ->
  (forall k, 0 <= k < K -> loadv x (xo + k) = ROk (f k)) -> (forall k, 0 <= k < K -> loadv y (yo + k) = ROk (g k)) ->
  dot_kernel zero add mul W x xo y yo K = ROk (psum (fun k => mul (f k) (g k)) (Z.to_nat K)).
Proof using M0.
  intros HW HK HX HY. unfold dot_kernel. set (tiles := K / W). set (F := fun k => mul (f k) (g k)).
  assert (Ht : 0 <= tiles) by (apply Z.div_pos; lia).
  assert (Ht2 : tiles * W <= K) by (unfold tiles; assert (D := Z.mul_div_le K W HW); lia).
  destruct (zloop_inv (fun t acc => length acc = Z.to_nat W /\ sum zero add acc = psum F (Z.to_nat (t * W))) tiles
    (fun t acc => do a <- load_vec x (xo + t * W) W; do b <- load_vec y (yo + t * W) W; ROk (vadd add acc (vadd mul a b)))
    (repeat zero (Z.to_nat W)) Ht) as (acc & E & L & HS).
  - split; [apply repeat_length|]. rewrite (sum_zeros zero add M0). reflexivity.
  - intros t acc Hti [L HS]. assert (Hb : t * W + W <= K) by nia.
    rewrite (load_vec_map x (xo + t * W) W (fun j => f (t * W + j))).
    2:{ intros j Hj. rewrite <- Z.add_assoc. apply HX. nia. }
    rewrite (load_vec_map y (yo + t * W) W (fun j => g (t * W + j))).
    2:{ intros j Hj. rewrite <- Z.add_assoc. apply HY. nia. }
    cbn [rbind]. rewrite vadd_map. eexists. split; [reflexivity|].
    destruct (sum_vadd zero add M0 acc (map (fun i => mul (f (t * W + i)) (g (t * W + i))) (range W))) as [S1 S2].
    { rewrite map_length, range_length. exact L. }
    split; [rewrite S2; exact L|]. rewrite S1, HS. replace ((t + 1) * W) with (t * W + W) by ring.
    rewrite (psum_add zero add M0) by nia. f_equal. rewrite <- (psum_range zero add M0). reflexivity.
  - cbv zeta. rewrite E. cbn [rbind]. rewrite (fold_left_sum zero add M0), (cm_zero _ _ M0), HS.
    destruct (zloop_inv (fun r s => s = psum F (Z.to_nat (tiles * W + r))) (K - tiles * W)
      (fun r s => do a <- loadv x (xo + (tiles * W + r)); do b <- loadv y (yo + (tiles * W + r)); ROk (add s (mul a b)))
      (psum F (Z.to_nat (tiles * W)))) as (s & E2 & H2).
    + lia.
    + rewrite Z.add_0_r. reflexivity.
    + intros r s Hr ->. rewrite HX, HY by nia. cbn [rbind]. eexists. split; [reflexivity|].
      rewrite Z.add_assoc, psum_succ by nia. reflexivity.
    + rewrite E2, H2. do 2 f_equal. lia.
Qed.
End Kernels.
