(** Proofs about attention. *)
From Coq Require Import Reals Lra.
From Verif Require Import Base DTypeModel ParamModel ParamSpec ParamProofs TensorModel TensorSpec TensorProofs TensorSplit
  OpsModel OpsSpec OpsProofs OpsIndex OpsSum MatModel MatSpec MatProofs MatKernel MatOps AttnModel AttnSpec.
Local Open Scope Z_scope.

Lemma R_monoid : comm_monoid 0%R Rplus.
Proof. constructor; intros; lra. Qed.

(* ---------------- exponentials ---------------- *)
Lemma exp2_plus x y : exp2 (x + y) = (exp2 x * exp2 y)%R.
Proof. unfold exp2. apply Rpower_plus. Qed.
Lemma exp2_pos x : (0 < exp2 x)%R.
Proof. unfold exp2, Rpower. apply exp_pos. Qed.
Lemma exp2_scale a D : 1 <= D -> exp2 (a * soft_scale D) = exp (a / sqrt (IZR D)).
Proof.
  intro H. assert (HD : (0 < IZR D)%R) by (apply IZR_lt; lia). unfold exp2, Rpower, soft_scale, log2e. f_equal.
  assert (L : ln 2 <> 0%R) by (assert (X := ln_lt_2); lra).
  replace (sqrt (1 / IZR D)) with (/ sqrt (IZR D))%R; [unfold Rdiv; field; split; auto; assert (Q := sqrt_lt_R0 _ HD); lra|].
  rewrite sqrt_div; [rewrite sqrt_1; unfold Rdiv; ring|lra|auto].
Qed.
Lemma exp2_sink x D : 1 <= D -> exp2 (x / sqrt (1 / IZR D) * soft_scale D) = exp x.
Proof.
  intro H. assert (HD : (0 < IZR D)%R) by (apply IZR_lt; lia). unfold exp2, Rpower, soft_scale, log2e. f_equal.
  assert (L : ln 2 <> 0%R) by (assert (X := ln_lt_2); lra).
  assert (Q : (0 < sqrt (1 / IZR D))%R) by (apply sqrt_lt_R0; apply Rdiv_lt_0_compat; lra).
  field. split; lra.
Qed.

(* ---------------- sums ---------------- *)
Lemma total_app js ks f : total_over (js ++ ks) f = (total_over js f + total_over ks f)%R.
Proof. unfold total_over. rewrite map_app. apply (sum_app 0%R Rplus R_monoid). Qed.
Lemma total_ext js f g : (forall j, In j js -> f j = g j) -> total_over js f = total_over js g.
Proof. intro H. unfold total_over. f_equal. apply map_ext_in. exact H. Qed.
Lemma total_range f n : psum 0%R Rplus f (Z.to_nat n) = total_over (range n) f.
Proof. rewrite (psum_range 0%R Rplus R_monoid). reflexivity. Qed.
Lemma range_succ n : 0 <= n -> range (n + 1) = range n ++ [n].
Proof. intro H. unfold range. replace (Z.to_nat (n + 1)) with (S (Z.to_nat n)) by lia. rewrite seq_S, map_app. cbn. rewrite Z2Nat.id by lia. reflexivity. Qed.
Lemma between_succ a n : 0 <= n -> between a (a + (n + 1)) = between a (a + n) ++ [a + n].
Proof. intro H. unfold between. replace (a + (n + 1) - a) with (n + 1) by ring. replace (a + n - a) with n by ring. rewrite range_succ, map_app by auto. reflexivity. Qed.
Lemma between_nil a b : b <= a -> between a b = [].
Proof. intro H. unfold between, range. replace (Z.to_nat (b - a)) with 0%nat by lia. reflexivity. Qed.
Lemma total_snoc a f j : 0 <= j -> total_over (between a (a + (j + 1))) f = (total_over (between a (a + j)) f + f (a + j)%Z)%R.
Proof. intro H. rewrite between_succ, total_app by auto. f_equal. unfold total_over. cbn. ring. Qed.
Lemma in_range n i : In i (range n) <-> 0 <= i < n.
Proof.
  unfold range. rewrite in_map_iff. split.
  - intros (k & <- & Hk). apply in_seq in Hk. lia.
  - intro H. exists (Z.to_nat i). split; [lia|]. apply in_seq. lia.
Qed.
Lemma in_between a b j : In j (between a b) <-> a <= j < b.
Proof.
  unfold between. rewrite in_map_iff. split.
  - intros (i & <- & Hi). apply in_range in Hi. lia.
  - intro H. exists (j - a). split; [lia|]. apply in_range. lia.
Qed.
Lemma total_pos js f : (forall j, In j js -> (0 < f j)%R) -> (0 <= total_over js f)%R /\ (js <> [] -> (0 < total_over js f)%R).
Proof.
  induction js as [|j js IH]; intro H; cbn; [split; [lra|contradiction]|].
  destruct IH as [I1 _]; [intros; apply H; right; auto|]. assert (P := H j (or_introl eq_refl)). unfold total_over in *. split; [lra|intros _; lra].
Qed.
Lemma weight_pos D q k : (0 < weight D q k)%R.
Proof. apply exp_pos. Qed.

Lemma attend_ext D q q' k k' v v' e js : (forall d, 0 <= d < D -> q d = q' d) -> (forall j d, In j js -> k j d = k' j d) ->
  (forall j, In j js -> v j = v' j) -> attend D q k v e js = attend D q' k' v' e js.
Proof.
  intros HQ HK HV. unfold attend.
  assert (W : forall j, In j js -> weight D q (k j) = weight D q' (k' j)).
  { intros j Hj. unfold weight, inner. do 2 f_equal. apply total_ext. intros d Hd. apply in_range in Hd. rewrite HQ, HK by auto. reflexivity. }
  rewrite (total_ext js (fun j => weight D q (k j)) (fun j => weight D q' (k' j)) W).
  f_equal. apply total_ext. intros j Hj. rewrite W, HV by auto. reflexivity.
Qed.

(* ---------------- online softmax ---------------- *)
Section Soft.
Variable c : R.
(** X is S relative to the running maximum. *)
Definition norm (st : soft) (X S : R) : Prop :=
  match s_max st with None => X = 0%R /\ S = 0%R | Some m => (X * exp2 (m * c) = S)%R end.
Lemma norm_step st a st' sc p : soft_step c st a = (st', sc, p) ->
  s_max st' <> None /\ s_sum st' = (s_sum st * sc + p)%R /\
  forall X S y, norm st X S -> norm st' (X * sc + p * y)%R (S + exp2 (a * c) * y)%R.
Proof.
  unfold soft_step. intro E. inversion E; subst; clear E. cbn [s_max s_sum]. split; [discriminate|]. split; [reflexivity|].
  intros X S y. unfold norm. cbn [s_max]. destruct (s_max st) as [m|].
  - intro H. subst S. set (m' := Rmax m a). unfold Rminus. rewrite !exp2_plus.
    assert (I : (exp2 (- (m' * c)) * exp2 (m' * c) = 1)%R).
    { rewrite <- exp2_plus. replace (- (m' * c) + m' * c)%R with 0%R by ring. unfold exp2. apply Rpower_O. lra. }
    replace ((X * (exp2 (m * c) * exp2 (- (m' * c))) + exp2 (a * c) * exp2 (- (m' * c)) * y) * exp2 (m' * c))%R
      with ((X * exp2 (m * c) + exp2 (a * c) * y) * (exp2 (- (m' * c)) * exp2 (m' * c)))%R by ring.
    rewrite I. ring.
  - intros [-> ->]. unfold Rminus. rewrite exp2_plus.
    assert (I : (exp2 (- (a * c)) * exp2 (a * c) = 1)%R).
    { rewrite <- exp2_plus. replace (- (a * c) + a * c)%R with 0%R by ring. unfold exp2. apply Rpower_O. lra. }
    replace ((0 * 0 + exp2 (a * c) * exp2 (- (a * c)) * y) * exp2 (a * c))%R with (exp2 (a * c) * y * (exp2 (- (a * c)) * exp2 (a * c)))%R by ring.
    rewrite I. ring.
Qed.
Lemma norm_quotient st X S T : s_max st <> None -> norm st X S -> norm st (s_sum st) T -> (0 < T)%R ->
  exists i, inverse (s_sum st) = Some i /\ (X * i = S / T)%R.
Proof.
  unfold norm. destruct (s_max st) as [m|]; [|contradiction]. intros _ HX HT HP. assert (P := exp2_pos (m * c)).
  assert (N : s_sum st <> 0%R) by (intro Z; rewrite Z in HT; lra).
  unfold inverse. destruct (Req_EM_T (s_sum st) 0) as [Z|_]; [contradiction|]. eexists. split; [reflexivity|].
  rewrite <- HX, <- HT. field. split; lra.
Qed.
End Soft.

(* ---------------- primitives ---------------- *)
Record kernels_ok (K : kernels) : Prop := {
  ko_dot : forall x xo y yo n f g, 0 <= n ->
    (forall i, 0 <= i < n -> loadv x (xo + i) = ROk (f i)) -> (forall i, 0 <= i < n -> loadv y (yo + i) = ROk (g i)) ->
    k_dot K x xo y yo n = ROk (inner n f g);
  ko_scale : forall c row n o, 0 <= n -> k_scale K c row n o = zloop n (scale1 c row) o;
  ko_fma : forall p v vo row n o, 0 <= n -> k_fma K p v vo row n o = zloop n (fma1 p v vo row) o;
  ko_fill : forall x row n o, 0 <= n -> k_fill K x row n o = zloop n (fill1 x row) o;
}.
Lemma any_ok : kernels_ok any_kernels.
Proof.
  constructor; try reflexivity. intros x xo y yo n f g Hn HX HY. cbn [k_dot any_kernels].
  destruct (zloop_inv (fun i s => s = total_over (range i) (fun d => (f d * g d)%R)) n
    (fun i s => do a <- loadv x (xo + i); do b <- loadv y (yo + i); ROk (s + a * b)%R) 0%R Hn eq_refl) as (s & E & Hs).
  - intros i s Hi ->. rewrite HX, HY by auto. cbn [rbind]. eexists. split; [reflexivity|].
    rewrite range_succ, total_app by lia. f_equal. unfold total_over. cbn. ring.
  - rewrite E, Hs. reflexivity.
Qed.
Lemma dot_kernel_inner W x xo y yo n f g : 0 < W -> 0 <= n ->
  (forall i, 0 <= i < n -> loadv x (xo + i) = ROk (f i)) -> (forall i, 0 <= i < n -> loadv y (yo + i) = ROk (g i)) ->
  dot_kernel 0%R Rplus Rmult W x xo y yo n = ROk (inner n f g).
Proof. intros HW Hn HX HY. rewrite (dot_kernel_spec 0%R Rplus Rmult R_monoid W x xo y yo n f g) by auto. rewrite total_range. reflexivity. Qed.
Lemma simd_ok L : 0 < L -> kernels_ok (simd_kernels L).
Proof. intro HL. constructor; cbn [k_dot k_scale k_fma k_fill simd_kernels]; intros; try (apply vec_for_eq; auto; fail). apply dot_kernel_inner; auto. Qed.
Lemma arm_for_eq {S} n (body : Z -> S -> res S) s : 0 <= n -> arm_for n body s = zloop n body s.
Proof.
  intro Hn. unfold arm_for. set (q := n / 16). assert (D := Z.div_mod n 16 ltac:(lia)). assert (B := Z.mod_pos_bound n 16 ltac:(lia)). fold q in D. clearbody q.
  rewrite <- zloop_mul by lia. replace (zloop n body s) with (zloop (q * 16 + (n - q * 16)) body s) by (f_equal; lia). rewrite zloop_app by lia.
  destruct (zloop (q * 16) body s); cbn [rbind]; auto. apply vec_for_eq; lia.
Qed.
Lemma arm_ok : kernels_ok arm_kernels.
Proof. constructor; cbn [k_dot k_scale k_fma k_fill arm_kernels]; intros; try (apply arm_for_eq; auto; fail). apply dot_kernel_inner; auto; lia. Qed.

Lemma fill_row x row n (o : buf R) : (0 < n -> 0 <= row /\ row + n <= b_len o) ->
  exists o', zloop n (fill1 x row) o = ROk o' /\ changes (fun _ => Some x) (segment row n) o o'.
Proof.
  intro H. apply row_loop. intros j b1 Hj L _. unfold fill1. apply changes_store; auto. rewrite L. lia.
Qed.
Lemma scale_row_gen c row n (o : buf R) f : (0 < n -> 0 <= row /\ row + n <= b_len o) ->
  (forall i, 0 <= i < n -> b_at o (row + i) = Some (f i)) ->
  exists o', zloop n (scale1 c row) o = ROk o' /\
    changes (fun d => match c with Some c => Some (f (d - row)%Z * c)%R | None => None end) (segment row n) o o'.
Proof.
  intros H HF. apply row_loop. intros j b1 Hj L E. unfold scale1. rewrite (loadv_at b1 (row + j) (f j)); [|rewrite L; lia|rewrite E; auto].
  cbn [rbind]. apply changes_store; [rewrite L; lia|]. replace (row + j - row) with j by ring. reflexivity.
Qed.
Lemma fma_row p v vo row n (o : buf R) f g : (0 < n -> 0 <= row /\ row + n <= b_len o) ->
  (forall i, 0 <= i < n -> b_at o (row + i) = Some (f i)) -> (forall i, 0 <= i < n -> loadv v (vo + i) = ROk (g i)) ->
  exists o', zloop n (fma1 p v vo row) o = ROk o' /\ changes (fun d => Some (f (d - row)%Z + p * g (d - row)%Z)%R) (segment row n) o o'.
Proof.
  intros H HF HG. apply row_loop. intros j b1 Hj L E. unfold fma1. rewrite (loadv_at b1 (row + j) (f j)); [|rewrite L; lia|rewrite E; auto].
  rewrite HG by auto. cbn [rbind]. apply changes_store; [rewrite L; lia|]. replace (row + j - row) with j by ring. reflexivity.
Qed.

Lemma cell_of (G : Z -> option R) row n o o' i : changes G (segment row n) o o' -> 0 <= i < n -> b_at o' (row + i) = G (row + i).
Proof. intros C Hi. apply (c_set _ _ _ _ C). unfold segment. lia. Qed.

(* ---------------- one query row ---------------- *)
Section Row.
Variable K : kernels.
Hypothesis KO : kernels_ok K.
Variables H_Q S_Q D_QK D_V : Z.
Variables key value : Z -> Z -> Z -> res (buf R * Z).
Variables first last : Z -> Z.
Variable sink : option (Z -> res R).
Variables (q : buf R) (qo oo : Z).
Variables b h hk s : Z.
Variable Q : Z -> R.
Variables KK VV : Z -> Z -> R.
Variable extra : R.
Hypothesis HD : 1 <= D_QK.
Hypothesis HDV : 0 <= D_V.
Hypothesis HQ : forall d, 0 <= d < D_QK -> loadv q (qo + (b * H_Q * S_Q * D_QK + s * H_Q * D_QK + h * D_QK) + d) = ROk (Q d).
Hypothesis HK : forall j, first s <= j < last s -> exists p, key b hk j = ROk p /\ forall d, 0 <= d < D_QK -> loadv (fst p) (snd p + d) = ROk (KK j d).
Hypothesis HV : forall j, first s <= j < last s -> exists p, value b hk j = ROk p /\ forall d, 0 <= d < D_V -> loadv (fst p) (snd p + d) = ROk (VV j d).
Hypothesis HS : match sink with None => extra = 0%R | Some f => exists x, f h = ROk x /\ extra = exp x end.
Let row := oo + (b * H_Q * S_Q * D_V + s * H_Q * D_V + h * D_V).
Let c := soft_scale D_QK.
Let w j := weight D_QK Q (KK j).

(** State after the visible tokens before first + j: [o0] with the row set. *)
Definition row_inv (o0 : buf R) (j : Z) (x : soft * buf R) : Prop :=
  exists X : Z -> R,
  changes (fun d => Some (X (d - row))) (segment row D_V) o0 (snd x) /\
  (forall d, norm c (fst x) (X d) (total_over (between (first s) (first s + j)) (fun i => (w i * VV i d)%R))) /\
  norm c (fst x) (s_sum (fst x)) (total_over (between (first s) (first s + j)) w) /\
  (0 < j -> s_max (fst x) <> None).

Lemma key_step_ok o0 j x : 0 <= j < last s - first s -> (0 < D_V -> 0 <= row /\ row + D_V <= b_len o0) -> row_inv o0 j x ->
  exists x', key_step K H_Q S_Q D_QK D_V key value first q qo b h hk s row j x = ROk x' /\ row_inv o0 (j + 1) x'.
Proof using KO HQ HK HV HD HDV.
  intros Hj HR (X & I1 & I2 & I3 & I4). destruct (HK (first s + j) ltac:(lia)) as (kp & EK & LK). destruct (HV (first s + j) ltac:(lia)) as (vp & EV & LV).
  unfold key_step. rewrite EK, EV. cbn [rbind]. rewrite (ko_dot _ KO _ _ _ _ _ Q (KK (first s + j))) by (auto; lia). cbn [rbind].
  fold c. set (a := inner D_QK Q (KK (first s + j))). destruct (soft_step c (fst x) a) as [[st1 sc] p] eqn:ES.
  destruct (norm_step c _ _ _ _ _ ES) as (N1 & N2 & N3).
  assert (L : b_len (snd x) = b_len o0) by apply (c_len _ _ _ _ I1).
  rewrite (ko_scale _ KO) by auto.
  destruct (scale_row_gen (Some sc) row D_V (snd x) X) as (o1 & E1 & C1); [rewrite L; exact HR|intros i Hi; rewrite (cell_of _ _ _ _ _ _ I1 Hi); do 2 f_equal; lia|].
  rewrite E1. cbn [rbind]. rewrite (ko_fma _ KO) by auto.
  destruct (fma_row p (fst vp) (snd vp) row D_V o1 (fun d => (X d * sc)%R) (VV (first s + j))) as (o2 & E2 & C2).
  { rewrite (c_len _ _ _ _ C1), L. exact HR. }
  { intros i Hi. rewrite (cell_of _ _ _ _ _ _ C1 Hi). do 3 f_equal. lia. }
  { auto. }
  rewrite E2. cbn [rbind]. eexists. split; [reflexivity|].
  assert (W : exp2 (a * c) = w (first s + j)) by (unfold w, weight, c; apply exp2_scale; auto).
  exists (fun d => (X d * sc + p * VV (first s + j) d)%R). cbn [fst snd]. split; [|split; [|split]].
  - eapply changes_again; [exact I1|]. eapply changes_again; [exact C1|]. exact C2.
  - intro d. rewrite total_snoc by lia. rewrite <- W. apply N3. apply I2.
  - rewrite total_snoc by lia. rewrite N2. rewrite <- W. replace (s_sum (fst x) * sc + p)%R with (s_sum (fst x) * sc + p * 1)%R by ring.
    replace (exp2 (a * c)) with (exp2 (a * c) * 1)%R by ring. apply N3. exact I3.
  - auto.
Qed.

Lemma keys_ok o0 o1 : first s <= last s -> (0 < D_V -> 0 <= row /\ row + D_V <= b_len o0) -> changes (fun _ => Some 0%R) (segment row D_V) o0 o1 ->
  exists x, zloop (last s - first s) (key_step K H_Q S_Q D_QK D_V key value first q qo b h hk s row) (soft0, o1) = ROk x /\ row_inv o0 (last s - first s) x.
Proof using KO HQ HK HV HD HDV.
  intros HFL HR C0. apply (zloop_inv (row_inv o0)); [lia| |].
  - exists (fun _ => 0%R). cbn [fst snd soft0]. split; [exact C0|]. rewrite Z.add_0_r, between_nil by lia. cbn. repeat split; auto; lia.
  - intros i x Hi HI. apply key_step_ok; auto.
Qed.

Lemma query_row_ok o0 : first s <= last s -> (first s < last s \/ sink <> None) -> (0 < D_V -> 0 <= row /\ row + D_V <= b_len o0) ->
  exists o, query_row K H_Q S_Q D_QK D_V key value first last sink q qo oo b h hk s o0 = ROk o /\
    changes (fun d => Some (attend D_QK Q KK (fun j => VV j (d - row)) extra (between (first s) (last s)))) (segment row D_V) o0 o.
Proof using KO HQ HK HV HD HDV HS.
  intros HFL HNE HR. unfold query_row. cbv zeta. fold row. rewrite (ko_fill _ KO) by auto.
  destruct (fill_row 0%R row D_V o0 HR) as (o1 & E1 & C1). rewrite E1. cbn [rbind].
  destruct (keys_ok o0 o1 HFL HR C1) as (x & E2 & X & I1 & I2 & I3 & I4). rewrite E2. cbn [rbind].
  replace (first s + (last s - first s)) with (last s) in * by ring.
  assert (L : b_len (snd x) = b_len o0) by apply (c_len _ _ _ _ I1).
  assert (F : exists st o2 X2, sink_step K D_QK D_V sink h row x = ROk (st, o2) /\ s_max st <> None /\
     changes (fun d => Some (X2 (d - row))) (segment row D_V) o0 o2 /\
     (forall d, norm c st (X2 d) (total_over (between (first s) (last s)) (fun i => (w i * VV i d)%R))) /\
     norm c st (s_sum st) (extra + total_over (between (first s) (last s)) w)%R).
  { unfold sink_step. destruct sink as [f|].
    - destruct HS as (v & EV & EX). rewrite EV. cbn [rbind]. fold c.
      destruct (soft_step c (fst x) (v / sqrt (1 / IZR D_QK))%R) as [[st1 sc] p] eqn:ES. destruct (norm_step c _ _ _ _ _ ES) as (N1 & N2 & N3).
      rewrite (ko_scale _ KO) by auto.
      destruct (scale_row_gen (Some sc) row D_V (snd x) X) as (o2 & E3 & C2); [rewrite L; exact HR|intros i Hi; rewrite (cell_of _ _ _ _ _ _ I1 Hi); do 2 f_equal; lia|].
      rewrite E3. cbn [rbind]. exists st1, o2, (fun d => (X d * sc)%R). split; [reflexivity|]. split; [exact N1|]. split; [|split].
      + eapply changes_again; [exact I1|exact C2].
      + intro d. specialize (N3 _ _ 0%R (I2 d)). replace (X d * sc)%R with (X d * sc + p * 0)%R by ring.
        match type of N3 with norm _ _ _ ?t => match goal with |- norm _ _ _ ?u => replace u with t by ring end end. exact N3.
      + specialize (N3 _ _ 1%R I3). rewrite N2. replace (s_sum (fst x) * sc + p)%R with (s_sum (fst x) * sc + p * 1)%R by ring.
        rewrite exp2_sink in N3 by auto. rewrite EX. match type of N3 with norm _ _ _ ?t => match goal with |- norm _ _ _ ?u => replace u with t by ring end end. exact N3.
    - exists (fst x), (snd x), X. rewrite <- surjective_pairing. split; [reflexivity|]. split; [apply I4; destruct HNE; [lia|contradiction]|].
      split; [exact I1|]. split; [exact I2|]. rewrite HS, Rplus_0_l. exact I3. }
  destruct F as (st & o2 & X2 & E3 & M & J1 & J2 & J3). rewrite E3. cbn [rbind fst snd]. rewrite (ko_scale _ KO) by auto.
  assert (T : (0 < extra + total_over (between (first s) (last s)) w)%R).
  { destruct (total_pos (between (first s) (last s)) w) as [T1 T2]; [intros; apply weight_pos|].
    assert (E0 : (0 <= extra)%R /\ (sink <> None -> (0 < extra)%R)).
    { destruct sink; [destruct HS as (v & _ & ->); assert (P := exp_pos v); split; [lra|intros _; lra]|rewrite HS; split; [lra|contradiction]]. }
    destruct E0 as [E0 E4]. destruct HNE as [HNE|HNE]; [|specialize (E4 HNE); lra].
    assert (between (first s) (last s) <> []); [|specialize (T2 H); lra].
    intro Z0. assert (I : In (first s) (between (first s) (last s))) by (apply in_between; lia). rewrite Z0 in I. destruct I. }
  destruct (scale_row_gen (inverse (s_sum st)) row D_V o2 X2) as (o3 & E4 & C3).
  { rewrite (c_len _ _ _ _ J1). exact HR. }
  { intros i Hi. rewrite (cell_of _ _ _ _ _ _ J1 Hi). do 2 f_equal. lia. }
  exists o3. split; [exact E4|]. eapply changes_ext; [|eapply changes_again; [exact J1|exact C3]].
  intros d _. cbn beta. destruct (norm_quotient c st (X2 (d - row)) _ _ M (J2 (d - row)) J3 T) as (i & EI & QI). rewrite EI. f_equal. exact QI.
Qed.

(** No visible token and no sink: the row ends up without numbers. *)
Lemma query_row_empty o0 : last s <= first s -> sink = None -> (0 < D_V -> 0 <= row /\ row + D_V <= b_len o0) ->
  exists o, query_row K H_Q S_Q D_QK D_V key value first last sink q qo oo b h hk s o0 = ROk o /\
    changes (fun d => None) (segment row D_V) o0 o.
Proof using KO HDV.
  clear HQ HK HV HS HD w Q KK VV extra. intros HFL HNE HR. unfold query_row. cbv zeta. fold row. rewrite (ko_fill _ KO) by auto.
  destruct (fill_row 0%R row D_V o0 HR) as (o1 & E1 & C1). rewrite E1. cbn [rbind]. rewrite zloop_0 by lia. cbn [rbind]. unfold sink_step. rewrite HNE. cbn [rbind fst snd s_sum soft0].
  rewrite (ko_scale _ KO) by auto. unfold inverse. destruct (Req_EM_T 0 0) as [_|N]; [|lra].
  destruct (scale_row_gen None row D_V o1 (fun _ => 0%R)) as (o2 & E2 & C2).
  { rewrite (c_len _ _ _ _ C1). exact HR. }
  { intros i Hi. apply (cell_of _ _ _ _ _ _ C1 Hi). }
  exists o2. split; [exact E2|]. eapply changes_again; [exact C1|exact C2].
Qed.
End Row.

(* ---------------- all rows ---------------- *)
Lemma changes_each {A X} (G : Z -> option A) (l : list X) (P : X -> Z -> Prop) body : forall b : buf A,
  NoDup l -> (forall x y d, In x l -> In y l -> P x d -> P y d -> x = y) ->
  (forall x b1, In x l -> b_len b1 = b_len b -> exists b2, body x b1 = ROk b2 /\ changes G (P x) b1 b2) ->
  exists b', each l body b = ROk b' /\ changes G (fun d => exists x, In x l /\ P x d) b b'.
Proof.
  induction l as [|x l IH]; intros b ND Hdis Hb.
  - exists b. split; auto. apply changes_refl. intros d (x & [] & _).
  - inversion ND as [|? ? NI ND']; subst. cbn [each]. destruct (Hb x b (or_introl eq_refl) eq_refl) as (b1 & E1 & [L1 S1 O1]). rewrite E1. cbn [rbind].
    destruct (IH b1 ND') as (b2 & E2 & [L2 S2 O2]).
    + intros y z d Hy Hz. apply Hdis; right; auto.
    + intros y b2 Hy L. apply Hb; [right; auto|congruence].
    + exists b2. split; auto. constructor; [congruence| |].
      * intros d (y & [->|Hy] & Hd).
        { rewrite O2; auto. intros (z & Hz & Hzd). apply NI. assert (y = z) by (apply (Hdis y z d); auto; [left; auto|right; auto]). congruence. }
        { apply S2. exists y. auto. }
      * intros d Hd. rewrite O2, O1; auto; intro Hx; apply Hd.
        { exists x. split; [left|]; auto. }
        { destruct Hx as (y & Hy & Hyd). exists y. split; [right|]; auto. }
Qed.

Definition row_start (H_Q S_Q D_V b h s : Z) : Z := b * H_Q * S_Q * D_V + s * H_Q * D_V + h * D_V.
Lemma row_unique H_Q S_Q D_V b h s b' h' s' d : 0 < D_V -> 0 <= s < S_Q -> 0 <= s' < S_Q -> 0 <= h < H_Q -> 0 <= h' < H_Q ->
  segment (row_start H_Q S_Q D_V b h s) D_V d -> segment (row_start H_Q S_Q D_V b' h' s') D_V d -> b = b' /\ h = h' /\ s = s'.
Proof.
  intros HD Hs Hs' Hh Hh' H1 H2. unfold segment, row_start in *.
  assert (E1 : (b * S_Q + s) * H_Q + h = (b' * S_Q + s') * H_Q + h') by nia.
  assert (E2 : b * S_Q + s = b' * S_Q + s') by nia.
  assert (h = h') by (rewrite E2 in E1; lia).
  assert (b = b') by nia. subst. lia.
Qed.

Lemma order_in order n h : Permutation order (range n) -> (In h order <-> 0 <= h < n).
Proof. intro HO. rewrite <- in_range. split; intro H; [|apply Permutation_sym in HO]; eapply Permutation_in; eauto. Qed.
Lemma order_nodup order n : Permutation order (range n) -> NoDup order.
Proof.
  intro HO. eapply Permutation_NoDup; [apply Permutation_sym; exact HO|]. unfold range. apply FinFun.Injective_map_NoDup; [|apply seq_NoDup].
  intros x y H. lia.
Qed.

Section Fwd.
Variable K : kernels.
Variables B H_Q H_KV S_Q D_QK D_V : Z.
Variables key value : Z -> Z -> Z -> res (buf R * Z).
Variables first last : Z -> Z.
Variable sink : option (Z -> res R).
Variables (q : buf R) (qo : Z).
Variable order : list Z.
Variable g : Z.
Hypothesis Hg : H_Q = H_KV * g.
Hypothesis Hk : 1 <= H_KV.
Hypothesis Hg1 : 1 <= g.
Hypothesis HO : Permutation order (range H_Q).
Definition rows (d : Z) : Prop := exists b h s, 0 <= b < B /\ 0 <= h < H_Q /\ 0 <= s < S_Q /\ segment (row_start H_Q S_Q D_V b h s) D_V d.
Lemma fwd_ok (G : Z -> option R) (o : buf R) :
  (forall b h s o1, 0 <= b < B -> 0 <= h < H_Q -> 0 <= s < S_Q -> b_len o1 = b_len o ->
     exists o2, query_row K H_Q S_Q D_QK D_V key value first last sink q qo 0 b h (h / g) s o1 = ROk o2 /\
       changes G (segment (row_start H_Q S_Q D_V b h s) D_V) o1 o2) ->
  exists o', fwd_bshd K B H_Q H_KV S_Q D_QK D_V key value first last sink q qo 0 order o = ROk o' /\ changes G rows o o'.
Proof using Hg Hk Hg1 HO.
  intro HR. unfold fwd_bshd. replace (H_KV =? 0) with false by lia.
  assert (EG : Z.quot H_Q H_KV = g) by (rewrite Hg, Z.mul_comm; apply Z.quot_mul; lia). cbv zeta. rewrite EG.
  replace (g =? 0) with false by lia.
  destruct (Z_lt_le_dec 0 D_V) as [HDV|HDV].
  2:{ (* no cells *)
    destruct (changes_loop G B (fun b d => False) (fun b o => each order (fun h o => zloop S_Q (query_row K H_Q S_Q D_QK D_V key value first last sink q qo 0 b h (Z.quot h g)) o) o) o) as (o' & E & C).
    - intros; contradiction.
    - intros b o1 Hb L _. destruct (changes_each G order (fun h d => False) (fun h o => zloop S_Q (query_row K H_Q S_Q D_QK D_V key value first last sink q qo 0 b h (Z.quot h g)) o) o1) as (o2 & E2 & C2).
      + apply (order_nodup order H_Q HO).
      + intros; contradiction.
      + intros h o3 Hh L3. apply (order_in order H_Q _ HO) in Hh. destruct (changes_loop G S_Q (fun s d => False) (query_row K H_Q S_Q D_QK D_V key value first last sink q qo 0 b h (Z.quot h g)) o3) as (o4 & E4 & C4).
        * intros; contradiction.
        * intros s o5 Hs L5 _. rewrite Z.quot_div_nonneg by lia. destruct (HR b h s o5) as (o6 & E6 & C6); auto; [congruence|]. exists o6. split; auto.
          eapply changes_iff; [|exact C6]. intro d. unfold segment. lia.
        * exists o4. split; auto. eapply changes_iff; [|exact C4]. intro d. split; [intros (? & ? & []) | intros []].
      + exists o2. split; auto. eapply changes_iff; [|exact C2]. intro d. split; [intros (? & ? & []) | intros []].
    - exists o'. split; auto. eapply changes_iff; [|exact C]. intro d. split; [intros (? & ? & [])|]. intros (b & h & s & _ & _ & _ & Hd). unfold segment in Hd. lia. }
  destruct (changes_loop G B (fun b d => exists h, In h order /\ exists s, 0 <= s < S_Q /\ segment (row_start H_Q S_Q D_V b h s) D_V d)
    (fun b o => each order (fun h o => zloop S_Q (query_row K H_Q S_Q D_QK D_V key value first last sink q qo 0 b h (Z.quot h g)) o) o) o) as (o' & E & C).
  - intros b b' d Hb Hb' (h & Hh & s & Hs & H1) (h' & Hh' & s' & Hs' & H2). apply (order_in order H_Q _ HO) in Hh, Hh'.
    destruct (row_unique _ _ _ _ _ _ _ _ _ _ HDV Hs Hs' Hh Hh' H1 H2). auto.
  - intros b o1 Hb L _. apply changes_each with (P := fun h d => exists s, 0 <= s < S_Q /\ segment (row_start H_Q S_Q D_V b h s) D_V d).
    + apply (order_nodup order H_Q HO).
    + intros h h' d Hh Hh' (s & Hs & H1) (s' & Hs' & H2). apply (order_in order H_Q _ HO) in Hh, Hh'. destruct (row_unique _ _ _ _ _ _ _ _ _ _ HDV Hs Hs' Hh Hh' H1 H2) as (_ & ? & _). auto.
    + intros h o2 Hh L2. apply (order_in order H_Q _ HO) in Hh. apply changes_loop with (P := fun s => segment (row_start H_Q S_Q D_V b h s) D_V).
      * intros s s' d Hs Hs' H1 H2. destruct (row_unique _ _ _ _ _ _ _ _ _ _ HDV Hs Hs' Hh Hh H1 H2) as (_ & _ & ?). auto.
      * intros s o3 Hs L3 _. rewrite Z.quot_div_nonneg by lia. apply HR; auto. congruence.
  - exists o'. split; auto. eapply changes_iff; [|exact C]. intro d. unfold rows. split.
    + intros (b & Hb & h & Hh & s & Hs & Hd). exists b, h, s. apply (order_in order H_Q _ HO) in Hh. auto.
    + intros (b & h & s & Hb & Hh & Hs & Hd). exists b. split; auto. exists h. split; [apply (order_in order H_Q _ HO); auto|]. exists s. auto.
Qed.

(** The output tensor. *)
Lemma fwd_out (V : Z -> Z -> Z -> Z -> option R) :
  0 <= B -> 0 <= S_Q -> 0 <= D_V ->
  (forall b h s o1, 0 <= b < B -> 0 <= h < H_Q -> 0 <= s < S_Q -> b_len o1 = product [B; S_Q; H_Q; D_V] ->
     (0 < D_V -> 0 <= row_start H_Q S_Q D_V b h s /\ row_start H_Q S_Q D_V b h s + D_V <= b_len o1) ->
     exists o2, query_row K H_Q S_Q D_QK D_V key value first last sink q qo 0 b h (h / g) s o1 = ROk o2 /\
       changes (fun d => V b s h (d - row_start H_Q S_Q D_V b h s)) (segment (row_start H_Q S_Q D_V b h s) D_V) o1 o2) ->
  exists o', fwd_bshd K B H_Q H_KV S_Q D_QK D_V key value first last sink q qo 0 order (mkBuf (product [B; S_Q; H_Q; D_V]) (fun _ => None)) = ROk o' /\
    let out := mkTns (mkV [B; S_Q; H_Q; D_V] (default_strides [B; S_Q; H_Q; D_V]) 0) o' in
    tensor_ok out /\ owns_storage out /\
    forall b s h d, 0 <= b < B -> 0 <= s < S_Q -> 0 <= h < H_Q -> 0 <= d < D_V -> elem out [b; s; h; d] = V b s h d.
Proof using Hg Hk Hg1 HO.
  intros HB HS HDV HR. set (os := [B; S_Q; H_Q; D_V]).
  set (F := fun idx => match idx with [b; s; h; d] => V b s h d | _ => None end).
  assert (IN : forall b s h d, 0 <= b < B -> 0 <= s < S_Q -> 0 <= h < H_Q -> 0 <= d < D_V ->
     in_shape os [b; s; h; d] /\ ravel os [b; s; h; d] = row_start H_Q S_Q D_V b h s + d).
  { intros. split; [repeat constructor; lia|]. unfold os, row_start. cbn [ravel]. rewrite !product_cons. change (product []) with 1. ring. }
  assert (BD : forall b s h, 0 <= b < B -> 0 <= s < S_Q -> 0 <= h < H_Q -> 0 < D_V -> 0 <= row_start H_Q S_Q D_V b h s /\ row_start H_Q S_Q D_V b h s + D_V <= product os).
  { intros b s h Hb Hs Hh Hd. destruct (IN b s h 0) as [I1 I2]; auto; [lia|]. destruct (IN b s h (D_V - 1)) as [I3 I4]; auto; [lia|].
    apply ravel_bounds in I1, I3. rewrite I2 in I1. rewrite I4 in I3. lia. }
  destruct (fwd_ok (at_pos os F) (mkBuf (product os) (fun _ => None))) as (o' & E & C).
  { intros b h s o1 Hb Hh Hs L. cbn [b_len] in L. destruct (HR b h s o1 Hb Hh Hs L) as (o2 & E2 & C2).
    { intro Hd. rewrite L. apply BD; auto. }
    exists o2. split; auto. eapply changes_ext; [|exact C2]. intros d Hd. cbn beta. unfold segment in Hd.
    destruct (IN b s h (d - row_start H_Q S_Q D_V b h s)) as [I1 I2]; auto; [lia|].
    replace d with (ravel os [b; s; h; d - row_start H_Q S_Q D_V b h s]) at 2 by lia. rewrite at_pos_ravel by auto. reflexivity. }
  exists o'. split; [exact E|]. cbv zeta.
  destruct (owner_ok os o' ltac:(cbn; lia)) as [O1 O2]; [repeat constructor; auto; nia|apply (c_len _ _ _ _ C)|]. split; [exact O1|]. split; [exact O2|].
  intros b s h d Hb Hs Hh Hd. destruct (IN b s h d) as [I1 I2]; auto. rewrite owner_elem by (apply in_shape_length; auto).
  rewrite (c_set _ _ _ _ C).
  - rewrite at_pos_ravel by auto. reflexivity.
  - exists b, h, s. repeat split; try lia. all: unfold segment; rewrite I2; lia.
Qed.
End Fwd.
