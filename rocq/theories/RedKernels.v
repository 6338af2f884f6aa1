(** Proofs about reductions, part 3: what the kernels compute. *)
From Coq Require Import Reals Lra.
From Flocq Require Import Core.
From Verif Require Import Base DTypeModel ParamModel ParamSpec TensorModel TensorSpec OpsModel OpsSpec OpsSum QuantModel CpmAudioModel DivProofs
  RedModel RedSpec RedProofs RedOp.
Local Open Scope Z_scope.

(** ** Maxima and minima *)
Section Choose.
Context {A : Type} (better : A -> A -> bool) (zero : A) (le : A -> A -> Prop).
Hypothesis le_refl : forall a, le a a.
Hypothesis le_trans : forall a b c, le a b -> le b c -> le a c.
Hypothesis better_le : forall a b, better a b = true -> le b a.
Hypothesis worse_le : forall a b, better a b = false -> le a b.
Lemma choose_one a b : (choose better a b = a \/ choose better a b = b) /\ le a (choose better a b) /\ le b (choose better a b).
Proof using le_refl better_le worse_le. unfold choose. destruct (better a b) eqn:Q; auto. Qed.
Lemma choose_fold l : forall x, In (fold_left (choose better) l x) (x :: l) /\ forall y, In y (x :: l) -> le y (fold_left (choose better) l x).
Proof using le_refl le_trans better_le worse_le.
  induction l as [|z l IH]; intro x; cbn [fold_left].
  - split; [left; reflexivity|]. intros y [<- |[]]. apply le_refl.
  - destruct (IH (choose better x z)) as [I1 I2]. destruct (choose_one x z) as (O & L1 & L2). split.
    + destruct I1 as [E|E]; [|right; right; exact E]. rewrite <- E. destruct O as [-> | ->]; [left|right; left]; reflexivity.
    + intros y [<- |[<- |H]]; [| |apply I2; right; exact H].
      * eapply le_trans; [exact L1|]. apply I2. left. reflexivity.
      * eapply le_trans; [exact L2|]. apply I2. left. reflexivity.
Qed.
Lemma choose_across vals : vals <> [] -> In (across zero (choose better) vals) vals /\ forall y, In y vals -> le y (across zero (choose better) vals).
Proof using le_refl le_trans better_le worse_le. destruct vals as [|x l]; [congruence|]. intros _. apply choose_fold. Qed.
Hypothesis le_antisym : forall a b, le a b -> le b a -> a = b.
Lemma choose_comm a b : choose better a b = choose better b a.
Proof using le_refl better_le worse_le le_antisym.
  apply le_antisym; [destruct (choose_one a b) as [[-> | ->] _]|destruct (choose_one b a) as [[-> | ->] _]]; apply choose_one.
Qed.
Lemma choose_assoc a b c : choose better a (choose better b c) = choose better (choose better a b) c.
Proof using le_refl le_trans better_le worse_le le_antisym.
  destruct (choose_one a (choose better b c)) as (O1 & L1 & L2). destruct (choose_one b c) as (O2 & L3 & L4).
  destruct (choose_one (choose better a b) c) as (O3 & L5 & L6). destruct (choose_one a b) as (O4 & L7 & L8).
  apply le_antisym.
  - destruct O1 as [-> | ->]; [eauto|]. destruct O2 as [-> | ->]; eauto.
  - destruct O3 as [-> | ->]; [|eauto]. destruct O4 as [-> | ->]; eauto.
Qed.
End Choose.

Definition bits_ok (bits : Z) : Prop := bits = 8 \/ bits = 16 \/ bits = 32.
Lemma hred_ok {A} (zero : A) op bits : bits_ok bits -> (forall x y z, op x (op y z) = op (op x y) z) -> (forall x y, op x y = op y x) ->
  forall v, length v = Z.to_nat (lanes_of bits) -> (if bits =? 32 then halves zero op else across zero op) v = across zero op v.
Proof.
  intros B As Co v L. destruct B as [-> |[-> | ->]]; [reflexivity|reflexivity|]. cbn [Z.eqb Pos.eqb]. apply across_halves; auto.
Qed.
Lemma lanes_pos bits : bits_ok bits -> 0 < lanes_of bits.
Proof. intros [-> |[-> | ->]]; reflexivity. Qed.

Ltac zorder := intros; unfold Z.gtb, Z.ltb in *; repeat match goal with H : context [?a ?= ?b] |- _ => destruct (Z.compare_spec a b) end; try discriminate; lia.
Lemma max_run bits b vals : bits_ok bits -> good_run (arm_int bits RedMax) greatest b vals.
Proof.
  intros B p stride HL. exists (across 0 (choose Z.gtb) vals). split.
  - assert (As := choose_assoc Z.gtb Z.le ltac:(zorder) ltac:(zorder) ltac:(zorder) ltac:(zorder) ltac:(zorder)).
    assert (Co := choose_comm Z.gtb Z.le ltac:(zorder) ltac:(zorder) ltac:(zorder) ltac:(zorder)).
    cbn [arm_int]. unfold int_kernel. apply arm_run_spec; auto; [apply lanes_pos; auto|apply hred_ok; auto].
  - intro NE. apply choose_across; auto; zorder.
Qed.
Lemma min_run bits b vals : bits_ok bits -> good_run (arm_int bits RedMin) least b vals.
Proof.
  intros B p stride HL. exists (across 0 (choose Z.ltb) vals). split.
  - assert (As := choose_assoc Z.ltb Z.ge ltac:(zorder) ltac:(zorder) ltac:(zorder) ltac:(zorder) ltac:(zorder)).
    assert (Co := choose_comm Z.ltb Z.ge ltac:(zorder) ltac:(zorder) ltac:(zorder) ltac:(zorder)).
    cbn [arm_int]. unfold int_kernel. apply arm_run_spec; auto; [apply lanes_pos; auto|apply hred_ok; auto].
  - intro NE. destruct (choose_across Z.ltb 0 Z.ge ltac:(zorder) ltac:(zorder) ltac:(zorder) ltac:(zorder) vals NE) as [I G]. split; [exact I|].
    intros y Hy. apply Z.ge_le. apply G. exact Hy.
Qed.

(** ** Sums of integers *)
Section Wrap.
Variable bits : Z.
Hypothesis B : bits_ok bits.
Let M := 2 ^ bits.
Let H := 2 ^ (bits - 1).
Lemma half : M = 2 * H /\ 0 < H.
Proof using B. unfold M, H. destruct B as [-> |[-> | ->]]; cbn; lia. Qed.
Lemma wrap_range z : representable bits (wrap bits z).
Proof using B. unfold representable, wrap. fold M H. destruct half as [E P]. assert (R := Z.mod_pos_bound (z + H) M ltac:(lia)). lia. Qed.
Lemma wrap_id z : representable bits z -> wrap bits z = z.
Proof using B. unfold representable, wrap. fold M H. intro R. destruct half as [E P]. rewrite Z.mod_small by lia. lia. Qed.
Lemma wrap_mod z : exists k, wrap bits z = z + k * M.
Proof using B. unfold wrap. fold M H. destruct half as [E P]. exists (- ((z + H) / M)). assert (D := Z_div_mod_eq_full (z + H) M). rewrite Z.mul_comm in D. lia. Qed.
Lemma wrap_shift z k : wrap bits (z + k * M) = wrap bits z.
Proof using B. unfold wrap. fold M H. replace (z + k * M + H) with (z + H + k * M) by ring. rewrite Z_mod_plus_full. reflexivity. Qed.
Lemma wrap_add_r a b : wrap bits (a + wrap bits b) = wrap bits (a + b).
Proof using B. destruct (wrap_mod b) as [k ->]. rewrite Z.add_assoc. apply wrap_shift. Qed.
Lemma wrap_add_l a b : wrap bits (wrap bits a + b) = wrap bits (a + b).
Proof using B. rewrite Z.add_comm, wrap_add_r, Z.add_comm. reflexivity. Qed.
Lemma wrap_assoc x y z : wrap bits (x + wrap bits (y + z)) = wrap bits (wrap bits (x + y) + z).
Proof using B. rewrite wrap_add_r, wrap_add_l. f_equal. ring. Qed.
Lemma wrap_comm x y : wrap bits (x + y) = wrap bits (y + x).
Proof using. f_equal. ring. Qed.
Lemma wrap_fold l : forall x, representable bits x -> fold_left (fun a b => wrap bits (a + b)) l x = wrap bits (x + total l).
Proof using B.
  induction l as [|y l IH]; intros x Rx; cbn [fold_left total fold_right].
  - rewrite Z.add_0_r, wrap_id; auto.
  - rewrite IH by apply wrap_range. rewrite wrap_add_l. f_equal. unfold total. ring.
Qed.
Lemma wrap_across vals : Forall (representable bits) vals -> across 0 (fun a b => wrap bits (a + b)) vals = wrap bits (total vals).
Proof using B.
  intro F. destruct vals as [|x l]; cbn [across].
  - rewrite wrap_id; [reflexivity|]. unfold representable. cbn. fold H. destruct half. lia.
  - rewrite wrap_fold; [reflexivity|]. inversion F; auto.
Qed.
End Wrap.

(** When the sum of a lane is defined at all: int32 additions must not overflow. *)
Definition sum_defined (bits : Z) (vals : list Z) : Prop := Forall (representable bits) vals /\ (bits = 32 -> prefixes_fit 32 vals).
Lemma firstn_succ {A} (l : list A) : forall j y, nth_error l j = Some y -> firstn (S j) l = firstn j l ++ [y].
Proof. induction l as [|x l IH]; intros [|j] y E; cbn in E; try discriminate; [injection E as ->; reflexivity|]. cbn [firstn app]. f_equal. apply IH. exact E. Qed.
Lemma total_app a b : total (a ++ b) = total a + total b.
Proof. unfold total. induction a as [|x a IH]; cbn [app fold_right]; [reflexivity|]. rewrite IH. ring. Qed.
Lemma forall_firstn {A} (P : A -> Prop) l k : Forall P l -> Forall P (firstn k l).
Proof. intro F. rewrite <- (firstn_skipn k l) in F. apply Forall_app in F. apply F. Qed.
Lemma sum_run bits b vals : bits_ok bits -> sum_defined bits vals -> good_run (arm_int bits RedSum) (fun vals r => r = wrap bits (total vals)) b vals.
Proof.
  intros B [R P] p stride HL. eexists. split; [|reflexivity].
  cbn [arm_int]. unfold int_sum. rewrite <- wrap_across by auto.
  assert (As := wrap_assoc bits B). assert (Co := wrap_comm bits).
  apply arm_run_spec; auto; [apply lanes_pos; auto|apply hred_ok; auto|].
  intros j y Hj Ey. unfold scalar_add. destruct B as [-> |[-> | ->]]; try reflexivity. cbn [Z.eqb Pos.eqb].
  rewrite wrap_across by (try apply forall_firstn; auto; right; right; reflexivity).
  assert (J : (j < length vals)%nat) by (apply nth_error_Some; congruence).
  assert (P1 := P eq_refl j ltac:(lia)). assert (P2 := P eq_refl (S j) ltac:(lia)).
  rewrite (firstn_succ _ _ _ Ey), total_app in P2. change (total [y]) with (y + 0) in P2. rewrite Z.add_0_r in P2.
  rewrite (wrap_id 32 (or_intror (or_intror eq_refl)) (total (firstn j vals))) by exact P1.
  rewrite (wrap_id 32 (or_intror (or_intror eq_refl))) by exact P2.
  unfold representable in P2. unfold in_bits. destruct ((- 2 ^ (32 - 1) <=? total (firstn j vals) + y) && (total (firstn j vals) + y <? 2 ^ (32 - 1))) eqn:Q; [reflexivity|lia].
Qed.
Lemma mean_run bits b vals : bits_ok bits -> sum_defined bits vals -> vals <> [] -> Z.abs (wrap bits (total vals)) < 2 ^ 24 ->
  good_run (arm_int bits RedMean) (fun vals r => r = Z.quot (wrap bits (total vals)) (zlen vals)) b vals.
Proof.
  intros B D NE S p stride HL. destruct (sum_run bits b vals B D p stride HL) as (v & E & ->). cbn [arm_int] in *. unfold int_mean. rewrite E. cbn [rbind].
  assert (P : 0 < zlen vals) by (unfold zlen; destruct vals; [congruence|cbn; lia]).
  replace (zlen vals =? 0) with false by lia. cbv zeta. rewrite quot_exact by lia.
  set (w := wrap bits (total vals)) in *. assert (R := wrap_range bits B (total vals)). fold w in R.
  assert (Q : representable bits (Z.quot w (zlen vals))).
  { unfold representable in *. clearbody w. clear - R P. set (n := zlen vals) in *. clearbody n.
    destruct (Z.quot_div w n ltac:(lia)). assert (T := Z.quot_rem' w n). assert (L1 := Z.rem_bound_abs w n ltac:(lia)).
    destruct (Z.le_gt_cases 0 w) as [Hw|Hw].
    - assert (0 <= Z.quot w n) by (apply Z.quot_pos; lia). assert (Z.quot w n <= w) by (assert (X := Z.quot_le_mono w w n); apply Z.quot_le_upper_bound; nia). lia.
    - assert (0 <= Z.quot (- w) n) by (apply Z.quot_pos; lia). assert (Z.quot (- w) n <= - w) by (apply Z.quot_le_upper_bound; nia). rewrite Z.quot_opp_l in * by lia. lia. }
  unfold in_bits. unfold representable in Q.
  replace ((- 2 ^ (bits - 1) <=? Z.quot w (zlen vals)) && (Z.quot w (zlen vals) <? 2 ^ (bits - 1))) with true by lia.
  eexists. split; reflexivity.
Qed.

(** ** Real numbers *)
Open Scope R_scope.
Ltac rorder := intros; unfold reals_above, reals_below in *; repeat match goal with H : context [Rlt_dec ?a ?b] |- _ => destruct (Rlt_dec a b) end; try discriminate; lra.
Lemma real_max_run lanes b vals : (0 < lanes)%Z -> good_run (arm_real lanes RedMax) greatest_real b vals.
Proof.
  intros B p stride HL. exists (across 0 (choose reals_above) vals). split.
  - assert (As := choose_assoc reals_above Rle ltac:(rorder) ltac:(rorder) ltac:(rorder) ltac:(rorder) ltac:(rorder)).
    assert (Co := choose_comm reals_above Rle ltac:(rorder) ltac:(rorder) ltac:(rorder) ltac:(rorder)).
    unfold arm_real. apply arm_run_spec; auto.
  - intro NE. apply choose_across; auto; rorder.
Qed.
Lemma real_min_run lanes b vals : (0 < lanes)%Z -> good_run (arm_real lanes RedMin) least_real b vals.
Proof.
  intros B p stride HL. exists (across 0 (choose reals_below) vals). split.
  - assert (As := choose_assoc reals_below Rge ltac:(rorder) ltac:(rorder) ltac:(rorder) ltac:(rorder) ltac:(rorder)).
    assert (Co := choose_comm reals_below Rge ltac:(rorder) ltac:(rorder) ltac:(rorder) ltac:(rorder)).
    unfold arm_real. apply arm_run_spec; auto.
  - intro NE. destruct (choose_across reals_below 0 Rge ltac:(rorder) ltac:(rorder) ltac:(rorder) ltac:(rorder) vals NE) as [I G]. split; [exact I|].
    intros y Hy. apply Rge_le. apply G. exact Hy.
Qed.
Lemma across_total vals : across 0 Rplus vals = total_real vals.
Proof.
  destruct vals as [|x l]; [reflexivity|]. cbn [across]. unfold total_real. cbn [fold_right]. revert x. induction l as [|y l IH]; intro x; cbn [fold_left fold_right]; [ring|].
  rewrite IH. ring.
Qed.
Lemma real_sum_run lanes b vals : (0 < lanes)%Z -> good_run (arm_real lanes RedSum) (fun vals r => r = total_real vals) b vals.
Proof.
  intros B p stride HL. eexists. split; [|reflexivity]. unfold arm_real. rewrite <- across_total. apply arm_run_spec; auto; intros; ring.
Qed.
Lemma real_mean_run lanes b vals : (0 < lanes)%Z -> vals <> [] -> good_run (arm_real lanes RedMean) (fun vals r => r = total_real vals / IZR (zlen vals)) b vals.
Proof.
  intros B NE p stride HL. destruct (real_sum_run lanes b vals B p stride HL) as (v & E & ->). unfold arm_real in *. rewrite E. cbn [rbind].
  assert (P : (0 < zlen vals)%Z) by (unfold zlen; destruct vals; [congruence|cbn; lia]).
  replace (zlen vals =? 0)%Z with false by lia. eexists. split; reflexivity.
Qed.
