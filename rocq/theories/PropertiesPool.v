(** Properties of the thread pool: C27, C44, C45. *)
From Verif Require Import Base DTypeModel PoolModel PoolSpec PoolProofs PoolLive.
Local Open Scope Z_scope.

(** ** C27: every index of a loop exactly once *)
(** In every interleaving of any number of workers, callers (one per slot) and changes of
    the pool's state: on every slot, loops run one after the other, calls only happen
    between the beginning and the return of their loop, no index is called twice, and at
    the return every index has been called.  Loops that the caller runs alone are
    included. *)
Theorem C27_exactly_once_partial : forall tc x, reach tc true x ->
  forall s, exists o, Seen (slot_trace s (s_trace x)) o.
Proof. intros tc x H s. destruct (reach_Inv tc true x H s) as [o [S _]]. exists o. exact S. Qed.
(** While no loop runs on a slot, no worker is inside its body and no flag is up. *)
Theorem C27_quiet_after_return : forall tc x s, reach tc true x -> s_pc x s = PIdle ->
  (forall t, s_flag x s t = false) /\ (forall t r, s_wk x t <> WRun s r).
Proof.
  intros tc x s H E. destruct (reach_Inv tc true x H s) as [o [_ [S1 S2]]]. rewrite E in S2. destruct S2 as [_ S2].
  split; [exact S2|]. intros t r W. assert (V : view (s_wk x t) s = Some r) by (rewrite W; cbn [view]; rewrite Nat.eqb_refl; reflexivity).
  specialize (S1 _ _ V). cbn beta in S1. rewrite S2 in S1. discriminate.
Qed.
(** The plan: which thread calls which index. *)
Theorem C27_plan : forall tc av s tk p, 0 < t_step tk -> push_plan tc av s tk = ROk p ->
  match p with
  | Serial l => exactly_once tk l
  | Parallel j w => (1 <= w <= tc)%nat /\ exactly_once tk (concat (map (calls tc j) (seq 0 w)))
  end.
Proof.
  intros tc av s tk [l|j w] H E.
  - rewrite (plan_serial _ _ _ _ _ H E). apply serial_once. exact H.
  - destruct (plan_parallel _ _ _ _ _ _ H E) as [W P]. split; [exact W|]. eapply once_perm; [apply serial_once; exact H|exact P].
Qed.
(** A plan always exists when the step divides the length, with at least one thread. *)
Theorem C27_plan_exists : forall tc av s tk, (1 <= tc)%nat -> 0 < t_step tk -> s < 2 ->
  (t_end tk - t_start tk) mod t_step tk = 0 -> exists p, push_plan tc av s tk = ROk p.
Proof.
  intros tc av s tk Ht H Hs Hm. unfold push_plan. replace (t_step tk =? 0) with false by lia. cbv zeta.
  assert (SP : exists p, serial_plan tk = ROk p) by (unfold serial_plan; replace (t_step tk <? 0) with false by lia; eexists; reflexivity).
  set (n := Z.quot (t_end tk - t_start tk) (t_step tk)).
  destruct ((n <=? 1) || (s <? 0)) eqn:E1; [exact SP|]. destruct (av =? 0); [exact SP|].
  replace (TASK_LIMITS <=? s) with false by (unfold TASK_LIMITS; lia). replace (t_step tk <? 0) with false by lia.
  assert (HL : Z.of_nat (length (serial tk)) <= n).
  { assert (K : (length (serial tk) <= Z.to_nat n)%nat); [|lia]. apply serial_loop_short; [exact H|].
    rewrite Z2Nat.id by lia.
    assert (0 <= t_end tk - t_start tk).
    { destruct (Z_le_gt_dec 0 (t_end tk - t_start tk)); [assumption|].
      assert (n <= 0); [|lia]. unfold n. rewrite <- (Z.opp_involutive (t_end tk - t_start tk)), Z.quot_opp_l by lia.
      pose proof (Z.quot_pos (- (t_end tk - t_start tk)) (t_step tk)). lia. }
    unfold n. rewrite Z.quot_div_nonneg by lia. pose proof (Z.div_mod (t_end tk - t_start tk) (t_step tk)). nia. }
  replace (n <? Z.of_nat (length (serial tk))) with false by lia.
  destruct (Z.of_nat tc <? n); [|eauto]. replace (tc =? 0)%nat with false by (symmetry; apply Nat.eqb_neq; lia). eauto.
Qed.
(** When the step does not divide the length (and at least two whole tiles fit), the
    parallel path writes behind the end of its index vector. *)
Theorem C27_uneven_step_refuted : forall tc av s tk, 0 < t_step tk -> av <> 0 -> 0 <= s < 2 ->
  2 * t_step tk <= t_end tk - t_start tk -> (t_end tk - t_start tk) mod t_step tk <> 0 ->
  push_plan tc av s tk = RUB.
Proof.
  intros tc av s tk H Hav Hs H2 Hm. unfold push_plan. replace (t_step tk =? 0) with false by lia. cbv zeta.
  rewrite Z.quot_div_nonneg by lia. set (n := (t_end tk - t_start tk) / t_step tk).
  assert (2 <= n) by (apply Z.div_le_lower_bound; lia).
  replace ((n <=? 1) || (s <? 0)) with false by lia. replace (av =? 0) with false by lia.
  replace (TASK_LIMITS <=? s) with false by (unfold TASK_LIMITS; lia). replace (t_step tk <? 0) with false by lia.
  assert (HL : n < Z.of_nat (length (serial tk))).
  { assert (K : (Z.to_nat n < length (serial tk))%nat); [|lia]. apply serial_loop_long; [exact H|lia|].
    rewrite Z2Nat.id by lia. pose proof (Z.div_mod (t_end tk - t_start tk) (t_step tk)).
    pose proof (Z.mod_pos_bound (t_end tk - t_start tk) (t_step tk)). unfold n. nia. }
  replace (n <? Z.of_nat (length (serial tk))) with true by lia. reflexivity.
Qed.
Example C27_uneven_step_case : push_plan 4 1 0 (mkTask 0 10 4) = RUB.
Proof. reflexivity. Qed.
(** A pool created with 0 threads never returns from a loop of two tiles. *)
Theorem C27_no_threads_refuted : push_plan 0 1 0 (mkTask 0 8 4) = RDiverge.
Proof. reflexivity. Qed.
(** A loop counting down calls the body with index 0 again and again. *)
Theorem C27_counting_down_refuted : exists j w, push_plan 4 1 0 (mkTask 9 0 (-3)) = ROk (Parallel j w)
  /\ concat (map (calls 4 j) (seq 0 w)) = [0; 0; 0].
Proof. eexists. eexists. split; reflexivity. Qed.
(** Two callers with the same slot (all CPU kernels use the backend's one slot): the
    second one overwrites the function object while a worker is inside it. *)
Theorem C27_shared_slot_refuted : exists x, reach 2 false x /\ s_raced x = true.
Proof.
  set (j := mkJob 2 [0; 1] false).
  set (x0 := set_avail init 1).
  set (x1 := emit (set_pc (set_job x0 0 j) 0 (PSet 1 2)) (EvBegin 0 (mkTask 0 2 1))).
  set (x2 := set_pc (set_flag x1 0 1 true) 0 (PSet 2 2)).
  set (x3 := set_wk x2 1 (WPoll 0)).
  set (x4 := set_wk x3 1 (WRun 0 (calls 2 (s_job x3 0%nat) 1))).
  eexists. split.
  - eapply r_step; [|right; eapply (st_intrude 2 false x4 0 1); [reflexivity|reflexivity|discriminate]].
    eapply r_step; [|left; apply st_poll_yes; [lia|reflexivity|reflexivity]].
    eapply r_step; [|left; apply st_gate; [lia|reflexivity|reflexivity]].
    eapply r_step; [|left; apply (st_set 2 x1 0 1 2); [reflexivity|lia]].
    eapply r_step; [|right; apply (st_begin 2 false x0 0 (mkTask 0 2 1) j 2); [reflexivity|reflexivity|reflexivity]].
    eapply r_step; [apply r_init|right; apply st_avail].
  - reflexivity.
Qed.
Theorem C27_exclusive_slots_no_race : forall tc x, reach tc true x -> s_raced x = false.
Proof.
  intros tc x H. induction H as [|x y H IH [HA|HU]]; [reflexivity|destruct HA; exact IH|].
  destruct HU; try exact IH. discriminate.
Qed.
(** A run of three threads over seven tiles, with one worker overtaking the others. *)
Example C27_plan_case : exists j, push_plan 3 1 0 (mkTask 10 24 2) = ROk (Parallel j 3)
  /\ map (calls 3 j) (seq 0 3) = [[10; 16; 22]; [12; 18]; [14; 20]].
Proof. eexists. split; reflexivity. Qed.
Example C27_run_case : exists x, reach 2 true x
  /\ s_trace x = [EvBegin 0 (mkTask 0 2 1); EvCall 0 1; EvCall 0 0; EvEnd 0].
Proof.
  set (j := mkJob 2 [0; 1] false).
  set (x0 := set_avail init 1).
  set (x1 := emit (set_pc (set_job x0 0 j) 0 (PSet 1 2)) (EvBegin 0 (mkTask 0 2 1))).
  set (x2 := set_pc (set_flag x1 0 1 true) 0 (PSet 2 2)).
  set (x3 := set_wk x2 1 (WPoll 0)).
  set (x4 := set_wk x3 1 (WRun 0 (calls 2 (s_job x3 0%nat) 1))).
  set (x5 := emit (set_wk x4 1 (WRun 0 [])) (EvCall 0 1)).
  set (x6 := set_wk x5 1 (WClear 0)).
  set (x7 := set_flag (set_wk x6 1 (next_slot 0)) 0 1 false).
  set (x8 := set_pc x7 0 (PRun (calls 2 (s_job x7 0%nat) 0) 2)).
  set (x9 := emit (set_pc x8 0 (PRun [] 2)) (EvCall 0 0)).
  set (x10 := set_pc x9 0 (PWait 1 2)).
  set (x11 := set_pc x10 0 (PWait 2 2)).
  exists (emit (set_pc x11 0 PIdle) (EvEnd 0)). split; [|reflexivity].
  eapply r_step; [|left; apply (st_end 2 x11 0 2 2); [reflexivity|lia]].
  eapply r_step; [|left; apply (st_wait_next 2 x10 0 1 2); [reflexivity|lia|reflexivity]].
  eapply r_step; [|left; apply (st_run_done 2 x9 0 2); reflexivity].
  eapply r_step; [|left; apply (st_run 2 x8 0 0 [] 2); reflexivity].
  eapply r_step; [|left; apply (st_set_done 2 x7 0 2 2); [reflexivity|lia]].
  eapply r_step; [|left; apply (st_clear 2 x6 1 0); [lia|reflexivity]].
  eapply r_step; [|left; apply (st_work_done 2 x5 1 0); [lia|reflexivity]].
  eapply r_step; [|left; apply (st_work 2 x4 1 0 1 []); [lia|reflexivity]].
  eapply r_step; [|left; apply (st_poll_yes 2 x3 1 0); [lia|reflexivity|reflexivity]].
  eapply r_step; [|left; apply (st_gate 2 x2 1); [lia|reflexivity|reflexivity]].
  eapply r_step; [|left; apply (st_set 2 x1 0 1 2); [reflexivity|lia]].
  eapply r_step; [|right; apply (st_begin 2 true x0 0 (mkTask 0 2 1) j 2); [reflexivity|reflexivity|reflexivity]].
  eapply r_step; [apply r_init|right; apply st_avail].
Qed.

(** ** C44: a loop can always finish *)
(** In every reachable state of an active pool, whatever the workers are doing, the
    threads can go on by themselves until the loop on slot [s] has returned: there is no
    deadlock. *)
Theorem C44_no_deadlock_partial : forall tc x s, reach tc true x -> 0 < s_avail x ->
  exists y, acts tc x y /\ s_pc y s = PIdle.
Proof. intros tc x s H Ha. apply (completes tc true); assumption. Qed.
(** The pool put to rest (idle) while a loop is being started, with a worker still in
    front of its work: whatever the threads do, the loop does not return until somebody
    wakes the pool up. *)
Theorem C44_idle_blocks_refuted : forall tc x s t w, reach tc true x ->
  s_pc x s = PSet 1 w -> (1 <= t < w)%nat -> s_wk x t = WGate ->
  reach tc true (set_avail x 0) /\ forall y, acts tc (set_avail x 0) y -> s_pc y s <> PIdle.
Proof.
  intros tc x s t w H E Ht W. split.
  - eapply r_step; [exact H|right; apply st_avail].
  - intros y HA. eapply Stuck_acts; [|exact HA]. split; [cbn; lia|]. split; [exact W|]. cbn. rewrite E. split; [exact Ht|]. left. lia.
Qed.
Example C44_idle_case : exists x, reach 4 true x /\ s_pc x 0%nat = PSet 1 4 /\ s_wk x 2%nat = WGate.
Proof.
  eexists. split; [|split].
  - eapply r_step; [eapply r_step; [apply r_init|right; apply (st_avail 4 true init 1)]|].
    right. eapply (st_begin 4 true _ 0 (mkTask 0 64 8)); [reflexivity|reflexivity|reflexivity].
  - reflexivity.
  - reflexivity.
Qed.

(** ** C45: a task slot has one holder *)
(** In every history of acquisitions and releases (by holders), no slot is held twice,
    and held slots are valid indices. *)
Theorem C45_one_holder : forall l h, Slots l h -> NoDup h /\ forall s, In s h -> s = 0 \/ s = 1.
Proof. intros l h H. destruct (slots_inv l h H) as [a [b [_ [N I]]]]. split; [exact N|]. intros s Hs. apply I in Hs. tauto. Qed.
(** Acquiring fails (-1) exactly when both slots are held. *)
Theorem C45_fails_only_when_full : forall l h, Slots l h -> (fst (acquire l) < 0 <-> In 0 h /\ In 1 h).
Proof.
  intros l h H. destruct (slots_inv l h H) as [a [b [-> [N I]]]]. rewrite !I.
  destruct a, b; cbn [acquire first_free fst snd]; intuition (congruence || lia).
Qed.
Print Assumptions C27_exactly_once_partial.
Print Assumptions C27_quiet_after_return.
Print Assumptions C27_plan.
Print Assumptions C27_plan_exists.
Print Assumptions C27_uneven_step_refuted.
Print Assumptions C27_no_threads_refuted.
Print Assumptions C27_counting_down_refuted.
Print Assumptions C27_shared_slot_refuted.
Print Assumptions C27_exclusive_slots_no_race.
Print Assumptions C44_no_deadlock_partial.
Print Assumptions C44_idle_blocks_refuted.
Print Assumptions C45_one_holder.
Print Assumptions C45_fails_only_when_full.
