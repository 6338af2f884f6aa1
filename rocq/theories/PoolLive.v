(** The thread pool: progress, and the states without it. *)
From Verif Require Import Base DTypeModel PoolModel PoolSpec PoolProofs.
Local Open Scope Z_scope.

Lemma acts_trans : forall tc x y z, acts tc x y -> acts tc y z -> acts tc x z.
Proof. intros tc x y z H. induction H; intros; [assumption|]. econstructor; [eassumption|auto]. Qed.
Lemma acts_one : forall tc x y, act tc x y -> acts tc x y.
Proof. intros. econstructor; [eassumption|constructor]. Qed.

(** Only workers moved. *)
Definition Fr (x y : st) : Prop :=
  s_avail y = s_avail x /\ (forall s, s_pc y s = s_pc x s) /\ (forall s, s_job y s = s_job x s)
  /\ (forall s t, s_flag y s t = true -> s_flag x s t = true).
Lemma Fr_refl : forall x, Fr x x.
Proof. intros x. repeat split; auto. Qed.
Lemma Fr_trans : forall x y z, Fr x y -> Fr y z -> Fr x z.
Proof.
  intros x y z [A [B [C D]]] [A' [B' [C' D']]]. split; [congruence|]. split; [intros; rewrite B'; apply B|].
  split; [intros; rewrite C'; apply C|auto].
Qed.
Section Live.
Variable tc : nat.

Lemma drive_run : forall t s r x, (1 <= t < tc)%nat -> s_wk x t = WRun s r ->
  exists y, acts tc x y /\ Fr x y /\ s_wk y t = next_slot s /\ s_flag y s t = false
    /\ (forall s', s' <> s -> s_flag y s' t = s_flag x s' t).
Proof.
  intros t s r. induction r as [|i r IH]; intros x T E.
  - set (x1 := set_wk x t (WClear s)). set (x2 := set_flag (set_wk x1 t (next_slot s)) s t false).
    exists x2. split; [|split; [|split; [|split]]].
    + eapply as_cons; [apply st_work_done; eassumption|]. apply acts_one. apply st_clear; [exact T|]. apply upd_same.
    + split; [reflexivity|]. split; [reflexivity|]. split; [reflexivity|]. intros s' t'. unfold x2, x1. cbn. unfold upd2.
      destruct (_ && _); [discriminate|auto].
    + unfold x2. cbn. apply upd_same.
    + unfold x2. cbn. unfold upd2. rewrite !Nat.eqb_refl. reflexivity.
    + intros s' N. unfold x2. cbn. unfold upd2. apply Nat.eqb_neq in N. rewrite N. reflexivity.
  - set (x1 := emit (set_wk x t (WRun s r)) (EvCall s i)).
    destruct (IH x1 T) as [y [A [[F1 [F2 [F3 F4]]] [B C]]]]; [unfold x1; cbn; apply upd_same|].
    exists y. split; [eapply as_cons; [apply st_work; eassumption|exact A]|]. split; [|split; [exact B|exact C]].
    split; [exact F1|]. split; [exact F2|]. split; [exact F3|exact F4].
Qed.
(** One look at the flag of slot s. *)
Lemma drive_poll : forall t s x, (1 <= t < tc)%nat -> s_wk x t = WPoll s ->
  exists y, acts tc x y /\ Fr x y /\ s_wk y t = next_slot s /\ s_flag y s t = false
    /\ (forall s', s' <> s -> s_flag y s' t = s_flag x s' t).
Proof.
  intros t s x T E. destruct (s_flag x s t) eqn:F.
  - set (x1 := set_wk x t (WRun s (calls tc (s_job x s) t))).
    destruct (drive_run t s (calls tc (s_job x s) t) x1 T) as [y [A [Fy [B C]]]]; [unfold x1; cbn; apply upd_same|].
    exists y. split; [eapply as_cons; [apply st_poll_yes; eassumption|exact A]|]. split; [exact Fy|]. split; [exact B|exact C].
  - exists (set_wk x t (next_slot s)). split; [apply acts_one; apply st_poll_no; assumption|].
    split; [repeat split; auto|]. split; [cbn; apply upd_same|]. split; [exact F|reflexivity].
Qed.
(** A worker gets back to the gate. *)
Lemma drive_next : forall t s x, (1 <= t < tc)%nat -> s_wk x t = next_slot s ->
  exists y, acts tc x y /\ Fr x y /\ s_wk y t = WGate.
Proof.
  intros t s x T E. destruct s as [|s].
  - change (next_slot 0) with (WPoll 1) in E. destruct (drive_poll t 1 x T E) as [y [A [F [B _]]]].
    exists y. split; [exact A|]. split; [exact F|]. exact B.
  - exists x. split; [constructor|]. split; [apply Fr_refl|]. rewrite E. unfold next_slot.
    replace (S (S s) <? Z.to_nat TASK_LIMITS)%nat with false; [reflexivity|]. symmetry. apply Nat.ltb_ge. change (Z.to_nat TASK_LIMITS) with 2%nat. lia.
Qed.
Lemma drive_gate : forall t x, (1 <= t < tc)%nat -> exists y, acts tc x y /\ Fr x y /\ s_wk y t = WGate.
Proof.
  intros t x T. destruct (s_wk x t) as [|s|s r|s] eqn:E.
  - exists x. split; [constructor|]. split; [apply Fr_refl|exact E].
  - destruct (drive_poll t s x T E) as [y [A [F [B _]]]]. destruct (drive_next t s y T B) as [z [A' [F' B']]].
    exists z. split; [eapply acts_trans; eassumption|]. split; [eapply Fr_trans; eassumption|exact B'].
  - destruct (drive_run t s r x T E) as [y [A [F [B _]]]]. destruct (drive_next t s y T B) as [z [A' [F' B']]].
    exists z. split; [eapply acts_trans; eassumption|]. split; [eapply Fr_trans; eassumption|exact B'].
  - set (y := set_flag (set_wk x t (next_slot s)) s t false).
    assert (A : act tc x y) by (apply st_clear; assumption).
    destruct (drive_next t s y T) as [z [A' [F' B']]]; [unfold y; cbn; apply upd_same|].
    exists z. split; [eapply as_cons; eassumption|]. split; [|exact B']. eapply Fr_trans; [|exact F'].
    split; [reflexivity|]. split; [reflexivity|]. split; [reflexivity|]. intros s' t'. unfold y. cbn. unfold upd2.
    destruct (_ && _); [discriminate|auto].
Qed.
(** A worker with work in slot s gets it done. *)
Lemma drive_work : forall t s x, (1 <= t < tc)%nat -> (s < 2)%nat -> 0 < s_avail x ->
  exists y, acts tc x y /\ Fr x y /\ s_flag y s t = false.
Proof.
  intros t s x T Hs Ha. destruct (drive_gate t x T) as [x1 [A1 [F1 G1]]].
  set (x2 := set_wk x1 t (WPoll 0)).
  assert (A2 : act tc x1 x2) by (apply st_gate; [exact T|exact G1|destruct F1 as [-> _]; exact Ha]).
  assert (F2 : Fr x1 x2) by (repeat split; auto).
  destruct (drive_poll t 0 x2 T) as [x3 [A3 [F3 [W3 [Z3 _]]]]]; [unfold x2; cbn; apply upd_same|].
  destruct s as [|[|s]]; [|clear Z3|lia].
  - exists x3. split; [eapply acts_trans; [exact A1|]; eapply as_cons; eassumption|]. split; [exact (Fr_trans _ _ _ F1 (Fr_trans _ _ _ F2 F3))|exact Z3].
  - destruct (drive_poll t 1 x3 T W3) as [x4 [A4 [F4 [_ [Z4 _]]]]]. exists x4.
    split; [eapply acts_trans; [exact A1|]; eapply as_cons; [exact A2|]; eapply acts_trans; eassumption|].
    split; [exact (Fr_trans _ _ _ F1 (Fr_trans _ _ _ F2 (Fr_trans _ _ _ F3 F4)))|exact Z4].
Qed.
Lemma drive_all : forall s n x, (s < 2)%nat -> (n < Nat.max 1 tc)%nat -> 0 < s_avail x ->
  exists y, acts tc x y /\ Fr x y /\ forall t, (1 <= t <= n)%nat -> s_flag y s t = false.
Proof.
  intros s n. induction n as [|n IH]; intros x Hs Hn Ha.
  - exists x. split; [constructor|]. split; [apply Fr_refl|]. intros t Ht. lia.
  - destruct (IH x Hs) as [y [A [F Z]]]; [lia|exact Ha|].
    destruct (drive_work (S n) s y) as [z [A' [F' Z']]]; [lia|exact Hs|destruct F as [-> _]; exact Ha|].
    exists z. split; [eapply acts_trans; eassumption|]. split; [eapply Fr_trans; eassumption|].
    intros t Ht. destruct (Nat.eq_dec t (S n)) as [->|N]; [exact Z'|].
    destruct (s_flag z s t) eqn:E; [|reflexivity]. apply F' in E. rewrite Z in E by lia. discriminate.
Qed.
(** The caller gets to its waiting loop. *)
Lemma caller_run : forall s w r x, s_pc x s = PRun r w ->
  exists y, acts tc x y /\ s_avail y = s_avail x /\ s_pc y s = PWait 1 w /\ (forall t, s_flag y s t = s_flag x s t).
Proof.
  intros s w r. induction r as [|i r IH]; intros x E.
  - exists (set_pc x s (PWait 1 w)). split; [apply acts_one; apply st_run_done; exact E|]. cbn. rewrite upd_same. auto.
  - destruct (IH (emit (set_pc x s (PRun r w)) (EvCall s i))) as [y [A [B C]]]; [cbn; apply upd_same|].
    exists y. split; [eapply as_cons; [apply st_run; exact E|exact A]|]. split; [exact B|exact C].
Qed.
Lemma caller_set : forall k s i w x, s_pc x s = PSet i w -> (w - i <= k)%nat ->
  exists y, acts tc x y /\ s_avail y = s_avail x /\ s_pc y s = PWait 1 w
    /\ (forall t, s_flag y s t = true -> s_flag x s t = true \/ (i <= t < w)%nat).
Proof.
  intros k s. induction k as [|k IH]; intros i w x E H.
  - set (x1 := set_pc x s (PRun (calls tc (s_job x s) 0) w)).
    destruct (caller_run s w _ x1 (upd_same _ _ _ _)) as [y [A [B [C D]]]].
    exists y. split; [eapply as_cons; [apply (st_set_done tc x s i w E); lia|exact A]|]. split; [exact B|]. split; [exact C|].
    intros t Ht. rewrite D in Ht. left. exact Ht.
  - destruct (Nat.lt_ge_cases i w) as [L|L].
    + set (x1 := set_pc (set_flag x s i true) s (PSet (S i) w)).
      destruct (IH (S i) w x1) as [y [A [B [C D]]]]; [unfold x1; cbn; apply upd_same|lia|].
      exists y. split; [eapply as_cons; [apply (st_set tc x s i w E L)|exact A]|]. split; [exact B|]. split; [exact C|].
      intros t Ht. apply D in Ht. destruct Ht as [Ht|Ht]; [|right; lia]. unfold x1 in Ht. cbn in Ht. unfold upd2 in Ht.
      rewrite Nat.eqb_refl in Ht. cbn [andb] in Ht. destruct (t =? i)%nat eqn:Q; [apply Nat.eqb_eq in Q; right; lia|left; exact Ht].
    + destruct (IH i w x E) as [y H']; [lia|]. exists y. exact H'.
Qed.
Lemma caller_wait : forall k s i w x, s_pc x s = PWait i w -> (w - i <= k)%nat ->
  (forall t, (i <= t < w)%nat -> s_flag x s t = false) -> exists y, acts tc x y /\ s_pc y s = PIdle.
Proof.
  intros k s. induction k as [|k IH]; intros i w x E H F.
  - eexists. split; [apply acts_one; apply (st_end tc x s i w E); lia|]. cbn. apply upd_same.
  - destruct (Nat.lt_ge_cases i w) as [L|L]; [|apply (IH i w x E); [lia|exact F]].
    destruct (IH (S i) w (set_pc x s (PWait (S i) w))) as [y [A B]]; [cbn; apply upd_same|lia|intros t Ht; cbn; apply F; lia|].
    exists y. split; [eapply as_cons; [apply (st_wait_next tc x s i w E L); apply F; lia|exact A]|exact B].
Qed.
Lemma caller_back : forall s i w x, s_pc x s = PWait i w -> exists y, acts tc x y /\ s_avail y = s_avail x
  /\ (forall t, s_flag y s t = s_flag x s t) /\ exists i', s_pc y s = PWait i' w.
Proof. intros s i w x E. exists x. split; [constructor|]. eauto. Qed.
(** Slots used in parallel exist. *)
Definition small (x : st) : Prop := forall s, (2 <= s)%nat ->
  match s_pc x s with PIdle => True | PSet _ _ => False | PRun _ w => w = 1%nat | PWait _ w => w = 1%nat end.
Lemma small_reach : forall ex x, reach tc ex x -> small x.
Proof.
  intros ex x H. induction H as [|x y H IH ST]; [intros s _; exact I|]. intros s0 Hs. specialize (IH s0 Hs).
  destruct ST as [HA|HU].
  - destruct HA as [x s i w E L|x s i w E L|x s i r w E|x s w E|x s i w E L F|x s i w E L F|x s i w E L
    |x t T E A|x t s T E F|x t s T E F|x t s i r T E|x t s T E|x t s T E]; cbn; try exact IH;
    (destruct (Nat.eq_dec s0 s) as [->|N]; [rewrite upd_same; rewrite E in IH; try exact IH; try exact I; destruct IH|rewrite upd_other by exact N; exact IH]).
  - destruct HU as [x s tk l E P Q|x s tk j w E P Q|x a|x s t r EX W P]; cbn; try exact IH;
    (destruct (Nat.eq_dec s0 s) as [->|N]; [rewrite upd_same|rewrite upd_other by exact N; exact IH]); [reflexivity|].
    unfold push_plan in Q. cbv zeta in Q. replace (t_step tk =? 0) with false in Q by lia.
    assert (SP : forall A : Prop, serial_plan tk = ROk (Parallel j w) -> A).
    { intros A. unfold serial_plan. destruct (_ && _); discriminate. }
    destruct (_ || _); [apply (SP _ Q)|]. destruct (s_avail x =? 0); [apply (SP _ Q)|].
    replace (TASK_LIMITS <=? Z.of_nat s) with true in Q by (unfold TASK_LIMITS; lia). discriminate.
Qed.
Theorem completes : forall ex x s, reach tc ex x -> 0 < s_avail x -> exists y, acts tc x y /\ s_pc y s = PIdle.
Proof.
  intros ex x s HR Ha. pose proof (reach_Inv tc ex x HR s) as [o [_ SL]]. pose proof (small_reach ex x HR s) as SM.
  assert (W : forall y w, s_avail y = s_avail x -> (exists i, s_pc y s = PWait i w) -> (w <= Nat.max 1 tc)%nat ->
    ((2 <= s)%nat -> w = 1%nat) -> exists z, acts tc y z /\ s_pc z s = PIdle).
  { intros y w Hy [i Hp] Hw Hs. destruct (Nat.lt_ge_cases s 2) as [L|L].
    - destruct (drive_all s (w - 1) y L) as [z [A [[F1 [F2 [F3 F4]]] Z]]]; [lia|lia|].
      assert (E : s_pc z s = PWait i w) by (rewrite F2; exact Hp).
      destruct (Nat.eq_dec i 0) as [->|Ni].
      + destruct (s_flag z s 0%nat) eqn:E0.
        * destruct w as [|w].
          { eexists. split; [eapply acts_trans; [exact A|]; apply acts_one; apply (st_end tc z s 0 0 E); lia|]. cbn. apply upd_same. }
          destruct (caller_wait (S w) s 1 (S w) (set_pc z s (PWait 1 (S w)))) as [v [A' B']]; [cbn; apply upd_same|lia|intros t Ht; cbn; apply Z; lia|].
          exists v. split; [|exact B']. eapply acts_trans; [exact A|]. eapply as_cons; [|exact A'].
          apply (st_wait_busy tc z s 0 (S w) E); [lia|exact E0].
        * destruct (caller_wait w s 0 w z E) as [v [A' B']]; [lia| |exists v; split; [eapply acts_trans; eassumption|exact B']].
          intros t Ht. destruct t; [exact E0|apply Z; lia].
      + destruct (caller_wait w s i w z E) as [v [A' B']]; [lia|intros t Ht; apply Z; lia|].
        exists v. split; [eapply acts_trans; eassumption|exact B'].
    - specialize (Hs L). subst w. destruct (Nat.eq_dec i 0) as [->|Ni].
      + destruct (s_flag y s 0%nat) eqn:E0.
        * destruct (caller_wait 1 s 1 1 (set_pc y s (PWait 1 1))) as [v [A' B']]; [cbn; apply upd_same|lia|intros t Ht; lia|].
          exists v. split; [|exact B']. eapply as_cons; [|exact A']. apply (st_wait_busy tc y s 0 1 Hp); [lia|exact E0].
        * apply (caller_wait 1 s 0 1 y Hp); [lia|]. intros t Ht. replace t with 0%nat by lia. exact E0.
      + apply (caller_wait 1 s i 1 y Hp); [lia|]. intros t Ht. lia. }
  destruct (s_pc x s) as [|i w|r w|i w] eqn:E.
  - exists x. split; [constructor|exact E].
  - destruct SL as [_ [tk [log [_ [_ [_ [D _]]]]]]]. cbn [width] in D.
    destruct (caller_set (w - i) s i w x E) as [y [A [B [C _]]]]; [lia|].
    destruct (W y w B) as [z [A' B']]; [eauto|lia|intros L; destruct (SM L)|].
    exists z. split; [eapply acts_trans; eassumption|exact B'].
  - destruct SL as [_ [tk [log [_ [_ [_ [D _]]]]]]]. cbn [width] in D.
    destruct (caller_run s w r x E) as [y [A [B [C _]]]].
    destruct (W y w B) as [z [A' B']]; [eauto|lia|exact SM|].
    exists z. split; [eapply acts_trans; eassumption|exact B'].
  - destruct SL as [_ [tk [log [_ [_ [_ [D _]]]]]]]. cbn [width] in D.
    apply (W x w eq_refl); [eauto|lia|exact SM].
Qed.
(** ** A pool that is put to rest during a loop *)
Definition Stuck (s t : nat) (x : st) : Prop :=
  s_avail x <= 0 /\ s_wk x t = WGate /\
  match s_pc x s with
  | PIdle => False
  | PSet i w => (1 <= t < w)%nat /\ ((i <= t)%nat \/ s_flag x s t = true)
  | PRun _ w => (1 <= t < w)%nat /\ s_flag x s t = true
  | PWait i w => (i <= t < w)%nat /\ (1 <= t)%nat /\ s_flag x s t = true
  end.
Lemma Stuck_act : forall s t x y, Stuck s t x -> act tc x y -> Stuck s t y.
Proof.
  intros s t x y [Ha [Hw Hp]] HA.
  destruct HA as [x s1 i w E L|x s1 i w E L|x s1 i r w E|x s1 w E|x s1 i w E L F|x s1 i w E L F|x s1 i w E L
    |x u T E A|x u s1 T E F|x u s1 T E F|x u s1 i r T E|x u s1 T E|x u s1 T E]; cbn;
    (split; [exact Ha|]); cbn.
  - split; [exact Hw|]. destruct (Nat.eq_dec s s1) as [<-|N].
    + rewrite upd_same. rewrite E in Hp. destruct Hp as [H1 H2]. split; [exact H1|]. unfold upd2. rewrite Nat.eqb_refl. cbn [andb].
      destruct (t =? i)%nat eqn:Q; [right; reflexivity|]. apply Nat.eqb_neq in Q. destruct H2 as [H2|H2]; [left; lia|right; exact H2].
    + rewrite upd_other by exact N. unfold upd2. apply Nat.eqb_neq in N. rewrite N. exact Hp.
  - split; [exact Hw|]. destruct (Nat.eq_dec s s1) as [<-|N]; [|rewrite upd_other by exact N; exact Hp].
    rewrite upd_same. rewrite E in Hp. destruct Hp as [H1 [H2|H2]]; [lia|]. auto.
  - split; [exact Hw|]. destruct (Nat.eq_dec s s1) as [<-|N]; [|rewrite upd_other by exact N; exact Hp].
    rewrite upd_same. rewrite E in Hp. exact Hp.
  - split; [exact Hw|]. destruct (Nat.eq_dec s s1) as [<-|N]; [|rewrite upd_other by exact N; exact Hp].
    rewrite upd_same. rewrite E in Hp. destruct Hp as [H1 H2]. repeat split; try lia; try exact H2.
  - split; [exact Hw|]. destruct (Nat.eq_dec s s1) as [<-|N]; [|rewrite upd_other by exact N; exact Hp].
    rewrite upd_same. rewrite E in Hp. destruct Hp as [H1 [H2 H3]]. repeat split; try lia; try exact H3.
  - split; [exact Hw|]. destruct (Nat.eq_dec s s1) as [<-|N]; [|rewrite upd_other by exact N; exact Hp].
    rewrite upd_same. rewrite E in Hp. destruct Hp as [H1 [H2 H3]].
    assert (t <> i) by (intros ->; congruence). repeat split; try lia; try exact H3.
  - split; [exact Hw|]. destruct (Nat.eq_dec s s1) as [<-|N]; [|rewrite upd_other by exact N; exact Hp].
    rewrite E in Hp. lia.
  - lia.
  - split; [|exact Hp]. destruct (Nat.eq_dec t u) as [<-|N]; [congruence|]. rewrite upd_other by exact N. exact Hw.
  - split; [|exact Hp]. destruct (Nat.eq_dec t u) as [<-|N]; [congruence|]. rewrite upd_other by exact N. exact Hw.
  - split; [|exact Hp]. destruct (Nat.eq_dec t u) as [<-|N]; [congruence|]. rewrite upd_other by exact N. exact Hw.
  - split; [|exact Hp]. destruct (Nat.eq_dec t u) as [<-|N]; [congruence|]. rewrite upd_other by exact N. exact Hw.
  - assert (N : t <> u) by congruence. split; [rewrite upd_other by exact N; exact Hw|].
    unfold upd2. apply Nat.eqb_neq in N. rewrite N. rewrite Bool.andb_false_r. exact Hp.
Qed.
Lemma Stuck_acts : forall s t x y, Stuck s t x -> acts tc x y -> s_pc y s <> PIdle.
Proof.
  intros s t x y H HA. induction HA as [x|x y z HA _ IH].
  - destruct H as [_ [_ H]]. intros E. rewrite E in H. exact H.
  - apply IH. eapply Stuck_act; eassumption.
Qed.
End Live.

(** ** Slots *)
Inductive Slots : list bool -> list Z -> Prop :=
| sl_new : Slots slots0 []
| sl_acquire : forall l h, Slots l h -> Slots (snd (acquire l)) (if fst (acquire l) <? 0 then h else fst (acquire l) :: h)
| sl_release : forall l h1 s h2, Slots l (h1 ++ s :: h2) -> Slots (release l s) (h1 ++ h2).
Lemma slots_inv : forall l h, Slots l h -> exists a b, l = [a; b] /\ NoDup h /\ (forall s, In s h <-> (s = 0 /\ a = false) \/ (s = 1 /\ b = false)).
Proof.
  intros l h H. induction H as [|l h H IH|l h1 s h2 H IH].
  - exists true, true. split; [reflexivity|]. split; [constructor|]. intros s. split; [intros []|]. intuition discriminate.
  - destruct IH as [a [b [-> [N I]]]]. destruct a, b; cbn [acquire first_free fst snd] in *.
    + exists false, true. split; [reflexivity|]. change (0 <? 0) with false. cbv iota. split.
      * constructor; [|exact N]. rewrite I. intuition discriminate.
      * intros s. cbn [In]. rewrite I. intuition (congruence || lia).
    + exists false, false. split; [reflexivity|]. change (0 <? 0) with false. cbv iota. split.
      * constructor; [|exact N]. rewrite I. intuition discriminate.
      * intros s. cbn [In]. rewrite I. intuition (congruence || lia).
    + exists false, false. split; [reflexivity|]. change (0 + 1 <? 0) with false. cbv iota. split.
      * constructor; [|exact N]. rewrite I. intuition discriminate.
      * intros s. cbn [In]. rewrite I. intuition (congruence || lia).
    + exists false, false. split; [reflexivity|]. change (-1 <? 0) with true. cbv iota. split; [exact N|exact I].
  - destruct IH as [a [b [-> [N I]]]].
    assert (Hs : (s = 0 /\ a = false) \/ (s = 1 /\ b = false)) by (apply I; apply in_or_app; right; left; reflexivity).
    pose proof (NoDup_remove_1 _ _ _ N) as N1. pose proof (NoDup_remove_2 _ _ _ N) as N2.
    assert (I' : forall u, In u (h1 ++ h2) <-> In u (h1 ++ s :: h2) /\ u <> s).
    { intros u. rewrite !in_app_iff. cbn [In]. split.
      - intros H0. split; [tauto|]. intros ->. apply N2. apply in_or_app. exact H0.
      - intros [[H0|[H0|H0]] H1]; [tauto|congruence|tauto]. }
    destruct Hs as [[-> ->]|[-> ->]].
    + exists true, b. split; [reflexivity|]. split; [exact N1|]. intros u. rewrite I', I. intuition (congruence || lia).
    + exists a, true. split; [reflexivity|]. split; [exact N1|]. intros u. rewrite I', I. intuition (congruence || lia).
Qed.
