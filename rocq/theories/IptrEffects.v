(** What the operations on handles do. *)
From Verif Require Import Base IptrModel IptrSpec IptrProofs.
Local Open Scope Z_scope.

Lemma alone_trans : forall t a b c, alone t a b -> alone t b c -> alone t a c.
Proof. intros t a b c H K. induction K as [|b1 b2 _ IH St]; [exact H|]. exact (al_step t a b1 b2 IH St). Qed.
Lemma alone_one : forall t a b, pstep false t a b -> alone t a b.
Proof. intros t a b H. exact (al_step t a a b (al_here t a) H). Qed.
Lemma alone_run : forall n m t a b, prun false n m a -> alone t a b -> prun false n m b.
Proof. intros n m t a b H K. induction K as [|b1 b2 _ IH St]; [exact H|]. exact (pr_step false n m b1 t b2 IH St). Qed.

Lemma thr_self : forall s t x y, nth_error (p_thr s) t = Some x -> nth_error (lset t y (p_thr s)) t = Some y.
Proof. intros s t x y H. rewrite nth_lset, Nat.eqb_refl, H. reflexivity. Qed.
Lemma quiet_set : forall l (t : nat) x, (forall t' y, t' <> t -> nth_error l t' = Some y -> y = TIdle) ->
  nth_error l t = Some x -> forall t' y, nth_error (lset t TIdle l) t' = Some y -> y = TIdle.
Proof.
  intros l t x O X t' y H. rewrite nth_lset in H. destruct (t' =? t)%nat eqn:Q.
  - rewrite X in H. congruence.
  - apply Nat.eqb_neq in Q. exact (O _ _ Q H).
Qed.
Definition still (t : nat) (s : pst) : Prop := forall t' y, t' <> t -> nth_error (p_thr s) t' = Some y -> y = TIdle.
Lemma still_set : forall t s s' y, still t s -> p_thr s' = lset t y (p_thr s) -> still t s'.
Proof.
  intros t s s' y H E t' z N K. rewrite E, nth_lset in K. apply Nat.eqb_neq in N. rewrite N in K. apply Nat.eqb_neq in N. exact (H _ _ N K).
Qed.

(** The destructor runs to its end. *)
Lemma finish_drop : forall s t q, still t s -> nth_error (p_thr s) t = Some (dropping q) ->
  exists s', alone t s s' /\ quiet s' /\ p_cell s' = p_cell s.
Proof.
  intros s t [o|] O X; cbn [dropping] in X.
  - assert (S1 := p_sub false t s o X). 
    destruct (p_cnt s o =? 1) eqn:E.
    + assert (X2 := thr_self s t _ (TDeleting o) X).
      eexists. split; [eapply al_step; [apply (alone_one _ _ _ S1)|]|split].
      * apply (p_delete false t _ o). exact X2.
      * intros t' y. refine (quiet_set (lset t (TDeleting o) (p_thr s)) t _ _ X2 t' y).
        intros t'' y' N. rewrite nth_lset. apply Nat.eqb_neq in N. rewrite N. apply Nat.eqb_neq in N. exact (O t'' y' N).
      * reflexivity.
    + eexists. split; [apply (alone_one _ _ _ S1)|split]; [|reflexivity].
      intros t' y. exact (quiet_set (p_thr s) t _ O X t' y).
  - exists s. split; [apply al_here|]. split; [|reflexivity]. intros t' y H. destruct (Nat.eq_dec t' t) as [->|N]; [congruence|exact (O _ _ N H)].
Qed.
(** swap( *this) and the end of the temporary. *)
Lemma finish_assign : forall s t p h q, still t s -> nth_error (p_thr s) t = Some (THolding p (GAssign h)) -> get s h = Some q ->
  exists s', alone t s s' /\ quiet s' /\ p_cell s' = lset h (of_ptr p) (p_cell s).
Proof.
  intros s t p h q O X G. assert (S1 := p_swapped false t s p h q X G).
  destruct (finish_drop (set_thr t (dropping q) (set_cell h (of_ptr p) s)) t q) as [s' [A [Q E]]].
  - refine (still_set t s _ _ O _); reflexivity.
  - exact (thr_self s t _ _ X).
  - exists s'. split; [exact (alone_trans _ _ _ _ (alone_one _ _ _ S1) A)|]. split; [exact Q|exact E].
Qed.
Lemma finish_build : forall s t p g k, still t s -> nth_error (p_thr s) t = Some (building p g k) ->
  exists s', alone t s s' /\ still t s' /\ nth_error (p_thr s') t = Some (THolding p k) /\ p_cell s' = p_cell s.
Proof.
  intros s t [o|] g k O X; cbn [building] in X.
  - exists (set_thr t (THolding (Some o) k) (fetch o 1 s)). split; [apply alone_one, (p_add false t s o (Some g) k X)|].
    split; [refine (still_set t s _ _ O _); reflexivity|]. split; [exact (thr_self s t _ _ X)|reflexivity].
  - exists s. split; [apply al_here|]. split; [exact O|]. split; [exact X|reflexivity].
Qed.

Lemma quiet_unused : forall s h, quiet s -> unused s h.
Proof. intros s h Q t x H. rewrite (Q _ _ H). split; intros []. Qed.
Lemma quiet_readable : forall s h, quiet s -> readable s h.
Proof. intros s h Q t x H. rewrite (Q _ _ H). intros []. Qed.
Lemma quiet_still : forall s t, quiet s -> still t s.
Proof. intros s t Q t' y _ H. exact (Q _ _ H). Qed.
Lemma pointee_get : forall s h, pointee s h = get s h.
Proof. reflexivity. Qed.
Lemma get_lset : forall s s' h p q, nth_error (p_cell s) h = Some q -> p_cell s' = lset h (of_ptr p) (p_cell s) ->
  forall i, get s' i = if (i =? h)%nat then Some p else get s i.
Proof.
  intros s s' h p q H E i. unfold get, cell_of. rewrite E, nth_lset. destruct (i =? h)%nat; [|reflexivity].
  rewrite H. destruct p; reflexivity.
Qed.
Lemma idle_of : forall s t, quiet s -> (t < length (p_thr s))%nat -> nth_error (p_thr s) t = Some TIdle.
Proof.
  intros s t Q L. destruct (nth_error (p_thr s) t) as [x|] eqn:E; [rewrite (Q _ _ E); reflexivity|]. apply nth_error_None in E. lia.
Qed.

Lemma copy_assign_effect : forall s t h g q p, quiet s -> (t < length (p_thr s))%nat -> get s h = Some q -> get s g = Some p ->
  exists s0 s', pstep false t s s0 /\ p_thr s0 = lset t (building p g (GAssign h)) (p_thr s) /\ alone t s0 s' /\ quiet s' /\
    forall i, get s' i = if (i =? h)%nat then Some p else get s i.
Proof.
  intros s t h g q p Q L H G. assert (X := idle_of s t Q L).
  exists (set_thr t (building p g (GAssign h)) s).
  destruct (finish_build (set_thr t (building p g (GAssign h)) s) t p g (GAssign h)) as [s1 [A1 [O1 [X1 E1]]]].
  { refine (still_set t s _ _ (quiet_still s t Q) _); reflexivity. } { exact (thr_self s t _ _ X). }
  destruct (finish_assign s1 t p h q O1 X1) as [s2 [A2 [Q2 E2]]].
  { unfold get, cell_of. rewrite E1. exact H. }
  exists s2. split; [exact (p_copy_assign false t s h q g p X (quiet_unused s h Q) H (quiet_readable s g Q) G)|].
  split; [reflexivity|]. split; [exact (alone_trans _ _ _ _ A1 A2)|]. split; [exact Q2|].
  rewrite E1 in E2. exact (get_lset s s2 h p _ (get_cell _ _ _ H) E2).
Qed.
Lemma move_assign_effect : forall s t h g q p, quiet s -> (t < length (p_thr s))%nat -> get s h = Some q -> get s g = Some p ->
  exists s0 s', pstep false t s s0 /\ p_thr s0 = lset t (THolding p (GAssign h)) (p_thr s) /\ alone t s0 s' /\ quiet s' /\
    forall i, get s' i = if (i =? h)%nat then Some p else if (i =? g)%nat then Some None else get s i.
Proof.
  intros s t h g q p Q L H G. assert (X := idle_of s t Q L).
  set (s0 := set_thr t (THolding p (GAssign h)) (set_cell g HNull s)). exists s0.
  assert (G0 : forall i, get s0 i = if (i =? g)%nat then Some None else get s i).
  { exact (get_lset s s0 g None _ (get_cell _ _ _ G) eq_refl). }
  assert (H0 : exists q0, get s0 h = Some q0) by (rewrite G0; destruct (h =? g)%nat; eexists; [reflexivity|exact H]).
  destruct H0 as [q0 H0].
  destruct (finish_assign s0 t p h q0) as [s2 [A2 [Q2 E2]]]; [refine (still_set t s _ _ (quiet_still s t Q) _); reflexivity|exact (thr_self s t _ _ X)|exact H0|].
  exists s2. split; [exact (p_move_assign false t s h q g p X (quiet_unused s h Q) H (quiet_unused s g Q) G)|].
  split; [reflexivity|]. split; [exact A2|]. split; [exact Q2|].
  intros i. rewrite (get_lset s0 s2 h p _ (get_cell _ _ _ H0) E2), G0. reflexivity.
Qed.
Lemma copy_effect : forall s t h g p, quiet s -> (t < length (p_thr s))%nat -> nth_error (p_cell s) h = Some HDead -> get s g = Some p ->
  exists s0 s', pstep false t s s0 /\ p_thr s0 = lset t (building p g (GCtor h)) (p_thr s) /\ alone t s0 s' /\ quiet s' /\
    forall i, get s' i = if (i =? h)%nat then Some p else get s i.
Proof.
  intros s t h g p Q L H G. assert (X := idle_of s t Q L).
  exists (set_thr t (building p g (GCtor h)) s).
  destruct (finish_build (set_thr t (building p g (GCtor h)) s) t p g (GCtor h)) as [s1 [A1 [O1 [X1 E1]]]].
  { refine (still_set t s _ _ (quiet_still s t Q) _); reflexivity. } { exact (thr_self s t _ _ X). }
  assert (S1 := p_done false t s1 p h X1).
  eexists. split; [exact (p_copy false t s h g p X (quiet_unused s h Q) H (quiet_readable s g Q) G)|].
  split; [reflexivity|]. split; [exact (al_step _ _ _ _ A1 S1)|]. split.
  - intros t' y. exact (quiet_set (p_thr s1) t _ O1 X1 t' y).
  - apply (get_lset s _ h p _ H). cbn. rewrite E1. reflexivity.
Qed.
