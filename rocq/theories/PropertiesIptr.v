(** Properties of reference-counted handles: C141, C142, C143. *)
From Verif Require Import Base IptrModel IptrSpec IptrProofs IptrEffects.
Local Open Scope Z_scope.

(** ** C141: no handle ever points to a deleted object *)
(** Any number of handles and threads, every interleaving of the operations other than the
    converting move: no deleted object is touched or deleted, and whatever a handle points
    to is alive. *)
Theorem C141_never_dangling_partial : forall n m s, prun false n m s ->
  p_bad s = false /\
  (forall h o, points s h o -> created s o /\ p_live s o = true /\ p_dels s o = O) /\
  (forall o, (p_dels s o <= 1)%nat).
Proof.
  intros n m s H. destruct (prun_inv _ _ _ H) as [B [C T]]. split; [exact B|]. split.
  - intros h o P. specialize (C o). unfold counted in C. assert (Q := zsum_ge _ (cref o) _ _ _ (cref_nonneg o) P).
    assert (R := zsum_nonneg _ (tref o) (p_thr s) (tref_nonneg o)). cbn in Q. rewrite Nat.eqb_refl in Q. cbn in Q.
    unfold prefs in C. destruct (p_live s o).
    + destruct C as [C1 [_ [_ C4]]]. exact (conj C1 (conj eq_refl C4)).
    + exfalso. lia.
  - intros o. specialize (C o). unfold counted in C. destruct (p_live s o).
    + destruct C as [_ [_ [_ ->]]]. lia.
    + destruct C as [_ [_ ->]]. destruct (o <? p_next s)%nat; lia.
Qed.
(** With the converting move it is false: one thread, two handles, one object, two
    statements; the second handle is left pointing to a deleted object. *)
Theorem C141_converting_move_refuted : exists s, prun true 2 1 s /\ quiet s /\ points s 1 0 /\ p_live s 0 = false /\
  exists s', prun true 2 1 s' /\ p_bad s' = true.
Proof.
  assert (R0 : prun true 2 1 (pinit 2 1)) by constructor.
  assert (U : forall h, unused (pinit 2 1) h) by (intros h [|[|t]] x H; cbn in H; try discriminate; injection H as <-; split; intros []).
  assert (R1 := pr_step true 2 1 _ 0%nat _ R0 (p_make true 0 (pinit 2 1) 0 eq_refl (U 0%nat) eq_refl)).
  match type of R1 with prun _ _ _ ?s => assert (R2 := pr_step true 2 1 s 0%nat _ R1 (p_add true 0 s 0 None (GCtor 0) eq_refl)) end.
  match type of R2 with prun _ _ _ ?s => assert (R3 := pr_step true 2 1 s 0%nat _ R2 (p_done true 0 s (Some 0%nat) 0 eq_refl)) end.
  match type of R3 with prun _ _ _ ?s => set (s3 := s) in * end.
  assert (U3 : forall h, unused s3 h) by (intros h [|[|t]] x H; cbn in H; try discriminate; injection H as <-; split; intros []).
  assert (R4 := pr_step true 2 1 _ 0%nat _ R3 (p_conv_move true 0 s3 1 0 (Some 0%nat) eq_refl eq_refl (U3 1%nat) eq_refl (U3 0%nat) eq_refl)).
  match type of R4 with prun _ _ _ ?s => assert (R5 := pr_step true 2 1 s 0%nat _ R4 (p_sub true 0 s 0 eq_refl)) end.
  match type of R5 with prun _ _ _ ?s => assert (R6 := pr_step true 2 1 s 0%nat _ R5 (p_delete true 0 s 0 eq_refl)) end.
  match type of R6 with prun _ _ _ ?s => set (s6 := s) in * end.
  assert (U6 : forall h, unused s6 h) by (intros h [|[|t]] x H; cbn in H; try discriminate; injection H as <-; split; intros []).
  exists s6. split; [exact R6|]. split; [intros [|[|t]] x H; cbn in H; try discriminate; injection H as <-; reflexivity|].
  split; [reflexivity|]. split; [reflexivity|].
  assert (R7 := pr_step true 2 1 _ 0%nat _ R6 (p_destroy true 0 s6 1 (Some 0%nat) eq_refl (U6 1%nat) eq_refl)).
  match type of R7 with prun _ _ _ ?s => assert (R8 := pr_step true 2 1 s 0%nat _ R7 (p_sub true 0 s 0 eq_refl)) end.
  eexists. split; [exact R8|reflexivity].
Qed.

(** ** C142: the counter, and when objects are deleted *)
Lemma owners_sum : forall s o, Z.of_nat (owners s o) = zsum (cref o) (p_cell s).
Proof.
  intros s o. unfold owners. induction (p_cell s) as [|c r IH]; [reflexivity|]. cbn [filter zsum].
  destruct c as [| |o']; cbn [cref]; try exact IH. destruct (o' =? o)%nat; cbn [length Z.b2z]; [rewrite Nat2Z.inj_succ, IH; lia|exact IH].
Qed.
Lemma quiet_sums : forall s o, quiet s -> prefs s o = Z.of_nat (owners s o) /\ pend s o = 0.
Proof.
  intros s o Q. rewrite owners_sum. unfold prefs, pend. 
  rewrite (zsum_zero _ (tref o) (p_thr s)) by (intros t x H; rewrite (Q _ _ H); reflexivity).
  rewrite (zsum_zero _ (tpend o) (p_thr s)) by (intros t x H; rewrite (Q _ _ H); reflexivity). lia.
Qed.
(** When no operation is in flight: use_count is the number of handles, an object is alive
    as long as there is one, and has been deleted exactly once when there is none. *)
Theorem C142_counts_and_lifetimes : forall n m s o, prun false n m s -> quiet s -> created s o ->
  (forall h, points s h o -> use_count s h = Some (Z.of_nat (owners s o))) /\
  (p_live s o = true <-> exists h, points s h o) /\
  p_dels s o = (if (owners s o =? 0)%nat then 1 else 0)%nat.
Proof.
  intros n m s o H Q K. destruct (prun_inv _ _ _ H) as [_ [C _]]. specialize (C o). unfold counted in C.
  destruct (quiet_sums s o Q) as [E1 E2]. rewrite E1, E2 in C.
  assert (HP : forall h, points s h o -> (0 < owners s o)%nat).
  { intros h P. assert (W := zsum_ge _ (cref o) _ _ _ (cref_nonneg o) P). rewrite <- owners_sum in W. cbn in W. rewrite Nat.eqb_refl in W. cbn in W. lia. }
  assert (PH : (0 < owners s o)%nat -> exists h, points s h o).
  { intros P. destruct (zsum_pos _ (cref o) (p_cell s) (cref_nonneg o)) as [h [c [A B]]]; [rewrite <- owners_sum; lia|].
    exists h. unfold points. rewrite A. destruct c as [| |o']; cbn in B; try lia. destruct (o' =? o)%nat eqn:W; [|cbn in B; lia].
    apply Nat.eqb_eq in W. subst. reflexivity. }
  destruct (p_live s o).
  - destruct C as [_ [C2 [C3 C4]]]. split; [|split].
    + intros h P. unfold use_count, get, cell_of. unfold points in P. rewrite P, C2. reflexivity.
    + split; [intros _; apply PH; lia|reflexivity].
    + rewrite C4. destruct (owners s o =? 0)%nat eqn:W; [lia|reflexivity].
  - destruct C as [C1 [_ C3]]. split; [|split].
    + intros h P. assert (W := HP h P). lia.
    + split; [discriminate|]. intros [h P]. assert (W := HP h P). lia.
    + rewrite C3. unfold created in K. replace (o <? p_next s)%nat with true by (symmetry; lia).
      replace (owners s o =? 0)%nat with true by (symmetry; lia). reflexivity.
Qed.
(** At any moment, with operations of other threads in flight: the counter seen through a
    handle is at least the number of handles. *)
Theorem C142_count_at_any_time : forall n m s h o, prun false n m s -> points s h o ->
  exists c, use_count s h = Some c /\ 1 <= Z.of_nat (owners s o) <= c.
Proof.
  intros n m s h o H P. destruct (prun_inv _ _ _ H) as [_ [C _]]. specialize (C o). unfold counted, prefs in C.
  assert (W := zsum_ge _ (cref o) _ _ _ (cref_nonneg o) P). cbn in W. rewrite Nat.eqb_refl in W. cbn in W.
  assert (R := zsum_nonneg _ (tref o) (p_thr s) (tref_nonneg o)).
  exists (p_cnt s o). split; [unfold use_count, get, cell_of; unfold points in P; rewrite P; reflexivity|].
  rewrite owners_sum. destruct (p_live s o); [lia|]. exfalso. lia.
Qed.
(** No operation waits for another thread: one in flight can always go on, and every step
    brings it closer to its end. *)
Theorem C142_operations_finish : forall n m s t x, prun false n m s -> nth_error (p_thr s) t = Some x -> x <> TIdle ->
  (exists s', pstep false t s s') /\
  (forall s', pstep false t s s' -> exists y, nth_error (p_thr s') t = Some y /\ (remaining y < remaining x)%nat).
Proof.
  intros n m s t x H X N. destruct (prun_inv _ _ _ H) as [_ [_ [O _]]]. specialize (O _ _ X). split.
  - destruct x as [|o src k|p [h|h]|o|o].
    + contradiction N; reflexivity.
    + eexists. exact (p_add false t s o src k X).
    + eexists. exact (p_done false t s p h X).
    + destruct O as [_ [c [E NE]]]. destruct c as [| |o'].
      * contradiction NE; reflexivity.
      * eexists. apply (p_swapped false t s p h None X). unfold get, cell_of. rewrite E. reflexivity.
      * eexists. apply (p_swapped false t s p h (Some o') X). unfold get, cell_of. rewrite E. reflexivity.
    + eexists. exact (p_sub false t s o X).
    + eexists. exact (p_delete false t s o X).
  - assert (SELF : forall y, nth_error (lset t y (p_thr s)) t = Some y) by (intros y; exact (thr_self s t _ y X)).
    intros s' St. destruct St as
    [h Y U CH|h Y U CH|h q Y U G|h g p Y U CH R G|h q g p Y U GH R G|h g p Y U CH UG G|h q g p Y U GH UG G|h q Y U G|h q g p Y U GH UG G
    |h q Y U G|h g p CV|o src k Y|p h Y|p h q Y G|o Y|o Y]; try discriminate; try (exfalso; congruence);
    (assert (E := eq_trans (eq_sym X) Y); injection E as ->; eexists; split; [exact (SELF _)|]); try (cbn; lia).
    + destruct q; cbn; lia.
    + destruct (p_cnt s o =? 1); cbn; lia.
Qed.

(** ** C143: what the operations do *)
(** With nothing else in flight, by the steps of one thread: copy construction and copy
    assignment (self-assignment included) make h point to what g pointed to and leave every
    other handle alone; move assignment in addition makes g null when it is not h. *)
Theorem C143_copy_construction : forall n m s t h g p, prun false n m s -> quiet s -> (t < length (p_thr s))%nat ->
  nth_error (p_cell s) h = Some HDead -> pointee s g = Some p ->
  exists s0 s', pstep false t s s0 /\ alone t s0 s' /\ quiet s' /\ prun false n m s' /\
    pointee s' h = Some p /\ forall i, i <> h -> pointee s' i = pointee s i.
Proof.
  intros n m s t h g p R Q L H G. destruct (copy_effect s t h g p Q L H G) as [s0 [s' [A [_ [B [C D]]]]]].
  exists s0, s'. split; [exact A|]. split; [exact B|]. split; [exact C|].
  split; [exact (alone_run _ _ _ _ _ (pr_step _ _ _ _ _ _ R A) B)|]. split.
  - rewrite pointee_get, D, Nat.eqb_refl. reflexivity.
  - intros i N. rewrite !pointee_get, D. apply Nat.eqb_neq in N. rewrite N. reflexivity.
Qed.
Theorem C143_copy_assignment : forall n m s t h g q p, prun false n m s -> quiet s -> (t < length (p_thr s))%nat ->
  pointee s h = Some q -> pointee s g = Some p ->
  exists s0 s', pstep false t s s0 /\ alone t s0 s' /\ quiet s' /\ prun false n m s' /\
    pointee s' h = Some p /\ (forall i, i <> h -> pointee s' i = pointee s i).
Proof.
  intros n m s t h g q p R Q L H G. destruct (copy_assign_effect s t h g q p Q L H G) as [s0 [s' [A [_ [B [C D]]]]]].
  exists s0, s'. split; [exact A|]. split; [exact B|]. split; [exact C|].
  split; [exact (alone_run _ _ _ _ _ (pr_step _ _ _ _ _ _ R A) B)|]. split.
  - rewrite pointee_get, D, Nat.eqb_refl. reflexivity.
  - intros i N. rewrite !pointee_get, D. apply Nat.eqb_neq in N. rewrite N. reflexivity.
Qed.
Theorem C143_move_assignment : forall n m s t h g q p, prun false n m s -> quiet s -> (t < length (p_thr s))%nat ->
  pointee s h = Some q -> pointee s g = Some p ->
  exists s0 s', pstep false t s s0 /\ alone t s0 s' /\ quiet s' /\ prun false n m s' /\
    pointee s' h = Some p /\ (g <> h -> pointee s' g = Some None) /\
    (forall i, i <> h -> i <> g -> pointee s' i = pointee s i).
Proof.
  intros n m s t h g q p R Q L H G. destruct (move_assign_effect s t h g q p Q L H G) as [s0 [s' [A [_ [B [C D]]]]]].
  exists s0, s'. split; [exact A|]. split; [exact B|]. split; [exact C|].
  split; [exact (alone_run _ _ _ _ _ (pr_step _ _ _ _ _ _ R A) B)|]. split; [|split].
  - rewrite pointee_get, D, Nat.eqb_refl. reflexivity.
  - intros N. rewrite pointee_get, D, Nat.eqb_refl. apply Nat.eqb_neq in N. rewrite N. reflexivity.
  - intros i N N2. rewrite !pointee_get, D. apply Nat.eqb_neq in N, N2. rewrite N, N2. reflexivity.
Qed.
(** Self-assignment changes nothing that can be seen: the pointer stays, and so does the
    object. *)
Theorem C143_self_assignment : forall n m s t h o, prun false n m s -> quiet s -> (t < length (p_thr s))%nat -> points s h o ->
  exists s0 s', pstep false t s s0 /\ alone t s0 s' /\ quiet s' /\ points s' h o /\ p_live s' o = true /\
    forall i, pointee s' i = pointee s i.
Proof.
  intros n m s t h o R Q L P. assert (G : pointee s h = Some (Some o)) by (unfold pointee; unfold points in P; rewrite P; reflexivity).
  destruct (C143_copy_assignment n m s t h h _ _ R Q L G G) as [s0 [s' [A [B [C [R' [D E]]]]]]].
  assert (P' : points s' h o).
  { unfold points. unfold pointee in D. destruct (nth_error (p_cell s') h) as [[| |o']|]; try discriminate. congruence. }
  exists s0, s'. split; [exact A|]. split; [exact B|]. split; [exact C|]. split; [exact P'|].
  split; [exact (proj1 (proj2 (proj1 (proj2 (C141_never_dangling_partial n m s' R')) h o P')))|].
  intros i. destruct (Nat.eq_dec i h) as [->|N]; [rewrite D, G; reflexivity|exact (E i N)].
Qed.

(** ** A concrete case *)
(** Two threads and three handles: thread 0 makes an object, thread 1 copies its handle
    while thread 0 also copies it; both additions overlap. *)
Lemma C141_hypotheses : exists s, prun false 3 2 s /\ quiet s /\ points s 0 0 /\ points s 1 0 /\ points s 2 0 /\
  use_count s 1 = Some 3 /\ owners s 0 = 3%nat /\ created s 0.
Proof.
  assert (R0 : prun false 3 2 (pinit 3 2)) by constructor.
  assert (U : forall h, unused (pinit 3 2) h) by (intros h [|[|[|t]]] x H; cbn in H; try discriminate; injection H as <-; split; intros []).
  assert (R1 := pr_step false 3 2 _ 0%nat _ R0 (p_make false 0 (pinit 3 2) 0 eq_refl (U 0%nat) eq_refl)).
  match type of R1 with prun _ _ _ ?s => assert (R2 := pr_step false 3 2 s 0%nat _ R1 (p_add false 0 s 0 None (GCtor 0) eq_refl)) end.
  match type of R2 with prun _ _ _ ?s => assert (R3 := pr_step false 3 2 s 0%nat _ R2 (p_done false 0 s (Some 0%nat) 0 eq_refl)) end.
  match type of R3 with prun _ _ _ ?s => set (s3 := s) in * end.
  assert (U3 : forall h, unused s3 h) by (intros h [|[|[|t]]] x H; cbn in H; try discriminate; injection H as <-; split; intros []).
  assert (D3 : forall h, readable s3 h) by (intros h t x H; exact (proj2 (U3 h t x H))).
  assert (R4 := pr_step false 3 2 _ 0%nat _ R3 (p_copy false 0 s3 1 0 (Some 0%nat) eq_refl (U3 1%nat) eq_refl (D3 0%nat) eq_refl)).
  match type of R4 with prun _ _ _ ?s => set (s4 := s) in * end.
  assert (U4 : unused s4 2).
  { intros [|[|[|t]]] x H; cbn in H; try discriminate; injection H as <-; cbn; split; intros W; intuition discriminate. }
  assert (D4 : readable s4 0).
  { intros [|[|[|t]]] x H; cbn in H; try discriminate; injection H as <-; cbn; intros W; intuition discriminate. }
  assert (R5 := pr_step false 3 2 _ 1%nat _ R4 (p_copy false 1 s4 2 0 (Some 0%nat) eq_refl U4 eq_refl D4 eq_refl)).
  match type of R5 with prun _ _ _ ?s => assert (R6 := pr_step false 3 2 s 1%nat _ R5 (p_add false 1 s 0 (Some 0%nat) (GCtor 2) eq_refl)) end.
  match type of R6 with prun _ _ _ ?s => assert (R7 := pr_step false 3 2 s 0%nat _ R6 (p_add false 0 s 0 (Some 0%nat) (GCtor 1) eq_refl)) end.
  match type of R7 with prun _ _ _ ?s => assert (R8 := pr_step false 3 2 s 0%nat _ R7 (p_done false 0 s (Some 0%nat) 1 eq_refl)) end.
  match type of R8 with prun _ _ _ ?s => assert (R9 := pr_step false 3 2 s 1%nat _ R8 (p_done false 1 s (Some 0%nat) 2 eq_refl)) end.
  eexists. split; [exact R9|]. split.
  - intros [|[|[|t]]] x H; cbn in H; try discriminate; injection H as <-; reflexivity.
  - repeat split; vm_compute; lia.
Qed.
(** ... and then the last handle takes the object with it. *)
Example last_handle_deletes : exists s, prun false 1 1 s /\ quiet s /\ created s 0 /\ owners s 0 = 0%nat /\ p_dels s 0 = 1%nat.
Proof.
  assert (R0 : prun false 1 1 (pinit 1 1)) by constructor.
  assert (U : forall h, unused (pinit 1 1) h) by (intros h [|[|t]] x H; cbn in H; try discriminate; injection H as <-; split; intros []).
  assert (R1 := pr_step false 1 1 _ 0%nat _ R0 (p_make false 0 (pinit 1 1) 0 eq_refl (U 0%nat) eq_refl)).
  match type of R1 with prun _ _ _ ?s => assert (R2 := pr_step false 1 1 s 0%nat _ R1 (p_add false 0 s 0 None (GCtor 0) eq_refl)) end.
  match type of R2 with prun _ _ _ ?s => assert (R3 := pr_step false 1 1 s 0%nat _ R2 (p_done false 0 s (Some 0%nat) 0 eq_refl)) end.
  match type of R3 with prun _ _ _ ?s => set (s3 := s) in * end.
  assert (U3 : forall h, unused s3 h) by (intros h [|[|t]] x H; cbn in H; try discriminate; injection H as <-; split; intros []).
  assert (R4 := pr_step false 1 1 _ 0%nat _ R3 (p_destroy false 0 s3 0 (Some 0%nat) eq_refl (U3 0%nat) eq_refl)).
  match type of R4 with prun _ _ _ ?s => assert (R5 := pr_step false 1 1 s 0%nat _ R4 (p_sub false 0 s 0 eq_refl)) end.
  match type of R5 with prun _ _ _ ?s => assert (R6 := pr_step false 1 1 s 0%nat _ R5 (p_delete false 0 s 0 eq_refl)) end.
  eexists. split; [exact R6|]. split; [intros [|[|t]] x H; cbn in H; try discriminate; injection H as <-; reflexivity|].
  repeat split; vm_compute; lia.
Qed.

Print Assumptions C141_never_dangling_partial.
Print Assumptions C141_converting_move_refuted.
Print Assumptions C142_counts_and_lifetimes.
Print Assumptions C142_count_at_any_time.
Print Assumptions C142_operations_finish.
Print Assumptions C143_copy_construction.
Print Assumptions C143_copy_assignment.
Print Assumptions C143_move_assignment.
Print Assumptions C143_self_assignment.
