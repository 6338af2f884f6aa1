(** Lemmas about the worker threads and about the response pool. *)
From Verif Require Import Base DTypeModel ServiceModel ServiceSpec ServiceProofs.
Local Open Scope nat_scope.

Section Drain.
Context {A : Type}.
(** After shutdown one thread popping again and again gets the rest. *)
Fixpoint pops (k : nat) (x : rst A) (t : nat) : rst A := match k with O => x | S j => pops j (r_check x t) t end.
Lemma pops_all n k (x : rst A) t : rreach n x -> rpc_at x t Out -> length (r_q x) = k ->
  rreach n (pops k x t) /\ popped (r_tr (pops k x t)) = pushed (r_tr x).
Proof.
  revert x. induction k as [|k IH]; intros x H E L.
  - split; [exact H|]. destruct (reach_good n x H) as [[G _] _]. rewrite G.
    destruct (r_q x); [|discriminate]. cbn. rewrite app_nil_r. reflexivity.
  - cbn [pops]. destruct (r_q x) as [|i q] eqn:Q; [discriminate|].
    assert (C : r_check x t = mkR q (r_stop x) (setl (r_pc x) t Out) (r_tr x ++ [EvPop t (Some i)])) by (unfold r_check; rewrite Q; reflexivity).
    destruct (IH (r_check x t)) as [I1 I2].
    + eapply rr_use; [exact H|apply rs_pop; exact E].
    + rewrite C. unfold rpc_at. cbn [r_pc]. rewrite setl_same; [reflexivity|]. apply nth_error_Some. unfold rpc_at in E. congruence.
    + rewrite C. cbn in *. lia.
    + split; [exact I1|]. rewrite I2, C. cbn [r_tr]. rewrite pushed_app. cbn. apply app_nil_r.
Qed.
End Drain.

Section Service.
Context {A : Type}.
Definition held (p : wpc A) : list A := match p with WGot i => [i] | _ => [] end.
Definition in_pool (p : wpc A) (r : rpc) : Prop :=
  match p with WIn => r = Sleep \/ r = Awake | _ => r = Out end.
Definition Sinv (w n : nat) (x : sst A) : Prop :=
  rreach n (v_pool x) /\ length (v_w x) = w /\ length (r_pc (v_pool x)) = n
  /\ (forall t p, w_at x t p -> exists r, rpc_at (v_pool x) t r /\ in_pool p r)
  /\ (v_running x = false -> r_stop (v_pool x) = true)
  /\ (forall t, w_at x t WExit -> r_stop (v_pool x) = true)
  /\ Permutation (popped (r_tr (v_pool x))) (map snd (v_done x) ++ flat_map held (v_w x))
  /\ (w = 1 -> popped (r_tr (v_pool x)) = map snd (v_done x) ++ flat_map held (v_w x)).

Lemma use_len (x : rst A) t y : ruse x t y -> length (r_pc y) = length (r_pc x).
Proof. intros H. destruct H; cbn [r_set r_pc r_push r_shut]; rewrite ?setl_len; try reflexivity. apply check_len. Qed.
Lemma check_other (x : rst A) t u : u <> t -> nth_error (r_pc (r_check x t)) u = nth_error (r_pc x) u.
Proof. intros H. unfold r_check. destruct (r_q x); cbn [negb orb]; [destruct (r_stop x)|]; cbn [r_pc]; apply setl_other; exact H. Qed.
Lemma held_setl (l : list (wpc A)) t p q : nth_error l t = Some p -> held p = [] ->
  Permutation (flat_map held (setl l t q)) (flat_map held l ++ held q).
Proof.
  unfold setl. revert t. induction l as [|x r IH]; intros [|t] H E; cbn in *; try discriminate.
  - injection H as ->. rewrite E. cbn. apply Permutation_app_comm.
  - rewrite IH by eassumption. rewrite app_assoc. reflexivity.
Qed.
Lemma held_drop (l : list (wpc A)) t i q : nth_error l t = Some (WGot i) -> held q = [] ->
  Permutation (flat_map held l) (i :: flat_map held (setl l t q)).
Proof.
  unfold setl. revert t. induction l as [|x r IH]; intros [|t] H E; cbn in *; try discriminate.
  - injection H as ->. cbn. rewrite E. reflexivity.
  - rewrite (IH _ H E). symmetry. apply Permutation_middle.
Qed.
Lemma held_same (l : list (wpc A)) t p q : nth_error l t = Some p -> held p = held q -> flat_map held (setl l t q) = flat_map held l.
Proof.
  unfold setl. revert t. induction l as [|x r IH]; intros [|t] H E; cbn in *; try discriminate.
  - injection H as ->. rewrite E. reflexivity.
  - f_equal. apply IH; assumption.
Qed.
(** What a pop of a worker does. *)
Lemma after_pop_cases (x : rst A) t : 
  (exists i q, r_q x = i :: q /\ after_pop x (r_check x t) t = WGot i /\ r_check x t = mkR q (r_stop x) (setl (r_pc x) t Out) (r_tr x ++ [EvPop t (Some i)]))
  \/ (r_q x = [] /\ r_stop x = true /\ after_pop x (r_check x t) t = WExit /\ r_check x t = mkR [] true (setl (r_pc x) t Out) (r_tr x ++ [EvPop t None]))
  \/ (r_q x = [] /\ r_stop x = false /\ after_pop x (r_check x t) t = WIn /\ r_check x t = mkR [] false (setl (r_pc x) t Sleep) (r_tr x)).
Proof.
  assert (K : forall (l : list (rev A)) e, skipn (length l) (l ++ e) = e) by (intros l e; rewrite skipn_app, skipn_all, Nat.sub_diag; reflexivity).
  unfold after_pop, r_check. destruct (r_q x) as [|i q] eqn:Q; cbn [negb orb].
  - destruct (r_stop x) eqn:S; right; [left|right]; cbn [r_tr].
    + rewrite K. auto.
    + rewrite skipn_all. auto.
  - left. exists i, q. cbn [r_tr]. rewrite K. auto.
Qed.
Lemma Sinv_pop w n (x : sst A) t p : Sinv w n x -> w_at x t p -> (p = WTop \/ p = WIn /\ rpc_at (v_pool x) t Awake) -> Sinv w n (v_pop x t).
Proof.
  intros [I1 [I2 [I3 [I4 [I5 [I6 [I7 I8]]]]]]] W C.
  assert (E : rpc_at (v_pool x) t Out \/ rpc_at (v_pool x) t Awake).
  { destruct C as [->|[-> C]]; [|auto]. destruct (I4 _ _ W) as [r [R1 R2]]. cbn in R2. subst r. auto. }
  assert (HP : held p = []) by (destruct C as [->|[-> _]]; reflexivity).
  assert (LT : t < length (v_w x)) by (apply nth_error_Some; unfold w_at in W; congruence).
  assert (LP : t < length (r_pc (v_pool x))) by (apply nth_error_Some; unfold rpc_at in E; destruct E; congruence).
  assert (R : rreach n (r_check (v_pool x) t)).
  { destruct E as [E|E]; [eapply rr_use; [exact I1|apply rs_pop; exact E]|eapply rr_act; [exact I1|apply rs_recheck; exact E]]. }
  unfold v_pop. cbv zeta.
  assert (O : forall u, u <> t -> rpc_at (r_check (v_pool x) t) u = rpc_at (v_pool x) u).
  { intros u N. unfold rpc_at. rewrite check_other by exact N. reflexivity. }
  split; [exact R|]. split; [cbn; rewrite setl_len; exact I2|]. split; [cbn; rewrite check_len; exact I3|].
  split; [|split; [|split]].
  - intros u q Q. unfold w_at in Q. cbn [v_w] in Q. cbn [v_pool]. destruct (Nat.eq_dec u t) as [->|N].
    + rewrite setl_same in Q by exact LT. injection Q as <-.
      destruct (after_pop_cases (v_pool x) t) as [[i [q' [_ [-> ->]]]]|[[_ [_ [-> ->]]]|[_ [_ [-> ->]]]]];
        (eexists; split; [unfold rpc_at; cbn [r_pc]; apply setl_same; exact LP|cbn [in_pool]; auto]).
    + rewrite setl_other in Q by exact N. destruct (I4 _ _ Q) as [r [R1 R2]]. exists r. rewrite O by exact N. auto.
  - cbn [v_running v_pool]. intros H. specialize (I5 H). destruct (after_pop_cases (v_pool x) t) as [[i [q' [_ [_ ->]]]]|[[_ [_ [_ ->]]]|[_ [S _]]]]; [exact I5|reflexivity|congruence].
  - intros u Q. unfold w_at in Q. cbn [v_w] in Q. cbn [v_pool]. destruct (Nat.eq_dec u t) as [->|N].
    + rewrite setl_same in Q by exact LT. injection Q as Q.
      destruct (after_pop_cases (v_pool x) t) as [[i [q' [_ [Z ->]]]]|[[_ [_ [Z ->]]]|[_ [_ [Z ->]]]]]; try reflexivity; congruence.
    + rewrite setl_other in Q by exact N. specialize (I6 _ Q).
      destruct (after_pop_cases (v_pool x) t) as [[i [q' [_ [_ ->]]]]|[[_ [_ [_ ->]]]|[_ [S _]]]]; [exact I6|reflexivity|congruence].
  - cbn [v_pool v_w v_done].
    destruct (after_pop_cases (v_pool x) t) as [[i [q' [_ [-> ->]]]]|[[_ [_ [-> ->]]]|[_ [_ [-> ->]]]]]; cbn [r_tr]; rewrite ?popped_app; cbn [popped flat_map app]; rewrite ?app_nil_r.
    + split.
      * rewrite (held_setl _ _ _ (WGot i) W HP). cbn [held]. rewrite I7. rewrite <- app_assoc. reflexivity.
      * intros ->. specialize (I8 eq_refl). rewrite I8. rewrite <- app_assoc. f_equal. unfold w_at in W.
        destruct (v_w x) as [|z [|]]; cbn in I2; try discriminate. destruct t; [|destruct t; discriminate]. injection W as ->. cbn. rewrite HP. reflexivity.
    + rewrite (held_same _ _ _ WExit W HP). auto.
    + rewrite (held_same _ _ _ WIn W HP). auto.
Qed.
Lemma pool_tr_act (x : rst A) t y u : ract x t y -> rpc_at x u Out -> u <> t -> rpc_at y u Out.
Proof.
  intros H E N. unfold rpc_at in *. destruct H as [x t v F G|x t F G|x t F|x t F]; cbn [r_set r_pc r_wake_all].
  - rewrite setl_other, setl_other by (assumption || (intros ->; unfold rpc_at in G; congruence)). exact E.
  - rewrite setl_other by assumption. exact E.
  - rewrite check_other by assumption. exact E.
  - rewrite nth_error_map, setl_other by assumption. rewrite E. reflexivity.
Qed.
Lemma pool_tr_in (x : rst A) t y u r : ract x t y -> rpc_at x u r -> (r = Sleep \/ r = Awake) -> u <> t -> exists r', rpc_at y u r' /\ (r' = Sleep \/ r' = Awake).
Proof.
  intros H E R N. unfold rpc_at in *. destruct H as [x t v F G|x t F G|x t F|x t F]; cbn [r_set r_pc r_wake_all].
  - destruct (Nat.eq_dec u v) as [->|M].
    + exists Awake. split; [|auto]. apply setl_same. rewrite setl_len. apply nth_error_Some. congruence.
    + exists r. rewrite setl_other, setl_other by assumption. auto.
  - exists r. rewrite setl_other by assumption. auto.
  - exists r. rewrite check_other by assumption. auto.
  - exists (wake r). rewrite nth_error_map, setl_other by assumption. rewrite E. split; [reflexivity|]. destruct R as [->| ->]; auto.
Qed.
(** Clients take nothing. *)
Definition client_pc (w : nat) (x : rst A) : Prop := forall t r, w <= t -> rpc_at x t r -> r = Out \/ r = Notify \/ r = NotifyAll.
Definition Sinv' (w n : nat) (x : sst A) : Prop := Sinv w n x /\ client_pc w (v_pool x).
Lemma setl_at {B} (l : list B) t b u c : nth_error (setl l t b) u = Some c -> (u = t /\ c = b /\ t < length l) \/ (u <> t /\ nth_error l u = Some c).
Proof.
  intros H. destruct (Nat.eq_dec u t) as [->|N].
  - left. assert (t < length l) by (rewrite <- (setl_len l t b); apply nth_error_Some; congruence). rewrite setl_same in H by assumption. injection H as <-. auto.
  - right. rewrite setl_other in H by assumption. auto.
Qed.
Lemma client_pc_pop w n (x : sst A) t p : Sinv w n x -> w_at x t p -> client_pc w (v_pool x) -> client_pc w (v_pool (v_pop x t)).
Proof.
  intros [_ [L _]] W C u r H E. unfold v_pop in E. cbv zeta in E. cbn [v_pool] in E.
  assert (t < length (v_w x)) by (apply nth_error_Some; unfold w_at in W; congruence).
  unfold rpc_at in E. rewrite check_other in E by lia. eapply C; [exact H|exact E].
Qed.
Lemma Sinv_act w n (x y : sst A) : Sinv' w n x -> sact x y -> Sinv' w n y.
Proof.
  intros [I C] H. destruct H as [x t W R|x t W R|x t W E|x t i W|x t y L E].
  - split; [apply (Sinv_pop w n x t WTop); auto|eapply client_pc_pop; eassumption].
  - destruct I as [I1 [I2 [I3 [I4 [I5 [I6 [I7 I8]]]]]]]. split; [|exact C].
    assert (LT : t < length (v_w x)) by (apply nth_error_Some; unfold w_at in W; congruence).
    split; [exact I1|]. split; [cbn; rewrite setl_len; exact I2|]. split; [exact I3|].
    split; [|split; [exact I5|split]].
    + intros u q Q. unfold w_at in Q. cbn [v_w] in Q. apply setl_at in Q. destruct Q as [[-> [-> _]]|[N Q]]; [|apply (I4 _ _ Q)].
      exact (I4 _ _ W).
    + intros u Q. cbn [v_pool]. apply I5. exact R.
    + cbn [v_pool v_w v_done]. rewrite (held_same _ _ _ WExit W eq_refl). auto.
  - split; [apply (Sinv_pop w n x t WIn); auto|eapply client_pc_pop; eassumption].
  - destruct I as [I1 [I2 [I3 [I4 [I5 [I6 [I7 I8]]]]]]]. split; [|exact C].
    assert (LT : t < length (v_w x)) by (apply nth_error_Some; unfold w_at in W; congruence).
    split; [exact I1|]. split; [cbn; rewrite setl_len; exact I2|]. split; [exact I3|].
    split; [|split; [exact I5|split; [|split]]].
    + intros u q Q. unfold w_at in Q. cbn [v_w] in Q. apply setl_at in Q. destruct Q as [[-> [-> _]]|[N Q]]; [|apply (I4 _ _ Q)].
      exact (I4 _ _ W).
    + intros u Q. unfold w_at in Q. cbn [v_w] in Q. apply setl_at in Q. destruct Q as [[_ [Q _]]|[N Q]]; [discriminate|exact (I6 _ Q)].
    + cbn [v_pool v_w v_done]. rewrite map_app. cbn [map snd]. rewrite I7, <- app_assoc. cbn [app]. apply Permutation_app_head. apply held_drop; [exact W|reflexivity].
    + intros ->. specialize (I8 eq_refl). cbn [v_pool v_w v_done]. rewrite I8, map_app, <- app_assoc. f_equal. unfold w_at in W.
      destruct (v_w x) as [|z [|]]; cbn in I2; try discriminate. destruct t; [|destruct t; discriminate]. injection W as ->. reflexivity.
  - destruct I as [I1 [I2 [I3 [I4 [I5 [I6 [I7 I8]]]]]]].
    assert (NA : ~ rpc_at (v_pool x) t Awake). { intros F. destruct (C t _ ltac:(lia) F) as [D|[D|D]]; discriminate. }
    assert (KEEP : r_tr y = r_tr (v_pool x) /\ r_stop y = r_stop (v_pool x)).
    { inversion E; subst; auto. contradiction. }
    destruct KEEP as [K1 K2]. split.
    + split; [eapply rr_act; eassumption|]. split; [exact I2|]. split; [cbn; rewrite (act_len _ _ _ E); exact I3|]. split; [|split; [|split]]; cbn [v_pool v_w v_done v_running]; rewrite ?K1, ?K2; auto.
      intros u p W. destruct (I4 _ _ W) as [r [R1 R2]].
      assert (N : u <> t). { intros ->. unfold w_at in W. cbn [v_w] in W. assert (t < length (v_w x)) by (apply nth_error_Some; congruence). lia. }
      destruct p; cbn [in_pool] in *; subst; try (exists Out; split; [eapply pool_tr_act; eassumption|reflexivity]).
      destruct (pool_tr_in _ _ _ _ _ E R1 R2 N) as [r' [R1' R2']]. eauto.
    + intros u r H F. cbn [v_pool] in *. inversion E as [x0 t0 v E1 E2|x0 t0 E1 E2|x0 t0 E1|x0 t0 E1]; subst; unfold rpc_at in F; cbn [r_set r_wake_all r_pc] in F.
      * apply setl_at in F. destruct F as [[-> _]|[_ F]].
        -- destruct (C _ _ H E2) as [D|[D|D]]; discriminate.
        -- apply setl_at in F. destruct F as [[_ [-> _]]|[_ F]]; [auto|]. eapply C; eassumption.
      * apply setl_at in F. destruct F as [[_ [-> _]]|[_ F]]; [auto|]. eapply C; eassumption.
      * contradiction.
      * rewrite nth_error_map in F. destruct (nth_error (setl (r_pc (v_pool x)) t Out) u) as [r0|] eqn:G; [|discriminate].
        injection F as <-. apply setl_at in G. destruct G as [[_ [-> _]]|[_ G]]; [auto|].
        destruct (C _ _ H G) as [-> |[-> | ->]]; auto.
Qed.
Lemma Sinv_use w n (x y : sst A) : Sinv' w n x -> suse x y -> Sinv' w n y.
Proof.
  intros [I C] H. destruct I as [I1 [I2 [I3 [I4 [I5 [I6 [I7 I8]]]]]]]. destruct H as [x t i L E|x t L E|x S|x t E].
  - split.
    + split; [eapply rr_use; [exact I1|apply rs_push; exact E]|]. split; [exact I2|]. split; [cbn; rewrite setl_len; exact I3|].
      split; [|split; [exact I5|split; [exact I6|]]].
      * intros u p W. destruct (I4 _ _ W) as [r [R1 R2]]. exists r. split; [|exact R2]. unfold rpc_at in *. cbn [v_pool r_push r_pc].
        rewrite setl_other; [exact R1|]. intros ->. unfold w_at in W. cbn [v_w] in W. assert (t < length (v_w x)) by (apply nth_error_Some; congruence). lia.
      * cbn [v_pool r_push r_tr v_w v_done]. rewrite popped_app. cbn. rewrite app_nil_r. auto.
    + intros u r H F. unfold rpc_at in F. cbn [v_pool r_push r_pc] in F. apply setl_at in F. destruct F as [[_ [-> _]]|[_ F]]; [auto|]. eapply C; eassumption.
  - split.
    + split; [eapply rr_use; [exact I1|apply rs_shutdown; exact E]|]. split; [exact I2|]. split; [cbn; rewrite setl_len; exact I3|].
      split; [|split; [reflexivity|split; [reflexivity|]]].
      * intros u p W. destruct (I4 _ _ W) as [r [R1 R2]]. exists r. split; [|exact R2]. unfold rpc_at in *. cbn [v_pool r_shut r_pc].
        rewrite setl_other; [exact R1|]. intros ->. unfold w_at in W. cbn [v_w] in W. assert (t < length (v_w x)) by (apply nth_error_Some; congruence). lia.
      * cbn [v_pool r_shut r_tr v_w v_done]. rewrite popped_app. cbn. rewrite app_nil_r. auto.
    + intros u r H F. unfold rpc_at in F. cbn [v_pool r_shut r_pc] in F. apply setl_at in F. destruct F as [[_ [-> _]]|[_ F]]; [auto|]. eapply C; eassumption.
  - split; [|exact C]. split; [exact I1|]. split; [exact I2|]. split; [exact I3|]. split; [exact I4|]. split; [intros _; exact S|]. split; [exact I6|]. auto.
  - assert (LW : t < length (v_w x)). { destruct (le_lt_dec w t) as [G|G]; [|lia]. destruct (C _ _ G E) as [D|[D|D]]; discriminate. }
    split.
    + split; [eapply rr_use; [exact I1|apply rs_spurious; exact E]|]. split; [exact I2|]. split; [cbn; rewrite setl_len; exact I3|].
      split; [|split; [exact I5|split; [exact I6|auto]]].
      intros u p W. destruct (I4 _ _ W) as [r [R1 R2]]. unfold rpc_at in *. cbn [v_pool r_set r_pc].
      destruct (Nat.eq_dec u t) as [->|N].
      * exists Awake. split; [apply setl_same; apply nth_error_Some; congruence|]. rewrite E in R1. injection R1 as <-. destruct p; cbn in *; try discriminate. auto.
      * exists r. rewrite setl_other by exact N. auto.
    + intros u r H F. unfold rpc_at in F. cbn [v_pool r_set r_pc] in F. apply setl_at in F. destruct F as [[-> _]|[_ F]]; [lia|]. eapply C; eassumption.
Qed.
Lemma nth_repeat {B} (b : B) n t c : nth_error (repeat b n) t = Some c -> c = b.
Proof. intros H. apply nth_error_In in H. apply repeat_spec in H. exact H. Qed.
Lemma sreach_inv w n (x : sst A) : w <= n -> sreach w n x -> Sinv' w n x.
Proof.
  intros L. induction 1 as [|x y H I K|x y H I K]; [|eapply Sinv_act; eassumption|eapply Sinv_use; eassumption].
  split.
  - split; [apply rr_init|]. split; [apply repeat_length|]. split; [apply repeat_length|]. split; [|split; [discriminate|split]].
    + intros t p W. unfold w_at in W. cbn in W. pose proof (nth_repeat _ _ _ _ W) as ->. exists Out. split; [|reflexivity].
      unfold rpc_at. cbn. assert (LT : t < w) by (rewrite <- (repeat_length (@WTop A) w); apply nth_error_Some; congruence).
      rewrite (nth_error_nth' _ Out) by (rewrite repeat_length; lia). f_equal. apply nth_repeat with (t := t) (n := n).
      apply nth_error_nth'. rewrite repeat_length. lia.
    + intros t W. unfold w_at in W. cbn in W. apply nth_repeat in W. discriminate.
    + cbn. assert (Z : flat_map held (repeat (@WTop A) w) = []) by (clear; induction w as [|w IH]; [reflexivity|exact IH]). rewrite Z. auto.
  - intros t r _ H. left. unfold rpc_at in H. cbn in H. apply nth_repeat in H. exact H.
Qed.
(** A running service at rest has handled everything. *)
Lemma rest_handled w n (x : sst A) : 1 <= w <= n -> sreach w n x -> (forall y, ~ sact x y) -> r_stop (v_pool x) = false ->
  r_q (v_pool x) = [] /\ flat_map held (v_w x) = [].
Proof.
  intros L H Q S. destruct (sreach_inv w n x ltac:(lia) H) as [[I1 [I2 [I3 [I4 [I5 [I6 _]]]]]] C].
  assert (ALL : forall t p, w_at x t p -> p = WIn /\ rpc_at (v_pool x) t Sleep).
  { intros t p W. destruct p as [| |i|].
    - destruct (v_running x) eqn:R; exfalso; [exact (Q _ (ss_top _ _ W R))|exact (Q _ (ss_top_exit _ _ W R))].
    - split; [reflexivity|]. destruct (I4 _ _ W) as [r [R1 [-> | ->]]]; [exact R1|]. exfalso. exact (Q _ (ss_recheck _ _ W R1)).
    - exfalso. exact (Q _ (ss_handle _ _ _ W)).
    - specialize (I6 _ W). congruence. }
  assert (W0 : exists p, w_at x 0 p). { unfold w_at. destruct (v_w x) as [|p r]; [cbn in I2; lia|]. exists p. reflexivity. }
  destruct W0 as [p0 W0]. destruct (ALL _ _ W0) as [_ E0].
  split.
  - eapply quiet_blocked with (t := 0); [exact I1| |exact E0]. intros u y E.
    destruct (le_lt_dec (length (v_w x)) u) as [G|G]; [exact (Q _ (ss_client _ _ _ G E))|].
    destruct (nth_error (v_w x) u) as [p|] eqn:W; [|apply nth_error_None in W; lia].
    destruct (ALL _ _ W) as [_ F]. unfold rpc_at in F. inversion E as [x0 t0 v E1 E2|x0 t0 E1 E2|x0 t0 E1|x0 t0 E1]; subst; unfold rpc_at in E1; congruence.
  - assert (K : forall p, In p (v_w x) -> held p = []). { intros p Hp. apply In_nth_error in Hp. destruct Hp as [t Hp]. destruct (ALL _ _ Hp) as [-> _]. reflexivity. }
    clear - K. induction (v_w x) as [|p r IH]; [reflexivity|]. cbn. rewrite (K p (or_introl eq_refl)). apply IH. intros q Hq. apply K. right. exact Hq.
Qed.
(** The threads come to rest when nobody pushes. *)
Definition ww (p : wpc A) : nat := match p with WTop => 2 | WGot _ => 3 | _ => 0 end.
Definition wwsum (l : list (wpc A)) : nat := list_sum (map ww l).
Lemma wwsum_setl l t a b : nth_error l t = Some a -> wwsum (setl l t b) + ww a = wwsum l + ww b.
Proof.
  unfold wwsum, setl, list_sum. revert t. induction l as [|x r IH]; intros [|t] H; cbn in *; try discriminate.
  - injection H as ->. lia.
  - specialize (IH _ H). lia.
Qed.
Definition smeas (n : nat) (x : sst A) : nat := wsum n (r_pc (v_pool x)) + wwsum (v_w x) + 2 * length (r_q (v_pool x)).
Lemma ract_q (x : rst A) t y : ract x t y -> ~ rpc_at x t Awake -> r_q y = r_q x.
Proof. intros H N. destruct H; try reflexivity. contradiction. Qed.
Lemma sact_meas w n (x y : sst A) : Sinv' w n x -> sact x y -> smeas n y < smeas n x.
Proof.
  intros [[I1 [I2 [I3 [I4 _]]]] C] H. unfold smeas.
  assert (POP : forall t p, w_at x t p -> (p = WTop \/ p = WIn /\ rpc_at (v_pool x) t Awake) -> smeas n (v_pop x t) < smeas n x).
  { intros t p W D. unfold smeas, v_pop. cbv zeta. cbn [v_pool v_w].
    assert (E : exists r, nth_error (r_pc (v_pool x)) t = Some r /\ weight n r + ww p = 2).
    { destruct D as [->|[-> D]].
      - destruct (I4 _ _ W) as [r [R1 R2]]. cbn in R2. subst r. exists Out. split; [exact R1|reflexivity].
      - exists Awake. split; [exact D|reflexivity]. }
    destruct E as [r [E Z]].
    destruct (after_pop_cases (v_pool x) t) as [[i [q' [Q [-> ->]]]]|[[Q [_ [-> ->]]]|[Q [_ [-> ->]]]]]; cbn [r_pc r_q]; rewrite Q; cbn [length].
    - pose proof (wwsum_setl _ _ _ (WGot i) W) as X1. pose proof (wsum_setl n _ _ _ Out E) as X2. cbn [ww weight] in X1, X2. lia.
    - pose proof (wwsum_setl _ _ _ WExit W) as X1. pose proof (wsum_setl n _ _ _ Out E) as X2. cbn [ww weight] in X1, X2. lia.
    - pose proof (wwsum_setl _ _ _ WIn W) as X1. pose proof (wsum_setl n _ _ _ Sleep E) as X2. cbn [ww weight] in X1, X2. lia. }
  destruct H as [x t W R|x t W R|x t W E|x t i W|x t y L E].
  - apply (POP t WTop W). auto.
  - cbn [v_pool v_w]. pose proof (wwsum_setl _ _ _ WExit W) as X1. cbn [ww] in X1. lia.
  - apply (POP t WIn W). auto.
  - cbn [v_pool v_w]. pose proof (wwsum_setl _ _ _ WTop W) as X1. cbn [ww] in X1. lia.
  - cbn [v_pool v_w]. rewrite (ract_q _ _ _ E).
    + pose proof (act_weight _ _ _ n E ltac:(lia)). lia.
    + intros F. destruct (C t _ ltac:(lia) F) as [D|[D|D]]; discriminate.
Qed.
Lemma sacts_end w n (x : sst A) : w <= n -> sreach w n x -> Acc (fun y x => sact x y) x.
Proof.
  intros L H. pose proof (sreach_inv w n x L H) as I. clear H. remember (smeas n x) as m eqn:M. revert x I M.
  induction m as [m IH] using lt_wf_ind. intros x I ->. constructor. intros y H.
  eapply IH; [|eapply Sinv_act; eassumption|reflexivity]. eapply sact_meas; eassumption.
Qed.
End Service.
