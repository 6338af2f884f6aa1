(** Properties of the service: C28, C29, C46. *)
From Verif Require Import Base DTypeModel ServiceModel ServiceSpec ServiceProofs ServiceProofs2 ServiceProofs3.
Local Open Scope nat_scope.

(** ** C28: the request queue *)
(** Any number of threads pushing, popping and shutting down in any interleaving: what has
    been handed out is the beginning of what has been pushed, in push order. *)
Theorem C28_fifo_exactly_once : forall A n (x : rst A), rreach n x ->
  prefix (popped (r_tr x)) (pushed (r_tr x)) /\ pushed (r_tr x) = popped (r_tr x) ++ r_q x.
Proof. intros A n x H. destruct (reach_good n x H) as [[G _] _]. split; [exists (r_q x)|]; exact G. Qed.
(** A pop returns nothing only after a shutdown and when everything pushed before has been
    handed out: requests queued at shutdown are not dropped by the queue. *)
Theorem C28_nothing_only_after_shutdown_and_drain : forall A n (x : rst A) a t b, rreach n x ->
  r_tr x = a ++ EvPop t None :: b -> stopped a /\ pushed a = popped a.
Proof. intros A n x a t b H E. destruct (reach_good n x H) as [[_ [_ G]] _]. eapply G. exact E. Qed.
(** From any reachable state, shut down or not, one thread can fetch all that is left. *)
Theorem C28_drains : forall A n (x : rst A) t, rreach n x -> rpc_at x t Out ->
  exists y, rreach n y /\ popped (r_tr y) = pushed (r_tr x).
Proof. intros A n x t H E. exists (pops (length (r_q x)) x t). eapply pops_all; eauto. Qed.
(** No lost wake-ups: when no thread inside a call can go on, a blocked pop means that
    everything pushed was handed out and there was no shutdown. *)
Theorem C28_no_lost_wakeup : forall A n (x : rst A) t, rreach n x -> (forall u y, ~ ract x u y) ->
  rpc_at x t Sleep -> pushed (r_tr x) = popped (r_tr x) /\ ~ stopped (r_tr x).
Proof.
  intros A n x t H Q E. destruct (quiet_blocked n x t H Q E) as [Z S]. destruct (reach_good n x H) as [[G [G2 _]] _].
  rewrite Z, app_nil_r in G. split; [exact G|]. intros P. apply G2 in P. congruence.
Qed.
(** ... and without new calls the threads inside calls always come to such a rest. *)
Theorem C28_comes_to_rest : forall A (x : rst A), Acc (fun y x => exists t, ract x t y) x.
Proof. intros A x. apply acts_end. Qed.
(** Two blocked pops, two pushes, both notified. *)
Example C28_case : exists x : rst nat, rreach 4 x /\ r_pc x = [Out; Sleep; Out; Out]
  /\ r_tr x = [EvPush 2 7; EvPop 3 (Some 7); EvPush 2 8; EvPop 0 (Some 8)].
Proof.
  pose proof (rr_init (A := nat) 4) as R.
  pose proof (fun e1 => rr_use _ _ _ _ R (rs_pop _ 0 e1)) as R1; specialize (R1 eq_refl).
  pose proof (fun e1 => rr_use _ _ _ _ R1 (rs_pop _ 1 e1)) as R2; specialize (R2 eq_refl).
  pose proof (fun e1 => rr_use _ _ _ _ R2 (rs_push _ 2 7 e1)) as R3; specialize (R3 eq_refl).
  pose proof (fun e1 e2 => rr_act _ _ _ _ R3 (rs_notify _ 2 1 e1 e2)) as R4; specialize (R4 eq_refl eq_refl).
  pose proof (fun e1 => rr_use _ _ _ _ R4 (rs_pop _ 3 e1)) as R5; specialize (R5 eq_refl).
  pose proof (fun e1 => rr_act _ _ _ _ R5 (rs_recheck _ 1 e1)) as R6; specialize (R6 eq_refl).
  pose proof (fun e1 => rr_use _ _ _ _ R6 (rs_push _ 2 8 e1)) as R7; specialize (R7 eq_refl).
  pose proof (fun e1 e2 => rr_act _ _ _ _ R7 (rs_notify _ 2 0 e1 e2)) as R8; specialize (R8 eq_refl eq_refl).
  pose proof (fun e1 => rr_act _ _ _ _ R8 (rs_recheck _ 0 e1)) as R9; specialize (R9 eq_refl).
  eexists. split; [exact R9|]. split; reflexivity.
Qed.

(** *** With the worker threads *)
(** In every state: every request pushed is in exactly one place - handled, in the hands
    of a worker, or queued. *)
Theorem C28_service_nothing_lost : forall A w n (x : sst A), w <= n -> sreach w n x ->
  Permutation (pushed (r_tr (v_pool x))) (map snd (v_done x) ++ flat_map held (v_w x) ++ r_q (v_pool x)).
Proof.
  intros A w n x L H. destruct (sreach_inv w n x L H) as [[R [_ [_ [_ [_ [_ [P _]]]]]]] _].
  destruct (reach_good n _ R) as [[G _] _]. rewrite G, P, <- app_assoc. reflexivity.
Qed.
(** One worker handles the requests in the order of submission. *)
Theorem C28_service_in_order : forall A n (x : sst A), 1 <= n -> sreach 1 n x ->
  prefix (map snd (v_done x)) (pushed (r_tr (v_pool x))).
Proof.
  intros A n x L H. destruct (sreach_inv 1 n x L H) as [[R [_ [_ [_ [_ [_ [_ P]]]]]]] _].
  destruct (reach_good n _ R) as [[G _] _]. exists (flat_map held (v_w x) ++ r_q (v_pool x)). rewrite G, (P eq_refl), <- app_assoc. reflexivity.
Qed.
(** Before stop: the workers always come to rest, and then every request is handled. *)
Theorem C28_service_all_handled_partial : forall A w n (x : sst A), 1 <= w <= n -> sreach w n x ->
  (forall y, ~ sact x y) -> ~ stopped (r_tr (v_pool x)) -> Permutation (pushed (r_tr (v_pool x))) (map snd (v_done x)).
Proof.
  intros A w n x L H Q S. destruct (sreach_inv w n x ltac:(lia) H) as [[R _] _]. destruct (reach_good n _ R) as [[_ [G2 _]] _].
  assert (S' : r_stop (v_pool x) = false) by (destruct (r_stop (v_pool x)); [exfalso; apply S, G2; reflexivity|reflexivity]).
  destruct (rest_handled w n x L H Q S') as [Z1 Z2].
  rewrite (C28_service_nothing_lost A w n x) by (lia || assumption). rewrite Z1, Z2, !app_nil_r. reflexivity.
Qed.
Theorem C28_service_comes_to_rest : forall A w n (x : sst A), w <= n -> sreach w n x -> Acc (fun y x => sact x y) x.
Proof. intros A w n x L H. eapply sacts_end; eassumption. Qed.
(** Stopping the service: a request pushed before the shutdown is never handled, because
    the worker leaves its loop as soon as running_ is false. *)
Theorem C28_stop_drops_requests_refuted : exists x : sst nat, sreach 1 2 x
  /\ r_tr (v_pool x) = [EvPush 1 7; EvStop 1] /\ v_w x = [WExit] /\ v_done x = []
  /\ (forall y, ~ sact x y).
Proof.
  pose proof (sr_init (A := nat) 1 2) as R.
  pose proof (fun e1 e2 => sr_use _ _ _ _ R (ss_push _ 1 7 e1 e2)) as R1; specialize (R1 (le_n _) eq_refl).
  assert (NS : forall u, ~ rpc_at (r_push (v_pool (@s_init nat 1 2)) 1 7) u Sleep) by (intros [|[|[|u]]]; discriminate).
  pose proof (fun e1 e2 e3 => sr_act _ _ _ _ R1 (ss_client _ 1 _ e1 (rs_notify_none _ 1 e2 e3))) as R2; specialize (R2 (le_n _) eq_refl NS).
  pose proof (fun e1 e2 => sr_use _ _ _ _ R2 (ss_shutdown _ 1 e1 e2)) as R3; specialize (R3 (le_n _) eq_refl).
  pose proof (fun e1 e2 => sr_act _ _ _ _ R3 (ss_client _ 1 _ e1 (rs_notify_all _ 1 e2))) as R4; specialize (R4 (le_n _) eq_refl).
  pose proof (fun e1 => sr_use _ _ _ _ R4 (ss_unset _ e1)) as R5; specialize (R5 eq_refl).
  pose proof (fun e1 e2 => sr_act _ _ _ _ R5 (ss_top_exit _ 0 e1 e2)) as R6; specialize (R6 eq_refl eq_refl).
  eexists. split; [exact R6|]. split; [|split; [|split]].
  - reflexivity.
  - reflexivity.
  - reflexivity.
  - intros y H. inversion H as [x t W Q|x t W Q|x t W Q|x t i W|x t z L E]; subst.
    1-4: unfold w_at in W; cbn in W; destruct t as [|t]; [discriminate|destruct t; discriminate].
    inversion E as [? ? ? E1|? ? E1|? ? E1|? ? E1]; subst; unfold rpc_at in E1; cbn in E1; destruct t as [|[|[|t]]]; discriminate.
Qed.
Example C28_service_case : exists x : sst nat, sreach 2 3 x /\ v_done x = [(1, 5)] /\ r_q (v_pool x) = [6].
Proof.
  pose proof (sr_init (A := nat) 2 3) as R.
  pose proof (fun e1 e2 => sr_act _ _ _ _ R (ss_top _ 1 e1 e2)) as R1; specialize (R1 eq_refl eq_refl).
  pose proof (fun e1 e2 => sr_use _ _ _ _ R1 (ss_push _ 2 5 e1 e2)) as R2; specialize (R2 (le_n _) eq_refl).
  pose proof (fun e1 e2 e3 => sr_act _ _ _ _ R2 (ss_client _ 2 _ e1 (rs_notify _ 2 1 e2 e3))) as R3; specialize (R3 (le_n _) eq_refl eq_refl).
  pose proof (fun e1 e2 => sr_act _ _ _ _ R3 (ss_recheck _ 1 e1 e2)) as R4; specialize (R4 eq_refl eq_refl).
  pose proof (fun e1 => sr_act _ _ _ _ R4 (ss_handle _ 1 5 e1)) as R5; specialize (R5 eq_refl).
  pose proof (fun e1 e2 => sr_use _ _ _ _ R5 (ss_push _ 2 6 e1 e2)) as R6; specialize (R6 (le_n _) eq_refl).
  eexists. split; [exact R6|]. split; reflexivity.
Qed.

(** ** C29: responses *)
Section C29.
Variables (A K : Type) (keq : K -> K -> bool).
Hypothesis keq_ok : forall a b, keq a b = true <-> a = b.
(** For every id: what was handed out for this id is the beginning of what was pushed for
    it, in order; the rest is still there. *)
Theorem C29_per_id_fifo : forall one n (x : @pst A K) k, preach K keq one n x ->
  prefix (ppopped K keq k (p_tr _ x)) (ppushed K keq k (p_tr _ x))
  /\ ppushed K keq k (p_tr _ x) = ppopped K keq k (p_tr _ x) ++ content K keq (p_map _ x) k.
Proof. intros one n x k H. destruct (preach_good K keq keq_ok one n x H) as [_ [G _]]. split; [eexists|]; apply G. Qed.
(** A pop returns nothing exactly when the pool has been shut down. *)
Theorem C29_nothing_only_after_shutdown : forall one n (x : @pst A K) a t k b, preach K keq one n x ->
  p_tr _ x = a ++ PvPop _ t k None :: b -> pstopped K a.
Proof. intros one n x a t k b H E. destruct (preach_good K keq keq_ok one n x H) as [_ [_ [_ [G _]]]]. eapply G. exact E. Qed.
(** Nothing is kept for ids whose responses have all been read. *)
Theorem C29_no_leak : forall one n (x : @pst A K) k q, preach K keq one n x -> In (k, q) (p_map _ x) ->
  ppushed K keq k (p_tr _ x) <> ppopped K keq k (p_tr _ x).
Proof.
  intros one n x k q H I E. destruct (preach_good K keq keq_ok one n x H) as [[N W] [G _]]. specialize (G k). rewrite E in G.
  assert (Z : content K keq (p_map _ x) k = []) by (apply (app_inv_head (ppopped K keq k (p_tr _ x))); rewrite app_nil_r; symmetry; exact G).
  assert (C : content K keq (p_map _ x) k = q).
  { clear - I N keq_ok. unfold content. induction (p_map _ x) as [|[k0 q0] r IH]; [destruct I|]. cbn in *. inversion N as [|? ? N1 N2]; subst. destruct I as [I|I].
    - injection I as -> ->. rewrite keq_refl by exact keq_ok. reflexivity.
    - rewrite keq_neq; [apply IH; assumption|exact keq_ok|]. intros ->. apply N1. apply in_map_iff. exists (k, q). auto. }
  apply (W k q I). congruence.
Qed.
(** If the readers inside pop at the same time ask for the same id (in particular if there
    is one reader): no lost wake-up.  Responses for other ids may arrive all the time. *)
Theorem C29_no_lost_wakeup_partial : forall n (x : @pst A K) t k, preach K keq true n x ->
  (forall u y, ~ pact K keq x u y) -> ppc_at K x t (PSleep _ k) ->
  ppushed K keq k (p_tr _ x) = ppopped K keq k (p_tr _ x) /\ ~ pstopped K (p_tr _ x).
Proof.
  intros n x t k H Q E. destruct (preach_awake K keq keq_ok true n x (ex_intro _ k I) H) as [P1 P2].
  destruct (preach_good K keq keq_ok true n x H) as [_ [G [S _]]]. destruct (P2 eq_refl) as [k0 [Q1 Q2]].
  assert (k = k0) as <- by (apply Q1; exists t; auto).
  assert (P : 0 < cnt (isPS K) (p_pc _ x)) by (apply cnt_pos; exists t, (PSleep _ k); auto).
  assert (ZA : cnt (isPA K) (p_pc _ x) = 0).
  { apply cnt_zero. intros v a F. destruct a as [|k'|k']; try reflexivity. exfalso. exact (Q v _ (ps_recheck K keq x v k' F)). }
  specialize (Q2 P). rewrite G. destruct (content K keq (p_map _ x) k); [|cbn in Q2; lia]. split; [apply app_nil_r|].
  intros F. apply S in F. specialize (P1 F). lia.
Qed.
(** After a shutdown no reader stays blocked, whatever the ids. *)
Theorem C29_shutdown_wakes_all : forall one n (x : @pst A K) t k, preach K keq one n x -> pstopped K (p_tr _ x) ->
  ~ ppc_at K x t (PSleep _ k).
Proof.
  intros one n x t k H S E. destruct (preach_awake K keq keq_ok one n x (ex_intro _ k I) H) as [P1 _].
  destruct (preach_good K keq keq_ok one n x H) as [_ [_ [G _]]]. apply G in S. specialize (P1 S).
  pose proof (proj1 (cnt_zero (isPS K) _) P1 t _ E). discriminate.
Qed.
End C29.
(** Two readers of different ids: the response for id 1 wakes the reader of id 0, which
    goes back to sleep; the reader of id 1 stays blocked although its response is there and
    nothing can go on. *)
Theorem C29_lost_wakeup_refuted : exists x : @pst nat nat, preach nat Nat.eqb false 3 x
  /\ p_pc _ x = [PSleep _ 0; PSleep _ 1; POut _] /\ p_tr _ x = [PvPush _ 2 1 7]
  /\ (forall t y, ~ pact nat Nat.eqb x t y).
Proof.
  assert (PO : forall (x : @pst nat nat) k, polite nat false x k) by (intros x k H; discriminate).
  pose proof (pr_init (A := nat) nat Nat.eqb false 3) as R.
  pose proof (fun e1 e2 => pr_use _ _ _ _ _ _ _ R (ps_pop _ _ _ _ 0 0 e1 e2)) as R1; specialize (R1 eq_refl (PO _ _)).
  pose proof (fun e1 e2 => pr_use _ _ _ _ _ _ _ R1 (ps_pop _ _ _ _ 1 1 e1 e2)) as R2; specialize (R2 eq_refl (PO _ _)).
  pose proof (fun e1 e2 => pr_use _ _ _ _ _ _ _ R2 (ps_push _ _ _ _ 2 0 1 0 7 e1 e2)) as R3; specialize (R3 eq_refl eq_refl).
  pose proof (fun e1 => pr_act _ _ _ _ _ _ _ R3 (ps_recheck _ _ _ 0 0 e1)) as R4; specialize (R4 eq_refl).
  eexists. split; [exact R4|]. split; [|split].
  - reflexivity.
  - reflexivity.
  - intros t y H. inversion H as [? ? ? E]; subst. unfold ppc_at in E. cbn in E. destruct t as [|[|[|[|t]]]]; discriminate.
Qed.
(** A shutdown makes responses that have been pushed but not yet read unavailable. *)
Theorem C29_shutdown_drops_responses_refuted : exists x : @pst nat nat, preach nat Nat.eqb true 2 x
  /\ p_tr _ x = [PvPush _ 0 1 7; PvStop _ 0; PvPop _ 1 1 None].
Proof.
  pose proof (pr_init (A := nat) nat Nat.eqb true 2) as R.
  assert (NS : forall u k, ~ ppc_at nat (@p_init nat nat 2) u (PSleep nat k)) by (intros [|[|[|u]]] k; discriminate).
  pose proof (fun e1 e2 => pr_use _ _ _ _ _ _ _ R (ps_push_none _ _ _ _ 0 1 7 e1 e2)) as R1; specialize (R1 eq_refl NS).
  pose proof (fun e1 => pr_use _ _ _ _ _ _ _ R1 (ps_shutdown _ _ _ _ 0 e1)) as R2; specialize (R2 eq_refl).
  eexists. split.
  - refine ((fun e1 e2 => pr_use _ _ _ _ _ _ _ R2 (ps_pop _ _ _ _ 1 1 e1 e2)) eq_refl _). intros _ [|[|[|u]]] k [H|H]; discriminate.
  - reflexivity.
Qed.
Example C29_case : exists x : @pst nat nat, preach nat Nat.eqb true 2 x
  /\ p_tr _ x = [PvPush _ 0 2 9; PvPush _ 0 1 7; PvPop _ 1 1 (Some 7); PvPush _ 0 1 8] /\ p_map _ x = [(2, [9]); (1, [8])].
Proof.
  pose proof (pr_init (A := nat) nat Nat.eqb true 2) as R.
  assert (PO : polite nat true (@p_init nat nat 2) 1) by (intros _ [|[|[|u]]] k [H|H]; discriminate).
  pose proof (fun e1 e2 => pr_use _ _ _ _ _ _ _ R (ps_pop _ _ _ _ 1 1 e1 e2)) as R1; specialize (R1 eq_refl PO).
  pose proof (fun e1 e2 => pr_use _ _ _ _ _ _ _ R1 (ps_push _ _ _ _ 0 1 2 1 9 e1 e2)) as R2; specialize (R2 eq_refl eq_refl).
  pose proof (fun e1 => pr_act _ _ _ _ _ _ _ R2 (ps_recheck _ _ _ 1 1 e1)) as R3; specialize (R3 eq_refl).
  pose proof (fun e1 e2 => pr_use _ _ _ _ _ _ _ R3 (ps_push _ _ _ _ 0 1 1 1 7 e1 e2)) as R4; specialize (R4 eq_refl eq_refl).
  pose proof (fun e1 => pr_act _ _ _ _ _ _ _ R4 (ps_recheck _ _ _ 1 1 e1)) as R5; specialize (R5 eq_refl).
  eexists. split.
  - refine ((fun e1 e2 => pr_use _ _ _ _ _ _ _ R5 (ps_push_none _ _ _ _ 0 1 8 e1 e2)) eq_refl _). intros [|[|[|u]]] k; discriminate.
  - split; reflexivity.
Qed.

(** ** C46: an accepted request is answered *)
(** A request that names a registered session gets exactly this session's tokens as
    responses, in order. *)
Theorem C46_answered_partial : forall l p m s, y_object p = true -> y_model p = Str m -> sess_get l m = Some s ->
  fst (handle l p) = fst (s p) /\ snd (handle l p) = if snd (s p) then Threw else Normally.
Proof.
  intros l p m s O M S. unfold handle, value_str. rewrite O, M, S. destruct (s p) as [cb th]. destruct cb; split; reflexivity.
Qed.
(** Registering a session never replaces one; a new name is found afterwards. *)
Theorem C46_register : forall l n s m, sess_get (sess_register l n s) m =
  match sess_get l m with Some s0 => Some s0 | None => if streq n m then Some s else None end.
Proof.
  intros l n s m. unfold sess_register. destruct (sess_get l n) as [s0|] eqn:E.
  - destruct (sess_get l m) eqn:F; [reflexivity|]. unfold streq. destruct (list_eq_dec Z.eq_dec n m) as [->|]; [congruence|reflexivity].
  - clear E. induction l as [|[k v] r IH]; cbn [app sess_get]; [reflexivity|]. destruct (streq k m); [reflexivity|exact IH].
Qed.
(** The built-in session: ten tokens, then exactly one finished response. *)
Theorem C46_none_session : forall l p, y_object p = true -> y_model p = Str none_name -> sess_get l none_name = Some none_session ->
  exists ts, length ts = 10 /\ handle l p = (map (fun t => (t, false)) ts ++ [([], true)], Normally).
Proof.
  intros l p O M S. exists (map (fun i => [48 + Z.of_nat i]%Z) (seq 0 10)). split; [reflexivity|].
  unfold handle, value_str. rewrite O, M, S. reflexivity.
Qed.
(** A request without a model: accepted; the fall-back session's first token reads a
    missing member. *)
Theorem C46_no_model_refuted : forall i, let p := mkPay true (Str i) Absent in
  send_request (Json p) = (0%Z, Some (i, p)) /\ handle (sess_register [] none_name none_session) p = ([], Undefined).
Proof. intros i. split; reflexivity. Qed.
(** A request for a model that is not registered: accepted; a null session is called. *)
Theorem C46_unknown_model_refuted : forall l i m, sess_get l m = None -> let p := mkPay true (Str i) (Str m) in
  send_request (Json p) = (0%Z, Some (i, p)) /\ handle l p = ([], Undefined).
Proof. intros l i m H. split; [reflexivity|]. unfold handle, value_str. cbn. rewrite H. reflexivity. Qed.
(** A request whose model is not a string: accepted; no response is ever pushed, so its
    reader waits for ever. *)
Theorem C46_no_response_refuted : forall l i, let p := mkPay true (Str i) Other in
  send_request (Json p) = (0%Z, Some (i, p)) /\ handle l p = ([], Threw).
Proof. intros l i. split; reflexivity. Qed.
(** After the shutdown the reader is told that the answer is not finished. *)
Theorem C46_shutdown_reply_refuted : z_finished (reply_of None) = false /\ z_error (reply_of None) = false.
Proof. split; reflexivity. Qed.
Example C46_case : handle (sess_register [] none_name none_session) (mkPay true (Str [97]%Z) (Str none_name))
  = ([([48]%Z, false); ([49]%Z, false); ([50]%Z, false); ([51]%Z, false); ([52]%Z, false); ([53]%Z, false); ([54]%Z, false); ([55]%Z, false); ([56]%Z, false); ([57]%Z, false); ([], true)], Normally).
Proof. reflexivity. Qed.
Print Assumptions C28_fifo_exactly_once.
Print Assumptions C28_nothing_only_after_shutdown_and_drain.
Print Assumptions C28_drains.
Print Assumptions C28_no_lost_wakeup.
Print Assumptions C28_comes_to_rest.
Print Assumptions C28_service_nothing_lost.
Print Assumptions C28_service_in_order.
Print Assumptions C28_service_all_handled_partial.
Print Assumptions C28_service_comes_to_rest.
Print Assumptions C28_stop_drops_requests_refuted.
Print Assumptions C29_per_id_fifo.
Print Assumptions C29_nothing_only_after_shutdown.
Print Assumptions C29_no_leak.
Print Assumptions C29_no_lost_wakeup_partial.
Print Assumptions C29_shutdown_wakes_all.
Print Assumptions C29_lost_wakeup_refuted.
Print Assumptions C29_shutdown_drops_responses_refuted.
Print Assumptions C46_answered_partial.
Print Assumptions C46_register.
Print Assumptions C46_none_session.
Print Assumptions C46_no_model_refuted.
Print Assumptions C46_unknown_model_refuted.
Print Assumptions C46_no_response_refuted.
Print Assumptions C46_shutdown_reply_refuted.
