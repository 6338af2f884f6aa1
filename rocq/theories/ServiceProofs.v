(** Lemmas about the service model. *)
From Verif Require Import Base DTypeModel ServiceModel ServiceSpec.
Local Open Scope nat_scope.

(** ** Counting threads *)
Definition cnt {B} (p : B -> bool) (l : list B) : nat := length (filter p l).
Lemma setl_len {B} (l : list B) t b : length (setl l t b) = length l.
Proof. apply length_upd_nth. Qed.
Lemma setl_same {B} (l : list B) t b : t < length l -> nth_error (setl l t b) t = Some b.
Proof. unfold setl. revert t. induction l as [|x r IH]; intros [|t] H; cbn in *; try lia; [reflexivity|apply IH; lia]. Qed.
Lemma setl_other {B} (l : list B) t u b : u <> t -> nth_error (setl l t b) u = nth_error l u.
Proof. unfold setl. revert t u. induction l as [|x r IH]; intros [|t] [|u] H; cbn; try reflexivity; try lia. apply IH. lia. Qed.
Lemma setl_id {B} (l : list B) t b : nth_error l t = Some b -> setl l t b = l.
Proof. unfold setl. revert t. induction l as [|x r IH]; intros [|t] H; cbn in *; try discriminate; [congruence|]. f_equal. apply IH. exact H. Qed.
Lemma cnt_setl {B} (p : B -> bool) l t a b : nth_error l t = Some a ->
  cnt p (setl l t b) + (if p a then 1 else 0) = cnt p l + (if p b then 1 else 0).
Proof.
  unfold cnt, setl. revert t. induction l as [|x r IH]; intros [|t] H; cbn in *; try discriminate.
  - injection H as ->. destruct (p a), (p b); cbn; lia.
  - specialize (IH _ H). destruct (p x); cbn; lia.
Qed.
Lemma cnt_zero {B} (p : B -> bool) l : cnt p l = 0 <-> forall t a, nth_error l t = Some a -> p a = false.
Proof.
  unfold cnt. split.
  - intros H t a E. destruct (p a) eqn:Q; [|reflexivity]. apply nth_error_In in E.
    assert (I : In a (filter p l)) by (apply filter_In; auto). destruct (filter p l); [destruct I|discriminate].
  - intros H. induction l as [|x r IH]; [reflexivity|]. cbn. rewrite (H 0 x eq_refl). apply IH. intros t a E. apply (H (S t) a E).
Qed.
Lemma cnt_pos {B} (p : B -> bool) l : 0 < cnt p l <-> exists t a, nth_error l t = Some a /\ p a = true.
Proof.
  split.
  - unfold cnt. intros H. destruct (filter p l) as [|a f] eqn:E; [cbn in H; lia|].
    assert (I : In a (filter p l)) by (rewrite E; left; reflexivity). apply filter_In in I. destruct I as [I Q].
    apply In_nth_error in I. destruct I as [t I]. exists t, a. auto.
  - intros [t [a [E Q]]]. destruct (cnt p l) eqn:C; [|lia]. pose proof (proj1 (cnt_zero p l) C t a E). congruence.
Qed.
Lemma cnt_repeat {B} (p : B -> bool) n a : p a = false -> cnt p (repeat a n) = 0.
Proof. intros H. apply cnt_zero. intros t b E. apply nth_error_In in E. apply repeat_spec in E. subst. exact H. Qed.
Lemma cnt_le {B} (p : B -> bool) l : cnt p l <= length l.
Proof. unfold cnt. induction l as [|x r IH]; cbn; [lia|]. destruct (p x); cbn; lia. Qed.

Section Requests.
Context {A : Type}.
Definition isN (p : rpc) := match p with Notify => true | _ => false end.
Definition isNA (p : rpc) := match p with NotifyAll => true | _ => false end.
Definition isS (p : rpc) := match p with Sleep => true | _ => false end.
Definition isA (p : rpc) := match p with Awake => true | _ => false end.

Lemma pushed_app (a b : list (rev A)) : pushed (a ++ b) = pushed a ++ pushed b.
Proof. apply flat_map_app. Qed.
Lemma popped_app (a b : list (rev A)) : popped (a ++ b) = popped a ++ popped b.
Proof. apply flat_map_app. Qed.

(** What is known in every state. *)
Definition Goodtr (x : rst A) : Prop :=
  pushed (r_tr x) = popped (r_tr x) ++ r_q x /\ (r_stop x = true <-> stopped (r_tr x))
  /\ (forall a t b, r_tr x = a ++ EvPop t None :: b -> stopped a /\ pushed a = popped a).
Definition Awoken (x : rst A) : Prop :=
  (0 < cnt isS (r_pc x) -> length (r_q x) <= cnt isN (r_pc x) + cnt isA (r_pc x))
  /\ (0 < cnt isS (r_pc x) -> r_stop x = true -> 0 < cnt isNA (r_pc x)).

Lemma rev_case {B} (b : list B) : b = [] \/ exists b' z, b = b' ++ [z].
Proof. destruct b as [|x r]; [left; reflexivity|right]. destruct (@exists_last _ (x :: r)) as [b' [z E]]; [discriminate|]. exists b', z. exact E. Qed.
Lemma snoc_split {B} (l a b : list B) e m : l ++ [e] = a ++ m :: b ->
  (exists b', b = b' ++ [e] /\ l = a ++ m :: b') \/ (b = [] /\ l = a /\ e = m).
Proof.
  intros H. destruct (rev_case b) as [->|[b' [z ->]]].
  - right. apply app_inj_tail in H. destruct H as [-> ->]. auto.
  - left. exists b'. replace (a ++ m :: b' ++ [z]) with ((a ++ m :: b') ++ [z]) in H by (rewrite <- app_assoc; reflexivity).
    apply app_inj_tail in H. destruct H as [-> ->]. auto.
Qed.

Lemma stopped_app (a b : list (rev A)) : stopped (a ++ b) <-> stopped a \/ stopped b.
Proof.
  unfold stopped. split.
  - intros [t H]. apply in_app_or in H. destruct H; eauto.
  - intros [[t H]|[t H]]; exists t; apply in_or_app; auto.
Qed.
Lemma none_snoc (tr : list (rev A)) e :
  (forall a t b, tr = a ++ EvPop t None :: b -> stopped a /\ pushed a = popped a) ->
  (forall t, e = EvPop t None -> stopped tr /\ pushed tr = popped tr) ->
  forall a t b, tr ++ [e] = a ++ EvPop t None :: b -> stopped a /\ pushed a = popped a.
Proof.
  intros H1 H2 a t b E. apply snoc_split in E. destruct E as [[b' [_ E]]|[_ [<- E]]]; [eapply H1; exact E|eapply H2; exact E].
Qed.
Lemma Good_push x t i : Goodtr x -> Goodtr (r_push x t i).
Proof.
  intros [G1 [G2 G3]]. split; [|split]; cbn [r_push r_q r_stop r_tr].
  - rewrite pushed_app, popped_app, G1. cbn. rewrite app_nil_r, <- app_assoc. reflexivity.
  - rewrite stopped_app, G2. split; [auto|]. intros [H|[u H]]; [exact H|]. destruct H as [H|[]]. discriminate.
  - apply none_snoc; [exact G3|]. intros u E. discriminate.
Qed.
Lemma Good_check x t : Goodtr x -> Goodtr (r_check x t).
Proof.
  intros [G1 [G2 G3]]. unfold r_check. destruct (r_q x) as [|i q] eqn:Q; cbn [negb orb].
  - destruct (r_stop x) eqn:S.
    + split; [|split]; cbn [r_q r_stop r_tr].
      * rewrite pushed_app, popped_app, G1. cbn. rewrite !app_nil_r. reflexivity.
      * rewrite stopped_app. split; [intros _; left; apply G2; reflexivity|auto].
      * apply none_snoc; [exact G3|]. intros u _. split; [apply G2; reflexivity|]. rewrite G1, app_nil_r. reflexivity.
    + split; [|split]; cbn [r_q r_stop r_tr]; assumption.
  - split; [|split]; cbn [r_q r_stop r_tr].
    + rewrite pushed_app, popped_app, G1. cbn. rewrite app_nil_r, <- app_assoc. reflexivity.
    + rewrite stopped_app, G2. split; [auto|]. intros [H|[u H]]; [exact H|]. destruct H as [H|[]]. discriminate.
    + apply none_snoc; [exact G3|]. intros u E. discriminate.
Qed.
Lemma Good_shut x t : Goodtr x -> Goodtr (r_shut x t).
Proof.
  intros [G1 [G2 G3]]. split; [|split]; cbn [r_shut r_q r_stop r_tr].
  - rewrite pushed_app, popped_app, G1. cbn. rewrite !app_nil_r. reflexivity.
  - rewrite stopped_app. split; [|auto]. intros _. right. exists t. left. reflexivity.
  - apply none_snoc; [exact G3|]. intros u E. discriminate.
Qed.
Lemma Good_set x t p : Goodtr x -> Goodtr (r_set x t p).
Proof. intros H. exact H. Qed.
Lemma Good_wake x t : Goodtr x -> Goodtr (r_wake_all x t).
Proof. intros H. exact H. Qed.
Lemma Good_act x t y : Goodtr x -> ract x t y -> Goodtr y.
Proof. intros G H. destruct H; auto using Good_set, Good_check, Good_wake. Qed.
Lemma Good_use x t y : Goodtr x -> ruse x t y -> Goodtr y.
Proof. intros G H. destruct H; auto using Good_set, Good_check, Good_push, Good_shut. Qed.

(** Threads. *)
Ltac counts E b :=
  let HN := fresh "CHN" in let HA := fresh "CHA" in let HS := fresh "CHS" in let HNA := fresh "CHNA" in
  pose proof (cnt_setl isN _ _ _ b E) as HN; pose proof (cnt_setl isA _ _ _ b E) as HA;
  pose proof (cnt_setl isS _ _ _ b E) as HS; pose proof (cnt_setl isNA _ _ _ b E) as HNA; cbn [isN isA isS isNA] in HN, HA, HS, HNA.
Lemma Awoken_push x t i : rpc_at x t Out -> Awoken x -> Awoken (r_push x t i).
Proof.
  intros E [W1 W2]. unfold rpc_at in E. split; cbn [r_push r_q r_stop r_pc]; counts E Notify.
  - rewrite app_length. cbn [length]. intros H. specialize (W1 ltac:(lia)). lia.
  - intros H S. specialize (W2 ltac:(lia) S). lia.
Qed.
Lemma Awoken_check x t : (rpc_at x t Out \/ rpc_at x t Awake) -> Awoken x -> Awoken (r_check x t).
Proof.
  intros E [W1 W2]. unfold r_check. destruct (r_q x) as [|i q] eqn:Q; cbn [negb orb].
  - destruct (r_stop x) eqn:S; split; cbn [r_q r_stop r_pc length]; try lia; try discriminate.
    intros H _. destruct E as [E|E]; unfold rpc_at in E; counts E Out; specialize (W2 ltac:(lia) eq_refl); lia.
  - cbn [length] in W1. split; cbn [r_q r_stop r_pc].
    + intros H. destruct E as [E|E]; unfold rpc_at in E; counts E Out; specialize (W1 ltac:(lia)); lia.
    + intros H S. destruct E as [E|E]; unfold rpc_at in E; counts E Out; specialize (W2 ltac:(lia) S); lia.
Qed.
Lemma Awoken_shut x t : rpc_at x t Out -> Awoken x -> Awoken (r_shut x t).
Proof.
  intros E [W1 W2]. unfold rpc_at in E. split; cbn [r_shut r_q r_stop r_pc]; counts E NotifyAll.
  - intros H. specialize (W1 ltac:(lia)). lia.
  - intros _ _. lia.
Qed.
Lemma Awoken_spurious x t : rpc_at x t Sleep -> Awoken x -> Awoken (r_set x t Awake).
Proof.
  intros E [W1 W2]. unfold rpc_at in E. split; cbn [r_set r_q r_stop r_pc]; counts E Awake.
  - intros H. specialize (W1 ltac:(lia)). lia.
  - intros H S. specialize (W2 ltac:(lia) S). lia.
Qed.
Lemma sleep_none (l : list rpc) : cnt isS (map wake l) = 0.
Proof. apply cnt_zero. intros t a E. rewrite nth_error_map in E. destruct (nth_error l t) as [p|]; [|discriminate]. injection E as <-. destruct p; reflexivity. Qed.
Lemma Awoken_act x t y : ract x t y -> Awoken x -> Awoken y.
Proof.
  intros H W. destruct H as [x t u E F|x t E F|x t E|x t E].
  - destruct W as [W1 W2]. unfold rpc_at in E, F. assert (u <> t) by (intros ->; congruence).
    assert (F' : nth_error (setl (r_pc x) t Out) u = Some Sleep) by (rewrite setl_other by assumption; exact F).
    split; cbn [r_set r_q r_stop r_pc]; counts E Out; counts F' Awake.
    + intros H'. specialize (W1 ltac:(lia)). lia.
    + intros H' S. specialize (W2 ltac:(lia) S). lia.
  - assert (Z : cnt isS (r_pc x) = 0). { apply cnt_zero. intros v a G. destruct a; try reflexivity. exfalso. exact (F v G). }
    unfold rpc_at in E. split; cbn [r_set r_q r_stop r_pc]; counts E Out; lia.
  - apply Awoken_check; auto.
  - split; cbn [r_wake_all r_pc]; rewrite sleep_none; lia.
Qed.
Lemma Awoken_use x t y : ruse x t y -> Awoken x -> Awoken y.
Proof. intros H W. destruct H; auto using Awoken_push, Awoken_check, Awoken_shut, Awoken_spurious. Qed.
Lemma reach_good n (x : rst A) : rreach n x -> Goodtr x /\ Awoken x.
Proof.
  induction 1 as [|x t y H [I J] K|x t y H [I J] K].
  - split.
    + split; [reflexivity|split]; [|intros [|? ?] ? ? E; discriminate]. split; [discriminate|]. intros [t []].
    + split; cbn [r_init r_pc]; rewrite (cnt_repeat isS n Out eq_refl); lia.
  - split; [eapply Good_act; eassumption|eapply Awoken_act; eassumption].
  - split; [eapply Good_use; eassumption|eapply Awoken_use; eassumption].
Qed.
(** Nobody can go on: then a blocked pop means an empty queue that is not shut down. *)
Lemma quiet_blocked n (x : rst A) t : rreach n x -> (forall u y, ~ ract x u y) -> rpc_at x t Sleep ->
  r_q x = [] /\ r_stop x = false.
Proof.
  intros H Q E. destruct (reach_good n x H) as [_ [W1 W2]]. unfold rpc_at in E.
  assert (P : 0 < cnt isS (r_pc x)) by (apply cnt_pos; exists t, Sleep; auto).
  assert (ZN : cnt isN (r_pc x) = 0).
  { apply cnt_zero. intros v a G. destruct a; try reflexivity. exfalso. exact (Q v _ (rs_notify _ _ _ G E)). }
  assert (ZA : cnt isA (r_pc x) = 0).
  { apply cnt_zero. intros v a G. destruct a; try reflexivity. exfalso. exact (Q v _ (rs_recheck _ _ G)). }
  assert (ZNA : cnt isNA (r_pc x) = 0).
  { apply cnt_zero. intros v a G. destruct a; try reflexivity. exfalso. exact (Q v _ (rs_notify_all _ _ G)). }
  specialize (W1 P). split.
  - destruct (r_q x); [reflexivity|cbn in W1; lia].
  - destruct (r_stop x); [specialize (W2 P eq_refl); lia|reflexivity].
Qed.
(** The threads inside calls come to rest. *)
Definition weight (n : nat) (p : rpc) : nat :=
  match p with Out => 0 | Sleep => 1 | Awake => 2 | Notify => 3 | NotifyAll => S n end.
Definition wsum (n : nat) (l : list rpc) : nat := list_sum (map (weight n) l).
Lemma wsum_setl n l t a b : nth_error l t = Some a -> wsum n (setl l t b) + weight n a = wsum n l + weight n b.
Proof.
  unfold wsum, setl. revert t. induction l as [|x r IH]; intros [|t] H; cbn in *; try discriminate.
  - injection H as ->. lia.
  - specialize (IH _ H). unfold list_sum in IH. lia.
Qed.
Lemma wsum_wake n l : wsum n (map wake l) <= wsum n l + length l.
Proof. unfold wsum, list_sum. induction l as [|x r IH]; cbn; [lia|]. destruct x; cbn; lia. Qed.
Lemma check_len (x : rst A) t : length (r_pc (r_check x t)) = length (r_pc x).
Proof. unfold r_check. destruct (r_q x); cbn; [destruct (r_stop x)|]; cbn; apply setl_len. Qed.
Lemma act_len (x : rst A) t y : ract x t y -> length (r_pc y) = length (r_pc x).
Proof. intros H. destruct H; cbn [r_set r_pc r_wake_all]; rewrite ?map_length, ?setl_len; try reflexivity. apply check_len. Qed.
Lemma act_weight (x : rst A) t y n : ract x t y -> length (r_pc x) <= n -> wsum n (r_pc y) < wsum n (r_pc x).
Proof.
  intros H L. destruct H as [x t u E F|x t E F|x t E|x t E]; unfold rpc_at in E.
  - unfold rpc_at in F. assert (u <> t) by (intros ->; congruence).
    assert (F' : nth_error (setl (r_pc x) t Out) u = Some Sleep) by (rewrite setl_other by assumption; exact F).
    cbn [r_set r_pc]. pose proof (wsum_setl n _ _ _ Out E) as X1. pose proof (wsum_setl n _ _ _ Awake F') as X2. cbn [weight] in X1, X2. lia.
  - cbn [r_set r_pc]. pose proof (wsum_setl n _ _ _ Out E) as X1. cbn [weight] in X1. lia.
  - unfold r_check. pose proof (wsum_setl n _ _ _ Out E) as X1. pose proof (wsum_setl n _ _ _ Sleep E) as X2. cbn [weight] in X1, X2.
    destruct (r_q x); cbn [negb orb]; [destruct (r_stop x)|]; cbn [r_pc]; lia.
  - cbn [r_wake_all r_pc]. pose proof (wsum_setl n _ _ _ Out E) as X1. pose proof (wsum_wake n (setl (r_pc x) t Out)) as X2.
    rewrite setl_len in X2. cbn [weight] in X1. lia.
Qed.
Lemma acts_end (x : rst A) : Acc (fun y x => exists t, ract x t y) x.
Proof.
  remember (wsum (length (r_pc x)) (r_pc x)) as w eqn:W. revert x W.
  induction w as [w IH] using lt_wf_ind. intros x ->. constructor. intros y [t H].
  eapply IH; [|reflexivity]. rewrite (act_len _ _ _ H). apply (act_weight _ _ _ _ H). lia.
Qed.
End Requests.
