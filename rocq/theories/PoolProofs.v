(** Proofs about the thread pool. *)
From Verif Require Import Base DTypeModel PoolModel PoolSpec.
Local Open Scope Z_scope.

(** ** The loops *)
Lemma serial_loop_in : forall f i e st j, 0 < st -> (Z.to_nat (e - i) <= f)%nat ->
  (In j (serial_loop f i e st) <-> exists k, 0 <= k /\ j = i + k * st /\ j < e).
Proof.
  induction f as [|f IH]; intros i e st j Hst Hf; cbn [serial_loop].
  - split; [intros []|]. intros [k [Hk [-> Hj]]]. assert (0 <= k * st) by (apply Z.mul_nonneg_nonneg; lia). lia.
  - destruct (i <? e) eqn:E.
    + cbn [In]. rewrite IH by lia. split.
      * intros [<-|[k [Hk [-> Hj]]]]; [exists 0; lia|]. exists (k + 1). lia.
      * intros [k [Hk [-> Hj]]]. destruct (Z.eq_dec k 0) as [->|N]; [left; lia|]. right. exists (k - 1). lia.
    + split; [intros []|]. intros [k [Hk [-> Hj]]]. assert (0 <= k * st) by (apply Z.mul_nonneg_nonneg; lia). lia.
Qed.
Lemma serial_loop_nodup : forall f i e st, 0 < st -> (Z.to_nat (e - i) <= f)%nat -> NoDup (serial_loop f i e st).
Proof.
  induction f as [|f IH]; intros i e st Hst Hf; cbn [serial_loop]; [constructor|].
  destruct (i <? e) eqn:E; [|constructor]. constructor; [|apply IH; lia].
  rewrite serial_loop_in by lia. intros [k [Hk [H _]]]. assert (0 <= k * st) by (apply Z.mul_nonneg_nonneg; lia). lia.
Qed.
Lemma serial_loop_long : forall k f i e st, 0 < st -> (Z.to_nat (e - i) <= f)%nat ->
  i + Z.of_nat k * st < e -> (k < length (serial_loop f i e st))%nat.
Proof.
  induction k as [|k IH]; intros f i e st Hst Hf H; destruct f as [|f]; cbn [serial_loop].
  - lia.
  - replace (i <? e) with true by lia. cbn [length]. lia.
  - assert (0 <= Z.of_nat (S k) * st) by (apply Z.mul_nonneg_nonneg; lia). lia.
  - assert (0 <= Z.of_nat (S k) * st) by (apply Z.mul_nonneg_nonneg; lia).
    replace (i <? e) with true by lia. cbn [length]. specialize (IH f (i + st) e st Hst). lia.
Qed.
Lemma serial_loop_short : forall f i e st k, 0 < st -> i + Z.of_nat k * st >= e -> (length (serial_loop f i e st) <= k)%nat.
Proof.
  induction f as [|f IH]; intros i e st k Hst H; cbn [serial_loop]; [cbn; lia|].
  destruct (i <? e) eqn:E; [|cbn; lia]. cbn [length]. destruct k as [|k]; [lia|].
  specialize (IH (i + st) e st k Hst). lia.
Qed.
Lemma serial_once : forall tk, 0 < t_step tk -> exactly_once tk (serial tk).
Proof.
  intros tk H. unfold serial. split; [apply serial_loop_nodup; lia|]. intros i. rewrite serial_loop_in by lia. reflexivity.
Qed.
Lemma once_perm : forall tk l l', exactly_once tk l -> Permutation l' l -> exactly_once tk l'.
Proof.
  intros tk l l' [N H] P. split; [eapply Permutation_NoDup; [symmetry; exact P|exact N]|].
  intros i. rewrite <- H. split; apply Permutation_in; [exact P|symmetry; exact P].
Qed.
Lemma once_most : forall tk l r, exactly_once tk (l ++ r) -> at_most_once tk l.
Proof.
  intros tk l r [N H]. split.
  - clear H. induction l as [|a l IH]; [constructor|]. inversion N as [|a0 l0 Hn Hr]; subst. constructor; [|apply IH; exact Hr].
    intro Hin. apply Hn. apply in_or_app. left; exact Hin.
  - intros i Hi. apply H. apply in_or_app. left; exact Hi.
Qed.
Lemma stride_in : forall f v n tc x, (1 <= tc)%nat -> (n - v <= f)%nat ->
  (In x (stride f v n tc) <-> exists k, x = (v + k * tc)%nat /\ (x < n)%nat).
Proof.
  induction f as [|f IH]; intros v n tc x Ht Hf; cbn [stride].
  - split; [intros []|]. intros [k [-> H]]. assert (0 <= k * tc)%nat by lia. lia.
  - destruct (v <? n)%nat eqn:E.
    + apply Nat.ltb_lt in E. cbn [In]. rewrite IH by lia. split.
      * intros [<-|[k [-> H]]]; [exists 0%nat; lia|]. exists (S k). split; [cbn; lia|exact H].
      * intros [k [-> H]]. destruct k as [|k]; [left; lia|]. right. exists k. split; [cbn; lia|exact H].
    + apply Nat.ltb_ge in E. split; [intros []|]. intros [k [-> H]]. lia.
Qed.
Lemma stride_nodup : forall f v n tc, (1 <= tc)%nat -> (n - v <= f)%nat -> NoDup (stride f v n tc).
Proof.
  induction f as [|f IH]; intros v n tc Ht Hf; cbn [stride]; [constructor|].
  destruct (v <? n)%nat eqn:E; [|constructor]. apply Nat.ltb_lt in E. constructor; [|apply IH; lia].
  rewrite stride_in by lia. intros [k [H _]]. lia.
Qed.
Lemma NoDup_app_intro : forall (A : Type) (l r : list A), NoDup l -> NoDup r -> (forall x, In x l -> ~ In x r) -> NoDup (l ++ r).
Proof.
  induction l as [|a l IH]; intros r Hl Hr H; [exact Hr|]. inversion Hl as [|a0 l0 Ha Hl']; subst. cbn [app]. constructor.
  - intro Hi. apply in_app_or in Hi. destruct Hi as [Hi|Hi]; [contradiction|]. apply (H a); [left; reflexivity|exact Hi].
  - apply IH; [exact Hl'|exact Hr|]. intros x Hx. apply H. right; exact Hx.
Qed.
Lemma NoDup_concat_map : forall (f : nat -> list nat) l, NoDup l -> (forall t, In t l -> NoDup (f t)) ->
  (forall t u x, In t l -> In u l -> In x (f t) -> In x (f u) -> t = u) -> NoDup (concat (map f l)).
Proof.
  induction l as [|a l IH]; intros N D H; cbn [map concat]; [constructor|].
  inversion N as [|a0 l0 Ha Hl]; subst. apply NoDup_app_intro.
  - apply D. left; reflexivity.
  - apply IH; [exact Hl|intros; apply D; right; assumption|]. intros t u x Ht Hu. apply H; right; assumption.
  - intros x Hx Hc. apply in_concat in Hc. destruct Hc as [y [Hy Hxy]]. apply in_map_iff in Hy. destruct Hy as [u [<- Hu]].
    apply Ha. rewrite (H a u x); auto; [left; reflexivity|right; exact Hu].
Qed.
Lemma map_nth_seq : forall (l : list Z), map (fun v => nth v l 0) (seq 0 (length l)) = l.
Proof.
  intros l. induction l as [|a l IH]; [reflexivity|]. cbn [length seq map nth]. f_equal.
  rewrite <- seq_shift, map_map. exact IH.
Qed.
Lemma calls_strided : forall tc n l, (1 <= tc)%nat -> length l = n ->
  Permutation (concat (map (calls tc (mkJob n l true)) (seq 0 tc))) l.
Proof.
  intros tc n l Ht Hl. unfold calls. cbn [j_strided j_idx j_tiles].
  replace (concat (map (fun t => map (fun v => nth v l 0) (stride n t n tc)) (seq 0 tc)))
    with (map (fun v => nth v l 0) (concat (map (fun t => stride n t n tc) (seq 0 tc))))
    by (rewrite concat_map, map_map; reflexivity).
  transitivity (map (fun v => nth v l 0) (seq 0 n)); [|rewrite <- Hl; rewrite map_nth_seq; reflexivity]. apply Permutation_map. apply NoDup_Permutation.
  - apply NoDup_concat_map; [apply seq_NoDup|intros; apply stride_nodup; lia|].
    intros t u x H1 H2 H3 H4. apply in_seq in H1. apply in_seq in H2. apply stride_in in H3; [|lia..]. apply stride_in in H4; [|lia..].
    destruct H3 as [k [E1 _]]. destruct H4 as [m [E2 _]].
    assert (F : (x mod tc = t /\ x mod tc = u)%nat).
    { split; [rewrite E1|rewrite E2]; rewrite Nat.mod_add by lia; apply Nat.mod_small; lia. }
    lia.
  - apply seq_NoDup.
  - intros x. rewrite in_seq. split.
    + intros H. apply in_concat in H. destruct H as [y [Hy Hx]]. apply in_map_iff in Hy. destruct Hy as [t [<- Ht']].
      apply in_seq in Ht'. apply stride_in in Hx; [|lia..]. destruct Hx as [k [_ H]]. lia.
    + intros H. apply in_concat. exists (stride n (x mod tc) n tc). split.
      * apply in_map_iff. exists (x mod tc)%nat. split; [reflexivity|]. apply in_seq.
        pose proof (Nat.mod_upper_bound x tc). lia.
      * apply stride_in; [lia..|]. exists (x / tc)%nat. split; [|lia].
        rewrite (Nat.div_mod x tc) at 1 by lia. lia.
Qed.
Lemma calls_direct : forall tc n l, length l = n ->
  concat (map (calls tc (mkJob n l false)) (seq 0 n)) = l.
Proof.
  intros tc n l Hl. unfold calls. cbn [j_strided j_idx j_tiles].
  transitivity (map (fun v => nth v l 0) (seq 0 n)); [|rewrite <- Hl; apply map_nth_seq]. clear Hl. generalize (seq 0 n). intros s.
  induction s as [|a s IH]; [reflexivity|]. cbn [map concat app]. rewrite IH. reflexivity.
Qed.
(** The plan of a push covers the loop. *)
Lemma plan_serial : forall tc av s tk l, 0 < t_step tk -> push_plan tc av s tk = ROk (Serial l) -> l = serial tk.
Proof.
  intros tc av s tk l H E. unfold push_plan in E. replace (t_step tk =? 0) with false in E by lia. cbv zeta in E.
  assert (SP : serial_plan tk = ROk (Serial l) -> l = serial tk).
  { unfold serial_plan. replace (t_step tk <? 0) with false by lia. cbn [andb]. congruence. }
  destruct (_ || _); [auto|]. destruct (av =? 0); [auto|]. destruct (_ <=? _); [discriminate|].
  destruct (_ <? Z.of_nat _); [discriminate|]. destruct (_ <? _); [destruct (_ =? _)%nat|]; discriminate.
Qed.
Lemma plan_parallel : forall tc av s tk j w, 0 < t_step tk -> push_plan tc av s tk = ROk (Parallel j w) ->
  (1 <= w <= tc)%nat /\ Permutation (concat (map (calls tc j) (seq 0 w))) (serial tk).
Proof.
  intros tc av s tk j w H E. unfold push_plan in E. replace (t_step tk =? 0) with false in E by lia. cbv zeta in E.
  assert (SP : forall l, serial_plan tk = ROk (Parallel j w) -> l).
  { intros l. unfold serial_plan. replace (t_step tk <? 0) with false by lia. cbn [andb]. congruence. }
  set (n := Z.quot (t_end tk - t_start tk) (t_step tk)) in *.
  destruct ((n <=? 1) || (s <? 0)) eqn:E1; [apply SP; exact E|]. destruct (av =? 0); [apply SP; exact E|].
  destruct (TASK_LIMITS <=? s); [discriminate|]. replace (t_step tk <? 0) with false in E by lia.
  destruct (n <? Z.of_nat (length (serial tk))) eqn:E2; [discriminate|].
  assert (Hn : n = Z.quot (t_end tk - t_start tk) (t_step tk)) by reflexivity.
  assert (HL : length (serial tk) = Z.to_nat n).
  { apply Nat.le_antisymm; [lia|]. unfold serial.
    assert (K : (Z.to_nat (n - 1) < length (serial_loop (Z.to_nat (t_end tk - t_start tk)) (t_start tk) (t_end tk) (t_step tk)))%nat); [|lia].
    apply serial_loop_long; [lia..|]. rewrite Z2Nat.id by lia.
    assert (0 <= t_end tk - t_start tk).
    { destruct (Z_le_gt_dec 0 (t_end tk - t_start tk)); [assumption|]. 
      assert (n <= 0); [|lia]. rewrite Hn. rewrite <- (Z.opp_involutive (t_end tk - t_start tk)), Z.quot_opp_l by lia.
      pose proof (Z.quot_pos (- (t_end tk - t_start tk)) (t_step tk)). lia. }
    rewrite Z.quot_div_nonneg in Hn by lia. pose proof (Z.mul_div_le (t_end tk - t_start tk) (t_step tk)). nia. }
  rewrite HL, Nat.sub_diag in E. cbn [repeat] in E. rewrite app_nil_r in E.
  destruct (Z.of_nat tc <? n) eqn:E3.
  - destruct (tc =? 0)%nat eqn:E4; [discriminate|]. apply Nat.eqb_neq in E4. injection E as <- <-. split; [lia|].
    apply calls_strided; [lia|exact HL].
  - injection E as <- <-. split; [lia|]. rewrite calls_direct by exact HL. reflexivity.
Qed.

(** ** The invariant of one slot *)
Section Inv.
Variable tc : nat.

Definition view (p : wpc) (s : nat) : option (list Z) :=
  match p with
  | WRun s' r => if (s' =? s)%nat then Some r else None
  | WClear s' => if (s' =? s)%nat then Some [] else None
  | _ => None
  end.
Definition wrem (j : job) (fl : nat -> bool) (vw : nat -> option (list Z)) (t : nat) : list Z :=
  if fl t then match vw t with Some r => r | None => calls tc j t end else [].
Definition prem (p : ppc) (j : job) (fl : nat -> bool) (vw : nat -> option (list Z)) (t : nat) : list Z :=
  match p with PSet i _ => if (i <=? t)%nat then calls tc j t else wrem j fl vw t | _ => wrem j fl vw t end.
Definition width (p : ppc) : nat := match p with PIdle => 0 | PSet _ w => w | PRun _ w => w | PWait _ w => w end.
Definition own (p : ppc) (j : job) : list Z := match p with PSet _ _ => calls tc j 0 | PRun r _ => r | _ => [] end.
Definition inrange (p : ppc) (t : nat) : Prop :=
  match p with PSet i _ => (t < i)%nat | PWait i _ => (i <= t)%nat | _ => True end.
Definition Slot (p : ppc) (j : job) (fl : nat -> bool) (vw : nat -> option (list Z)) (o : option (task * list Z)) : Prop :=
  (forall t r, vw t = Some r -> fl t = true) /\
  match p with
  | PIdle => o = None /\ forall t, fl t = false
  | _ => exists tk log, o = Some (tk, log) /\ 0 < t_step tk /\
      Permutation (log ++ own p j ++ concat (map (prem p j fl vw) (seq 1 (width p - 1)))) (serial tk) /\
      (1 <= width p <= Nat.max 1 tc)%nat /\
      match p with PSet i w => (1 <= i)%nat | PWait i w => (1 <= i)%nat | _ => True end /\
      (forall t, fl t = true -> (1 <= t < width p)%nat /\ inrange p t)
  end.
Definition Inv (x : st) : Prop := forall s, exists o, Seen (slot_trace s (s_trace x)) o /\
  Slot (s_pc x s) (s_job x s) (s_flag x s) (fun t => view (s_wk x t) s) o.

Lemma prem_ext : forall p j fl vw fl' vw' t, fl t = fl' t -> vw t = vw' t -> prem p j fl vw t = prem p j fl' vw' t.
Proof. intros p j fl vw fl' vw' t E1 E2. unfold prem, wrem. rewrite E1, E2. reflexivity. Qed.
Lemma Slot_ext : forall p j fl vw fl' vw' o, (forall t, fl t = fl' t) -> (forall t, vw t = vw' t) ->
  Slot p j fl vw o -> Slot p j fl' vw' o.
Proof.
  intros p j fl vw fl' vw' o E1 E2 [H1 H2]. split.
  - intros t r H. rewrite <- E1. eapply H1. rewrite E2. exact H.
  - destruct p as [|i w|r w|i w].
    + destruct H2 as [-> H2]. split; [reflexivity|]. intros t. rewrite <- E1. auto.
    + destruct H2 as [tk [log [A [B [C [D [G K]]]]]]]. exists tk, log. repeat split; try assumption; try apply D.
      * erewrite map_ext; [exact C|]. intros t. apply prem_ext; auto.
      * apply (K t). rewrite E1; assumption. * apply (K t). rewrite E1; assumption. * apply (K t). rewrite E1; assumption.
    + destruct H2 as [tk [log [A [B [C [D [G K]]]]]]]. exists tk, log. repeat split; try assumption; try apply D.
      * erewrite map_ext; [exact C|]. intros t. apply prem_ext; auto.
      * apply (K t). rewrite E1; assumption. * apply (K t). rewrite E1; assumption.
    + destruct H2 as [tk [log [A [B [C [D [G K]]]]]]]. exists tk, log. repeat split; try assumption; try apply D.
      * erewrite map_ext; [exact C|]. intros t. apply prem_ext; auto.
      * apply (K t). rewrite E1; assumption. * apply (K t). rewrite E1; assumption. * apply (K t). rewrite E1; assumption.
Qed.
Lemma concat_change : forall (f g : nat -> list Z) a x n b, (forall t, t <> a -> f t = g t) -> f a = x ++ g a ->
  (b <= a < b + n)%nat -> Permutation (concat (map f (seq b n))) (x ++ concat (map g (seq b n))).
Proof.
  induction n as [|n IH]; intros b E1 E2 Hb; [lia|]. cbn [seq map concat].
  destruct (Nat.eq_dec a b) as [->|N].
  - rewrite E2, <- app_assoc. apply Permutation_app_head. apply Permutation_app_head.
    rewrite (map_ext_in f g); [reflexivity|]. intros t Ht. apply in_seq in Ht. apply E1. lia.
  - rewrite (E1 b) by lia. rewrite (IH (S b)) by (auto; lia). rewrite !app_assoc. apply Permutation_app_tail. apply Permutation_app_comm.
Qed.
Lemma slot_trace_emit : forall s tr e, slot_trace s (tr ++ [e]) = if of_slot s e then slot_trace s tr ++ [e] else slot_trace s tr.
Proof. intros. unfold slot_trace. rewrite filter_app. cbn [filter]. destruct (of_slot s e); [reflexivity|apply app_nil_r]. Qed.

Lemma upd_same : forall A (f : nat -> A) k v, upd f k v k = v.
Proof. intros. unfold upd. rewrite Nat.eqb_refl. reflexivity. Qed.
Lemma upd_other : forall A (f : nat -> A) k v x, x <> k -> upd f k v x = f x.
Proof. intros. unfold upd. destruct (Nat.eqb_spec x k); [congruence|reflexivity]. Qed.

(** Steps of the caller that only move its program counter. *)
Lemma Slot_set : forall i w j fl vw o, (i < w)%nat -> Slot (PSet i w) j fl vw o ->
  Slot (PSet (S i) w) j (fun t => if (t =? i)%nat then true else fl t) vw o.
Proof.
  intros i w j fl vw o Hi [H1 [tk [log [A [B [C [D [G K]]]]]]]]. split.
  - intros t r H. destruct (t =? i)%nat; [reflexivity|]. eapply H1; exact H.
  - exists tk, log. cbn [own width] in *. split; [exact A|]. split; [exact B|]. split; [|split; [exact D|split; [lia|]]].
    + erewrite map_ext_in; [exact C|]. intros t Ht. cbn beta. unfold prem. destruct (Nat.eqb_spec t i) as [->|N].
      * replace (S i <=? i)%nat with false by (symmetry; apply Nat.leb_gt; lia).
        rewrite Nat.leb_refl. unfold wrem. rewrite Nat.eqb_refl.
        destruct (vw i) as [r|] eqn:E; [|reflexivity]. apply H1 in E. apply K in E. cbn [inrange] in E. lia.
      * replace (S i <=? t)%nat with (i <=? t)%nat by (destruct (Nat.leb_spec i t), (Nat.leb_spec (S i) t); lia || reflexivity).
        destruct (i <=? t)%nat; [reflexivity|]. unfold wrem. apply Nat.eqb_neq in N. rewrite N. reflexivity.
    + intros t Ht. cbn [inrange]. destruct (Nat.eq_dec t i) as [EQ|N]; [lia|].
      cbn beta in Ht. replace (t =? i)%nat with false in Ht by (symmetry; apply Nat.eqb_neq; exact N). apply K in Ht. cbn [inrange] in Ht. lia.
Qed.
Lemma Slot_set_done : forall i w j fl vw o, (w <= i)%nat -> Slot (PSet i w) j fl vw o ->
  Slot (PRun (calls tc j 0) w) j fl vw o.
Proof.
  intros i w j fl vw o Hi [H1 [tk [log [A [B [C [D [G K]]]]]]]]. split; [exact H1|].
  exists tk, log. cbn [own width] in *. split; [exact A|]. split; [exact B|]. split; [|split; [exact D|split; [exact I|]]].
  - erewrite map_ext_in; [exact C|]. intros t Ht. apply in_seq in Ht. unfold prem.
    replace (i <=? t)%nat with false; [reflexivity|]. symmetry. apply Nat.leb_gt. lia.
  - intros t Ht. apply K in Ht. cbn [inrange] in *. tauto.
Qed.
Lemma Slot_run : forall i r w j fl vw tk log, Slot (PRun (i :: r) w) j fl vw (Some (tk, log)) ->
  Slot (PRun r w) j fl vw (Some (tk, log ++ [i])) /\ at_most_once tk (log ++ [i]).
Proof.
  intros i r w j fl vw tk log [H1 [tk' [log' [A [B [C [D [G K]]]]]]]]. injection A as <- <-.
  assert (C' : Permutation ((log ++ [i]) ++ r ++ concat (map (prem (PRun r w) j fl vw) (seq 1 (w - 1)))) (serial tk)).
  { rewrite <- app_assoc. cbn [app]. exact C. }
  split.
  - split; [exact H1|]. exists tk, (log ++ [i]).
    split; [reflexivity|]. split; [exact B|]. split; [exact C'|]. split; [exact D|]. split; [exact G|exact K].
  - eapply once_most. eapply once_perm; [apply serial_once; exact B|exact C'].
Qed.
Lemma Slot_run_done : forall w j fl vw o, Slot (PRun [] w) j fl vw o -> Slot (PWait 1 w) j fl vw o.
Proof.
  intros w j fl vw o [H1 [tk [log [A [B [C [D [G K]]]]]]]]. split; [exact H1|]. exists tk, log.
  cbn [own width] in *. split; [exact A|]. split; [exact B|]. split; [exact C|]. split; [exact D|]. split; [lia|].
  intros t Ht. apply K in Ht. cbn [inrange]. lia.
Qed.
Lemma Slot_wait_back : forall i w j fl vw o, Slot (PWait i w) j fl vw o -> Slot (PWait 1 w) j fl vw o.
Proof.
  intros i w j fl vw o [H1 [tk [log [A [B [C [D [G K]]]]]]]]. split; [exact H1|]. exists tk, log.
  cbn [own width] in *. split; [exact A|]. split; [exact B|]. split; [exact C|]. split; [exact D|]. split; [lia|].
  intros t Ht. apply K in Ht. cbn [inrange]. lia.
Qed.
Lemma Slot_wait_next : forall i w j fl vw o, fl i = false -> Slot (PWait i w) j fl vw o -> Slot (PWait (S i) w) j fl vw o.
Proof.
  intros i w j fl vw o Hf [H1 [tk [log [A [B [C [D [G K]]]]]]]]. split; [exact H1|]. exists tk, log.
  cbn [own width] in *. split; [exact A|]. split; [exact B|]. split; [exact C|]. split; [exact D|]. split; [lia|].
  intros t Ht. pose proof (K t Ht) as Q. cbn [inrange] in *. split; [lia|].
  destruct (Nat.eq_dec t i); [subst; congruence|lia].
Qed.
Lemma Slot_end : forall i w j fl vw o, (w <= i)%nat -> Slot (PWait i w) j fl vw o ->
  exists tk log, o = Some (tk, log) /\ exactly_once tk log /\ Slot PIdle j fl vw None.
Proof.
  intros i w j fl vw o Hi [H1 [tk [log [A [B [C [D [G K]]]]]]]].
  assert (F : forall t, fl t = false).
  { intros t. destruct (fl t) eqn:E; [|reflexivity]. apply K in E. cbn [inrange width] in E. lia. }
  exists tk, log. split; [exact A|]. split.
  - eapply once_perm; [apply serial_once; exact B|]. cbn [own width app] in C.
    replace (concat (map (prem (PWait i w) j fl vw) (seq 1 (w - 1)))) with (@nil Z) in C; [rewrite app_nil_r in C; exact C|].
    generalize (seq 1 (w - 1)). intros l. induction l as [|t l IH]; [reflexivity|]. cbn [map concat]. rewrite <- IH.
    unfold prem, wrem. rewrite F. reflexivity.
  - split; [exact H1|]. split; [reflexivity|exact F].
Qed.
Lemma Slot_begin_serial : forall tk j fl vw, 0 < t_step tk -> Slot PIdle j fl vw None ->
  Slot (PRun (serial tk) 1) j fl vw (Some (tk, [])).
Proof.
  intros tk j fl vw H [H1 [_ F]]. split; [exact H1|]. exists tk, []. cbn [own width app Nat.sub seq map concat].
  split; [reflexivity|]. split; [exact H|]. split; [rewrite app_nil_r; reflexivity|]. split; [lia|]. split; [exact I|].
  intros t Ht. rewrite F in Ht. discriminate.
Qed.
Lemma Slot_begin : forall tk j j' w fl vw, 0 < t_step tk -> (1 <= w <= tc)%nat ->
  Permutation (concat (map (calls tc j') (seq 0 w))) (serial tk) -> Slot PIdle j fl vw None ->
  Slot (PSet 1 w) j' fl vw (Some (tk, [])).
Proof.
  intros tk j j' w fl vw H Hw P [H1 [_ F]]. split; [exact H1|]. exists tk, []. cbn [own width app].
  split; [reflexivity|]. split; [exact H|]. split; [|split; [lia|split; [lia|]]].
  - destruct w as [|w]; [lia|]. cbn [seq map concat] in P. replace (S w - 1)%nat with w by lia.
    rewrite (map_ext_in _ (calls tc j')); [exact P|]. intros t Ht. apply in_seq in Ht. unfold prem.
    replace (1 <=? t)%nat with true; [reflexivity|]. symmetry. apply Nat.leb_le. lia.
  - intros t Ht. rewrite F in Ht. discriminate.
Qed.
(** Steps of a worker in its slot. *)
Definition vupd (vw : nat -> option (list Z)) (t : nat) (v : option (list Z)) : nat -> option (list Z) :=
  fun u => if (u =? t)%nat then v else vw u.
Lemma Slot_take : forall p j fl vw o t, vw t = None -> fl t = true -> Slot p j fl vw o ->
  Slot p j fl (vupd vw t (Some (calls tc j t))) o.
Proof.
  intros p j fl vw o t Hv Hf [H1 H2].
  assert (E : forall u, prem p j fl (vupd vw t (Some (calls tc j t))) u = prem p j fl vw u).
  { intros u. unfold prem, wrem, vupd. destruct (Nat.eqb_spec u t) as [->|N]; [rewrite Hv|reflexivity]. reflexivity. }
  split.
  - intros u r H. unfold vupd in H. destruct (Nat.eqb_spec u t) as [->|N]; [exact Hf|]. eapply H1; exact H.
  - destruct p; [exact H2|..]; destruct H2 as [tk [log [A [B [C [D K]]]]]]; exists tk, log;
      (split; [exact A|]; split; [exact B|]; split; [erewrite map_ext; [exact C|exact E]|]; split; [exact D|exact K]).
Qed.
Lemma Slot_work : forall p j fl vw tk log t i r, vw t = Some (i :: r) -> Slot p j fl vw (Some (tk, log)) ->
  Slot p j fl (vupd vw t (Some r)) (Some (tk, log ++ [i])) /\ at_most_once tk (log ++ [i]).
Proof.
  intros p j fl vw tk log t i r Hv [H1 H2]. pose proof (H1 _ _ Hv) as Hf.
  assert (G0 : forall u r0, vupd vw t (Some r) u = Some r0 -> fl u = true).
  { intros u r0 H. unfold vupd in H. destruct (Nat.eqb_spec u t) as [->|N]; [exact Hf|]. eapply H1; exact H. }
  destruct p as [|a w|l w|a w]; [destruct H2 as [H2 _]; discriminate|..];
  destruct H2 as [tk' [log' [A [B [C [D [G K]]]]]]]; injection A as <- <-;
  pose proof (K _ Hf) as Q; cbn [inrange width own] in *;
  match goal with |- Slot ?p _ _ _ _ /\ _ =>
    assert (C' : Permutation ((log ++ [i]) ++ own p j ++ concat (map (prem p j fl (vupd vw t (Some r))) (seq 1 (w - 1)))) (serial tk));
    [ cbn [own]; rewrite <- C;
      rewrite (concat_change (prem p j fl vw) (prem p j fl (vupd vw t (Some r))) t [i] (w - 1) 1);
      [ rewrite <- !app_assoc; apply Permutation_app_head; rewrite !app_assoc; apply Permutation_app_tail; apply Permutation_app_comm
      | intros u N; apply prem_ext; [reflexivity|]; unfold vupd; apply Nat.eqb_neq in N; rewrite N; reflexivity
      | unfold prem, wrem, vupd; rewrite Nat.eqb_refl, Hf, Hv;
        try (replace (a <=? t)%nat with false by (symmetry; apply Nat.leb_gt; lia)); reflexivity
      | lia ]
    | split; [split; [exact G0|]; exists tk, (log ++ [i]); cbn [own width] in *;
        split; [reflexivity|]; split; [exact B|]; split; [exact C'|]; split; [exact D|]; split; [exact G|exact K]
      | eapply once_most; eapply once_perm; [apply serial_once; exact B|exact C'] ] ]
  end.
Qed.
Lemma Slot_same_view : forall p j fl vw vw' o, (forall t, vw t = vw' t) -> Slot p j fl vw o -> Slot p j fl vw' o.
Proof. intros. eapply Slot_ext; [|exact H|eassumption]. reflexivity. Qed.
Lemma Slot_clear : forall p j fl vw o t, vw t = Some [] -> Slot p j fl vw o ->
  Slot p j (fun u => if (u =? t)%nat then false else fl u) (vupd vw t None) o.
Proof.
  intros p j fl vw o t Hv [H1 H2]. pose proof (H1 _ _ Hv) as Hf. split.
  - intros u r H. unfold vupd in H. destruct (Nat.eqb_spec u t) as [->|N]; [discriminate|]. eapply H1; exact H.
  - destruct p as [|a w|l w|a w].
    + destruct H2 as [-> F]. split; [reflexivity|]. intros u. destruct (u =? t)%nat; auto.
    + destruct H2 as [tk [log [A [B [C [D [G K]]]]]]]. exists tk, log. pose proof (K _ Hf) as Q. cbn [inrange width own] in *.
      split; [exact A|]. split; [exact B|]. split; [|split; [exact D|split; [exact G|]]].
      * erewrite map_ext; [exact C|]. intros u. unfold prem, wrem, vupd. destruct (Nat.eqb_spec u t) as [->|N]; [|reflexivity].
        rewrite Hf, Hv. replace (a <=? t)%nat with false by (symmetry; apply Nat.leb_gt; lia). reflexivity.
      * intros u. destruct (u =? t)%nat; [discriminate|]. apply K.
    + destruct H2 as [tk [log [A [B [C [D [G K]]]]]]]. exists tk, log. cbn [inrange width own] in *.
      split; [exact A|]. split; [exact B|]. split; [|split; [exact D|split; [exact G|]]].
      * erewrite map_ext; [exact C|]. intros u. unfold prem, wrem, vupd. destruct (Nat.eqb_spec u t) as [->|N]; [|reflexivity].
        rewrite Hf, Hv. reflexivity.
      * intros u. destruct (u =? t)%nat; [discriminate|]. apply K.
    + destruct H2 as [tk [log [A [B [C [D [G K]]]]]]]. exists tk, log. cbn [inrange width own] in *.
      split; [exact A|]. split; [exact B|]. split; [|split; [exact D|split; [exact G|]]].
      * erewrite map_ext; [exact C|]. intros u. unfold prem, wrem, vupd. destruct (Nat.eqb_spec u t) as [->|N]; [|reflexivity].
        rewrite Hf, Hv. reflexivity.
      * intros u. destruct (u =? t)%nat; [discriminate|]. apply K.
Qed.
Lemma view_next : forall s s', view (next_slot s) s' = None.
Proof. intros. unfold next_slot. destruct (_ <? _)%nat; reflexivity. Qed.
Lemma view_upd : forall x t p s u, view (upd x t p u) s = vupd (fun t => view (x t) s) t (view p s) u.
Proof. intros. unfold upd, vupd. destruct (u =? t)%nat; reflexivity. Qed.
Lemma vupd_id : forall vw t v u, vw t = v -> vupd vw t v u = vw u.
Proof. intros. unfold vupd. destruct (Nat.eqb_spec u t); subst; reflexivity. Qed.

Lemma view_upd_same : forall (f : nat -> wpc) t p s u, view (f t) s = view p s -> view (upd f t p u) s = view (f u) s.
Proof. intros f t p s u H. unfold upd. destruct (Nat.eqb_spec u t) as [->|]; [symmetry; exact H|reflexivity]. Qed.
Lemma Inv_init : Inv init.
Proof.
  intros s. exists None. split; [constructor|]. cbn. split; [intros; discriminate|]. split; [reflexivity|]. reflexivity.
Qed.
Ltac inv_case s s0 N := intros s0; destruct (Nat.eq_dec s0 s) as [->|N].
Lemma Inv_act : forall x y, Inv x -> act tc x y -> Inv y.
Proof.
  intros x y HI HA. destruct HA as [x s i w E L|x s i w E L|x s i r w E|x s w E|x s i w E L F|x s i w E L F|x s i w E L
    |x t T E A|x t s T E F|x t s T E F|x t s i r T E|x t s T E|x t s T E]; intros s0; destruct (HI s0) as [o [ST SL]].
  - exists o. cbn [s_pc s_job s_flag s_wk s_trace set_pc set_flag]. split; [exact ST|].
    destruct (Nat.eq_dec s0 s) as [->|N].
    + rewrite upd_same. rewrite E in SL. eapply Slot_ext; [|reflexivity|apply Slot_set; [exact L|exact SL]].
      intros t. unfold upd2. rewrite Nat.eqb_refl. reflexivity.
    + rewrite upd_other by exact N. eapply Slot_ext; [|reflexivity|exact SL].
      intros t. unfold upd2. apply Nat.eqb_neq in N. rewrite N. reflexivity.
  - exists o. cbn [s_pc s_job s_flag s_wk s_trace set_pc]. split; [exact ST|].
    destruct (Nat.eq_dec s0 s) as [->|N]; [rewrite upd_same; rewrite E in SL; eapply Slot_set_done; eassumption|rewrite upd_other by exact N; exact SL].
  - cbn [s_pc s_job s_flag s_wk s_trace set_pc emit]. rewrite slot_trace_emit. cbn [of_slot].
    destruct (Nat.eq_dec s0 s) as [->|N].
    + rewrite Nat.eqb_refl, upd_same. rewrite E in SL. pose proof SL as [_ [tk [log [A _]]]]. subst o.
      destruct (Slot_run _ _ _ _ _ _ _ _ SL) as [S' M]. eexists. split; [|exact S']. constructor; assumption.
    + exists o. rewrite upd_other by exact N. replace (s =? s0)%nat with false by (symmetry; apply Nat.eqb_neq; congruence). split; assumption.
  - exists o. cbn [s_pc s_job s_flag s_wk s_trace set_pc]. split; [exact ST|].
    destruct (Nat.eq_dec s0 s) as [->|N]; [rewrite upd_same; rewrite E in SL; eapply Slot_run_done; eassumption|rewrite upd_other by exact N; exact SL].
  - exists o. cbn [s_pc s_job s_flag s_wk s_trace set_pc]. split; [exact ST|].
    destruct (Nat.eq_dec s0 s) as [->|N]; [rewrite upd_same; rewrite E in SL; eapply Slot_wait_back; eassumption|rewrite upd_other by exact N; exact SL].
  - exists o. cbn [s_pc s_job s_flag s_wk s_trace set_pc]. split; [exact ST|].
    destruct (Nat.eq_dec s0 s) as [->|N]; [rewrite upd_same; rewrite E in SL; eapply Slot_wait_next; eassumption|rewrite upd_other by exact N; exact SL].
  - cbn [s_pc s_job s_flag s_wk s_trace set_pc emit]. rewrite slot_trace_emit. cbn [of_slot].
    destruct (Nat.eq_dec s0 s) as [->|N].
    + rewrite Nat.eqb_refl, upd_same. rewrite E in SL. destruct (Slot_end _ _ _ _ _ _ L SL) as [tk [log [-> [EO S']]]].
      exists None. split; [eapply seen_end; eassumption|exact S'].
    + exists o. rewrite upd_other by exact N. replace (s =? s0)%nat with false by (symmetry; apply Nat.eqb_neq; congruence). split; assumption.
  - exists o. cbn [s_pc s_job s_flag s_wk s_trace set_wk]. split; [exact ST|].
    eapply Slot_same_view; [|exact SL]. intros u. symmetry. apply view_upd_same. rewrite E. reflexivity.
  - exists o. cbn [s_pc s_job s_flag s_wk s_trace set_wk]. split; [exact ST|].
    destruct (Nat.eq_dec s0 s) as [->|N].
    + eapply Slot_same_view; [intros u; symmetry; apply view_upd|]. cbn [view]. rewrite Nat.eqb_refl.
      apply Slot_take; [rewrite E; reflexivity|exact F|exact SL].
    + eapply Slot_same_view; [|exact SL]. intros u. symmetry. apply view_upd_same. rewrite E. cbn [view].
      replace (s =? s0)%nat with false by (symmetry; apply Nat.eqb_neq; congruence). reflexivity.
  - exists o. cbn [s_pc s_job s_flag s_wk s_trace set_wk]. split; [exact ST|].
    eapply Slot_same_view; [|exact SL]. intros u. symmetry. apply view_upd_same. rewrite view_next. rewrite E. reflexivity.
  - cbn [s_pc s_job s_flag s_wk s_trace set_wk emit]. rewrite slot_trace_emit. cbn [of_slot].
    destruct (Nat.eq_dec s0 s) as [->|N].
    + rewrite Nat.eqb_refl. assert (V : view (s_wk x t) s = Some (i :: r)) by (rewrite E; cbn [view]; rewrite Nat.eqb_refl; reflexivity).
      destruct o as [[tk log]|].
      * destruct (Slot_work _ _ _ _ _ _ t i r V SL) as [S' M]. eexists. split; [constructor; eassumption|].
        eapply Slot_same_view; [|exact S']. intros u. rewrite view_upd. cbn [view]. rewrite Nat.eqb_refl. reflexivity.
      * exfalso. destruct SL as [H1 H2]. pose proof (H1 _ _ V). destruct (s_pc x s); [|destruct H2 as [? [? [H2 _]]]; discriminate..].
        destruct H2 as [_ H2]. rewrite H2 in H. discriminate.
    + exists o. replace (s =? s0)%nat with false by (symmetry; apply Nat.eqb_neq; congruence). split; [exact ST|].
      eapply Slot_same_view; [|exact SL]. intros u. symmetry. apply view_upd_same. rewrite E. cbn [view].
      replace (s =? s0)%nat with false by (symmetry; apply Nat.eqb_neq; congruence). reflexivity.
  - exists o. cbn [s_pc s_job s_flag s_wk s_trace set_wk]. split; [exact ST|].
    eapply Slot_same_view; [|exact SL]. intros u. symmetry. apply view_upd_same. rewrite E. reflexivity.
  - exists o. cbn [s_pc s_job s_flag s_wk s_trace set_wk set_flag]. split; [exact ST|].
    destruct (Nat.eq_dec s0 s) as [->|N].
    + eapply Slot_ext; [| |refine (Slot_clear _ _ _ (fun t => view (s_wk x t) s) _ t _ SL)].
      * intros u. unfold upd2. rewrite Nat.eqb_refl. reflexivity.
      * intros u. rewrite view_upd, view_next. reflexivity.
      * cbn beta. rewrite E. cbn [view]. rewrite Nat.eqb_refl. reflexivity.
    + eapply Slot_ext; [| |exact SL].
      * intros u. unfold upd2. apply Nat.eqb_neq in N. rewrite N. reflexivity.
      * intros u. symmetry. apply view_upd_same. rewrite view_next. rewrite E. cbn [view].
        replace (s =? s0)%nat with false by (symmetry; apply Nat.eqb_neq; congruence). reflexivity.
Qed.
Lemma Inv_use : forall x y ex, Inv x -> use tc ex x y -> Inv y.
Proof.
  intros x y ex HI HU. destruct HU as [x s tk l E P Q|x s tk j w E P Q|x a|x s t r EX W P]; intros s0; destruct (HI s0) as [o [ST SL]].
  - cbn [s_pc s_job s_flag s_wk s_trace set_pc emit]. rewrite slot_trace_emit. cbn [of_slot].
    destruct (Nat.eq_dec s0 s) as [->|N].
    + rewrite Nat.eqb_refl, upd_same. rewrite E in SL. pose proof SL as [_ [-> _]]. eexists. split; [constructor; exact ST|].
      rewrite (plan_serial _ _ _ _ _ P Q). apply Slot_begin_serial; assumption.
    + exists o. rewrite upd_other by exact N. replace (s =? s0)%nat with false by (symmetry; apply Nat.eqb_neq; congruence). split; assumption.
  - cbn [s_pc s_job s_flag s_wk s_trace set_pc set_job emit]. rewrite slot_trace_emit. cbn [of_slot].
    destruct (Nat.eq_dec s0 s) as [->|N].
    + rewrite Nat.eqb_refl, !upd_same. rewrite E in SL. pose proof SL as [_ [-> _]]. eexists. split; [constructor; exact ST|].
      destruct (plan_parallel _ _ _ _ _ _ P Q) as [W1 W2]. eapply Slot_begin; eassumption.
    + exists o. rewrite !upd_other by exact N. replace (s =? s0)%nat with false by (symmetry; apply Nat.eqb_neq; congruence). split; assumption.
  - exists o. split; assumption.
  - exists o. split; assumption.
Qed.
Theorem reach_Inv : forall ex x, reach tc ex x -> Inv x.
Proof.
  intros ex x H. induction H as [|x y H IH [HA|HU]]; [apply Inv_init|eapply Inv_act; eassumption|eapply Inv_use; eassumption].
Qed.
End Inv.
