(** Proofs about reference-counted handles. *)
From Verif Require Import Base IptrModel IptrSpec.
Local Open Scope Z_scope.

Lemma nth_lset : forall A (l : list A) n x m,
  nth_error (lset n x l) m = if (m =? n)%nat then (match nth_error l n with Some _ => Some x | None => None end) else nth_error l m.
Proof.
  induction l as [|y r IH]; intros [|n] x [|m]; cbn; try reflexivity.
  - destruct (m =? n)%nat; reflexivity.
  - apply IH.
Qed.
Fixpoint zsum {A} (f : A -> Z) (l : list A) : Z :=
  match l with [] => 0 | x :: r => f x + zsum f r end.
Lemma zsum_lset : forall A (f : A -> Z) l n x y, nth_error l n = Some y -> zsum f (lset n x l) = zsum f l - f y + f x.
Proof.
  induction l as [|z r IH]; intros [|n] x y H; cbn in *; try discriminate.
  - injection H as <-. lia.
  - rewrite (IH _ _ _ H). lia.
Qed.
Lemma zsum_nonneg : forall A (f : A -> Z) l, (forall x, 0 <= f x) -> 0 <= zsum f l.
Proof. induction l as [|x r IH]; intros H; cbn; [lia|]. specialize (H x) as H1. specialize (IH H). lia. Qed.
Lemma zsum_ge : forall A (f : A -> Z) l n x, (forall x, 0 <= f x) -> nth_error l n = Some x -> f x <= zsum f l.
Proof.
  induction l as [|z r IH]; intros [|n] x P H; cbn in *; try discriminate.
  - injection H as <-. assert (Q := zsum_nonneg _ f r P). lia.
  - assert (Q := IH _ _ P H). specialize (P z). lia.
Qed.
Lemma zsum_zero : forall A (f : A -> Z) l, (forall n x, nth_error l n = Some x -> f x = 0) -> zsum f l = 0.
Proof.
  induction l as [|z r IH]; intros H; cbn; [reflexivity|].
  rewrite (H O z eq_refl), IH; [reflexivity|]. intros n x E. apply (H (Datatypes.S n)). exact E.
Qed.
Lemma zsum_pos : forall A (f : A -> Z) l, (forall x, 0 <= f x) -> 0 < zsum f l -> exists n x, nth_error l n = Some x /\ 0 < f x.
Proof.
  induction l as [|z r IH]; intros P H; cbn in H; [lia|].
  destruct (Z_lt_dec 0 (f z)) as [Q|Q].
  - exists O, z. split; [reflexivity|exact Q].
  - destruct IH as [n [x [E F]]]; [exact P|specialize (P z); lia|]. exists (Datatypes.S n), x. split; assumption.
Qed.

Definition cref (o : nat) (c : hcell) : Z := match c with HPtr o' => Z.b2z (o' =? o)%nat | _ => 0 end.
Definition tref (o : nat) (x : tstate) : Z :=
  match x with
  | THolding (Some o') _ => Z.b2z (o' =? o)%nat
  | TReleasing o' => Z.b2z (o' =? o)%nat
  | _ => 0
  end.
Definition tpend (o : nat) (x : tstate) : Z :=
  match x with
  | TAdding o' None _ => Z.b2z (o' =? o)%nat
  | TDeleting o' => Z.b2z (o' =? o)%nat
  | _ => 0
  end.
Lemma cref_nonneg : forall o c, 0 <= cref o c.
Proof. intros o [| |o']; cbn; lia. Qed.
Lemma tref_nonneg : forall o c, 0 <= tref o c.
Proof. intros o [|o' g k|[o'|] k|o'|o']; cbn; lia. Qed.
Lemma tpend_nonneg : forall o c, 0 <= tpend o c.
Proof. intros o [|o' [g|] k|p k|o'|o']; cbn; lia. Qed.

Definition prefs (s : pst) (o : nat) : Z := zsum (cref o) (p_cell s) + zsum (tref o) (p_thr s).
Definition pend (s : pst) (o : nat) : Z := zsum (tpend o) (p_thr s).

(** Counting part. *)
Definition counted (s : pst) (o : nat) : Prop :=
  if p_live s o
  then (o < p_next s)%nat /\ p_cnt s o = prefs s o /\ (0 < prefs s o /\ pend s o = 0 \/ prefs s o = 0 /\ pend s o = 1) /\ p_dels s o = O
  else prefs s o = 0 /\ pend s o = 0 /\ p_dels s o = (if (o <? p_next s)%nat then 1 else 0)%nat.
(** Thread part. *)
Definition own_ok (cells : list hcell) (x : tstate) : Prop :=
  match x with
  | TAdding o (Some g) _ => nth_error cells g = Some (HPtr o)
  | _ => True
  end /\
  match x with
  | TAdding _ _ (GCtor h) | THolding _ (GCtor h) => nth_error cells h = Some HDead
  | TAdding _ _ (GAssign h) | THolding _ (GAssign h) => exists c, nth_error cells h = Some c /\ c <> HDead
  | _ => True
  end.
Definition apart (x y : tstate) : Prop := forall h, In h (twrites x) -> ~ In h (treads y) /\ ~ In h (twrites y).
Definition threads_ok (s : pst) : Prop :=
  (forall t x, nth_error (p_thr s) t = Some x -> own_ok (p_cell s) x) /\
  (forall t x t' x', t <> t' -> nth_error (p_thr s) t = Some x -> nth_error (p_thr s) t' = Some x' -> apart x x').
Definition pinv (s : pst) : Prop := p_bad s = false /\ (forall o, counted s o) /\ threads_ok s.

Lemma pinit_inv : forall n m, pinv (pinit n m).
Proof.
  intros n m. assert (NT : forall t x, nth_error (repeat TIdle m) t = Some x -> x = TIdle).
  { intros t x H. apply nth_error_In in H. apply repeat_spec in H. exact H. }
  assert (NC : forall t x, nth_error (repeat HDead n) t = Some x -> x = HDead).
  { intros t x H. apply nth_error_In in H. apply repeat_spec in H. exact H. }
  split; [reflexivity|]. split; [|split].
  - intros o. unfold counted, prefs, pend, pinit. cbn [p_live p_cell p_thr p_dels p_next].
    repeat split.
    + rewrite !zsum_zero; [reflexivity| |]; intros k x H.
      * apply NT in H. subst. reflexivity.
      * apply NC in H. subst. reflexivity.
    + apply zsum_zero. intros k x H. apply NT in H. subst. reflexivity.
  - intros t x H. apply NT in H. subst. split; exact I.
  - intros t x t' x' _ H _. apply NT in H. subst. intros h [].
Qed.

(** ** Threads *)
Lemma threads_step : forall s cells' t x y,
  threads_ok s -> nth_error (p_thr s) t = Some x ->
  (forall t' x', t' <> t -> nth_error (p_thr s) t' = Some x' -> apart y x' /\ apart x' y) ->
  own_ok cells' y ->
  (forall h, nth_error cells' h = nth_error (p_cell s) h \/
     (forall t' x', t' <> t -> nth_error (p_thr s) t' = Some x' -> ~ In h (treads x') /\ ~ In h (twrites x'))) ->
  forall s', p_cell s' = cells' -> p_thr s' = lset t y (p_thr s) -> threads_ok s'.
Proof.
  intros s cells' t x y [O A] X AP OY FR s' EC ET. split.
  - intros t' x' H. rewrite EC. rewrite ET, nth_lset in H. destruct (t' =? t)%nat eqn:Q.
    + rewrite X in H. injection H as <-. exact OY.
    + apply Nat.eqb_neq in Q. destruct (O _ _ H) as [O1 O2].
      assert (same : forall h, In h (treads x') \/ In h (twrites x') -> nth_error cells' h = nth_error (p_cell s) h).
      { intros h I. destruct (FR h) as [F|F]; [exact F|]. destruct (F _ _ Q H) as [F1 F2]. destruct I; contradiction. }
      split.
      * destruct x' as [|o' [g|] k|p k|o'|o']; try exact I. rewrite same; [exact O1|]. left. left. reflexivity.
      * destruct x' as [|o' g k|p k|o'|o']; try exact I; destruct k as [h|h]; (rewrite same; [exact O2|]; right; left; reflexivity).
  - intros t1 x1 t2 x2 N H1 H2. rewrite ET, nth_lset in H1, H2.
    destruct (t1 =? t)%nat eqn:Q1; destruct (t2 =? t)%nat eqn:Q2.
    + apply Nat.eqb_eq in Q1, Q2. subst. contradiction N; reflexivity.
    + rewrite X in H1. injection H1 as <-. apply Nat.eqb_neq in Q2. exact (proj1 (AP _ _ Q2 H2)).
    + rewrite X in H2. injection H2 as <-. apply Nat.eqb_neq in Q1. exact (proj2 (AP _ _ Q1 H1)).
    + exact (A _ _ _ _ N H1 H2).
Qed.
Lemma nth_lset_self : forall A (l : list A) n x, nth_error l n = Some x -> lset n x l = l.
Proof.
  induction l as [|y r IH]; intros [|n] x H; cbn in *; try discriminate.
  - injection H as <-. reflexivity.
  - rewrite (IH _ _ H). reflexivity.
Qed.
Lemma get_cell : forall s h p, get s h = Some p -> nth_error (p_cell s) h = Some (of_ptr p).
Proof.
  intros s h p H. unfold get, cell_of in H. destruct (nth_error (p_cell s) h) as [[| |o]|]; try discriminate; injection H as <-; reflexivity.
Qed.
Lemma of_ptr_alive : forall p, of_ptr p <> HDead.
Proof. intros [o|]; discriminate. Qed.

(** The counting part changes by what the two tables change by. *)
Lemma counted_frame : forall s s' o, counted s o ->
  p_live s' o = p_live s o -> p_cnt s' o - p_cnt s o = prefs s' o - prefs s o -> p_dels s' o = p_dels s o ->
  (p_next s' = p_next s) -> pend s' o = pend s o -> (0 < prefs s o <-> 0 < prefs s' o) -> (prefs s o = 0 <-> prefs s' o = 0) ->
  counted s' o.
Proof.
  intros s s' o C L N D X P Q Q0. unfold counted in *. rewrite L, D, X, P. destruct (p_live s o).
  - destruct C as [C1 [C2 [C3 C4]]]. split; [exact C1|]. split; [lia|]. split; [|exact C4]. clear - C3 Q Q0. intuition lia.
  - destruct C as [C1 [C2 C3]]. split; [clear - C1 Q0; intuition lia|]. split; assumption.
Qed.

Lemma prefs_upd : forall s s' o, p_cell s' = p_cell s -> p_thr s' = p_thr s -> prefs s' o = prefs s o.
Proof. intros s s' o A B. unfold prefs. rewrite A, B. reflexivity. Qed.
Lemma pair_get : forall s h g p q, get s h = Some p -> cell_of s g = Some q -> q = HDead -> h <> g.
Proof. intros s h g p q H G E N. subst. unfold get in H. rewrite G in H. discriminate. Qed.

Lemma others_unused : forall s t h, nth_error (p_thr s) t = Some TIdle -> unused s h ->
  forall t' x', t' <> t -> nth_error (p_thr s) t' = Some x' -> ~ In h (treads x') /\ ~ In h (twrites x').
Proof. intros s t h _ U t' x' _ H. exact (U t' x' H). Qed.

(** The states in which the thread started nothing that reads or writes handles. *)
Lemma apart_nil : forall y x', twrites y = [] -> treads y = [] -> apart y x' /\ apart x' y.
Proof. intros y x' A B. split; intros h H; [rewrite A in H; destruct H|]. rewrite A, B. split; intros []. Qed.
Lemma dropping_nil : forall q, twrites (dropping q) = [] /\ treads (dropping q) = [].
Proof. intros [o|]; split; reflexivity. Qed.
Lemma dropping_own : forall c q, own_ok c (dropping q).
Proof. intros c [o|]; split; exact I. Qed.

(** Starting an operation that will write h and has read g. *)
Lemma apart_start : forall s t (y : tstate) h, threads_ok s -> nth_error (p_thr s) t = Some TIdle -> unused s h ->
  twrites y = [h] -> (forall g, In g (treads y) -> readable s g) ->
  forall t' x', t' <> t -> nth_error (p_thr s) t' = Some x' -> apart y x' /\ apart x' y.
Proof.
  intros s t y h _ _ U W R t' x' _ H. split; intros k K.
  - rewrite W in K. destruct K as [<-|[]]. exact (U _ _ H).
  - split; intros J.
    + exact (R _ J _ _ H K).
    + rewrite W in J. destruct J as [<-|[]]. exact (proj2 (U _ _ H) K).
Qed.
(** Going on with an operation. *)
Lemma apart_on : forall s t x y, threads_ok s -> nth_error (p_thr s) t = Some x ->
  (forall h, In h (twrites y) -> In h (twrites x)) -> (forall h, In h (treads y) -> In h (treads x)) ->
  forall t' x', t' <> t -> nth_error (p_thr s) t' = Some x' -> apart y x' /\ apart x' y.
Proof.
  intros s t x y [_ A] X W R t' x' N H. split; intros h K.
  - exact (A _ _ _ _ (not_eq_sym N) X H h (W _ K)).
  - destruct (A _ _ _ _ N H X h K) as [B1 B2]. split; intros J; [apply B1, R, J|apply B2, W, J].
Qed.

Lemma threads_next : forall s s' t x y,
  threads_ok s -> p_thr s' = lset t y (p_thr s) -> nth_error (p_thr s) t = Some x ->
  (forall t' x', t' <> t -> nth_error (p_thr s) t' = Some x' -> apart y x' /\ apart x' y) ->
  own_ok (p_cell s') y ->
  (forall h, nth_error (p_cell s') h = nth_error (p_cell s) h \/
     (forall t' x', t' <> t -> nth_error (p_thr s) t' = Some x' -> ~ In h (treads x') /\ ~ In h (twrites x'))) ->
  threads_ok s'.
Proof. intros s s' t x y T E X A O F. exact (threads_step s (p_cell s') t x y T X A O F s' eq_refl E). Qed.
Ltac nx s t T X :=
  match goal with |- threads_ok ?S' => refine (threads_next s S' t _ _ T eq_refl X _ _ _) end.
Lemma step_threads : forall t s s', pinv s -> pstep false t s s' -> threads_ok s'.
Proof.
  intros t s s' [_ [_ T]] St. destruct St as
    [h X U C|h X U C|h q X U G|h g p X U C R G|h q g p X U GH R G|h g p X U C UG G|h q g p X U GH UG G|h q X U G|h q g p X U GH UG G
    |h q X U G|h g p CV|o src k X|p h X|p h q X G|o X|o X]; try discriminate.
  - match goal with |- threads_ok ?S' => refine (threads_next s S' t TIdle TIdle T _ X _ _ _) end.
    + cbn. symmetry. apply nth_lset_self. exact X.
    + intros. apply apart_nil; reflexivity.
    + split; exact I.
    + intros k. cbn. rewrite nth_lset. destruct (k =? h)%nat eqn:Q; [|left; reflexivity].
      apply Nat.eqb_eq in Q. subst. right. apply (others_unused s t h X U).
  - nx s t T X; [refine (apart_start s t _ h T X U _ _)| |]; try reflexivity.
    + intros g [].
    + split; [exact I|exact C].
    + intros k. left. reflexivity.
  - nx s t T X; [refine (apart_start s t _ h T X U _ _)| |]; try reflexivity.
    + intros g [].
    + split; [exact I|]. exists (of_ptr q). split; [apply get_cell, G|apply of_ptr_alive].
    + intros k. left. reflexivity.
  - nx s t T X; [refine (apart_start s t _ h T X U _ _)| |].
    + destruct p; reflexivity.
    + intros g'. destruct p; cbn; [intros [<-|[]]; exact R|intros []].
    + apply get_cell in G. destruct p; cbn; (split; [first [exact G|exact I]|exact C]).
    + intros k. left. reflexivity.
  - nx s t T X; [refine (apart_start s t _ h T X U _ _)| |].
    + destruct p; reflexivity.
    + intros g'. destruct p; cbn; [intros [<-|[]]; exact R|intros []].
    + apply get_cell in G. apply get_cell in GH. destruct p; cbn; (split; [first [exact G|exact I]|]); (exists (of_ptr q); split; [exact GH|apply of_ptr_alive]).
    + intros k. left. reflexivity.
  - match goal with |- threads_ok ?S' => refine (threads_next s S' t TIdle TIdle T _ X _ _ _) end.
    + cbn. symmetry. apply nth_lset_self. exact X.
    + intros. apply apart_nil; reflexivity.
    + split; exact I.
    + intros k. cbn. rewrite !nth_lset. destruct (k =? g)%nat eqn:Q; [|destruct (k =? h)%nat eqn:Q'; [|left; reflexivity]].
      * apply Nat.eqb_eq in Q. subst. right. apply (others_unused s t g X UG).
      * apply Nat.eqb_eq in Q'. subst. right. apply (others_unused s t h X U).
  - nx s t T X; [refine (apart_start s t _ h T X U _ _)| |]; try reflexivity.
    + intros g' [].
    + split; [exact I|]. cbn. rewrite nth_lset. apply get_cell in G. apply get_cell in GH. destruct (h =? g)%nat.
      * rewrite G. exists HNull. split; [reflexivity|discriminate].
      * exists (of_ptr q). split; [exact GH|apply of_ptr_alive].
    + intros k. cbn. rewrite !nth_lset. destruct (k =? g)%nat eqn:Q; [|left; reflexivity].
      apply Nat.eqb_eq in Q. subst. right. apply (others_unused s t g X UG).
  - nx s t T X; [refine (apart_start s t _ h T X U _ _)| |]; try reflexivity.
    + intros g' [].
    + split; [exact I|]. cbn. apply get_cell in G. exists (of_ptr q). split; [exact G|apply of_ptr_alive].
    + intros k. left. reflexivity.
  - match goal with |- threads_ok ?S' => refine (threads_next s S' t TIdle TIdle T _ X _ _ _) end.
    + cbn. symmetry. apply nth_lset_self. exact X.
    + intros. apply apart_nil; reflexivity.
    + split; exact I.
    + intros k. cbn. rewrite !nth_lset. destruct (k =? g)%nat eqn:Q; [|destruct (k =? h)%nat eqn:Q'; [|left; reflexivity]].
      * apply Nat.eqb_eq in Q. subst. right. apply (others_unused s t g X UG).
      * apply Nat.eqb_eq in Q'. subst. right. apply (others_unused s t h X U).
  - nx s t T X.
    + intros. apply apart_nil; apply dropping_nil.
    + apply dropping_own.
    + intros k. cbn. rewrite nth_lset. destruct (k =? h)%nat eqn:Q; [|left; reflexivity].
      apply Nat.eqb_eq in Q. subst. right. apply (others_unused s t h X U).
  - nx s t T X; [refine (apart_on s t _ _ T X _ _)| |].
    + intros h H. exact H.
    + intros h [].
    + destruct T as [O _]. destruct (O _ _ X) as [_ O2]. split; [exact I|]. destruct k; exact O2.
    + intros h. left. reflexivity.
  - nx s t T X.
    + intros. apply apart_nil; reflexivity.
    + split; exact I.
    + intros k. cbn. rewrite nth_lset. destruct (k =? h)%nat eqn:Q; [|left; reflexivity].
      apply Nat.eqb_eq in Q. subst. right. intros t' x' N H. destruct T as [_ A].
      apply (A _ _ _ _ (not_eq_sym N) X H h). left. reflexivity.
  - nx s t T X.
    + intros. apply apart_nil; apply dropping_nil.
    + apply dropping_own.
    + intros k. cbn. rewrite nth_lset. destruct (k =? h)%nat eqn:Q; [|left; reflexivity].
      apply Nat.eqb_eq in Q. subst. right. intros t' x' N H. destruct T as [_ A].
      apply (A _ _ _ _ (not_eq_sym N) X H h). left. reflexivity.
  - nx s t T X.
    + intros. apply apart_nil; destruct (p_cnt s o =? 1); reflexivity.
    + destruct (p_cnt s o =? 1); split; exact I.
    + intros h. left. reflexivity.
  - nx s t T X.
    + intros. apply apart_nil; reflexivity.
    + split; exact I.
    + intros h. left. reflexivity.
Qed.

(** ** Counting *)
Lemma zsum_lset2 : forall A (f : A -> Z) l n x y m u v, nth_error l n = Some y -> nth_error l m = Some v -> n <> m ->
  zsum f (lset m u (lset n x l)) = zsum f l - f y + f x - f v + f u.
Proof.
  intros A f l n x y m u v H G N. rewrite (zsum_lset _ f _ m u v).
  - rewrite (zsum_lset _ f _ n x y H). lia.
  - rewrite nth_lset. destruct (m =? n)%nat eqn:Q; [apply Nat.eqb_eq in Q; subst; contradiction N; reflexivity|exact G].
Qed.
Definition pref (o : nat) (p : option nat) : Z := match p with Some o' => Z.b2z (o' =? o)%nat | None => 0 end.
Lemma cref_of : forall o p, cref o (of_ptr p) = pref o p.
Proof. intros o [o'|]; reflexivity. Qed.
Lemma tref_hold : forall o p k, tref o (THolding p k) = pref o p.
Proof. intros o [o'|] k; reflexivity. Qed.
Lemma tref_drop : forall o p, tref o (dropping p) = pref o p.
Proof. intros o [o'|]; reflexivity. Qed.
Lemma tref_build : forall o p g k, tref o (building p g k) = 0.
Proof. intros o [o'|] g k; reflexivity. Qed.
Lemma tpend_drop : forall o p, tpend o (dropping p) = 0.
Proof. intros o [o'|]; reflexivity. Qed.
Lemma tpend_build : forall o p g k, tpend o (building p g k) = 0.
Proof. intros o [o'|] g k; reflexivity. Qed.
Lemma tpend_hold : forall o p k, tpend o (THolding p k) = 0.
Proof. intros o [o'|] k; reflexivity. Qed.

(** Steps that only move references around. *)
Lemma counted_same : forall s s', (forall o, counted s o) ->
  p_live s' = p_live s -> p_cnt s' = p_cnt s -> p_dels s' = p_dels s -> p_next s' = p_next s ->
  (forall o, prefs s' o = prefs s o) -> (forall o, pend s' o = pend s o) -> forall o, counted s' o.
Proof.
  intros s s' C L N D X P Q o. specialize (C o). unfold counted in *. rewrite L, N, D, X, P, Q. exact C.
Qed.

Lemma step_counted : forall t s s', pinv s -> pstep false t s s' -> (forall o, counted s' o) /\ p_bad s' = false.
Proof.
  intros t s s' [B [C T]] St. destruct St as
    [h X U CH|h X U CH|h q X U G|h g p X U CH R G|h q g p X U GH R G|h g p X U CH UG G|h q g p X U GH UG G|h q X U G|h q g p X U GH UG G
    |h q X U G|h g p CV|o src k X|p h X|p h q X G|o X|o X]; try discriminate.
  - split; [|exact B]. apply (counted_same s); try reflexivity; [exact C|].
    intros o. unfold prefs. cbn [set_cell p_cell p_thr]. rewrite (zsum_lset _ _ _ _ _ _ CH). cbn. lia.
  - split; [|exact B]. intros o. unfold counted, prefs, pend. cbn [set_thr alloc p_cell p_thr p_live p_cnt p_dels p_next]. 
    rewrite !(zsum_lset _ _ _ _ _ _ X). cbn [tref tpend]. unfold fset. specialize (C o). unfold counted, prefs, pend in C.
    destruct (o =? p_next s)%nat eqn:Q.
    + apply Nat.eqb_eq in Q. subst o. rewrite Nat.eqb_refl. cbn [Z.b2z]. destruct (p_live s (p_next s)); [destruct C as [C _]; lia|].
      destruct C as [C1 [C2 C3]]. rewrite Nat.ltb_irrefl in C3. split; [lia|]. split; [lia|]. split; [right; lia|exact C3].
    + rewrite (Nat.eqb_sym (p_next s) o), Q. apply Nat.eqb_neq in Q. cbn [Z.b2z]. destruct (p_live s o).
      * destruct C as [C1 [C2 [C3 C4]]]. repeat split; [lia|lia| |exact C4]. lia.
      * destruct C as [C1 [C2 C3]]. repeat split; [lia|lia|]. rewrite C3. destruct (o <? p_next s)%nat eqn:W.
        -- replace (o <? Datatypes.S (p_next s))%nat with true by (symmetry; lia). reflexivity.
        -- replace (o <? Datatypes.S (p_next s))%nat with false by (symmetry; lia). reflexivity.
  - split; [|exact B]. intros o. unfold counted, prefs, pend. cbn [set_thr alloc p_cell p_thr p_live p_cnt p_dels p_next]. 
    rewrite !(zsum_lset _ _ _ _ _ _ X). cbn [tref tpend]. unfold fset. specialize (C o). unfold counted, prefs, pend in C.
    destruct (o =? p_next s)%nat eqn:Q.
    + apply Nat.eqb_eq in Q. subst o. rewrite Nat.eqb_refl. cbn [Z.b2z]. destruct (p_live s (p_next s)); [destruct C as [C _]; lia|].
      destruct C as [C1 [C2 C3]]. rewrite Nat.ltb_irrefl in C3. split; [lia|]. split; [lia|]. split; [right; lia|exact C3].
    + rewrite (Nat.eqb_sym (p_next s) o), Q. apply Nat.eqb_neq in Q. cbn [Z.b2z]. destruct (p_live s o).
      * destruct C as [C1 [C2 [C3 C4]]]. repeat split; [lia|lia| |exact C4]. lia.
      * destruct C as [C1 [C2 C3]]. repeat split; [lia|lia|]. rewrite C3. destruct (o <? p_next s)%nat eqn:W.
        -- replace (o <? Datatypes.S (p_next s))%nat with true by (symmetry; lia). reflexivity.
        -- replace (o <? Datatypes.S (p_next s))%nat with false by (symmetry; lia). reflexivity.
  - split; [|exact B]. apply (counted_same s); try reflexivity; [exact C| |]; intros o; unfold prefs, pend; cbn [set_thr p_cell p_thr];
      rewrite (zsum_lset _ _ _ _ _ _ X), ?tref_build, ?tpend_build; cbn; lia.
  - split; [|exact B]. apply (counted_same s); try reflexivity; [exact C| |]; intros o; unfold prefs, pend; cbn [set_thr p_cell p_thr];
      rewrite (zsum_lset _ _ _ _ _ _ X), ?tref_build, ?tpend_build; cbn; lia.
  - split; [|exact B]. apply (counted_same s); try reflexivity; [exact C|].
    intros o. unfold prefs. cbn [set_cell p_cell p_thr].
    rewrite (zsum_lset2 _ _ _ h _ _ g _ _ CH (get_cell _ _ _ G) (not_eq_sym (pair_get _ _ _ _ _ G CH eq_refl))), cref_of. cbn. lia.
  - split; [|exact B]. apply (counted_same s); try reflexivity; [exact C| |]; intros o; unfold prefs, pend; cbn [set_thr set_cell p_cell p_thr];
      rewrite (zsum_lset _ _ _ _ _ _ X), ?(zsum_lset _ _ _ _ _ _ (get_cell _ _ _ G)), ?tref_hold, ?tpend_hold, ?cref_of; cbn [tref tpend cref]; lia.
  - split; [|exact B]. apply (counted_same s); try reflexivity; [exact C| |]; intros o; unfold prefs, pend; cbn [set_thr p_cell p_thr];
      rewrite (zsum_lset _ _ _ _ _ _ X); cbn; lia.
  - split; [|exact B]. apply (counted_same s); try reflexivity; [exact C|].
    intros o. unfold prefs. cbn [set_cell p_cell p_thr]. destruct (Nat.eq_dec h g) as [<-|N].
    + assert (q = p) by congruence. subst q. rewrite !(nth_lset_self _ (p_cell s) h (of_ptr p)) by (apply get_cell, G). lia.
    + rewrite (zsum_lset2 _ _ _ h _ _ g _ _ (get_cell _ _ _ GH) (get_cell _ _ _ G) N), !cref_of. lia.
  - split; [|exact B]. apply (counted_same s); try reflexivity; [exact C| |]; intros o; unfold prefs, pend; cbn [set_thr set_cell p_cell p_thr];
      rewrite (zsum_lset _ _ _ _ _ _ X), ?(zsum_lset _ _ _ _ _ _ (get_cell _ _ _ G)), ?tref_drop, ?tpend_drop, ?cref_of; cbn [tref tpend cref]; lia.
  - (* add *)
    assert (LV : p_live s o = true).
    { specialize (C o). unfold counted in C. destruct (p_live s o); [reflexivity|]. destruct C as [C1 [C2 _]]. exfalso.
      destruct src as [g|].
      - destruct T as [O _]. destruct (O _ _ X) as [E _]. assert (Q := zsum_ge _ (cref o) _ _ _ (cref_nonneg o) E). cbn in Q. rewrite Nat.eqb_refl in Q.
        assert (P := zsum_nonneg _ (tref o) (p_thr s) (tref_nonneg o)). unfold prefs in C1. cbn in Q. lia.
      - assert (Q := zsum_ge _ (tpend o) _ _ _ (tpend_nonneg o) X). cbn in Q. rewrite Nat.eqb_refl in Q. unfold pend in C2. cbn in Q. lia. }
    split; [|cbn; rewrite B, LV; reflexivity].
    intros i. unfold counted, prefs, pend. cbn [set_thr fetch p_cell p_thr p_live p_cnt p_dels p_next].
    rewrite !(zsum_lset _ _ _ _ _ _ X). cbn [tref]. unfold fset. assert (Ci := C i). unfold counted, prefs, pend in Ci.
    assert (PP : 0 <= zsum (cref i) (p_cell s)) by (apply zsum_nonneg, cref_nonneg).
    assert (PT : 0 <= zsum (tref i) (p_thr s)) by (apply zsum_nonneg, tref_nonneg).
    destruct (i =? o)%nat eqn:Q.
    + apply Nat.eqb_eq in Q. subst i. rewrite LV in *. rewrite Nat.eqb_refl. cbn [Z.b2z].
      destruct Ci as [C1 [C2 [C3 C4]]]. split; [exact C1|]. split; [lia|]. split; [|exact C4]. left. split; [lia|].
      destruct src as [g|]; cbn [tpend].
      * destruct T as [O _]. destruct (O _ _ X) as [E _]. assert (R := zsum_ge _ (cref o) _ _ _ (cref_nonneg o) E). cbn in R. rewrite Nat.eqb_refl in R. cbn in R. lia.
      * rewrite Nat.eqb_refl. cbn [Z.b2z]. assert (R := zsum_ge _ (tpend o) _ _ _ (tpend_nonneg o) X). cbn in R. rewrite Nat.eqb_refl in R. cbn in R. lia.
    + rewrite (Nat.eqb_sym o i), Q. cbn [Z.b2z].
      assert (E0 : tpend i (TAdding o src k) = 0) by (destruct src; cbn; [reflexivity|rewrite (Nat.eqb_sym o i), Q; reflexivity]).
      rewrite E0. cbn [tpend]. replace (zsum (cref i) (p_cell s) + (zsum (tref i) (p_thr s) - 0 + 0)) with (zsum (cref i) (p_cell s) + zsum (tref i) (p_thr s)) by lia.
      replace (zsum (tpend i) (p_thr s) - 0 + 0) with (zsum (tpend i) (p_thr s)) by lia. exact Ci.
  - split; [|exact B]. destruct T as [O _]. destruct (O _ _ X) as [_ E]. cbn in E.
    apply (counted_same s); try reflexivity; [exact C| |]; intros o; unfold prefs, pend; cbn [set_thr set_cell p_cell p_thr];
      rewrite (zsum_lset _ _ _ _ _ _ X), ?(zsum_lset _ _ _ _ _ _ E), ?tref_hold, ?tpend_hold, ?cref_of; cbn [tref tpend cref]; lia.
  - split; [|exact B]. 
    apply (counted_same s); try reflexivity; [exact C| |]; intros o; unfold prefs, pend; cbn [set_thr set_cell p_cell p_thr];
      rewrite (zsum_lset _ _ _ _ _ _ X), ?(zsum_lset _ _ _ _ _ _ (get_cell _ _ _ G)), ?tref_hold, ?tpend_hold, ?tref_drop, ?tpend_drop, ?cref_of; cbn [tref tpend cref]; lia.
  - (* sub *)
    assert (R := zsum_ge _ (tref o) _ _ _ (tref_nonneg o) X). cbn in R. rewrite Nat.eqb_refl in R. cbn in R.
    assert (PP0 : 0 <= zsum (cref o) (p_cell s)) by (apply zsum_nonneg, cref_nonneg).
    assert (LV : p_live s o = true).
    { specialize (C o). unfold counted, prefs in C. destruct (p_live s o); [reflexivity|]. lia. }
    split; [|cbn; rewrite B, LV; reflexivity].
    intros i. unfold counted, prefs, pend. cbn [set_thr fetch p_cell p_thr p_live p_cnt p_dels p_next].
    rewrite !(zsum_lset _ _ _ _ _ _ X). cbn [tref tpend]. unfold fset. assert (Ci := C i). unfold counted, prefs, pend in Ci.
    destruct (i =? o)%nat eqn:Q.
    + apply Nat.eqb_eq in Q. subst i. rewrite LV in *. rewrite !Nat.eqb_refl. cbn [Z.b2z].
      destruct Ci as [C1 [C2 [C3 C4]]]. split; [exact C1|]. 
      destruct (p_cnt s o =? 1) eqn:E1; cbn [tref tpend]; rewrite ?Nat.eqb_refl; cbn [Z.b2z]; (split; [lia|]; split; [lia|exact C4]).
    + assert (Z1 : tref i (if p_cnt s o =? 1 then TDeleting o else TIdle) = 0) by (destruct (p_cnt s o =? 1); reflexivity).
      assert (Z2 : tpend i (if p_cnt s o =? 1 then TDeleting o else TIdle) = 0)
        by (destruct (p_cnt s o =? 1); cbn; [rewrite (Nat.eqb_sym o i), Q; reflexivity|reflexivity]).
      rewrite Z1, Z2, (Nat.eqb_sym o i), Q. cbn [Z.b2z].
      replace (zsum (cref i) (p_cell s) + (zsum (tref i) (p_thr s) - 0 + 0)) with (zsum (cref i) (p_cell s) + zsum (tref i) (p_thr s)) by lia.
      replace (zsum (tpend i) (p_thr s) - 0 + 0) with (zsum (tpend i) (p_thr s)) by lia. exact Ci.
  - (* delete *)
    assert (R := zsum_ge _ (tpend o) _ _ _ (tpend_nonneg o) X). cbn in R. rewrite Nat.eqb_refl in R. cbn in R.
    assert (LV : p_live s o = true).
    { specialize (C o). unfold counted, pend in C. destruct (p_live s o); [reflexivity|]. lia. }
    split; [|cbn; rewrite B, LV; reflexivity].
    intros i. unfold counted, prefs, pend. cbn [set_thr delete p_cell p_thr p_live p_cnt p_dels p_next].
    rewrite !(zsum_lset _ _ _ _ _ _ X). cbn [tref tpend]. unfold fset. assert (Ci := C i). unfold counted, prefs, pend in Ci.
    destruct (i =? o)%nat eqn:Q.
    + apply Nat.eqb_eq in Q. subst i. rewrite LV in *. rewrite !Nat.eqb_refl. cbn [Z.b2z].
      destruct Ci as [C1 [C2 [C3 C4]]]. split; [lia|]. split; [lia|]. rewrite C4.
      replace (o <? p_next s)%nat with true by (symmetry; apply Nat.ltb_lt; exact C1). reflexivity.
    + rewrite (Nat.eqb_sym o i), Q. cbn [Z.b2z].
      replace (zsum (cref i) (p_cell s) + (zsum (tref i) (p_thr s) - 0 + 0)) with (zsum (cref i) (p_cell s) + zsum (tref i) (p_thr s)) by lia.
      replace (zsum (tpend i) (p_thr s) - 0 + 0) with (zsum (tpend i) (p_thr s)) by lia. exact Ci.
Qed.

Lemma prun_inv : forall n m s, prun false n m s -> pinv s.
Proof.
  intros n m s H. induction H as [|s t s' _ IH St]; [apply pinit_inv|].
  destruct (step_counted _ _ _ IH St) as [A B]. split; [exact B|]. split; [exact A|]. exact (step_threads _ _ _ IH St).
Qed.
