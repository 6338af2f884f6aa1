(** Lemmas about the response pool. *)
From Verif Require Import Base DTypeModel ServiceModel ServiceSpec ServiceProofs ServiceProofs2.
Local Open Scope nat_scope.

Section Responses.
Context {A : Type}.
Variable K : Type.
Variable keq : K -> K -> bool.
Hypothesis keq_ok : forall a b, keq a b = true <-> a = b.
Notation lookup := (lookup (A := A) K keq).
Definition content (m : list (K * list A)) (k : K) : list A := match lookup m k with Some q => q | None => [] end.
Definition Wfmap (m : list (K * list A)) : Prop := NoDup (map fst m) /\ forall k q, In (k, q) m -> q <> [].

Lemma keq_refl k : keq k k = true.
Proof. apply keq_ok. reflexivity. Qed.
Lemma keq_neq a b : a <> b -> keq a b = false.
Proof. intros H. destruct (keq a b) eqn:E; [|reflexivity]. apply keq_ok in E. contradiction. Qed.
Lemma push_content m k x k' : content (map_push K keq m k x) k' = content m k' ++ (if keq k k' then [x] else []).
Proof.
  unfold content. induction m as [|[k0 q] r IH]; cbn.
  - destruct (keq k k'); reflexivity.
  - destruct (keq k0 k) eqn:E; cbn.
    + apply keq_ok in E. subst k0. destruct (keq k k'); [reflexivity|]. rewrite app_nil_r. reflexivity.
    + destruct (keq k0 k') eqn:F; [|exact IH]. apply keq_ok in F. subst k0. rewrite (keq_neq k k'), app_nil_r; [reflexivity|].
      intros ->. rewrite keq_refl in E. discriminate.
Qed.
Lemma lookup_notin m k : ~ In k (map fst m) -> lookup m k = None.
Proof.
  induction m as [|[k0 q] r IH]; cbn; [reflexivity|]. intros H. rewrite keq_neq by tauto. apply IH. tauto.
Qed.
Lemma pop_content m k k' : NoDup (map fst m) -> content (map_pop K keq m k) k' = if keq k k' then tl (content m k') else content m k'.
Proof.
  unfold content. induction m as [|[k0 q] r IH]; cbn; intros N.
  - destruct (keq k k'); reflexivity.
  - inversion N as [|? ? N1 N2]; subst. specialize (IH N2). destruct (keq k0 k) eqn:E.
    + apply keq_ok in E. subst k0. destruct (keq k k') eqn:F.
      * apply keq_ok in F. subst k'. destruct (tl q) as [|z t] eqn:T; cbn; [rewrite lookup_notin by exact N1; reflexivity|rewrite keq_refl; reflexivity].
      * destruct (tl q); cbn; rewrite ?F; reflexivity.
    + cbn. destruct (keq k0 k') eqn:F; [|exact IH]. apply keq_ok in F. subst k0. rewrite (keq_neq k k'); [reflexivity|].
      intros ->. rewrite keq_refl in E. discriminate.
Qed.
Lemma push_keys (m : list (K * list A)) k x k' : In k' (map fst (map_push K keq m k x)) <-> In k' (map fst m) \/ k' = k.
Proof.
  induction m as [|[k0 q] r IH]; cbn; [intuition|]. destruct (keq k0 k) eqn:E; cbn.
  - apply keq_ok in E. subst. intuition.
  - rewrite IH. intuition.
Qed.
Lemma push_wf m k x : Wfmap m -> Wfmap (map_push K keq m k x).
Proof.
  intros [N E]. split.
  - clear E. induction m as [|[k0 q] r IH]; cbn in *; [constructor; [intros []|constructor]|].
    inversion N as [|? ? N1 N2]; subst. destruct (keq k0 k) eqn:Q; cbn; [exact N|]. constructor; [|apply IH; exact N2].
    rewrite push_keys. intros [H| ->]; [contradiction|]. rewrite keq_refl in Q. discriminate.
  - intros k' q'. clear N. induction m as [|[k0 q] r IH]; cbn in *.
    + intros [H|[]]. injection H as <- <-. discriminate.
    + destruct (keq k0 k); cbn.
      * intros [H|H]; [injection H as <- <-; destruct q; discriminate|eauto].
      * intros [H|H]; [injection H as <- <-; eauto|]. apply IH; [intros k1 q1 H1; apply (E k1); right; exact H1|exact H].
Qed.
Lemma pop_sub (m : list (K * list A)) k p : In p (map fst (map_pop K keq m k)) -> In p (map fst m).
Proof.
  induction m as [|[k0 q] r IH]; cbn; [auto|]. destruct (keq k0 k); [destruct (tl q); cbn; auto|cbn; tauto].
Qed.
Lemma pop_wf m k : Wfmap m -> Wfmap (map_pop K keq m k).
Proof.
  intros [N E]. split.
  - clear E. induction m as [|[k0 q] r IH]; cbn in *; [constructor|]. inversion N as [|? ? N1 N2]; subst.
    destruct (keq k0 k); [destruct (tl q); [exact N2|exact N]|]. cbn. constructor; [|apply IH; exact N2]. intros H. apply pop_sub in H. contradiction.
  - intros k' q'. clear N. induction m as [|[k0 q] r IH]; cbn in *; [intros []|]. destruct (keq k0 k); cbn.
    + destruct (tl q) eqn:T; [eauto|]. intros [H|H]; [injection H as <- <-; discriminate|eauto].
    + intros [H|H]; [eauto|]. apply IH; [intros k1 q1 H1; apply (E k1); right; exact H1|exact H].
Qed.
Lemma lookup_nonempty m k i q : content m k = i :: q -> lookup m k = Some (i :: q).
Proof. unfold content. destruct (lookup m k); intros H; [congruence|discriminate]. Qed.
Lemma lookup_empty m k : content m k = [] -> lookup m k = None \/ lookup m k = Some [].
Proof. unfold content. destruct (lookup m k) as [q|]; [intros ->|]; auto. Qed.

Notation pst := (@pst A K).
Variable one : bool.
Lemma check_cases (x : pst) t k :
  (p_stop _ x = true /\ p_check K keq x t k = mkP _ (p_map _ x) true (setl (p_pc _ x) t (POut _)) (p_tr _ x ++ [PvPop _ t k None]))
  \/ (exists i q, p_stop _ x = false /\ content (p_map _ x) k = i :: q
      /\ p_check K keq x t k = mkP _ (map_pop K keq (p_map _ x) k) false (setl (p_pc _ x) t (POut _)) (p_tr _ x ++ [PvPop _ t k (Some i)]))
  \/ (p_stop _ x = false /\ content (p_map _ x) k = [] /\ p_check K keq x t k = mkP _ (p_map _ x) false (setl (p_pc _ x) t (PSleep _ k)) (p_tr _ x)).
Proof.
  unfold p_check. destruct (p_stop _ x) eqn:S; [left; auto|right]. destruct (content (p_map _ x) k) as [|i q] eqn:C.
  - right. destruct (lookup_empty _ _ C) as [-> | ->]; auto.
  - left. exists i, q. rewrite (lookup_nonempty _ _ _ _ C). auto.
Qed.
Definition Pgood (x : pst) : Prop :=
  Wfmap (p_map _ x) /\ (forall k, ppushed K keq k (p_tr _ x) = ppopped K keq k (p_tr _ x) ++ content (p_map _ x) k)
  /\ (p_stop _ x = true <-> pstopped K (p_tr _ x))
  /\ (forall a t k b, p_tr _ x = a ++ PvPop _ t k None :: b -> pstopped K a)
  /\ (forall a t k i b, p_tr _ x = a ++ PvPop _ t k (Some i) :: b -> ~ pstopped K a).
Lemma ppushed_app k (a b : list (@pev A K)) : ppushed K keq k (a ++ b) = ppushed K keq k a ++ ppushed K keq k b.
Proof. apply flat_map_app. Qed.
Lemma ppopped_app k (a b : list (@pev A K)) : ppopped K keq k (a ++ b) = ppopped K keq k a ++ ppopped K keq k b.
Proof. apply flat_map_app. Qed.
Lemma pstopped_app (a b : list (@pev A K)) : pstopped K (a ++ b) <-> pstopped K a \/ pstopped K b.
Proof.
  unfold pstopped. split.
  - intros [t H]. apply in_app_or in H. destruct H; eauto.
  - intros [[t H]|[t H]]; exists t; apply in_or_app; auto.
Qed.
Lemma Pgood_check (x : pst) t k : Pgood x -> Pgood (p_check K keq x t k).
Proof.
  intros [W [G [S [N N2]]]]. destruct (check_cases x t k) as [[E ->]|[[i [q [E [C ->]]]]|[E [C ->]]]].
  - split; [exact W|]. split; [|split; [|split]]; cbn [p_map p_stop p_tr].
    + intros k'. rewrite ppushed_app, ppopped_app, G. cbn. rewrite !app_nil_r. reflexivity.
    + rewrite pstopped_app. split; [intros _; left; apply S; exact E|auto].
    + intros a u k' b H. apply snoc_split in H. destruct H as [[b' [_ H]]|[_ [<- H]]]; [eapply N; exact H|]. apply S. exact E.
    + intros a u k' i b H. apply snoc_split in H. destruct H as [[b' [_ H]]|[_ [_ H]]]; [eapply N2; exact H|discriminate].
  - split; [apply pop_wf; exact W|]. split; [|split; [|split]]; cbn [p_map p_stop p_tr].
    + intros k'. rewrite ppushed_app, ppopped_app, G, pop_content by apply W. cbn. destruct (keq k k') eqn:F.
      * apply keq_ok in F. subst k'. rewrite C. cbn. rewrite !app_nil_r, <- app_assoc. reflexivity.
      * rewrite !app_nil_r. reflexivity.
    + rewrite pstopped_app. split; [discriminate|]. intros [H|[u [H|[]]]]; [apply S in H; congruence|discriminate].
    + intros a u k' b H. apply snoc_split in H. destruct H as [[b' [_ H]]|[_ [_ H]]]; [eapply N; exact H|discriminate].
    + intros a u k' i' b H. apply snoc_split in H. destruct H as [[b' [_ H]]|[_ [<- H]]]; [eapply N2; exact H|].
      intros P. apply S in P. congruence.
  - split; [exact W|]. split; [exact G|]. split; [|split; [exact N|exact N2]]. cbn [p_stop p_tr]. rewrite <- E. exact S.
Qed.
Lemma Pgood_push (x : pst) t k i : Pgood x -> Pgood (p_push K keq x t k i).
Proof.
  intros [W [G [S [N N2]]]]. split; [apply push_wf; exact W|]. split; [|split; [|split]]; cbn [p_push p_map p_stop p_tr].
  - intros k'. rewrite ppushed_app, ppopped_app, G, push_content. cbn. rewrite !app_nil_r, app_assoc. reflexivity.
  - rewrite pstopped_app, S. split; [auto|]. intros [H|[u [H|[]]]]; [exact H|discriminate].
  - intros a u k' b H. apply snoc_split in H. destruct H as [[b' [_ H]]|[_ [_ H]]]; [eapply N; exact H|discriminate].
  - intros a u k' i' b H. apply snoc_split in H. destruct H as [[b' [_ H]]|[_ [_ H]]]; [eapply N2; exact H|discriminate].
Qed.
Lemma Pgood_shut (x : pst) t : Pgood x -> Pgood (p_shut K x t).
Proof.
  intros [W [G [S [N N2]]]]. split; [exact W|]. split; [|split; [|split]]; cbn [p_shut p_map p_stop p_tr].
  - intros k'. rewrite ppushed_app, ppopped_app, G. cbn. rewrite !app_nil_r. reflexivity.
  - rewrite pstopped_app. split; [|auto]. intros _. right. exists t. left. reflexivity.
  - intros a u k' b H. apply snoc_split in H. destruct H as [[b' [_ H]]|[_ [_ H]]]; [eapply N; exact H|discriminate].
  - intros a u k' i' b H. apply snoc_split in H. destruct H as [[b' [_ H]]|[_ [_ H]]]; [eapply N2; exact H|discriminate].
Qed.
Lemma Pgood_act (x y : pst) t : Pgood x -> pact K keq x t y -> Pgood y.
Proof. intros G H. destruct H. apply Pgood_check. exact G. Qed.
Lemma Pgood_use (x y : pst) t : Pgood x -> puse K keq one x t y -> Pgood y.
Proof.
  intros G H. destruct H as [x t u k k' i E F|x t k i E F|x t k E P|x t E|x t k E].
  - exact (Pgood_push x t k i G).
  - exact (Pgood_push x t k i G).
  - apply Pgood_check. exact G.
  - apply Pgood_shut. exact G.
  - exact G.
Qed.
Lemma Pgood_init n : Pgood (p_init K n).
Proof.
  split; [split; [constructor|intros k q []]|]. split; [reflexivity|]. split; [split; [discriminate|intros [t []]]|].
  split; [intros [|? ?] ? ? ? H; discriminate|intros [|? ?] ? ? ? ? H; discriminate].
Qed.
Lemma preach_good n x : preach K keq one n x -> Pgood x.
Proof. induction 1; [apply Pgood_init|eapply Pgood_act; eassumption|eapply Pgood_use; eassumption]. Qed.

(** Sleeping readers. *)
Definition isPS (p : ppc K) := match p with PSleep _ _ => true | _ => false end.
Definition isPA (p : ppc K) := match p with PAwake _ _ => true | _ => false end.
Definition inpop (x : pst) (k : K) : Prop := exists u, ppc_at K x u (PSleep _ k) \/ ppc_at K x u (PAwake _ k).
Definition Pawake (x : pst) : Prop :=
  (p_stop _ x = true -> cnt isPS (p_pc _ x) = 0)
  /\ (one = true -> exists k, (forall k', inpop x k' -> k' = k)
        /\ (0 < cnt isPS (p_pc _ x) -> length (content (p_map _ x) k) <= cnt isPA (p_pc _ x))).
Ltac pcounts E b :=
  let HA := fresh "CA" in let HS := fresh "CS" in
  pose proof (cnt_setl isPA _ _ _ b E) as HA; pose proof (cnt_setl isPS _ _ _ b E) as HS; cbn [isPA isPS] in HA, HS.
Lemma inpop_setl (x y : pst) t p k : p_pc _ y = setl (p_pc _ x) t p -> inpop y k -> inpop x k \/ p = PSleep _ k \/ p = PAwake _ k.
Proof.
  intros E [u H]. unfold ppc_at in H. rewrite E in H. destruct H as [H|H]; apply setl_at in H; destruct H as [[_ [<- _]]|[_ H]]; auto; left; exists u; auto.
Qed.
Lemma Pawake_check (x : pst) t k : Wfmap (p_map _ x) -> Pawake x -> (ppc_at K x t (POut _) /\ polite K one x k \/ ppc_at K x t (PAwake _ k)) -> Pawake (p_check K keq x t k).
Proof.
  intros W [P1 P2] E. destruct (check_cases x t k) as [[S ->]|[[i [q [S [C ->]]]]|[S [C ->]]]]; split; cbn [p_stop p_pc p_map]; try discriminate.
  - intros _. specialize (P1 S). destruct E as [[E _]|E]; unfold ppc_at in E; pcounts E (POut K); lia.
  - intros O. destruct (P2 O) as [k0 [Q1 Q2]]. exists k0. split.
    + intros k' H. apply (inpop_setl x) with (1 := eq_refl) in H. destruct H as [H|[H|H]]; [apply Q1; exact H|discriminate|discriminate].
    + intros H. specialize (P1 S). destruct E as [[E _]|E]; unfold ppc_at in E; pcounts E (POut K); lia.
  - intros O. destruct (P2 O) as [k0 [Q1 Q2]]. exists k0. split.
    + intros k' H. apply (inpop_setl x) with (1 := eq_refl) in H. destruct H as [H|[H|H]]; [apply Q1; exact H|discriminate|discriminate].
    + intros H. rewrite pop_content by apply W. destruct E as [[E PO]|E]; unfold ppc_at in E; pcounts E (POut K); specialize (Q2 ltac:(lia)).
      * destruct (keq k k0); [destruct (content (p_map _ x) k0); cbn in *|]; lia.
      * assert (k = k0) as <- by (apply Q1; exists t; right; exact E). rewrite keq_refl, C in *. cbn [tl length] in *. lia.
  - intros O. exists k. split.
    + intros k' H. apply (inpop_setl x) with (1 := eq_refl) in H. destruct H as [[u H]|[H|H]]; [|congruence|discriminate].
      destruct E as [[E PO]|E]; [eapply PO; [exact O|exact H]|]. destruct (P2 O) as [k0 [Q1 _]].
      assert (k = k0) by (apply Q1; exists t; right; exact E). assert (k' = k0) by (apply Q1; exists u; exact H). congruence.
    + rewrite C. cbn. lia.
Qed.
Lemma psleep_none (l : list (ppc K)) : cnt isPS (map (pwake K) l) = 0.
Proof. apply cnt_zero. intros t a E. rewrite nth_error_map in E. destruct (nth_error l t) as [p|]; [|discriminate]. injection E as <-. destruct p; reflexivity. Qed.
Lemma Pawake_use (x y : pst) t : Wfmap (p_map _ x) -> Pawake x -> puse K keq one x t y -> Pawake y.
Proof.
  intros W P H. destruct H as [x t u k k' i E F|x t k i E F|x t k E PO|x t E|x t k E].
  - destruct P as [P1 P2]. unfold ppc_at in F. split; cbn [p_set p_push p_stop p_pc p_map].
    + intros S. specialize (P1 S). pcounts F (PAwake _ k'). lia.
    + intros O. destruct (P2 O) as [k0 [Q1 Q2]]. exists k0. split.
      * intros k1 H. apply (inpop_setl x) with (1 := eq_refl) in H. destruct H as [H|[H|H]]; [apply Q1; exact H|discriminate|].
        injection H as <-. apply Q1. exists u. left. exact F.
      * intros H. rewrite push_content, app_length. pcounts F (PAwake _ k'). specialize (Q2 ltac:(lia)).
        destruct (keq k k0); cbn [length]; lia.
  - assert (Z : cnt isPS (p_pc _ x) = 0). { apply cnt_zero. intros v a G. destruct a; try reflexivity. exfalso. exact (F v _ G). }
    destruct P as [P1 P2]. split; cbn [p_push p_stop p_pc p_map]; [auto|]. intros O. destruct (P2 O) as [k0 [Q1 _]]. exists k0. split; [exact Q1|lia].
  - apply Pawake_check; auto.
  - destruct P as [P1 P2]. split; cbn [p_shut p_stop p_pc p_map]; [intros _; apply psleep_none|].
    intros O. destruct (P2 O) as [k0 [Q1 _]]. exists k0. split; [|rewrite psleep_none; lia].
    intros k' [u H]. apply Q1. exists u. unfold ppc_at in *. cbn [p_shut p_pc] in H. rewrite nth_error_map in H.
    destruct (nth_error (p_pc _ x) u) as [p|]; cbn in H; [|destruct H; discriminate]. destruct p; cbn in H; destruct H as [H|H]; try discriminate; injection H as <-; auto.
  - destruct P as [P1 P2]. unfold ppc_at in E. split; cbn [p_set p_stop p_pc p_map].
    + intros S. specialize (P1 S). pcounts E (PAwake _ k). lia.
    + intros O. destruct (P2 O) as [k0 [Q1 Q2]]. exists k0. split.
      * intros k1 H. apply (inpop_setl x) with (1 := eq_refl) in H. destruct H as [H|[H|H]]; [apply Q1; exact H|discriminate|].
        injection H as <-. apply Q1. exists t. left. exact E.
      * intros H. pcounts E (PAwake _ k). specialize (Q2 ltac:(lia)). lia.
Qed.
Lemma preach_awake n x : (exists k : K, True) -> preach K keq one n x -> Pawake x.
Proof.
  intros [k0 _] H. induction H as [|x t y H I J|x t y H I J].
  - split; cbn [p_init p_pc p_stop]; [discriminate|]. intros _. exists k0. split; [|rewrite (cnt_repeat isPS n (POut K) eq_refl); lia].
    intros k [u [E|E]]; unfold ppc_at in E; cbn in E; apply nth_repeat in E; discriminate.
  - destruct J as [x t k E]. apply Pawake_check; [apply (preach_good _ _ H)|exact I|auto].
  - eapply Pawake_use; [apply (preach_good _ _ H)|exact I|exact J].
Qed.
End Responses.
