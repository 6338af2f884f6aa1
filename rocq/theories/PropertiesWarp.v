(** C155: the filters of the speech model's logits. *)
From Coq Require Import Reals Lra.
From Verif Require Import Base WarpModel WarpSpec WarpProofs.

(** C155: top-k keeps exactly the logits that fewer than k others exceed, k being the
    wanted number, at least three and at most all; whatever order equal logits get in the
    sort.  What is kept is unchanged, the rest becomes minus infinity. *)
Theorem C155_top_k : forall l top_k srt, l <> [] ->
  let k := top_k_count top_k 3 (length l) in
  sorted_to k (pairs l) srt ->
  length (top_k_warp srt k l) = length l /\
  forall i v, nth_error l i = Some v ->
    ((greater l v < k)%nat -> nth_error (top_k_warp srt k l) i = Some v) /\
    ((k <= greater l v)%nat -> nth_error (top_k_warp srt k l) i = Some None).
Proof.
  intros l tk srt NE k S. unfold top_k_warp. split; [apply map_length|]. intros i v H.
  assert (L : (1 <= length l)%nat) by (destruct l; [contradiction|cbn; lia]).
  assert (K : (1 <= k <= length l)%nat) by (unfold k, top_k_count; lia).
  assert (T := threshold_rank k l srt v K S). cbv zeta in T.
  rewrite nth_error_map, H. cbn [option_map]. destruct (lt_dec v (fst (nth (k - 1) srt (None, O)))) as [Q|Q].
  - split; [intros G; apply T in Q; lia|reflexivity].
  - split; [reflexivity|]. intros G. exfalso. apply Q. apply T. exact G.
Qed.

Definition mass (l : list logit) (idx : list nat) : R := rsum (map (fun i => match nth_error l i with Some v => prob l v | None => 0%R end) idx).

Lemma mass_first : forall l srt n, Permutation (pairs l) srt ->
  mass l (map snd (firstn n srt)) = rsum (firstn n (map (fun vi => prob l (fst vi)) srt)).
Proof.
  intros l srt n P. unfold mass. rewrite map_map, firstn_map. f_equal. apply map_ext_in. intros [v i] I. cbn [fst snd].
  assert (Q : In (v, i) (pairs l)).
  { apply (Permutation_in _ (Permutation_sym P)). rewrite <- (firstn_skipn n srt). apply in_or_app. left. exact I. }
  apply pairs_in in Q. rewrite Q. reflexivity.
Qed.

Lemma firstn_last : forall A (s : list A) k, (k < length s)%nat ->
  exists x, firstn (Datatypes.S k) s = firstn k s ++ [x].
Proof.
  induction s as [|y s IH]; intros k L; cbn [length] in L; [lia|]. destruct k as [|k]; [exists y; reflexivity|].
  destruct (IH k ltac:(lia)) as [x E]. exists x. change (firstn (Datatypes.S (Datatypes.S k)) (y :: s)) with (y :: firstn (Datatypes.S k) s). rewrite E. reflexivity.
Qed.

(** C155: top-p keeps a set of positions such that nothing left out exceeds anything kept,
    the probabilities kept sum to more than top_p unless everything is kept, and with one
    position less they would not, unless three or fewer are kept; three are kept if there
    are three. *)
Theorem C155_top_p : forall l top_p srt, l <> [] ->
  sorted_to (length l) (pairs l) srt ->
  length (top_p_warp srt top_p 3 l) = length l /\
  exists kept, NoDup kept /\ (forall i, In i kept -> (i < length l)%nat) /\
    (forall i v, nth_error l i = Some v ->
       (In i kept -> nth_error (top_p_warp srt top_p 3 l) i = Some v) /\
       (~ In i kept -> nth_error (top_p_warp srt top_p 3 l) i = Some None)) /\
    (forall i j v w, In i kept -> ~ In j kept -> nth_error l i = Some v -> nth_error l j = Some w -> ~ lt_logit v w) /\
    (Nat.min 3 (length l) <= length kept)%nat /\
    (length kept = length l \/ (top_p < mass l kept)%R) /\
    ((length kept <= 3)%nat \/ exists front last, kept = front ++ [last] /\ (mass l front <= top_p)%R).
Proof.
  intros l top srt NE [P S]. unfold top_p_warp.
  set (mx := match fst (nth 0 srt (None, O)) with Some m => m | None => 0%R end).
  rewrite (probs_eq l srt mx P). set (probs := map (fun vi => prob l (fst vi)) srt).
  set (n := nucleus probs top 0). set (keep := Nat.max n 3).
  assert (LS : length srt = length l) by (rewrite <- (Permutation_length P); apply pairs_len).
  assert (LP : length probs = length l) by (unfold probs; rewrite map_length; exact LS).
  destruct (nucleus_spec probs top 0) as [N1 [N2 N3]]. fold n in N1, N2, N3.
  assert (LEN : forall s d, length (fold_left (fun d (vi : logit * nat) => clear_at d (snd vi)) s d) = length d).
  { induction s as [|x s IH]; intros d; [reflexivity|]. cbn. rewrite IH. apply clear_at_len. }
  split; [apply LEN|].
  assert (ND : NoDup (map snd srt)).
  { apply (Permutation_NoDup (Permutation_map snd P)). rewrite pairs_snd. apply seq_NoDup. }
  assert (SPL : map snd srt = map snd (firstn keep srt) ++ map snd (skipn keep srt)) by (rewrite <- map_app, firstn_skipn; reflexivity).
  assert (ALL : forall i, In i (map snd srt) <-> (i < length l)%nat).
  { intros i. split.
    - intros I. apply (Permutation_in _ (Permutation_map snd (Permutation_sym P))) in I. rewrite pairs_snd in I. apply in_seq in I. lia.
    - intros I. apply (Permutation_in _ (Permutation_map snd P)). rewrite pairs_snd. apply in_seq. lia. }
  assert (EX : forall i, existsb (fun vi : logit * nat => (i =? snd vi)%nat) (skipn keep srt) = true <-> In i (map snd (skipn keep srt))).
  { intros i. rewrite existsb_exists, in_map_iff. split.
    - intros [x [I E]]. apply Nat.eqb_eq in E. exists x. split; [symmetry; exact E|exact I].
    - intros [x [E I]]. exists x. split; [exact I|]. apply Nat.eqb_eq. symmetry. exact E. }
  exists (map snd (firstn keep srt)). rewrite SPL in ND.
  assert (DIS : forall i, In i (map snd (firstn keep srt)) -> ~ In i (map snd (skipn keep srt))).
  { clear - ND. revert ND. generalize (map snd (firstn keep srt)) (map snd (skipn keep srt)). intros a b. induction a as [|x a IH]; intros ND i I; [destruct I|].
    inversion ND as [|? ? H1 H2]. destruct I as [<-|I]; [|exact (IH H2 i I)]. intros J. apply H1. apply in_or_app. right. exact J. }
  split; [|split; [|split; [|split; [|split; [|split]]]]].
  - clear - ND. revert ND. generalize (map snd (firstn keep srt)) (map snd (skipn keep srt)). intros a b. induction a as [|x a IH]; intros ND; [constructor|].
    inversion ND as [|? ? H1 H2]. constructor; [intros I; apply H1; apply in_or_app; left; exact I|exact (IH H2)].
  - intros i I. apply ALL. rewrite SPL. apply in_or_app. left. exact I.
  - intros i v H. assert (I : (i < length l)%nat) by (apply nth_error_Some; congruence). rewrite clear_all by exact I. split.
    + intros K. destruct (existsb _ (skipn keep srt)) eqn:E; [|exact H]. exfalso. apply EX in E. exact (DIS i K E).
    + intros K. replace (existsb _ (skipn keep srt)) with true; [reflexivity|]. symmetry. apply EX.
      apply ALL in I. rewrite SPL in I. apply in_app_or in I. destruct I as [I|I]; [contradiction|exact I].
  - intros i j v w KI KJ HI HJ.
    assert (JI : In j (map snd (skipn keep srt))).
    { assert (Q : In j (map snd srt)) by (apply ALL; apply nth_error_Some; congruence). rewrite SPL in Q. apply in_app_or in Q. destruct Q as [Q|Q]; [contradiction|exact Q]. }
    apply in_map_iff in KI. destruct KI as [[v' i'] [E1 I1]]. cbn [snd] in E1. subst i'.
    apply in_map_iff in JI. destruct JI as [[w' j'] [E2 I2]]. cbn [snd] in E2. subst j'.
    assert (V : v' = v).
    { assert (Q : In (v', i) (pairs l)) by (apply (Permutation_in _ (Permutation_sym P)); rewrite <- (firstn_skipn keep srt); apply in_or_app; left; exact I1).
      apply pairs_in in Q. congruence. }
    assert (W : w' = w).
    { assert (Q : In (w', j) (pairs l)) by (apply (Permutation_in _ (Permutation_sym P)); rewrite <- (firstn_skipn keep srt); apply in_or_app; right; exact I2).
      apply pairs_in in Q. congruence. }
    subst v' w'. destruct (In_nth _ _ (None, O) I1) as [a [A1 A2]]. destruct (In_nth _ _ (None, O) I2) as [b [B1 B2]].
    rewrite firstn_length in A1. rewrite skipn_length in B1.
    assert (Q := S a (keep + b)%nat ltac:(lia) ltac:(lia) ltac:(lia)).
    assert (EA : nth a srt (None, O) = (v, i)).
    { rewrite <- A2. rewrite <- (firstn_skipn keep srt) at 1. rewrite app_nth1 by (rewrite firstn_length; exact A1). reflexivity. }
    assert (EB : nth (keep + b) srt (None, O) = (w, j)).
    { rewrite <- B2. rewrite <- (firstn_skipn keep srt) at 1. rewrite app_nth2 by (rewrite firstn_length; lia). rewrite firstn_length. f_equal. lia. }
    rewrite EA, EB in Q. exact Q.
  - rewrite map_length, firstn_length, LS. unfold keep. lia.
  - rewrite map_length, firstn_length, LS. destruct (Nat.lt_ge_cases keep (length l)) as [K|K]; [|left; lia]. right.
    rewrite mass_first by exact P. fold probs. assert (NL : (n < length probs)%nat) by lia. specialize (N2 NL). rewrite Rplus_0_l in N2.
    apply (Rlt_le_trans _ _ _ N2).
    assert (POS : forall x, In x probs -> (0 <= x)%R).
    { intros x I. unfold probs in I. apply in_map_iff in I. destruct I as [[v i] [E _]]. subst x. cbn [fst]. unfold prob.
      assert (WP : forall y, (0 <= weight y)%R) by (intros [y|]; cbn; [left; apply exp_pos|lra]).
      assert (RP : (0 <= rsum (map weight l))%R) by (clear - WP; induction l as [|y t IH]; cbn; [lra|assert (Q := WP y); lra]).
      destruct (Req_dec (rsum (map weight l)) 0) as [Z|Z]; [unfold Rdiv; rewrite Z, Rinv_0, Rmult_0_r; lra|].
      apply Rmult_le_pos; [apply WP|]. left. apply Rinv_0_lt_compat. lra. }
    assert (KN : (n <= keep)%nat) by (unfold keep; lia).
    replace keep with (n + (keep - n))%nat by lia. rewrite <- (firstn_skipn n (firstn (n + (keep - n)) probs)).
    rewrite firstn_firstn. replace (Nat.min n (n + (keep - n))) with n by lia. rewrite rsum_app.
    assert (TP : (0 <= rsum (skipn n (firstn (n + (keep - n)) probs)))%R).
    { assert (SUB : forall x, In x (skipn n (firstn (n + (keep - n)) probs)) -> In x probs).
      { intros x I. rewrite <- (firstn_skipn (n + (keep - n)) probs). apply in_or_app. left. rewrite <- (firstn_skipn n (firstn _ probs)). apply in_or_app. right. exact I. }
      revert SUB. generalize (skipn n (firstn (n + (keep - n)) probs)). intros t. induction t as [|y t IH]; intros SUB; cbn; [lra|].
      assert (Q := POS y (SUB y (or_introl eq_refl))). assert (Q2 := IH (fun x I => SUB x (or_intror I))). lra. }
    lra.
  - destruct (Nat.le_gt_cases n 3) as [K|K].
    + left. rewrite map_length, firstn_length. unfold keep. lia.
    + right. assert (KN : keep = n) by (unfold keep; lia). rewrite KN.
      assert (L : (n - 1 < length srt)%nat) by lia.
      assert (F := firstn_last _ srt (n - 1)%nat L). replace (Datatypes.S (n - 1)) with n in F by lia.
      destruct F as [x F]. exists (map snd (firstn (n - 1) srt)), (snd x). rewrite F, map_app. split; [reflexivity|].
      rewrite mass_first by exact P. fold probs. assert (Q := N3 (n - 1)%nat ltac:(lia) ltac:(lia)). rewrite Rplus_0_l in Q. exact Q.
Qed.

(** The hypotheses are met: four logits, two of them equal, in an order a sort may leave. *)
Example C155_hypotheses :
  sorted_to 4 (pairs [Some 1; Some 2; None; Some 2])%R [(Some 2%R, 3%nat); (Some 2%R, 1%nat); (Some 1%R, 0%nat); (None, 2%nat)].
Proof.
  split.
  - cbn. apply NoDup_Permutation.
    + repeat constructor; cbn; intuition congruence.
    + repeat constructor; cbn; intuition congruence.
    + intros x. cbn. tauto.
  - intros i j I J L. cbn in L. destruct i as [|[|[|[|i]]]], j as [|[|[|[|j]]]]; cbn; try lia; try tauto; lra.
Qed.
Print Assumptions C155_top_k.
Print Assumptions C155_top_p.
