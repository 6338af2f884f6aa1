(** Proofs about the filters. *)
From Coq Require Import Reals Lra.
From Verif Require Import Base WarpModel WarpSpec.

Lemma lt_trans_not : forall a b c, ~ lt_logit a b -> lt_logit a c -> lt_logit b c.
Proof. intros [a|] [b|] [c|]; cbn; try tauto; try lra. Qed.
Lemma pairs_len : forall l, length (pairs l) = length l.
Proof. intros l. unfold pairs. rewrite combine_length, seq_length. lia. Qed.
Lemma pairs_fst : forall l, map fst (pairs l) = l.
Proof.
  intros l. unfold pairs. generalize 0%nat. induction l as [|x l IH]; intros n; [reflexivity|]. cbn. rewrite IH. reflexivity.
Qed.
Lemma pairs_snd : forall l, map snd (pairs l) = seq 0 (length l).
Proof.
  intros l. unfold pairs. generalize 0%nat. induction l as [|x l IH]; intros n; [reflexivity|]. cbn. rewrite IH. reflexivity.
Qed.
Lemma pairs_in : forall l v i, In (v, i) (pairs l) <-> nth_error l i = Some v.
Proof.
  intros l v i. unfold pairs.
  assert (G : forall n, In (v, i) (combine l (seq n (length l))) <-> (n <= i)%nat /\ nth_error l (i - n) = Some v).
  { induction l as [|x l IH]; intros n.
    - cbn. split; [intros []|]. intros [_ H]. destruct (i - n)%nat; discriminate.
    - cbn [length seq combine In]. rewrite IH. split.
      + intros [E|[A B]].
        * injection E as -> ->. split; [lia|]. rewrite Nat.sub_diag. reflexivity.
        * split; [lia|]. replace (i - n)%nat with (Datatypes.S (i - Datatypes.S n)) by lia. exact B.
      + intros [A B]. destruct (Nat.eq_dec i n) as [->|N].
        * left. rewrite Nat.sub_diag in B. injection B as ->. reflexivity.
        * right. split; [lia|]. replace (i - n)%nat with (Datatypes.S (i - Datatypes.S n)) in B by lia. exact B. }
  rewrite G, Nat.sub_0_r. split; [tauto|]. intros H. split; [lia|exact H].
Qed.

(** Counting. *)
Lemma filter_map_len : forall (A B : Type) (f : A -> B) p l, length (filter p (map f l)) = length (filter (fun x => p (f x)) l).
Proof. intros A B f p. induction l as [|x l IH]; [reflexivity|]. cbn. destruct (p (f x)); cbn; rewrite IH; reflexivity. Qed.
Lemma filter_perm_len : forall (A : Type) p (l m : list A), Permutation l m -> length (filter p l) = length (filter p m).
Proof.
  intros A p l m H. induction H; cbn; auto.
  - destruct (p x); cbn; lia.
  - destruct (p x), (p y); reflexivity.
  - lia.
Qed.
Lemma filter_all_len : forall (A : Type) p (l : list A), (forall x, In x l -> p x = true) -> length (filter p l) = length l.
Proof.
  intros A p. induction l as [|x l IH]; intros H; [reflexivity|]. cbn. rewrite (H x) by (left; reflexivity). cbn. rewrite IH; [reflexivity|].
  intros y I. apply H. right. exact I.
Qed.
Lemma filter_none_len : forall (A : Type) p (l : list A), (forall x, In x l -> p x = false) -> length (filter p l) = 0%nat.
Proof.
  intros A p. induction l as [|x l IH]; intros H; [reflexivity|]. cbn. rewrite (H x) by (left; reflexivity). apply IH.
  intros y I. apply H. right. exact I.
Qed.
Lemma filter_len_le : forall (A : Type) p (l : list A), (length (filter p l) <= length l)%nat.
Proof. intros A p. induction l as [|x l IH]; [reflexivity|]. cbn. destruct (p x); cbn; lia. Qed.

Lemma greater_srt : forall k l srt x, sorted_to k (pairs l) srt ->
  greater l x = length (filter (fun vi => if lt_dec x (fst vi) then true else false) srt).
Proof.
  intros k l srt x [P _]. unfold greater. rewrite <- (pairs_fst l) at 1. rewrite filter_map_len. apply filter_perm_len. exact P.
Qed.

(** The k-th of the order: fewer than k are greater than it; k are not less. *)
Lemma threshold_rank : forall k l srt x, (1 <= k <= length l)%nat -> sorted_to k (pairs l) srt ->
  let t := fst (nth (k - 1) srt (None, O)) in
  (lt_logit x t <-> (k <= greater l x)%nat).
Proof.
  intros k l srt x K S t. rewrite (greater_srt k l srt x S). destruct S as [P S].
  assert (LS : length srt = length l) by (rewrite <- (Permutation_length P); apply pairs_len).
  set (p := fun vi : logit * nat => if lt_dec x (fst vi) then true else false).
  rewrite <- (firstn_skipn k srt), filter_app, app_length. split.
  - intros L. assert (A : length (filter p (firstn k srt)) = k).
    { rewrite filter_all_len; [rewrite firstn_length; lia|]. intros vi I. destruct (In_nth _ _ (None, O) I) as [i [I1 I2]].
      rewrite firstn_length in I1. assert (E : vi = nth i srt (None, O)).
      { rewrite <- I2. rewrite <- (firstn_skipn k srt) at 2. rewrite app_nth1 by (rewrite firstn_length; exact I1). reflexivity. }
      unfold p. rewrite E. destruct (lt_dec x (fst (nth i srt (None, O)))) as [_|N]; [reflexivity|]. exfalso. apply N.
      destruct (Nat.eq_dec i (k - 1)) as [->|NE]; [exact L|].
      assert (Q := S i (k - 1)%nat ltac:(lia) ltac:(lia) ltac:(lia)). fold t in Q.
      clear - Q L. destruct x as [x|], t as [t|], (fst (nth i srt (None, O))) as [y|]; cbn in *; try tauto; lra. }
    lia.
  - intros G. destruct (lt_dec x t) as [L|N]; [exact L|]. exfalso.
    assert (B : length (filter p (skipn k srt)) = 0%nat).
    { apply filter_none_len. intros vi I. destruct (In_nth _ _ (None, O) I) as [i [I1 I2]]. rewrite skipn_length in I1.
      assert (E : vi = nth (k + i) srt (None, O)).
      { rewrite <- I2. rewrite <- (firstn_skipn k srt) at 2. rewrite app_nth2 by (rewrite firstn_length; lia). rewrite firstn_length. f_equal. lia. }
      unfold p. rewrite E. destruct (lt_dec x (fst (nth (k + i) srt (None, O)))) as [L|_]; [|reflexivity]. exfalso.
      assert (Q := S (k - 1)%nat (k + i)%nat ltac:(lia) ltac:(lia) ltac:(lia)). fold t in Q.
      clear - Q L N. destruct x as [x|], t as [t|], (fst (nth (k + i) srt (None, O))) as [y|]; cbn in *; try tauto; lra. }
    assert (F : firstn k srt = firstn (k - 1) srt ++ [nth (k - 1) srt (None, O)]).
    { clear - K LS. revert k K LS. generalize (length l). intros m k [K1 K2] LS. destruct k as [|k]; [lia|]. replace (Datatypes.S k - 1)%nat with k by lia.
      assert (L : (k < length srt)%nat) by lia. clear - L. revert k L. induction srt as [|y s IH]; intros k L; cbn in *; [lia|].
      destruct k as [|k]; [reflexivity|]. cbn. f_equal. apply IH. lia. }
    rewrite F, filter_app, app_length in G. cbn [filter] in G. unfold p at 2 in G. fold t in G.
    destruct (lt_dec x t) as [L|_]; [contradiction|]. cbn [length] in G.
    assert (LE := filter_len_le _ p (firstn (k - 1) srt)). rewrite firstn_length in LE. lia.
Qed.

(** Clearing places. *)
Lemma clear_at_nth : forall l idx i, nth_error (clear_at l idx) i =
  if (i =? idx)%nat && (i <? length l)%nat then Some None else nth_error l i.
Proof.
  unfold clear_at. induction l as [|x l IH]; intros idx i.
  - rewrite firstn_nil, skipn_nil. destruct i; cbn; rewrite ?andb_false_r; reflexivity.
  - destruct idx as [|idx].
    + cbn. destruct i as [|i]; reflexivity.
    + destruct i as [|i]; [reflexivity|]. cbn [firstn skipn app nth_error length]. exact (IH idx i).
Qed.
Lemma clear_at_len : forall l idx, length (clear_at l idx) = length l.
Proof.
  unfold clear_at. induction l as [|x l IH]; intros idx; [destruct idx; reflexivity|]. destruct idx as [|idx]; [reflexivity|]. cbn. rewrite IH. reflexivity.
Qed.
Lemma clear_all : forall (s : list (logit * nat)) l i, (i < length l)%nat ->
  nth_error (fold_left (fun d vi => clear_at d (snd vi)) s l) i =
  if existsb (fun vi => (i =? snd vi)%nat) s then Some None else nth_error l i.
Proof.
  induction s as [|[v j] s IH]; intros l i H; [reflexivity|]. cbn [fold_left snd existsb]. rewrite IH by (rewrite clear_at_len; exact H).
  rewrite clear_at_nth. replace (i <? length l)%nat with true by (symmetry; apply Nat.ltb_lt; exact H). rewrite andb_true_r.
  destruct (i =? j)%nat; cbn [orb]; [destruct (existsb _ s); reflexivity|reflexivity].
Qed.

(** The nucleus. *)
Lemma rsum_app : forall a b, rsum (a ++ b) = (rsum a + rsum b)%R.
Proof. induction a as [|x a IH]; intros b; cbn; [ring|rewrite IH; ring]. Qed.
Lemma rsum_perm : forall a b, Permutation a b -> rsum a = rsum b.
Proof. intros a b H. induction H; cbn; try lra. Qed.
Lemma nucleus_spec : forall p top acc, let n := nucleus p top acc in
  (n <= length p)%nat /\ ((n < length p)%nat -> (top < acc + rsum (firstn n p))%R) /\
  (forall m, (m < n)%nat -> m <> O -> (acc + rsum (firstn m p) <= top)%R).
Proof.
  induction p as [|x p IH]; intros top acc n; unfold n; cbn [nucleus length].
  - split; [lia|]. split; [lia|]. lia.
  - destruct (Rlt_dec top (acc + x)) as [L|L].
    + split; [lia|]. split; [intros _; cbn; lra|]. lia.
    + destruct (IH top (acc + x)%R) as [A [B C]]. cbv zeta in *. split; [lia|]. split.
      * intros H. cbn [firstn rsum]. specialize (B ltac:(lia)). lra.
      * intros m M1 M2. destruct m as [|m]; [lia|]. cbn [firstn rsum]. destruct m as [|m]; [cbn; lra|].
        specialize (C (Datatypes.S m) ltac:(lia) ltac:(discriminate)). lra.
Qed.
(** The shift by the maximum does not matter. *)
Lemma exp_shift : forall x m, exp_logit x m = (weight x / exp m)%R.
Proof.
  intros [y|] m; cbn; [unfold Rminus; rewrite exp_plus, exp_Ropp; reflexivity|]. unfold Rdiv. ring.
Qed.
Lemma rsum_scale : forall (A : Type) (f : A -> R) c l, rsum (map (fun x => f x / c)%R l) = (rsum (map f l) / c)%R.
Proof. intros A f c. induction l as [|x l IH]; cbn; [unfold Rdiv; ring|]. rewrite IH. unfold Rdiv. ring. Qed.
Lemma probs_eq : forall l srt m, Permutation (pairs l) srt ->
  map (fun x => (x / rsum (map (fun vi => exp_logit (fst vi) m) srt))%R) (map (fun vi => exp_logit (fst vi) m) srt) =
  map (fun vi => prob l (fst vi)) srt.
Proof.
  intros l srt m P. rewrite map_map. apply map_ext. intros [v i]. cbn [fst]. unfold prob.
  assert (E : rsum (map (fun vi : logit * nat => exp_logit (fst vi) m) srt) = (rsum (map weight l) / exp m)%R).
  { rewrite (map_ext _ (fun vi => weight (fst vi) / exp m)%R) by (intros a; apply exp_shift). rewrite (rsum_scale _ (fun vi => weight (fst vi))). f_equal.
    rewrite <- (rsum_perm _ _ (Permutation_map (fun vi => weight (fst vi)) P)). rewrite <- (map_map fst weight), pairs_fst. reflexivity. }
  rewrite E, exp_shift. assert (X := exp_pos m). unfold Rdiv.
  destruct (Req_dec (rsum (map weight l)) 0) as [Z|Z].
  - rewrite Z, Rmult_0_l.
    destruct (Req_dec (weight v) 0) as [W0|W0]; [rewrite W0; ring|]. rewrite !Rinv_0. ring.
  - rewrite Rinv_mult. rewrite Rinv_inv. field. split; [exact Z|lra].
Qed.
