(** Loops over pixels. *)
From Verif Require Import Base CropModel CropSpec.
Local Open Scope Z_scope.

Lemma zseq_in : forall n i, In i (zseq n) <-> 0 <= i < n.
Proof.
  intros n i. unfold zseq. rewrite in_map_iff. split.
  - intros [k [<- I]]. apply in_seq in I. lia.
  - intros H. exists (Z.to_nat i). split; [lia|]. apply in_seq. lia.
Qed.

Lemma write3_in : forall m a v c, 0 <= c < 3 -> write3 m (a * 3) v (a * 3 + c) = v c.
Proof.
  intros m a v c H. unfold write3.
  destruct (Z.eqb_spec (a * 3 + c) (a * 3 + 2)) as [E|E]; [replace c with 2 by lia; reflexivity|].
  destruct (Z.eqb_spec (a * 3 + c) (a * 3 + 1)) as [E1|E1]; [replace c with 1 by lia; reflexivity|].
  destruct (Z.eqb_spec (a * 3 + c) (a * 3)) as [E2|E2]; [replace c with 0 by lia; reflexivity|lia].
Qed.

Lemma write3_out : forall m a v b c, 0 <= c < 3 -> a <> b -> write3 m (a * 3) v (b * 3 + c) = m (b * 3 + c).
Proof.
  intros m a v b c H N. unfold write3.
  destruct (Z.eqb_spec (b * 3 + c) (a * 3 + 2)) as [E|E]; [lia|].
  destruct (Z.eqb_spec (b * 3 + c) (a * 3 + 1)) as [E1|E1]; [lia|].
  destruct (Z.eqb_spec (b * 3 + c) (a * 3)) as [E2|E2]; [lia|reflexivity].
Qed.

(** A loop body that writes at most one pixel. *)
Definition step (act : Z * Z -> bool) (pos : Z * Z -> Z) (val : Z * Z -> Z -> Z) (m : Z -> Z) (p : Z * Z) : Z -> Z :=
  if act p then write3 m (pos p * 3) (val p) else m.

Lemma loop2_flat : forall S rows cols (body : Z -> Z -> S -> S) s,
  loop2 rows cols body s = fold_left (fun s p => body (fst p) (snd p) s) (list_prod (zseq rows) (zseq cols)) s.
Proof.
  intros S rows cols body s. unfold loop2. generalize (zseq rows) as ys. intros ys. revert s. induction ys as [|y ys IH]; intros s; [reflexivity|].
  cbn [fold_left list_prod]. rewrite fold_left_app, <- IH. f_equal.
  generalize (zseq cols) as xs. intros xs. clear IH. revert s. induction xs as [|x xs IH]; intros s; [reflexivity|]. cbn. apply IH.
Qed.

Lemma steps_out : forall act pos val L m b c, 0 <= c < 3 -> (forall p, In p L -> act p = true -> pos p <> b) ->
  fold_left (step act pos val) L m (b * 3 + c) = m (b * 3 + c).
Proof.
  intros act pos val L. induction L as [|p L IH]; intros m b c H N; [reflexivity|]. cbn [fold_left].
  rewrite IH; [|exact H|intros q I; apply N; right; exact I]. unfold step. destruct (act p) eqn:A; [|reflexivity].
  apply write3_out; [exact H|]. apply N; [left; reflexivity|exact A].
Qed.

Lemma steps_in : forall act pos val L m p c, 0 <= c < 3 -> In p L -> act p = true ->
  (forall q, In q L -> act q = true -> pos q = pos p -> q = p) ->
  fold_left (step act pos val) L m (pos p * 3 + c) = val p c.
Proof.
  intros act pos val L. induction L as [|q L IH]; intros m p c H I A U; [destruct I|]. cbn [fold_left].
  destruct (existsb (fun r => act r && (pos r =? pos p)) L) eqn:E.
  - apply existsb_exists in E. destruct E as [r [I1 Q]]. apply andb_prop in Q. destruct Q as [Q1 Q2]. apply Z.eqb_eq in Q2.
    assert (r = p) by (apply U; [right; exact I1|exact Q1|exact Q2]). subst r.
    apply IH; [exact H|exact I1|exact A|]. intros r I2. apply U. right. exact I2.
  - assert (N : forall r, In r L -> act r = true -> pos r <> pos p).
    { intros r I1 Q1 Q2. assert (F : existsb (fun r => act r && (pos r =? pos p)) L = true).
      { apply existsb_exists. exists r. split; [exact I1|]. rewrite Q1, Q2, Z.eqb_refl. reflexivity. }
      congruence. }
    rewrite steps_out by (exact H || exact N). destruct I as [->|I]; [|exfalso; exact (N p I A eq_refl)].
    unfold step. rewrite A. apply write3_in. exact H.
Qed.

Lemma in_grid : forall rows cols y x, In (y, x) (list_prod (zseq rows) (zseq cols)) <-> 0 <= y < rows /\ 0 <= x < cols.
Proof. intros. rewrite in_prod_iff, !zseq_in. tauto. Qed.

Lemma pos_inj : forall w y x y' x', 0 <= x < w -> 0 <= x' < w -> y * w + x = y' * w + x' -> y = y' /\ x = x'.
Proof.
  intros w y x y' x' H H' E. assert (y = y') by nia. subst y'. split; [reflexivity|lia].
Qed.

(** A loop over the rows and columns of a box that writes into a buffer of width w. *)
Lemma loop2_step : forall act pos val rows cols body m,
  (forall y x m, body y x m = step act pos val m (y, x)) ->
  loop2 rows cols body m = fold_left (step act pos val) (list_prod (zseq rows) (zseq cols)) m.
Proof.
  intros act pos val rows cols body m E. rewrite loop2_flat. generalize (list_prod (zseq rows) (zseq cols)) as L. intros L.
  revert m. induction L as [|[y x] L IH]; intros m; [reflexivity|]. cbn [fold_left fst snd]. rewrite E. apply IH.
Qed.
