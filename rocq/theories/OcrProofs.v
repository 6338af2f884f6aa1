(** Lengths and places of concatenated rows. *)
From Verif Require Import Base OcrModel.

Lemma flat_len : forall A B (g : A -> list B) L m, (forall a, In a L -> length (g a) = m) -> length (flat_map g L) = length L * m.
Proof.
  intros A B g L m. induction L as [|a L IH]; intros H; [reflexivity|]. cbn [flat_map length].
  rewrite app_length, (H a (or_introl eq_refl)), IH by (intros x I; apply H; right; exact I). reflexivity.
Qed.

Lemma flat_nth : forall B (g : nat -> list B) n k m d i j, (forall a, k <= a < k + n -> length (g a) = m) -> i < n -> j < m ->
  nth (i * m + j) (flat_map g (seq k n)) d = nth j (g (k + i)) d.
Proof.
  intros B g n. induction n as [|n IH]; intros k m d i j H I J; [lia|]. cbn [seq flat_map].
  assert (L : length (g k) = m) by (apply H; lia). destruct i as [|i].
  - rewrite Nat.add_0_r. cbn. rewrite app_nth1 by lia. reflexivity.
  - rewrite app_nth2 by (rewrite L; cbn; lia). replace (S i * m + j - length (g k)) with (i * m + j) by (rewrite L; cbn; lia).
    rewrite (IH (S k) m) by (lia || (intros a Ha; apply H; lia)). f_equal. f_equal. lia.
Qed.

Lemma piece_len : forall A n a (l : list A), a + n <= length l -> length (firstn n (skipn a l)) = n.
Proof. intros A n a l H. rewrite firstn_length, skipn_length. lia. Qed.

Lemma piece_nth : forall A n a (l : list A) j d, j < n -> nth j (firstn n (skipn a l)) d = nth (a + j) l d.
Proof.
  intros A n a l j d H. revert l. induction a as [|a IH]; intros l.
  - cbn [skipn]. revert n j H. induction l as [|x l IH]; intros n j H; [rewrite firstn_nil; reflexivity|].
    destruct n; [lia|]. destruct j; [reflexivity|]. cbn. apply IH. lia.
  - destruct l as [|x l]; [cbn; rewrite firstn_nil; destruct j; reflexivity|]. cbn [skipn]. rewrite IH. reflexivity.
Qed.
