(** Shared list helpers (no modelling content). *)
From Coq Require Export List ZArith Lia Bool Permutation.
From Coq Require Export ZifyBool ZifyNat.
Export ListNotations.

(** [upd_nth n f l]: apply [f] to the n-th element (identity when out of range). *)
Fixpoint upd_nth {A} (n : nat) (f : A -> A) (l : list A) : list A :=
  match l, n with
  | [], _ => []
  | x :: r, O => f x :: r
  | x :: r, S m => x :: upd_nth m f r
  end.

(** Remove the first element satisfying [p]. *)
Fixpoint remove_first {A} (p : A -> bool) (l : list A) : list A :=
  match l with
  | [] => []
  | x :: r => if p x then r else x :: remove_first p r
  end.

(** Every two elements at different positions are related. *)
Inductive pairwise {A} (R : A -> A -> Prop) : list A -> Prop :=
| pw_nil : pairwise R []
| pw_cons x l : Forall (R x) l -> pairwise R l -> pairwise R (x :: l).

Lemma length_upd_nth {A} n (f : A -> A) l : length (upd_nth n f l) = length l.
Proof. revert n; induction l as [|x r IH]; intros [|n]; simpl; auto. Qed.

Lemma nth_upd_nth {A} n m (f : A -> A) l d :
  nth m (upd_nth n f l) d =
  if (Nat.eqb n m && Nat.ltb n (length l))%bool then f (nth n l d) else nth m l d.
Proof.
  revert n m; induction l as [|x r IH]; intros [|n] [|m]; simpl; try reflexivity.
  - destruct (Nat.eqb n m); reflexivity.
  - rewrite IH. reflexivity.
Qed.

Lemma upd_nth_concat_app {A} n (l : list (list A)) x :
  n < length l ->
  Permutation (concat (upd_nth n (fun q => q ++ [x]) l)) (x :: concat l).
Proof.
  revert n; induction l as [|y r IH]; intros [|n]; simpl; intro H; try lia.
  - rewrite <- app_assoc. simpl. symmetry. apply Permutation_middle.
  - rewrite (IH n) by lia. symmetry. apply Permutation_middle.
Qed.

Lemma upd_nth_concat_perm {A} n (l : list (list A)) f ex :
  n < length l ->
  Permutation (nth n l []) (ex ++ f (nth n l [])) ->
  Permutation (concat l) (ex ++ concat (upd_nth n f l)).
Proof.
  revert n; induction l as [|y r IH]; intros [|n]; simpl; intros H Hp; try lia.
  - rewrite Hp at 1. rewrite <- !app_assoc. reflexivity.
  - rewrite (IH n) at 1 by (lia || exact Hp).
    rewrite !app_assoc. apply Permutation_app_tail. apply Permutation_app_comm.
Qed.

Lemma remove_first_perm {A} (p : A -> bool) l x :
  find p l = Some x -> Permutation l (x :: remove_first p l).
Proof.
  induction l as [|y r IH]; simpl; [discriminate|].
  destruct (p y) eqn:E; intro H.
  - injection H as ->. reflexivity.
  - rewrite (IH H) at 1. apply perm_swap.
Qed.

Lemma pairwise_perm {A} (R : A -> A -> Prop) l l' :
  (forall x y, R x y -> R y x) -> Permutation l l' -> pairwise R l -> pairwise R l'.
Proof.
  intros Hs Hp; induction Hp as [|x l l' Hp IH|x y l|l l' l'' H1 IH1 H2 IH2]; intro H.
  - exact H.
  - inversion H as [|? ? Ha Hb]; subst. constructor; [|auto].
    rewrite <- Hp. exact Ha.
  - inversion H as [|? ? Ha Hb]; subst. inversion Hb as [|? ? Hc Hd]; subst.
    inversion Ha as [|? ? He Hf]; subst.
    repeat constructor; auto.
  - auto.
Qed.

Lemma pairwise_app {A} (R : A -> A -> Prop) l l' :
  pairwise R (l ++ l') <->
  pairwise R l /\ pairwise R l' /\ (forall x y, In x l -> In y l' -> R x y).
Proof.
  induction l as [|x r IH]; simpl.
  - split; [intro H; repeat split; auto; try constructor; contradiction|tauto].
  - split.
    + intro H; inversion H as [|? ? Ha Hb]; subst. apply IH in Hb. destruct Hb as (Hb & Hc & Hd).
      apply Forall_app in Ha. destruct Ha as [Ha1 Ha2]. rewrite Forall_forall in Ha2.
      repeat split; auto. constructor; auto.
      intros a b [->|Hi] Hj; auto.
    + intros (Ha & Hb & Hc). inversion Ha as [|? ? Hd He]; subst. constructor.
      * apply Forall_app; split; auto. apply Forall_forall; intros y Hy; apply Hc; auto.
      * apply IH; repeat split; auto.
Qed.

Lemma in_concat_nth {A} (l : list (list A)) x :
  In x (concat l) <-> exists i, i < length l /\ In x (nth i l []).
Proof.
  induction l as [|y r IH]; simpl.
  - split; [contradiction|intros (i & Hi & _); lia].
  - rewrite in_app_iff, IH. split.
    + intros [H|(i & Hi & H)]; [exists 0|exists (S i)]; simpl; split; auto; lia.
    + intros ([|i] & Hi & H); [left; exact H|right; exists i; split; [lia|exact H]].
Qed.
