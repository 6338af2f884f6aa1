(** C161: the grid a page is cut into. *)
From Coq Require Import QArith Qabs Lqa Sorted.
From Verif Require Import Base GridModel.
Local Open Scope Z_scope.

(** How far the grid's proportions are from the page's. *)
Definition off (w h : Z) (r : Z * Z) : Q := Qabs ((w # 1) / (h # 1) - (fst r # 1) / (snd r # 1))%Q.
Definition tiles_of (r : Z * Z) : Z := fst r * snd r.
(** The page has more pixels than half of the grid's. *)
Definition fills (w h size : Z) (r : Z * Z) : Prop := size * size * fst r * snd r < 2 * (w * h).
(** What sorting the set leaves. *)
Definition sorted_grids (min_num max_num : nat) (l : list (Z * Z)) : Prop :=
  (forall r, In r l <-> In r (candidates min_num max_num)) /\
  forall front back r s, l = front ++ back -> In r front -> In s back -> tiles_of r <= tiles_of s.

Lemma candidates_in : forall min max i j, (1 <= min)%nat -> 1 <= i -> 1 <= j ->
  In (i, j) (candidates min max) <-> Z.of_nat min <= i * j <= Z.of_nat max.
Proof.
  intros min max i j M I J. unfold candidates. rewrite in_flat_map. split.
  - intros [n [_ H]]. apply in_flat_map in H. destruct H as [a [_ H]]. apply in_flat_map in H. destruct H as [b [_ H]].
    destruct (Z.leb_spec (Z.of_nat min) (Z.of_nat a * Z.of_nat b)); [|destruct H].
    destruct (Z.leb_spec (Z.of_nat a * Z.of_nat b) (Z.of_nat max)); [|destruct H].
    destruct H as [H|[]]. injection H as <- <-. lia.
  - intros H. exists (Z.to_nat (i * j)). split; [apply in_seq; lia|].
    apply in_flat_map. exists (Z.to_nat i). split; [apply in_seq; nia|].
    apply in_flat_map. exists (Z.to_nat j). split; [apply in_seq; nia|].
    rewrite !Z2Nat.id by lia. destruct (Z.leb_spec (Z.of_nat min) (i * j)); [|lia]. destruct (Z.leb_spec (i * j) (Z.of_nat max)); [|lia]. left. reflexivity.
Qed.

Lemma candidates_pos : forall min max r, In r (candidates min max) -> 1 <= fst r /\ 1 <= snd r.
Proof.
  intros min max r H. unfold candidates in H. apply in_flat_map in H. destruct H as [n [_ H]].
  apply in_flat_map in H. destruct H as [a [A H]]. apply in_flat_map in H. destruct H as [b [B H]].
  apply in_seq in A. apply in_seq in B. destruct (_ && _) in H; [|destruct H]. destruct H as [<-|[]]. cbn. lia.
Qed.

Definition good (w h size : Z) (l : list (Z * Z)) (best : Z * Z) : Prop :=
  In best l /\ (forall r, In r l -> (off w h best <= off w h r)%Q) /\
  (forall r, In r l -> (off w h r == off w h best)%Q -> tiles_of best < tiles_of r -> ~ fills w h size r) /\
  (fills w h size best \/ forall r, In r l -> (off w h r == off w h best)%Q -> tiles_of best <= tiles_of r).

Lemma closest_good : forall w h size l, l <> [] ->
  (forall front back r s, l = front ++ back -> In r front -> In s back -> tiles_of r <= tiles_of s) ->
  exists d, fst (closest w h size l) = Some d /\ (d == off w h (snd (closest w h size l)))%Q /\ good w h size l (snd (closest w h size l)).
Proof.
  intros w h size l. induction l as [|r l IH] using rev_ind; intros NE S; [congruence|]. clear NE.
  unfold closest. rewrite fold_left_app. cbn [fold_left]. fold (closest w h size l). change (ratio_diff w h r) with (off w h r).
  destruct l as [|x l'] eqn:EL.
  - cbn [closest fold_left fst snd app]. exists (off w h r). split; [reflexivity|]. split; [reflexivity|].
    split; [left; reflexivity|]. split; [intros s [<-|[]]; lra|]. split; [intros s [<-|[]]; lia|]. right. intros s [<-|[]] _. lia.
  - rewrite <- EL in *. assert (NL : l <> []) by (rewrite EL; discriminate).
    destruct IH as [d [E1 [E2 [G1 [G2 [G3 G4]]]]]]; [exact NL| |].
    { intros front back a b E A B. apply (S front (back ++ [r]) a b); [rewrite E, app_assoc; reflexivity|exact A|apply in_or_app; left; exact B]. }
    assert (SR : forall a, In a l -> tiles_of a <= tiles_of r) by (intros a A; apply (S l [r] a r eq_refl A); left; reflexivity).
    destruct (closest w h size l) as [bd best] eqn:EC. cbn [fst snd] in *. subst bd. cbv zeta.
    assert (INR : forall P : Z * Z -> Prop, (forall a, In a l -> P a) -> P r -> forall a, In a (l ++ [r]) -> P a).
    { intros P P1 P2 a A. apply in_app_or in A. destruct A as [A|[<-|[]]]; [exact (P1 a A)|exact P2]. }
    destruct (Qlt_le_dec (off w h r) d) as [L|L]; [|destruct (Qeq_bool (off w h r) d) eqn:Q].
    + cbn [fst snd]. exists (off w h r). split; [reflexivity|]. split; [reflexivity|]. split; [apply in_or_app; right; left; reflexivity|].
      split; [refine (INR (fun a => _) _ _); [intros a A; specialize (G2 a A); lra|lra]|]. split.
      * refine (INR (fun a => _) _ _); [intros a A Eq; specialize (G2 a A); lra|lia].
      * right. refine (INR (fun a => _) _ _); [intros a A Eq; specialize (G2 a A); lra|lia].
    + apply Qeq_bool_iff in Q. destruct (Z.ltb_spec (size * size * fst r * snd r) (2 * (w * h))) as [F|F]; cbn [fst snd].
      * exists d. split; [reflexivity|]. split; [lra|]. split; [apply in_or_app; right; left; reflexivity|].
        split; [refine (INR (fun a => _) _ _); [intros a A; specialize (G2 a A); lra|lra]|]. split.
        -- refine (INR (fun a => _) _ _); [intros a A _ T; specialize (SR a A); lia|lia].
        -- left. exact F.
      * exists d. split; [reflexivity|]. split; [exact E2|]. split; [apply in_or_app; left; exact G1|].
        split; [refine (INR (fun a => _) _ _); [exact G2|lra]|]. split.
        -- refine (INR (fun a => _) _ _); [exact G3|]. intros _ _ T. unfold fills in T. lia.
        -- destruct G4 as [G4|G4]; [left; exact G4|right]. refine (INR (fun a => _) _ _); [exact G4|]. intros _. apply SR. exact G1.
    + assert (NQ : ~ (off w h r == d)%Q) by (intros Eq; apply Qeq_bool_iff in Eq; congruence).
      cbn [fst snd]. exists d. split; [reflexivity|]. split; [exact E2|]. split; [apply in_or_app; left; exact G1|].
      split; [refine (INR (fun a => _) _ _); [exact G2|lra]|]. split.
      * refine (INR (fun a => _) _ _); [exact G3|]. intros Eq. exfalso. lra.
      * destruct G4 as [G4|G4]; [left; exact G4|right]. refine (INR (fun a => _) _ _); [exact G4|]. intros Eq. exfalso. lra.
Qed.

(** C161: the grid chosen has between min_num and max_num tiles; no such grid is closer to the
    page's proportions; among the equally close ones no larger one has half its pixels in the
    page, and the chosen one has, or else it is a smallest. *)
Theorem C161_grid : forall w h size min_num max_num l, (1 <= min_num <= max_num)%nat ->
  sorted_grids min_num max_num l ->
  let g := snd (closest w h size l) in
  1 <= fst g /\ 1 <= snd g /\ Z.of_nat min_num <= tiles_of g <= Z.of_nat max_num /\
  forall i j, 1 <= i -> 1 <= j -> Z.of_nat min_num <= i * j <= Z.of_nat max_num ->
    (off w h g <= off w h (i, j))%Q /\
    ((off w h (i, j) == off w h g)%Q ->
       (tiles_of g < i * j -> ~ fills w h size (i, j)) /\
       (fills w h size g \/ tiles_of g <= i * j)).
Proof.
  intros w h size mn mx l M [P S] g.
  assert (I1 : In (Z.of_nat mn, 1) l) by (apply P; apply candidates_in; lia).
  assert (NE : l <> []) by (intros E; rewrite E in I1; destruct I1).
  destruct (closest_good w h size l NE S) as [d [_ [_ [G1 [G2 [G3 G4]]]]]]. fold g in G1, G2, G3, G4.
  assert (IC := proj1 (P g) G1). destruct (candidates_pos _ _ _ IC) as [P1 P2].
  split; [exact P1|]. split; [exact P2|]. split.
  - unfold tiles_of. destruct g as [a b]. cbn [fst snd] in *. apply (candidates_in mn mx a b); [lia|lia|lia|exact IC].
  - intros i j Hi Hj R. assert (I : In (i, j) l) by (apply P; apply candidates_in; lia). split; [exact (G2 _ I)|]. intros Eq. split.
    + intros T. exact (G3 _ I Eq T).
    + destruct G4 as [G4|G4]; [left; exact G4|right; exact (G4 _ I Eq)].
Qed.

(** The hypotheses are met: the four grids of two or three tiles; a page twice as high as
    wide gets one column of two. *)
Example C161_hypotheses :
  sorted_grids 2 3 [(1, 2); (2, 1); (1, 3); (3, 1)] /\ snd (closest 500 1000 640 [(1, 2); (2, 1); (1, 3); (3, 1)]) = (1, 2).
Proof.
  split; [|reflexivity]. split.
  - intros r. vm_compute. tauto.
  - intros front back r s E F B. destruct front as [|a [|b [|c [|d [|e front]]]]]; cbn in E; try (injection E; intros); try discriminate; subst; cbn in *;
      repeat match goal with H : _ \/ _ |- _ => destruct H | H : False |- _ => destruct H end; subst; cbn; try lia; try discriminate.
Qed.
Print Assumptions C161_grid.
