(** Multimodal rotary embedding. *)
From Verif Require Import Base DTypeModel ParamModel TensorModel VlModel VlSpec VlProofs VlGrid.
From Verif Require AotModel AotProofs AotGraph.
Local Open Scope nat_scope.

Section Mrope.
Context {F : Type}.
Variable angle : F -> Z -> F.
Variable trig : F -> F.
Variable d0 : F.

Definition tmp_at (pos : list Z) (S_ : nat) (inv : list F) (a s c : nat) : F :=
  trig (angle (nth (c mod length inv) inv d0) (nth (a * S_ + s) pos 0%Z)).
Definition tmp_target (pos : list Z) (S_ : nat) (inv : list F) : list F :=
  flat_map (fun q => map (fun c => tmp_at pos S_ inv (q / S_) (q mod S_) c) (seq 0 (length inv * 2))) (seq 0 (3 * S_)).

Lemma target_len : forall pos S_ inv, length (tmp_target pos S_ inv) = 3 * S_ * (length inv * 2).
Proof. intros. unfold tmp_target. rewrite (AotGraph.flat_map_len _ (length inv * 2)), seq_length; auto. intros. rewrite map_length, seq_length. reflexivity. Qed.
Lemma target_nth : forall pos S_ inv a s c, a < 3 -> s < S_ -> c < length inv * 2 ->
  nth_error (tmp_target pos S_ inv) ((a * S_ + s) * (length inv * 2) + c) = Some (tmp_at pos S_ inv a s c).
Proof.
  intros pos S_ inv a s c Ha Hs Hc. unfold tmp_target. rewrite (nth_error_flat _ (length inv * 2)).
  - rewrite nth_error_seq by (apply index_bound; auto). cbn [Nat.add]. rewrite nth_error_map_seq by auto. cbn [Nat.add]. rewrite div_mul_add, mod_mul_add by auto. reflexivity.
  - apply Forall_forall. intros x _. rewrite map_length, seq_length. reflexivity.
  - exact Hc.
Qed.

Lemma tmp_ok : forall pos S_ inv b, length pos = 3 * S_ -> length b = 3 * S_ * (length inv * 2) ->
  mrope_tmp angle trig pos S_ inv b = ROk (tmp_target pos S_ inv).
Proof.
  intros pos S_ inv b Hp Hl. unfold mrope_tmp. set (half := length inv) in *. replace (length b =? 3 * S_ * (half * 2)) with true by lia. cbn [negb].
  apply (does_loop _ (fun a => flat_map (fun d => flat_map (fun s =>
    [((a * S_ + s) * (half * 2) + d, tmp_at pos S_ inv a s d); ((a * S_ + s) * (half * 2) + (d + half), tmp_at pos S_ inv a s d)]) (seq 0 S_)) (seq 0 half))).
  - intros a Ha. apply does_loop. intros d Hd. apply does_loop. intros s Hs. eapply does_ext; [|apply does_two]. intro b0.
    rewrite (rd_ok inv d (nth d inv d0)) by (apply nth_error_nth'; fold half; lia). cbn [rbind].
    rewrite (rd_ok pos _ (nth (a * S_ + s) pos 0%Z)) by (apply nth_error_nth'; rewrite Hp; apply index_bound; lia). cbn [rbind]. cbv zeta.
    unfold tmp_at. fold half. rewrite (Nat.mod_small d half) by lia. reflexivity.
  - assert (Same : forall a s d, d < half -> tmp_at pos S_ inv a s (d + half) = tmp_at pos S_ inv a s d).
    { intros a s d Hd. unfold tmp_at. fold half. replace (d + half) with (d + 1 * half) by lia. rewrite Nat.mod_add by lia. reflexivity. }
    apply put_list; [rewrite target_len; exact Hl| |].
    + intros p v I. apply in_loop in I as (a & I1 & I). apply in_loop in I as (d & I2 & I). apply in_loop in I as (s & I3 & I).
      destruct I as [I|[I|[]]]; injection I as <- <-; fold half; unfold half at 1; rewrite target_nth by (fold half; lia); [reflexivity|]. fold half. rewrite Same by lia. reflexivity.
    + intros p Hp'. rewrite target_len in Hp'. fold half in Hp'. destruct (index_split p (3 * S_) (half * 2) Hp') as (q & c & Hq & Hc & ->).
      destruct (index_split q 3 S_ Hq) as (a & s & Ha & Hs & ->).
      destruct (Nat.lt_ge_cases c half) as [C|C].
      * eexists. apply in_loop. exists a. split; [lia|]. apply in_loop. exists c. split; [lia|]. apply in_loop. exists s. split; [lia|]. left. reflexivity.
      * eexists. apply in_loop. exists a. split; [lia|]. apply in_loop. exists (c - half). split; [lia|]. apply in_loop. exists s. split; [lia|].
        right. left. replace (c - half + half) with c by lia. reflexivity.
Qed.

Lemma mrope_ok : forall pos S_ inv s0 s1 s2 b b2, length pos = 3 * S_ -> s0 + s1 + s2 = length inv ->
  length b = 3 * S_ * (length inv * 2) -> length b2 = S_ * (length inv * 2) ->
  mrope angle trig pos S_ inv [s0; s1; s2] b b2 =
  ROk (flat_map (fun s => map (fun c => tmp_at pos S_ inv (section_axis s0 s1 (c mod length inv)) s c) (seq 0 (length inv * 2))) (seq 0 S_)).
Proof.
  intros pos S_ inv s0 s1 s2 b b2 Hp Hs Hb Hb2. unfold mrope. rewrite tmp_ok by auto. cbn [rbind app length start_cols].
  set (half := length inv) in *. set (cols := half * 2) in *. cbn [Nat.add]. replace (length b2 =? S_ * cols) with true by lia. cbn [negb].
  set (sec := [s0; s1; s2; s0; s1; s2]). set (st := [0; s0; s0 + s1; s0 + s1 + s2; s0 + s1 + s2 + s0; s0 + s1 + s2 + s0 + s1; s0 + s1 + s2 + s0 + s1 + s2]).
  set (goal := flat_map (fun s => map (fun c => tmp_at pos S_ inv (section_axis s0 s1 (c mod half)) s c) (seq 0 cols)) (seq 0 S_)).
  assert (Lg : length goal = S_ * cols). { unfold goal. rewrite (AotGraph.flat_map_len _ cols), seq_length; auto. intros. rewrite map_length, seq_length. reflexivity. }
  assert (Ng : forall s c, s < S_ -> c < cols -> nth_error goal (s * cols + c) = Some (tmp_at pos S_ inv (section_axis s0 s1 (c mod half)) s c)).
  { intros s c H1 H2. unfold goal. rewrite (nth_error_flat _ cols).
    - rewrite nth_error_seq by auto. cbn [Nat.add]. rewrite nth_error_map_seq by auto. reflexivity.
    - apply Forall_forall. intros x _. rewrite map_length, seq_length. reflexivity.
    - exact H2. }
  assert (Sec : forall j c, j < 6 -> c < nth j sec 0 -> nth j st 0 + c < cols /\ section_axis s0 s1 ((nth j st 0 + c) mod half) = j mod 3).
  { intros j c Hj Hc.
    assert (Lo : forall x, x < half -> x mod half = x /\ (x + half) mod half = x).
    { intros x Hx. split; [apply Nat.mod_small; exact Hx|]. replace (x + half) with (x + 1 * half) by lia. rewrite Nat.mod_add by lia. apply Nat.mod_small. exact Hx. }
    destruct j as [|[|[|[|[|[|]]]]]]; cbn [nth sec st] in *; [..|lia].
    - destruct (Lo (0 + c) ltac:(lia)) as [-> _]. split; [lia|]. unfold section_axis. replace (0 + c <? s0) with true by lia. reflexivity.
    - destruct (Lo (s0 + c) ltac:(lia)) as [-> _]. split; [lia|]. unfold section_axis. replace (s0 + c <? s0) with false by lia. replace (s0 + c <? s0 + s1) with true by lia. reflexivity.
    - destruct (Lo (s0 + s1 + c) ltac:(lia)) as [-> _]. split; [lia|]. unfold section_axis. replace (s0 + s1 + c <? s0) with false by lia. replace (s0 + s1 + c <? s0 + s1) with false by lia. reflexivity.
    - replace (s0 + s1 + s2 + c) with (c + half) by lia. destruct (Lo c ltac:(lia)) as [_ ->]. split; [lia|]. unfold section_axis. replace (c <? s0) with true by lia. reflexivity.
    - replace (s0 + s1 + s2 + s0 + c) with (s0 + c + half) by lia. destruct (Lo (s0 + c) ltac:(lia)) as [_ ->]. split; [lia|]. unfold section_axis. replace (s0 + c <? s0) with false by lia. replace (s0 + c <? s0 + s1) with true by lia. reflexivity.
    - replace (s0 + s1 + s2 + s0 + s1 + c) with (s0 + s1 + c + half) by lia. destruct (Lo (s0 + s1 + c) ltac:(lia)) as [_ ->]. split; [lia|]. unfold section_axis. replace (s0 + s1 + c <? s0) with false by lia. replace (s0 + s1 + c <? s0 + s1) with false by lia. reflexivity. }
  assert (Cov : forall c, c < cols -> exists j k, j < 6 /\ k < nth j sec 0 /\ c = nth j st 0 + k).
  { intros c Hc.
    destruct (Nat.lt_ge_cases c s0); [exists 0, c; cbn; lia|]. destruct (Nat.lt_ge_cases c (s0 + s1)); [exists 1, (c - s0); cbn; lia|].
    destruct (Nat.lt_ge_cases c half); [exists 2, (c - (s0 + s1)); cbn [nth sec st]; lia|].
    destruct (Nat.lt_ge_cases c (half + s0)); [exists 3, (c - half); cbn [nth sec st]; lia|]. destruct (Nat.lt_ge_cases c (half + s0 + s1)); [exists 4, (c - (half + s0)); cbn [nth sec st]; lia|].
    exists 5, (c - (half + s0 + s1)); cbn [nth sec st]; lia. }
  apply (does_loop _ (fun j => flat_map (fun row => flat_map (fun c => [(row * cols + (nth j st 0 + c), tmp_at pos S_ inv (j mod 3) row (nth j st 0 + c))]) (seq 0 (nth j sec 0))) (seq 0 S_))).
  - intros j Hj x y E. assert (R1 : rd sec j = ROk (nth j sec 0)) by (apply rd_ok, nth_error_nth'; cbn [length sec]; lia).
    assert (R2 : rd st j = ROk (nth j st 0)) by (apply rd_ok, nth_error_nth'; cbn [length st]; lia).
    rewrite R1. cbn [rbind]. rewrite R2. cbn [rbind]. revert x y E. apply does_loop. intros row Hr. apply does_loop. intros c Hc.
    eapply does_ext; [|apply does_one]. intro b0. destruct (Sec j c ltac:(lia) ltac:(lia)) as [B _].
    rewrite (rd_ok _ _ (tmp_at pos S_ inv (j mod 3) row (nth j st 0 + c))); [reflexivity|]. unfold cols, half. apply target_nth; [apply Nat.mod_upper_bound; lia|lia|exact B].
  - apply put_list; [lia| |].
    + intros p v I. apply in_loop in I as (j & I1 & I). apply in_loop in I as (row & I2 & I). apply in_loop in I as (c & I3 & I).
      destruct I as [I|[]]. assert (Ip := f_equal fst I). assert (Iv := f_equal snd I). cbn [fst snd] in Ip, Iv. rewrite <- Ip, <- Iv. destruct (Sec j c ltac:(lia) ltac:(lia)) as [B E]. rewrite Ng; [|lia|exact B]. rewrite E. reflexivity.
    + intros p Hq. rewrite Lg in Hq. destruct (index_split p S_ cols Hq) as (s & c & H1 & H2 & ->). destruct (Cov c H2) as (j & k & Hj & Hk & ->).
      eexists. apply in_loop. exists j. split; [lia|]. apply in_loop. exists s. split; [lia|]. apply in_loop. exists k. split; [lia|]. left. reflexivity.
Qed.
End Mrope.
