(** Positions and masks of the vision encoder and the resampler. *)
From Verif Require Import Base DTypeModel ParamModel TensorModel VlModel VlProofs CpmModel CpmSpec.
From Verif Require AotModel AotProofs AotGraph.
Local Open Scope nat_scope.

(** ** Buckets *)
Lemma bucket_from_range lt : forall k i b, b <= i + k -> i <= b -> i <= bucket_from lt i k b <= i + k.
Proof.
  induction k as [|k IH]; intros i b H1 H2; cbn [bucket_from]; [lia|]. destruct (lt i); [lia|].
  specialize (IH (S i) (S i) ltac:(lia) ltac:(lia)). lia.
Qed.
Lemma bucket_range lt n : 1 <= n -> bucket lt n < n.
Proof. intro H. unfold bucket. assert (B := bucket_from_range lt (n - 1) 0 0 ltac:(lia) ltac:(lia)). lia. Qed.
Lemma bucket_from_step lt q : (forall i, i < q -> lt i = false) -> (forall i, q <= i -> lt i = true) -> forall k i b, i <= q -> q <= i + k -> (k = 0 -> b = q) -> bucket_from lt i k b = q.
Proof.
  intros L T. induction k as [|k IH]; intros i b H1 H2 H3; cbn [bucket_from]; [auto|].
  destruct (lt i) eqn:E.
  - destruct (Nat.lt_ge_cases i q) as [X|X]; [rewrite L in E by exact X; discriminate|lia].
  - assert (i < q) by (destruct (Nat.lt_ge_cases i q) as [X|X]; [exact X|rewrite T in E by exact X; discriminate]). apply IH; lia.
Qed.
Lemma bucket_exact n nb h lt : 1 <= n -> h < nb -> (forall i, i < n - 1 -> lt i = (h * n <? (i + 1) * nb)) -> bucket lt n = h * n / nb.
Proof.
  intros Hn Hh E. unfold bucket.
  assert (Q : h * n / nb <= n - 1).
  { assert (h * n / nb < n); [|lia]. apply Nat.div_lt_upper_bound; [lia|]. rewrite (Nat.mul_comm nb n), (Nat.mul_comm h n). apply Nat.mul_lt_mono_pos_l; lia. }
  assert (G : forall k i b, i + k = n - 1 -> bucket_from lt i k b = bucket_from (fun i => h * n <? (i + 1) * nb) i k b).
  { induction k as [|k IH]; intros i b X; [reflexivity|]. cbn [bucket_from]. rewrite E by lia. destruct (h * n <? (i + 1) * nb); [reflexivity|]. apply IH. lia. }
  rewrite G by lia. clear G.
  assert (D1 := Nat.mul_div_le (h * n) nb ltac:(lia)). assert (D2 := Nat.mul_succ_div_gt (h * n) nb ltac:(lia)). set (q := h * n / nb) in *.
  apply bucket_from_step.
  - intros i Hi. apply Nat.ltb_ge. etransitivity; [|exact D1]. rewrite Nat.mul_comm. apply Nat.mul_le_mono_l. lia.
  - intros i Hi. apply Nat.ltb_lt. eapply Nat.lt_le_trans; [exact D2|]. rewrite Nat.mul_comm. apply Nat.mul_le_mono_r. lia.
  - lia.
  - lia.
  - intro X. assert (n = 1) by lia. subst n. unfold q. rewrite Nat.mul_1_r. symmetry. apply Nat.div_small. exact Hh.
Qed.
(** ** The ids of one picture *)
Lemma pos_ids_len lth ltw n a b : length (pos_ids lth ltw n a b) = a * b.
Proof. unfold pos_ids. rewrite (AotGraph.flat_map_len _ b); [rewrite seq_length; reflexivity|]. intros x _. rewrite map_length, seq_length. reflexivity. Qed.
Lemma apply_front : forall m ids k, k <= m -> length ids = k -> apply_ids (map (fun j => j <? k) (seq 0 m)) ids = ids ++ repeat 0 (m - k).
Proof.
  assert (Z : forall m a, apply_ids (map (fun _ => false) (seq a m)) [] = repeat 0 m).
  { induction m as [|m IH]; intro a; [reflexivity|]. cbn. f_equal. apply IH. }
  assert (G : forall m a k ids, length ids = k - a -> k - a <= m -> apply_ids (map (fun j => j <? k) (seq a m)) ids = ids ++ repeat 0 (m - (k - a))).
  { induction m as [|m IH]; intros a k ids L H; cbn [seq map apply_ids].
    - destruct ids; [|cbn in L; lia]. cbn. replace (0 - (k - a)) with 0 by lia. reflexivity.
    - destruct (a <? k) eqn:E.
      + apply Nat.ltb_lt in E. destruct ids as [|x ids]; [cbn in L; lia|]. cbn [app]. f_equal. rewrite IH by (cbn in L; lia). do 2 f_equal. lia.
      + apply Nat.ltb_ge in E. destruct ids as [|x ids]; [|cbn in L; lia]. cbn [app]. replace (S m - (k - a)) with (S m) by lia. cbn [repeat]. f_equal.
        rewrite IH by (cbn; lia). cbn [app]. f_equal. lia. }
  intros m ids k H L. rewrite (G m 0 k ids) by lia. do 2 f_equal. lia.
Qed.
Lemma max_patches_ge : forall tgt m0 t, In t tgt -> 1 <= fst t -> 1 <= snd t ->
  fst t * snd t <= fold_left (fun m t => if (0 <? fst t) && (0 <? snd t) then (if m <? fst t * snd t then fst t * snd t else m) else m) tgt m0.
Proof.
  assert (Mono : forall tgt m0, m0 <= fold_left (fun m t => if (0 <? fst t) && (0 <? snd t) then (if m <? fst t * snd t then fst t * snd t else m) else m) tgt m0).
  { induction tgt as [|t tgt IH]; intro m0; [reflexivity|]. cbn [fold_left]. etransitivity; [|apply IH]. destruct ((0 <? fst t) && (0 <? snd t)); [|lia].
    destruct (m0 <? fst t * snd t) eqn:E; [apply Nat.ltb_lt in E; lia|lia]. }
  induction tgt as [|u tgt IH]; intros m0 t I H1 H2; [destruct I|]; destruct I as [E|I]; cbn [fold_left].
  - subst u. etransitivity; [|apply Mono]. replace (0 <? fst t) with true by lia. replace (0 <? snd t) with true by lia. cbn [andb].
    destruct (m0 <? fst t * snd t) eqn:E; [lia|apply Nat.ltb_ge in E; exact E].
  - apply IH; assumption.
Qed.
Lemma pos_ids_nth lth ltw n a b p : p < a * b -> nth_error (pos_ids lth ltw n a b) p = Some (bucket (lth (p / b)) n * n + bucket (ltw (p mod b)) n).
Proof.
  intro H. assert (Hb : 1 <= b) by (destruct b; [rewrite Nat.mul_0_r in H|]; lia).
  assert (Hq : p / b < a) by (apply Nat.div_lt_upper_bound; [lia|]; rewrite Nat.mul_comm; exact H). assert (Hm := Nat.mod_upper_bound p b ltac:(lia)).
  unfold pos_ids. assert (E : p = p / b * b + p mod b) by (rewrite Nat.mul_comm; apply Nat.div_mod; lia).
  rewrite E at 1. rewrite (nth_error_flat _ b).
  - rewrite nth_error_seq by exact Hq. rewrite nth_error_map_seq by exact Hm. reflexivity.
  - apply Forall_forall. intros i _. rewrite map_length, seq_length. reflexivity.
  - exact Hm.
Qed.

(** ** The mask of the encoder *)
Lemma all_valid masks : forallb (forallb (fun b : bool => b)) masks = true <-> forall m b, In m masks -> In b m -> b = true.
Proof.
  rewrite forallb_forall. split.
  - intros H m b Hm Hb. specialize (H m Hm). rewrite forallb_forall in H. apply H. exact Hb.
  - intros H m Hm. apply forallb_forall. intros b Hb. apply (H m b Hm Hb).
Qed.

(** ** The resampler *)
Lemma max_of_ge f : forall tgt m0, m0 <= fold_left (fun m t => if m <? f t then f t else m) tgt m0 /\ forall t : nat * nat, In t tgt -> f t <= fold_left (fun m t => if m <? f t then f t else m) tgt m0.
Proof.
  induction tgt as [|u tgt IH]; intro m0; [split; [reflexivity|intros t []]|]. cbn [fold_left].
  assert (S : m0 <= (if m0 <? f u then f u else m0) /\ f u <= (if m0 <? f u then f u else m0)) by (destruct (m0 <? f u) eqn:E; [apply Nat.ltb_lt in E|apply Nat.ltb_ge in E]; lia).
  destruct (IH (if m0 <? f u then f u else m0)) as [A B]. split; [lia|]. intros t [<-|I]; [lia|apply B; exact I].
Qed.
Section Res.
Context {F : Type} (value : nat -> nat -> nat -> F) (zero : F) (dim : nat).
Lemma table_nth s h w d : h < fst s -> w < snd s -> d < dim -> nth_error (table value dim s) ((h * snd s + w) * dim + d) = Some (value h w d).
Proof.
  intros Hh Hw Hd. unfold table. assert (L : forall h, length (flat_map (fun w => map (value h w) (seq 0 dim)) (seq 0 (snd s))) = snd s * dim).
  { intro h0. rewrite (AotGraph.flat_map_len _ dim); [rewrite seq_length; reflexivity|]. intros x _. rewrite map_length, seq_length. reflexivity. }
  replace ((h * snd s + w) * dim + d) with (h * (snd s * dim) + (w * dim + d)) by lia.
  assert (B : w * dim + d < snd s * dim) by (apply (Nat.lt_le_trans _ (S w * dim)); [cbn; lia|apply Nat.mul_le_mono_r; lia]).
  rewrite (nth_error_flat _ (snd s * dim)); [|apply Forall_forall; intros; apply L|exact B]. rewrite nth_error_seq by exact Hh.
  rewrite (nth_error_flat _ dim); [|apply Forall_forall; intros; rewrite map_length, seq_length; reflexivity|exact Hd]. rewrite nth_error_seq by exact Hw. rewrite nth_error_map_seq by exact Hd. reflexivity.
Qed.
Definition whole (r : resampler) : Prop := r_table r = table value dim (r_max r).
Lemma adjust_ok tgt r : whole r -> whole (adjust value dim tgt r) /\ forall t, In t tgt -> fst t <= fst (r_max (adjust value dim tgt r)) /\ snd t <= snd (r_max (adjust value dim tgt r)).
Proof.
  intro W. unfold adjust. destruct ((fst (r_max r) <? max_of fst tgt) || (snd (r_max r) <? max_of snd tgt)) eqn:E.
  - split; [reflexivity|]. intros t Ht. cbn [new_resampler r_max fst snd]. unfold max_of. split; apply max_of_ge; exact Ht.
  - apply orb_false_elim in E as [E1 E2]. apply Nat.ltb_ge in E1, E2. split; [exact W|]. intros t Ht. unfold max_of in *.
    assert (A := proj2 (max_of_ge fst tgt 0) t Ht). assert (B := proj2 (max_of_ge snd tgt 0) t Ht). lia.
Qed.
Lemma map_res_all {X Y} (f : X -> res Y) (g : X -> Y) l : (forall x, In x l -> f x = ROk (g x)) -> AotModel.map_res f l = ROk (map g l).
Proof.
  intro H. destruct (AotProofs.map_res_ok f (fun x y => y = g x) l) as (ys & E & F2); [intros x Hx; exists (g x); auto|]. rewrite E. f_equal.
  clear E H. induction F2; cbn; congruence.
Qed.
Definition rows_of (t : nat * nat) : list (list F) :=
  map (fun hw => map (value (fst hw) (snd hw)) (seq 0 dim)) (flat_map (fun h => map (fun w => (h, w)) (seq 0 (snd t))) (seq 0 (fst t))).
Lemma rows_len t : length (rows_of t) = fst t * snd t.
Proof. unfold rows_of. rewrite map_length, (AotGraph.flat_map_len _ (snd t)); [rewrite seq_length; reflexivity|]. intros x _. rewrite map_length, seq_length. reflexivity. Qed.
Lemma rows_nth t p : p < fst t * snd t -> nth_error (rows_of t) p = Some (map (value (p / snd t) (p mod snd t)) (seq 0 dim)).
Proof.
  intro H. assert (Hb : 1 <= snd t) by (destruct (snd t); [rewrite Nat.mul_0_r in H|]; lia).
  assert (Hq : p / snd t < fst t) by (apply Nat.div_lt_upper_bound; [lia|]; rewrite Nat.mul_comm; exact H). assert (Hm := Nat.mod_upper_bound p (snd t) ltac:(lia)).
  unfold rows_of. rewrite nth_error_map. assert (E : p = p / snd t * snd t + p mod snd t) by (rewrite Nat.mul_comm; apply Nat.div_mod; lia).
  rewrite E at 1. rewrite (nth_error_flat _ (snd t)); [|apply Forall_forall; intros; rewrite map_length, seq_length; reflexivity|exact Hm].
  rewrite nth_error_seq by exact Hq. rewrite nth_error_map_seq by exact Hm. reflexivity.
Qed.
Lemma pos_rows_ok r t : whole r -> fst t <= fst (r_max r) -> snd t <= snd (r_max r) -> pos_rows dim r t = ROk (rows_of t).
Proof.
  intros W H1 H2. unfold pos_rows, rows_of. apply map_res_all. intros [h w] I. apply in_flat_map in I as (h' & Hh & I). apply in_map_iff in I as (w' & E & Hw). apply in_seq in Hh, Hw. injection E as -> ->.
  apply map_res_all. intros d Hd. apply in_seq in Hd. apply rd_ok. rewrite W. cbn [fst snd]. apply table_nth; lia.
Qed.
Lemma padded_nth maxp rows p : length rows <= maxp -> nth_error (padded zero dim maxp rows) p =
  if p <? length rows then nth_error rows p else if p <? maxp then Some (repeat zero dim) else None.
Proof.
  clear value. intro H. unfold padded. rewrite firstn_all2 by exact H. destruct (p <? length rows) eqn:E.
  - apply Nat.ltb_lt in E. apply nth_error_app1. exact E.
  - apply Nat.ltb_ge in E. rewrite nth_error_app2 by exact E. destruct (p <? maxp) eqn:E2.
    + apply Nat.ltb_lt in E2. rewrite (nth_error_nth' _ (repeat zero dim)) by (rewrite repeat_length; lia). rewrite nth_repeat. reflexivity.
    + apply Nat.ltb_ge in E2. apply nth_error_None. rewrite repeat_length. lia.
Qed.
(** One call. *)
Lemma call_ok tgt r : whole r -> exists r' out, resample_positions value zero dim tgt r = ROk (r', out) /\ whole r' /\
  forall i t, nth_error tgt i = Some t -> nth_error out i = Some (padded zero dim (patch_lens tgt) (rows_of t), key_mask (patch_lens tgt) t).
Proof.
  intro W. unfold resample_positions. destruct (adjust_ok tgt r W) as [W' B]. set (r' := adjust value dim tgt r) in *.
  rewrite (map_res_all _ rows_of) by (intros t Ht; destruct (B t Ht); apply pos_rows_ok; assumption). cbn [rbind]. eexists _, _. split; [reflexivity|]. split; [exact W'|].
  intros i t Ht. rewrite nth_error_map. assert (C : nth_error (combine (map rows_of tgt) tgt) i = Some (rows_of t, t)); [|rewrite C; reflexivity].
  clear - Ht. revert i Ht. induction tgt as [|u tgt IH]; intros [|i] Ht; try discriminate; [cbn in *; congruence|]. cbn. apply IH. exact Ht.
Qed.
End Res.
