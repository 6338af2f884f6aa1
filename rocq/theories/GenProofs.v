(** Lemmas about generation and sampling. *)
From Verif Require Import Base DTypeModel ParamModel TensorModel TensorSpec TensorProofs GenModel GenSpec.
Local Open Scope Z_scope.

Section Comp.
Variable eos : Z.
Definition Comp (n : nat) (ts : list Z) : Prop :=
  (length ts <= n)%nat /\ (forall a t b, ts = a ++ t :: b -> b <> [] -> t <> eos)
  /\ (length ts = n \/ exists a, ts = a ++ [eos]).
Lemma Comp_cons n t ts : t <> eos -> Comp n ts -> Comp (S n) (t :: ts).
Proof.
  intros N [C1 [C2 C3]]. split; [cbn; lia|]. split.
  - intros [|a0 a] u b E B; cbn in E; injection E as E1 E2; [subst; exact N|]. apply (C2 a u b); auto.
  - destruct C3 as [C3|[a C3]]; [left; cbn; lia|right]. exists (t :: a). rewrite C3. reflexivity.
Qed.
Lemma Comp_eos n : Comp (S n) [eos].
Proof.
  split; [cbn; lia|]. split; [|right; exists []; reflexivity].
  intros [|a0 a] u b E B; cbn in E; injection E as E1 E2; [congruence|]. destruct a; discriminate.
Qed.
Lemma Comp_nil : Comp 0 [].
Proof. split; [cbn; lia|]. split; [|left; reflexivity]. intros [|? ?] ? ? E; discriminate. Qed.
Lemma Comp_Complete n ts : Comp (Z.to_nat n) ts -> Complete n eos ts.
Proof. intros [C1 [C2 C3]]. split; [lia|]. split; [exact C2|]. destruct C3 as [C3|C3]; [left; lia|right; exact C3]. Qed.
End Comp.

Section Loop.
Context {St L : Type}.
Variables (forward : St -> St * L) (feed : St -> Z -> St) (sample : nat -> L -> res Z) (eos : Z).
Notation Run := (Run forward feed sample).
Notation Comp := (Comp eos).
Lemma stream_run f i s ts : stream_loop forward feed sample eos f i s = ROk ts -> Run i s ts /\ Comp f ts.
Proof.
  revert i s ts. induction f as [|f IH]; intros i s ts H; cbn [stream_loop] in H.
  - injection H as <-. split; [constructor|apply Comp_nil].
  - destruct (forward s) as [out lg] eqn:E. destruct (sample i lg) as [t| | |] eqn:Q; cbn [rbind] in H; try discriminate.
    assert (Q' : sample i (snd (forward s)) = ROk t) by (rewrite E; exact Q).
    destruct (Z.eqb_spec t eos) as [->|N].
    + injection H as <-. split; [econstructor; [exact Q'|constructor]|apply Comp_eos].
    + destruct (stream_loop _ _ _ _ f (S i) (feed out t)) as [r| | |] eqn:R; cbn [rbind] in H; try discriminate. injection H as <-.
      destruct (IH _ _ _ R) as [I1 I2]. split; [|apply Comp_cons; assumption]. econstructor; [exact Q'|]. rewrite E. exact I1.
Qed.
Lemma stream_total f i s : (forall j lg, exists t, sample j lg = ROk t) -> exists ts, stream_loop forward feed sample eos f i s = ROk ts.
Proof.
  intros T. revert i s. induction f as [|f IH]; intros i s; cbn [stream_loop]; [eauto|]. destruct (forward s) as [out lg].
  destruct (T i lg) as [t ->]. cbn [rbind]. destruct (t =? eos); [eauto|]. destruct (IH (S i) (feed out t)) as [r ->]. cbn [rbind]. eauto.
Qed.
Lemma gen_stream f i s : gen_loop forward feed sample false eos f i s = stream_loop forward feed sample eos f i s.
Proof. reflexivity. Qed.
(** The chat loop sees the same tokens, numbered, without the end token. *)
Fixpoint numbered (i : nat) (l : list Z) : list (Z * Z) :=
  match l with [] => [] | t :: r => (Z.of_nat i, t) :: numbered (S i) r end.
Lemma chat_stream f : forall m (x : iter) ts, Z.of_nat (i_count x + f) = m ->
  stream_loop forward feed sample eos f (i_count x) (i_in x) = ROk ts -> i_finished x = false ->
  chat_loop forward feed sample eos (S f) m x = ROk ((i_step x, i_token x) :: numbered (i_count x) (before_eos eos ts)).
Proof.
  induction f as [|f IH]; intros m x ts M H N; cbn [stream_loop] in H.
  - injection H as <-. cbn [chat_loop]. rewrite N. unfold it_step. rewrite N. replace (m <=? Z.of_nat (i_count x)) with true by lia. reflexivity.
  - destruct (forward (i_in x)) as [out lg] eqn:E. destruct (sample (i_count x) lg) as [t| | |] eqn:Q; cbn [rbind] in H; try discriminate.
    change (chat_loop forward feed sample eos (S (S f)) m x) with
      (if i_finished x then ROk [] else do y <- it_step forward feed sample eos m x; do r <- chat_loop forward feed sample eos (S f) m y; ROk ((i_step x, i_token x) :: r)).
    rewrite N. unfold it_step. rewrite N, E, Q. replace (m <=? Z.of_nat (i_count x)) with false by lia. cbn [rbind].
    destruct (t =? eos) eqn:NE.
    + injection H as <-. cbn. rewrite NE. reflexivity.
    + destruct (stream_loop _ _ _ _ f (S (i_count x)) (feed out t)) as [r| | |] eqn:R; cbn [rbind] in H; try discriminate. injection H as <-.
      rewrite (IH m (mkIter (feed out t) (Z.of_nat (i_count x)) t false (S (i_count x))) r); cbn [i_count i_in i_finished i_step i_token]; [|lia|exact R|reflexivity].
      cbn [rbind]. cbn [before_eos]. rewrite NE. reflexivity.
Qed.
Lemma chat_ok n s ts : stream forward feed sample eos n s = ROk ts -> chat forward feed sample eos n s = ROk (numbered 0 (before_eos eos ts)).
Proof.
  unfold stream, chat, it_begin, it_step. cbn [i_finished i_count i_in]. intros H.
  destruct (Z.to_nat n) as [|f] eqn:Fn.
  - cbn [stream_loop] in H. injection H as <-. replace (n <=? Z.of_nat 0) with true by lia. reflexivity.
  - replace (n <=? Z.of_nat 0) with false by lia. cbn [stream_loop] in H. destruct (forward s) as [out lg] eqn:E.
    destruct (sample 0%nat lg) as [t| | |]; cbn [rbind] in *; try discriminate.
    destruct (t =? eos) eqn:NE.
    + injection H as <-. cbn. rewrite NE. reflexivity.
    + destruct (stream_loop _ _ _ _ f 1 (feed out t)) as [r| | |] eqn:R; cbn [rbind] in H; try discriminate. injection H as <-.
      cbn [before_eos]. rewrite NE.
      assert (K := chat_stream f n (mkIter (feed out t) (Z.of_nat 0) t false 1) r). cbn [i_count i_in i_finished i_step i_token] in K.
      specialize (K ltac:(lia) R eq_refl). change (S (S f)) with (S (S f)).
      assert (MONO : forall g m y v, chat_loop forward feed sample eos g m y = ROk v -> chat_loop forward feed sample eos (S g) m y = ROk v).
      { clear. induction g as [|g IH]; intros m y v H.
        - cbn [chat_loop] in H |- *. destruct (i_finished y); [exact H|discriminate].
        - change (chat_loop forward feed sample eos (S (S g)) m y) with
            (if i_finished y then ROk [] else do z <- it_step forward feed sample eos m y; do r <- chat_loop forward feed sample eos (S g) m z; ROk ((i_step y, i_token y) :: r)).
          cbn [chat_loop] in H. destruct (i_finished y); [exact H|]. destruct (it_step _ _ _ _ m y) as [z| | |]; cbn [rbind] in *; try discriminate.
          destruct (chat_loop _ _ _ _ g m z) as [r| | |] eqn:R; cbn [rbind] in H; try discriminate. rewrite (IH _ _ _ R). exact H. }
      rewrite (MONO _ _ _ _ K). reflexivity.
Qed.
Lemma map_snd_numbered i l : map snd (numbered i l) = l.
Proof. revert i. induction l as [|t r IH]; intros i; cbn; [reflexivity|]. rewrite IH. reflexivity. Qed.
Lemma map_fst_numbered i l : map fst (numbered i l) = map Z.of_nat (seq i (length l)).
Proof. revert i. induction l as [|t r IH]; intros i; cbn; [reflexivity|]. rewrite IH. reflexivity. Qed.
End Loop.

(** ** Samplers *)
Section Order.
Context {F : Type}.
Variable lt : F -> F -> bool.
Hypothesis wo : weak_order lt.
Lemma lt_asym x y : lt x y = true -> lt y x = false.
Proof.
  intros H. destruct (lt y x) eqn:E; [|reflexivity]. pose proof (wo_trans _ wo _ _ _ H E) as T. rewrite (wo_irrefl _ wo) in T. discriminate.
Qed.
Lemma lt_le_lt x y z : lt x y = true -> lt z y = false -> lt x z = true.
Proof.
  intros H1 H2. destruct (lt x z) eqn:E; [reflexivity|]. pose proof (wo_neg _ wo _ _ _ E H2). congruence.
Qed.
Lemma lt_le_lt_aux w b x : lt b w = false -> lt b x = true -> lt w x = true.
Proof. intros H1 H2. destruct (lt w x) eqn:E; [reflexivity|]. pose proof (wo_neg _ wo _ _ _ H1 E). congruence. Qed.
Lemma max_from_spec l : forall best bv i pre, nth_error pre (Z.to_nat best) = Some bv -> 0 <= best -> i = Z.of_nat (length pre) ->
  (forall j w, nth_error pre j = Some w -> lt bv w = false) ->
  (forall j w, (j < Z.to_nat best)%nat -> nth_error pre j = Some w -> lt w bv = true) ->
  first_max lt (pre ++ l) (max_from lt best bv i l).
Proof.
  induction l as [|x r IH]; intros best bv i pre H1 H2 H3 H4 H5; cbn [max_from].
  - rewrite app_nil_r. exists bv. auto.
  - replace (pre ++ x :: r) with ((pre ++ [x]) ++ r) by (rewrite <- app_assoc; reflexivity).
    assert (LB : (Z.to_nat best < length pre)%nat) by (apply nth_error_Some; congruence).
    destruct (lt bv x) eqn:E; apply IH; try (rewrite app_length; cbn; lia); try lia.
    + rewrite nth_error_app2 by lia. replace (Z.to_nat i - length pre)%nat with 0%nat by lia. reflexivity.
    + intros j w J. destruct (Nat.lt_ge_cases j (length pre)) as [G|G].
      * rewrite nth_error_app1 in J by exact G. specialize (H4 _ _ J).
        apply lt_asym. apply (lt_le_lt_aux w bv x H4 E).
      * rewrite nth_error_app2 in J by lia. destruct (j - length pre)%nat as [|m]; cbn in J; [|destruct m; discriminate]. injection J as <-. apply (wo_irrefl _ wo).
    + intros j w J1 J. rewrite nth_error_app1 in J by lia. specialize (H4 _ _ J). apply (lt_le_lt_aux w bv x H4 E).
    + rewrite nth_error_app1 by lia. exact H1.
    + intros j w J. destruct (Nat.lt_ge_cases j (length pre)) as [G|G].
      * rewrite nth_error_app1 in J by exact G. eauto.
      * rewrite nth_error_app2 in J by lia. destruct (j - length pre)%nat as [|m]; cbn in J; [|destruct m; discriminate]. injection J as <-. exact E.
    + intros j w J1 J. rewrite nth_error_app1 in J by lia. eauto.
Qed.
Lemma max_element_spec l : l <> [] -> first_max lt l (max_element lt l).
Proof.
  destruct l as [|x r]; [congruence|]. intros _. unfold max_element. change (x :: r) with ([x] ++ r).
  apply max_from_spec; try reflexivity; try lia.
  - intros [|[|j]] w H; cbn in H; try discriminate. injection H as <-. apply (wo_irrefl _ wo).
Qed.
End Order.

Section Bound.
Context {F : Type}.
Variable lt : F -> F -> bool.
Variable zero : F.
(** [l] is partitioned by r: no smaller value behind one that is not smaller. *)
Definition partitioned (l : list F) (r : F) : Prop :=
  forall i j, (i <= j < length l)%nat -> lt (nth j l zero) r = true -> lt (nth i l zero) r = true.
Lemma lower_bound_spec fuel : forall l r first len, partitioned l r -> (len < fuel)%nat -> (first + len <= length l)%nat ->
  (forall i, (i < first)%nat -> lt (nth i l zero) r = true) ->
  (forall i, (first + len <= i < length l)%nat -> lt (nth i l zero) r = false) ->
  let k := lower_bound lt zero fuel l r first len in
  (k <= length l)%nat /\ (forall i, (i < k)%nat -> lt (nth i l zero) r = true) /\ (forall i, (k <= i < length l)%nat -> lt (nth i l zero) r = false).
Proof.
  induction fuel as [|f IH]; intros l r first len P H1 H2 H3 H4; [lia|]. cbn [lower_bound].
  destruct len as [|n].
  - cbv zeta. split; [lia|]. split; [exact H3|]. intros i Hi. apply H4. lia.
  - set (len := S n) in *. assert (D := Nat.div_lt len 2 ltac:(lia) ltac:(lia)). set (half := (len / 2)%nat) in *. cbv zeta.
    destruct (lt (nth (first + half) l zero) r) eqn:E.
    + apply IH; try assumption; try lia.
      * intros i Hi. apply (P i (first + half)%nat); [lia|exact E].
      * intros i Hi. apply H4. lia.
    + apply IH; try assumption; try lia.
      intros i Hi. destruct (lt (nth i l zero) r) eqn:G; [|reflexivity]. pose proof (P (first + half)%nat i ltac:(lia) G). congruence.
Qed.
End Bound.

Section Sums.
Context {F : Type}.
Variables (add : F -> F -> F) (zero : F).
Lemma sums_from_len a l : length (sums_from add a l) = length l.
Proof. revert a. induction l as [|x r IH]; intros a; cbn; [reflexivity|]. rewrite IH. reflexivity. Qed.
Lemma partial_sums_len l : length (partial_sums add l) = length l.
Proof. destruct l as [|x r]; [reflexivity|]. cbn. rewrite sums_from_len. reflexivity. Qed.
Lemma sums_from_nth a l i d : (i < length l)%nat -> nth i (sums_from add a l) d = fold_left add (firstn (S i) l) a.
Proof.
  revert a i. induction l as [|x r IH]; intros a i H; cbn in H; [lia|]. destruct i as [|i]; [reflexivity|].
  change (nth (S i) (sums_from add a (x :: r)) d) with (nth i (sums_from add (add a x) r) d).
  rewrite IH by lia. reflexivity.
Qed.
Lemma partial_sums_nth l i : (i < length l)%nat -> nth i (partial_sums add l) zero = running add zero l i.
Proof.
  destruct l as [|x r]; cbn [length]; [lia|]. intros H. destruct i as [|i]; [reflexivity|]. cbn [partial_sums nth running].
  rewrite sums_from_nth by lia. reflexivity.
Qed.
End Sums.

(** ** Top-k *)
Section TopK.
Context {F : Type}.
Variable lt : F -> F -> bool.
Variable zero : F.
Lemma order_len probs k order : partially_sorted lt zero probs k order -> length order = length probs.
Proof. intros [P _]. rewrite (Permutation_length P). apply seq_length. Qed.
Lemma order_range probs k order i : partially_sorted lt zero probs k order -> (i < length probs)%nat -> (nth i order 0%nat < length probs)%nat.
Proof.
  intros S H. pose proof (order_len _ _ _ S) as LO. destruct S as [P _].
  assert (I : In (nth i order 0%nat) order) by (apply nth_In; lia).
  apply (Permutation_in _ P) in I. apply in_seq in I. lia.
Qed.
Hypothesis irr : forall x, lt x x = false.
Lemma larger_in probs k order i id : partially_sorted lt zero probs k order -> (i < k)%nat -> (i < length probs)%nat ->
  nth i order 0%nat = id -> forall j, In j (larger lt zero probs id) -> In j (firstn i order).
Proof.
  intros S Hk Hi E j Hj. pose proof (order_len _ _ _ S) as LO. destruct S as [P S].
  unfold larger in Hj. apply filter_In in Hj. destruct Hj as [Hj G].
  apply (Permutation_in _ (Permutation_sym P)) in Hj. apply (In_nth _ _ 0%nat) in Hj. destruct Hj as [m [Hm <-]].
  destruct (Nat.lt_ge_cases m i) as [L|L].
  - assert (Q : nth m (firstn i order) 0%nat = nth m order 0%nat).
    { rewrite <- (firstn_skipn i order) at 2. rewrite app_nth1; [reflexivity|]. rewrite firstn_length. lia. }
    rewrite <- Q. apply nth_In. rewrite firstn_length. lia.
  - exfalso. rewrite <- E in G. destruct (Nat.eq_dec m i) as [->|N].
    + rewrite irr in G. discriminate.
    + rewrite (S i m ltac:(lia) Hk) in G. discriminate.
Qed.
Lemma larger_count probs k order i id : partially_sorted lt zero probs k order -> (i < k)%nat -> (i < length probs)%nat ->
  nth i order 0%nat = id -> (length (larger lt zero probs id) < k)%nat.
Proof.
  intros S Hk Hi E. apply Nat.le_lt_trans with i; [|exact Hk].
  transitivity (length (firstn i order)); [|rewrite firstn_length; lia].
  apply NoDup_incl_length; [apply NoDup_filter, seq_NoDup|]. intros j Hj. eapply larger_in; eassumption.
Qed.
End TopK.

(** ** Top-p *)
Section TopP.
Context {F : Type}.
Variable lt : F -> F -> bool.
Variable add : F -> F -> F.
Lemma nucleus_spec l : forall c p, let m := nucleus lt add c p l in
  (m <= length l)%nat /\ (forall i, (i < m)%nat -> lt (fold_left add (firstn i l) c) p = true)
  /\ (m = length l \/ lt (fold_left add (firstn m l) c) p = false).
Proof.
  induction l as [|x r IH]; intros c p; cbn [nucleus]; cbv zeta.
  - split; [cbn; lia|]. split; [intros i H; lia|]. left. reflexivity.
  - destruct (lt c p) eqn:E.
    + destruct (IH (add c x) p) as [I1 [I2 I3]]. cbv zeta in *. split; [cbn; lia|]. split.
      * intros [|i] H; [exact E|]. cbn. apply I2. lia.
      * destruct I3 as [I3|I3]; [left; cbn; lia|right; exact I3].
    + split; [lia|]. split; [intros i H; lia|]. right. exact E.
Qed.
End TopP.

(** ** The last row *)
Section Row.
Context {F : Type}.
Lemma read_n_spec (b : buf F) n : forall o f, (forall j, (j < n)%nat -> load b (o + Z.of_nat j) = ROk (Some (f j))) ->
  read_n b o n = ROk (map f (seq 0 n)).
Proof.
  induction n as [|n IH]; intros o f H; [reflexivity|]. cbn [read_n].
  assert (H0 := H 0%nat ltac:(lia)). replace (o + Z.of_nat 0) with o in H0 by lia. rewrite H0. cbn [rbind].
  rewrite (IH (o + 1) (fun j => f (S j))).
  - cbn [rbind]. cbn [seq map]. rewrite <- seq_shift, map_map. reflexivity.
  - intros j Hj. replace (o + 1 + Z.of_nat j) with (o + Z.of_nat (S j)) by lia. apply H. lia.
Qed.
Lemma slice_dim_all d st : 0 <= d < kAll -> slice_dim d st (slice_at kAll) = ROk (0 * st, d, st * 1).
Proof.
  intros H. unfold slice_at. rewrite Z.eqb_refl. unfold slice_dim. cbn [sl_start sl_end sl_step]. rewrite Z.eqb_refl. cbv zeta.
  replace (0 <? 0) with false by reflexivity. cbn [andb]. cbv iota. replace (0 <? 0) with false by reflexivity. cbv iota. replace (d <? 0) with false by lia. destruct (0 <? d) eqn:E.
  - change (1 =? 0) with false. cbv iota. rewrite Z.quot_1_r. replace (d - 0 + 1 - 1) with d by lia. reflexivity.
  - replace d with 0 by lia. reflexivity.
Qed.
Lemma slice_dim_one d st v : 0 <= v < d -> d < kAll -> slice_dim d st (slice_at v) = ROk (v * st, 1, st * 1).
Proof.
  intros H K. unfold slice_at. replace (v =? kAll) with false by lia. unfold slice_dim. cbn [sl_start sl_end sl_step].
  replace (v =? kAll) with false by lia. replace (v + 1 =? kAll) with false by lia. cbv zeta iota.
  replace (v <? 0) with false by lia. cbn [andb]. cbv iota. replace (v <? 0) with false by lia. replace (v + 1 <? 0) with false by lia. cbv iota.
  replace (v <? v + 1) with true by lia. replace (1 =? 0) with false by reflexivity. cbv iota. rewrite Z.quot_1_r. replace (v + 1 - v + 1 - 1) with 1 by lia. reflexivity.
Qed.
Lemma last_logits_row (t : tns F) B S V sb ss f : tensor_ok t -> x_shape t = [B; S; V] -> x_stride t = [sb; ss; 1] ->
  1 <= B < kAll -> 1 <= S < kAll -> V < kAll ->
  (forall j, 0 <= j < V -> elem t [0; S - 1; j] = Some (f j)) ->
  (do u <- last_logits t; read_row u) = ROk (map (fun j => f (Z.of_nat j)) (seq 0 (Z.to_nat V))).
Proof.
  intros Hok Hs Hst HB HS HV He. unfold last_logits. rewrite Hs.
  assert (V0 : 0 <= V). { pose proof (ok_dims _ Hok) as D. rewrite Hs in D. inversion D as [|? ? _ D1]; subst. inversion D1 as [|? ? _ D2]; subst. inversion D2; subst; assumption. }
  assert (IN : forall j, 0 <= j < V -> in_shape (x_shape t) [0; S - 1; j]) by (intros j Hj; rewrite Hs; repeat (constructor; [lia|]); constructor).
  assert (AD : forall j, address (x_view t) [0; S - 1; j] = x_offset t + ((S - 1) * ss + j)).
  { intros j. unfold address. unfold x_stride in Hst. rewrite Hst. cbn [combine map fold_right fst snd]. unfold x_offset. ring. }
  assert (LD : forall j, (j < Z.to_nat V)%nat -> load (x_buf t) (x_offset t + (S - 1) * ss + Z.of_nat j) = ROk (Some (f (Z.of_nat j)))).
  { intros j Hj. pose proof (ok_inside _ Hok _ (IN (Z.of_nat j) ltac:(lia))) as O. pose proof (He (Z.of_nat j) ltac:(lia)) as E. unfold elem in E. rewrite AD in O, E.
    unfold load. replace (x_offset t + (S - 1) * ss + Z.of_nat j) with (x_offset t + ((S - 1) * ss + Z.of_nat j)) by ring.
    replace ((0 <=? _) && _) with true by lia. rewrite E. reflexivity. }
  destruct (Z.eqb_spec S 1) as [E1|N1].
  - cbn [rbind]. unfold read_row. rewrite Hs. cbn [last]. apply read_n_spec. intros j Hj. specialize (LD j Hj). rewrite E1 in LD.
    replace (x_offset t + (1 - 1) * ss + Z.of_nat j) with (x_offset t + Z.of_nat j) in LD by ring. exact LD.
  - assert (SV : slice t [slice_at kAll; slice_at (S - 1); slice_at kAll]
        = ROk (mkTns (mkV [B; 1; V] [sb * 1; ss * 1; 1 * 1] (x_offset t + (0 * sb + ((S - 1) * ss + (0 * 1 + 0))))) (x_buf t))).
    { unfold slice, slice_view. unfold x_shape, x_stride, x_offset in *. rewrite Hs, Hst.
      change (zlen [slice_at kAll; slice_at (S - 1); slice_at kAll] =? zlen [B; S; V]) with true. cbv iota.
      cbn [slice_dims]. rewrite !slice_dim_all, slice_dim_one by lia. reflexivity. }
    rewrite SV. cbn [rbind]. unfold read_row, x_shape, x_offset. cbn [x_view v_shape v_offset x_buf last]. apply read_n_spec. intros j Hj.
    specialize (LD j Hj). unfold x_offset in LD. replace (v_offset (x_view t) + (0 * sb + ((S - 1) * ss + (0 * 1 + 0))) + Z.of_nat j) with (v_offset (x_view t) + (S - 1) * ss + Z.of_nat j) by ring.
    exact LD.
Qed.
End Row.
