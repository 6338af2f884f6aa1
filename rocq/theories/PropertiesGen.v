(** Properties of generation and sampling: C30, C31. *)
From Verif Require Import Base DTypeModel ParamModel TensorModel TensorSpec TensorProofs GenModel GenSpec GenProofs.
Local Open Scope Z_scope.

(** ** C30: generation *)
Section C30.
Context {St L : Type}.
Variables (forward : St -> St * L) (feed : St -> Z -> St) (sample : nat -> L -> res Z) (eos : Z).
(** Streaming: the callback gets at most max_length tokens, each the sampler's choice on
    the state reached with the tokens before; the end token can only be the last one; fewer
    than max_length tokens end with the end token. *)
Theorem C30_stream : forall n s ts, stream forward feed sample eos n s = ROk ts ->
  Run forward feed sample 0 s ts /\ Complete n eos ts.
Proof. intros n s ts H. destruct (stream_run _ _ _ _ _ _ _ _ H) as [R C]. split; [exact R|apply Comp_Complete; exact C]. Qed.
(** If the sampler always returns, so does the generation. *)
Theorem C30_returns : forall n s, (forall j lg, exists t, sample j lg = ROk t) -> exists ts, stream forward feed sample eos n s = ROk ts.
Proof. intros n s H. apply stream_total. exact H. Qed.
(** generate: the same tokens, if the sampler leaves the logits alive (greedy). *)
Theorem C30_generate_partial : forall n s, generate forward feed sample false eos n s = stream forward feed sample eos n s.
Proof. intros n s. apply gen_stream. Qed.
(** The chat loop sees the same tokens, numbered 0, 1, ..., but not the end token. *)
Theorem C30_chat : forall n s ts, stream forward feed sample eos n s = ROk ts ->
  exists ps, chat forward feed sample eos n s = ROk ps /\ map snd ps = before_eos eos ts
    /\ map fst ps = map Z.of_nat (seq 0 (length ps)).
Proof.
  intros n s ts H. exists (numbered 0 (before_eos eos ts)). split; [apply chat_ok; exact H|]. split; [apply map_snd_numbered|].
  rewrite map_fst_numbered. rewrite <- (map_snd_numbered 0 (before_eos eos ts)) at 1. rewrite map_length. reflexivity.
Qed.
(** generate with a sampler that frees the logits uses them afterwards. *)
Theorem C30_generate_after_free_refuted : forall n s t, 1 <= n -> sample 0%nat (snd (forward s)) = ROk t -> t <> eos ->
  generate forward feed sample true eos n s = RUB.
Proof.
  intros n s t Hn Hs Ht. unfold generate. destruct (Z.to_nat n) as [|f] eqn:E; [lia|]. cbn [gen_loop].
  destruct (forward s) as [out lg]. cbn [snd] in Hs. rewrite Hs. cbn [rbind]. replace (t =? eos) with false by lia. reflexivity.
Qed.
End C30.
(** Which sampler is used. *)
Theorem C30_mode : forall ds t1 pp k,
  (sampling_mode ds t1 pp k = MGreedy <-> ds = false /\ t1 = true /\ k <= 0 /\ pp = false)
  /\ (sampling_mode ds t1 pp k = MTopK <-> 0 < k)
  /\ (sampling_mode ds t1 pp k = MTopP <-> k <= 0 /\ pp = true).
Proof.
  intros ds t1 pp k. unfold sampling_mode. destruct (0 <? k) eqn:E, ds, t1, pp; cbn [orb negb]; repeat split; intros; try lia; try congruence; try (intuition (lia || congruence)).
Qed.
(** A model counting up from the last token: 5, 6, 7 with end token 7. *)
Example C30_case : stream (fun s => (s, s)) (fun _ t => t) (fun _ l => ROk (l + 1)) 7 10 4 = ROk [5; 6; 7]
  /\ chat (fun s => (s, s)) (fun _ t => t) (fun _ l => ROk (l + 1)) 7 10 4 = ROk [(0, 5); (1, 6)]
  /\ chat (fun s => (s, s)) (fun _ t => t) (fun _ l => ROk (l + 1)) 7 2 0 = ROk [(0, 1); (1, 2)].
Proof. repeat split. Qed.

(** ** C31: samplers *)
(** Greedy: for logits of any layout whose last dimension is dense, the first index of a
    largest value in the last position of the first batch entry. *)
Theorem C31_greedy : forall (F : Type) (lt : F -> F -> bool) (t : tns F) B S V sb ss f,
  weak_order lt -> tensor_ok t -> x_shape t = [B; S; V] -> x_stride t = [sb; ss; 1] ->
  1 <= B < kAll -> 1 <= S < kAll -> 1 <= V < kAll ->
  (forall j, 0 <= j < V -> row_elem t 0 (S - 1) j = Some (f j)) ->
  exists id, sample_greedy lt t = ROk id /\ 0 <= id < V
    /\ (forall j, 0 <= j < V -> lt (f id) (f j) = false) /\ (forall j, 0 <= j < id -> lt (f j) (f id) = true).
Proof.
  intros F lt t B S V sb ss f W Hok Hs Hst HB HS HV He. set (l := map (fun j => f (Z.of_nat j)) (seq 0 (Z.to_nat V))).
  assert (R := last_logits_row t B S V sb ss f Hok Hs Hst HB HS ltac:(lia) He). fold l in R.
  assert (N : l <> []) by (intros E; apply (f_equal (@length F)) in E; unfold l in E; rewrite map_length, seq_length in E; cbn in E; lia).
  assert (NE : forall j, (j < Z.to_nat V)%nat -> nth_error l j = Some (f (Z.of_nat j))).
  { intros j Hj. unfold l. rewrite nth_error_map. rewrite (nth_error_nth' _ 0%nat) by (rewrite seq_length; lia). rewrite seq_nth by lia. reflexivity. }
  destruct (max_element_spec lt W l N) as [v [H1 [H2 [H3 H4]]]].
  assert (LL : length l = Z.to_nat V) by (unfold l; rewrite map_length, seq_length; reflexivity).
  assert (LB : (Z.to_nat (max_element lt l) < length l)%nat) by (apply nth_error_Some; congruence).
  exists (max_element lt l). split.
  - unfold sample_greedy. destruct (last_logits t) as [u| | |]; cbn [rbind] in *; try discriminate. rewrite R. reflexivity.
  - split; [lia|]. rewrite NE in H1 by lia. rewrite Z2Nat.id in H1 by lia. injection H1 as ->. split.
    + intros j Hj. apply (H3 (Z.to_nat j)). rewrite NE by lia. rewrite Z2Nat.id by lia. reflexivity.
    + intros j Hj. apply (H4 (Z.to_nat j)); [lia|]. rewrite NE by lia. rewrite Z2Nat.id by lia. reflexivity.
Qed.
(** With a NaN (a value comparing false with everything) in front, greedy returns the NaN. *)
Theorem C31_greedy_nan_refuted :
  let lt := fun a b : option Z => match a, b with Some x, Some y => x <? y | _, _ => false end in
  sample_greedy lt (mkTns (mkV [1; 1; 3] [3; 3; 1] 0) (mkBuf 3 (fun i => if i =? 0 then Some None else Some (Some i)))) = ROk 0.
Proof. reflexivity. Qed.
(** Logits that are not of rank 3 are refused with an exception. *)
Theorem C31_rank : forall (F : Type) (lt : F -> F -> bool) (t : tns F), length (x_shape t) <> 3%nat -> sample_greedy lt t = RAbort.
Proof.
  intros F lt t H. unfold sample_greedy, last_logits. destruct (x_shape t) as [|a [|b [|c [|d r]]]]; try reflexivity. cbn in H. congruence.
Qed.
Example C31_greedy_case :
  sample_greedy Z.ltb (mkTns (mkV [1; 2; 4] [8; 4; 1] 0) (mkBuf 8 (fun i => nth_error [9; 9; 9; 9; 1; 7; 3; 7] (Z.to_nat i)))) = ROk 1.
Proof. reflexivity. Qed.

(** Top-k: with 1 <= k <= V, whatever std::partial_sort and the draw do, the id is in the
    vocabulary and fewer than k ids are more probable. *)
Theorem C31_top_k_partial : forall (F : Type) (lt : F -> F -> bool) (zero : F) probs k order draw,
  weak_order lt -> 1 <= k <= zlen probs -> partially_sorted lt zero probs (Z.to_nat k) order -> (draw < Z.to_nat k)%nat ->
  exists id, top_k probs k order draw = ROk (Z.of_nat id) /\ (id < length probs)%nat
    /\ (length (larger lt zero probs id) < Z.to_nat k)%nat.
Proof.
  intros F lt zero probs k order draw W Hk Ho Hd. unfold zlen in Hk. exists (nth draw order 0%nat). split; [|split].
  - unfold top_k, zlen. replace ((k <? 0) || (Z.of_nat (length probs) <? k)) with false by lia. reflexivity.
  - eapply order_range; [exact Ho|lia].
  - eapply larger_count with (i := draw); [apply (wo_irrefl _ W)|exact Ho|exact Hd|lia|reflexivity].
Qed.
(** A k larger than the vocabulary is not checked: partial_sort gets an iterator behind the
    end. *)
Theorem C31_top_k_too_large_refuted : forall (F : Type) (probs : list F) k order draw, zlen probs < k -> top_k probs k order draw = RUB.
Proof. intros F probs k order draw H. unfold top_k. replace (zlen probs <? k) with true by lia. rewrite orb_true_r. reflexivity. Qed.
Example C31_top_k_case : partially_sorted Z.ltb 0 [5; 9; 1; 7] 2 [1%nat; 3%nat; 0%nat; 2%nat] /\ top_k [5; 9; 1; 7] 2 [1%nat; 3%nat; 0%nat; 2%nat] 1 = ROk 3.
Proof.
  split; [|reflexivity]. split.
  - cbn. apply NoDup_Permutation; [repeat (constructor; [cbn; intuition discriminate|]); constructor|apply (seq_NoDup 4 0)|]. intros x. cbn. intuition.
  - intros i j [H1 H2] H3. cbn in H2. do 4 (destruct i as [|i]; [do 4 (destruct j as [|j]; [try lia; reflexivity|]); lia|]). lia.
Qed.

(** Top-p: m is the smallest number of most probable ids whose probabilities, summed in
    this order, reach p (all of them if they never do); the id is one of these. *)
Theorem C31_top_p_partial : forall (F : Type) (lt : F -> F -> bool) (add : F -> F -> F) (zero : F) probs p order draw,
  weak_order lt -> probs <> [] -> lt zero p = true -> partially_sorted lt zero probs (length probs) order ->
  (draw < top_p_count lt add zero probs p order)%nat ->
  exists id m, top_p probs p order draw = ROk (Z.of_nat id) /\ (id < length probs)%nat /\ (1 <= m <= length probs)%nat
    /\ (let q := map (fun i => nth i probs zero) order in
        (forall i, (i < m)%nat -> lt (sum_first add zero q i) p = true)
        /\ (m = length probs \/ lt (sum_first add zero q m) p = false))
    /\ (length (larger lt zero probs id) < m)%nat.
Proof.
  intros F lt add zero probs p order draw W N Hp Ho Hd. pose proof (order_len lt zero _ _ _ Ho) as LO.
  unfold top_p_count in Hd. set (q := map (fun i => nth i probs zero) order) in *.
  assert (LQ : length q = length probs) by (unfold q; rewrite map_length; exact LO).
  assert (LP : (1 <= length probs)%nat) by (destruct probs; [congruence|cbn; lia]).
  destruct (nucleus_spec lt add q zero p) as [M1 [M2 M3]]. cbv zeta in M1, M2, M3. set (m := nucleus lt add zero p q) in *.
  exists (nth draw order 0%nat), m. split; [|split; [|split; [|split]]].
  - unfold top_p. replace (length order <=? draw)%nat with false by (symmetry; apply Nat.leb_gt; lia). reflexivity.
  - eapply order_range; [exact Ho|lia].
  - lia.
  - cbv zeta. split; [exact M2|]. rewrite <- LQ. exact M3.
  - destruct (Nat.lt_ge_cases (length (larger lt zero probs (nth draw order 0%nat))) m) as [G|G]; [exact G|exfalso].
    assert (I : incl (larger lt zero probs (nth draw order 0%nat)) (firstn draw order)).
    { intros j Hj. eapply (larger_in lt zero (wo_irrefl _ W)) with (i := draw); [exact Ho|lia|lia|reflexivity|exact Hj]. }
    apply NoDup_incl_length in I; [|apply NoDup_filter, seq_NoDup]. rewrite firstn_length in I. lia.
Qed.
Example C31_top_p_case : top_p_count Z.ltb Z.add 0 [10; 50; 15; 25] 70 [1%nat; 3%nat; 2%nat; 0%nat] = 2%nat.
Proof. reflexivity. Qed.

(** Categorical: if the partial sums do not decrease and reach the draw, the id is in the
    vocabulary and is the first whose partial sum reaches it. *)
Theorem C31_categorical_partial : forall (F : Type) (lt : F -> F -> bool) (add : F -> F -> F) (zero : F) probs r,
  let s := running add zero probs in
  (forall i j, (i <= j < length probs)%nat -> lt (s j) r = true -> lt (s i) r = true) ->
  (exists i, (i < length probs)%nat /\ lt (s i) r = false) ->
  let id := categorical lt add zero probs r in
  0 <= id < zlen probs /\ lt (s (Z.to_nat id)) r = false /\ (forall i, (i < Z.to_nat id)%nat -> lt (s i) r = true).
Proof.
  intros F lt add zero probs r s P [i0 [Hi E]] id. unfold id, categorical, zlen.
  assert (LS : length (partial_sums add probs) = length probs) by apply partial_sums_len.
  assert (NS : forall i, (i < length probs)%nat -> nth i (partial_sums add probs) zero = s i) by (intros i H; apply partial_sums_nth; exact H).
  destruct (lower_bound_spec lt zero (S (length probs)) (partial_sums add probs) r 0 (length probs)) as [K1 [K2 K3]]; try lia.
  { intros i j Hij. rewrite !NS by lia. apply P. lia. }
  cbv zeta in *. rewrite Nat2Z.id. set (k := lower_bound _ _ _ _ _ _ _) in *.
  assert (K : (k <= i0)%nat) by (destruct (Nat.lt_ge_cases i0 k) as [G|G]; [specialize (K2 _ G); rewrite NS in K2 by lia; congruence|exact G]).
  split; [lia|]. split; [rewrite <- NS by lia; apply K3; lia|]. intros i Hk. rewrite <- NS by lia. apply K2. exact Hk.
Qed.
(** If all running sums stay below the draw (the probabilities sum to less than 1 after
    rounding), the result is V, which is not a token id. *)
Theorem C31_categorical_out_of_range_refuted : forall (F : Type) (lt : F -> F -> bool) (add : F -> F -> F) (zero : F) probs r,
  (forall i, (i < length probs)%nat -> lt (running add zero probs i) r = true) ->
  categorical lt add zero probs r = zlen probs.
Proof.
  intros F lt add zero probs r H0. assert (H : forall i, (i < length probs)%nat -> lt (nth i (partial_sums add probs) zero) r = true) by (intros i Hi; rewrite partial_sums_nth by exact Hi; apply H0; exact Hi).
  unfold categorical, zlen. f_equal.
  assert (LS : length (partial_sums add probs) = length probs) by apply partial_sums_len.
  destruct (lower_bound_spec lt zero (S (length probs)) (partial_sums add probs) r 0 (length probs)) as [K1 [K2 K3]]; try lia.
  - intros i j Hij _. apply H. lia.
  - cbv zeta in *. set (k := lower_bound _ _ _ _ _ _ _) in *. destruct (Nat.eq_dec k (length probs)) as [E|N]; [exact E|exfalso].
    specialize (K3 k ltac:(lia)). rewrite H in K3 by lia. discriminate.
Qed.
Example C31_categorical_case : map (categorical Z.ltb Z.add 0 [20; 0; 50; 29]) [0; 20; 21; 70; 99; 100] = [0; 0; 2; 2; 3; 4].
Proof. reflexivity. Qed.

(** With the delete_ of the library (reset, then use), every sampling function is undefined
    for every logits tensor it could read. *)
Theorem C31_sampling_uses_deleted_tensor_refuted : forall (F : Type) scale softmax (logits : tns F) pick p,
  probs_of scale softmax logits = ROk p -> freeing scale softmax delete_ logits pick = RUB.
Proof. intros F scale softmax logits pick p H. unfold freeing. rewrite H. reflexivity. Qed.
(** With a delete_ that only resets, the sampling functions return what they pick, and the
    caller's logits are gone (see C30_generate_after_free_refuted). *)
Theorem C31_sampling_with_working_delete : forall (F : Type) scale softmax (logits : tns F) pick p t,
  probs_of scale softmax logits = ROk p -> pick p = ROk t -> freeing scale softmax (fun _ => ROk None) logits pick = ROk (t, None).
Proof. intros F scale softmax logits pick p t H E. unfold freeing. rewrite H. cbn [rbind]. rewrite E. reflexivity. Qed.
Print Assumptions C30_stream.
Print Assumptions C30_returns.
Print Assumptions C30_generate_partial.
Print Assumptions C30_chat.
Print Assumptions C30_generate_after_free_refuted.
Print Assumptions C30_mode.
Print Assumptions C31_greedy.
Print Assumptions C31_greedy_nan_refuted.
Print Assumptions C31_rank.
Print Assumptions C31_top_k_partial.
Print Assumptions C31_top_k_too_large_refuted.
Print Assumptions C31_top_p_partial.
Print Assumptions C31_categorical_partial.
Print Assumptions C31_categorical_out_of_range_refuted.
Print Assumptions C31_sampling_uses_deleted_tensor_refuted.
Print Assumptions C31_sampling_with_working_delete.
