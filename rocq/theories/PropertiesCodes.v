(** C153, C154: the audio codes. *)
From Coq Require Import Reals Lra.
From Verif Require Import Base CodesModel CodesSpec CodesProofs.

(** C153: the calls of a stream make the frames of the speech one after the other.  What
    the vocoder gets, without the four frames each piece repeats, is all the frames so
    far, none left out or twice; they are those before the first frame with an end code,
    which no frame has; only an end code or more than 1024 frames stop the calls. *)
Theorem C153_codes : forall draw num_vq eos cond force calls,
  let frame := fun p => one_frame draw num_vq p force in
  let r := stream draw num_vq eos cond force calls (start_frames num_vq cond) 0 in
  unrepeat 4 0 (fst r) = snd r /\
  (forall fr, In fr (snd r) -> ~ ends eos fr) /\
  exists n, snd r = speech frame eos n cond /\ (n <= 25 * calls)%nat /\
    (n = 25 * calls \/ length (snd r) < n \/ 1024 < length (snd r))%nat.
Proof.
  intros draw q eos cond force calls frame r.
  assert (LS : length (start_frames q cond) = cond) by apply repeat_length.
  assert (SK : skipn cond (start_frames q cond) = []) by (apply skipn_all2; lia).
  assert (H := stream_from draw q eos cond force calls (start_frames q cond) ltac:(lia)). cbv zeta in H. fold frame in H. rewrite SK, LS in H.
  change (length (@nil (list Z))) with 0%nat in H. fold r in H. cbn [app] in H. destruct H as [H1 [n [H2 [H3 H4]]]].
  split; [exact H1|]. split; [rewrite H2; intros fr; apply speech_clean|]. exists n. split; [exact H2|]. split; [exact H3|]. rewrite H2 in *. exact H4.
Qed.

(** With force_no_stop (and a sampler that does not draw a banned code) the speech only
    ends at its limits. *)
Theorem C153_no_stop : forall draw num_vq eos cond calls,
  (forall p q, draw p q true <> eos) ->
  let r := stream draw num_vq eos cond true calls (start_frames num_vq cond) 0 in
  length (snd r) = (25 * calls)%nat \/ (1024 < length (snd r))%nat.
Proof.
  intros draw q eos cond calls H r.
  destruct (C153_codes draw q eos cond true calls) as [_ [_ [n [A [B C]]]]]. fold r in A, C.
  assert (L : forall m p, length (speech (fun p => one_frame draw q p true) eos m p) = m).
  { induction m as [|m IH]; intros p; [reflexivity|]. cbn [speech]. destruct (in_dec Z.eq_dec eos (one_frame draw q p true)) as [I|I].
    - exfalso. unfold one_frame in I. apply in_map_iff in I. destruct I as [x [I _]]. exact (H p x I).
    - cbn. rewrite IH. reflexivity. }
  rewrite A in *. rewrite L in *. lia.
Qed.

(** C153 (violated): the speech fits in the speech model's cache, which has 1024 places
    and starts at 302 (streaming_generation.hpp:104-112). *)
Theorem C153_cache_full_refuted :
  ~ (forall draw num_vq eos force calls,
     (302 + length (snd (stream draw num_vq eos 303 force calls (start_frames num_vq 303) 0)) <= 1024)%nat).
Proof.
  intros H. specialize (H (fun _ _ _ => 0%Z) 1%nat 1%Z true 30%nat).
  destruct (C153_no_stop (fun _ _ _ => 0%Z) 1 1%Z 303 30 ltac:(intros; discriminate)) as [Q|Q].
  - assert (P : (302 + 25 * 30 <= 1024)%nat) by (rewrite <- Q; exact H). apply Nat.leb_le in P. discriminate.
  - assert (P : (302 + 1024 < 1024)%nat) by (eapply Nat.lt_le_trans; [|exact H]; apply Nat.add_lt_mono_l; exact Q). apply Nat.ltb_lt in P. discriminate.
Qed.

(** C154 (partial): with exact sums and r above 0 and at most the total, the token drawn
    is the one whose share of the line contains r, so it exists and its probability is
    not 0.  Missing: totals below 1, see below. *)
Theorem C154_sampling_partial : forall scores r, (0 < r <= sum_to scores (length scores))%R -> scores <> [] ->
  let i := multinomial (fun x => x) scores r in
  (i < length scores)%nat /\ (sum_to scores i < r <= sum_to scores (Datatypes.S i))%R /\ (0 < nth i scores 0)%R.
Proof.
  intros scores r [H0 H1] NE i. unfold i, multinomial. set (l := sums (fun x => x) scores).
  assert (LL : length l = length scores) by apply sums_len.
  assert (LP : (0 < length scores)%nat) by (destruct scores; [contradiction|cbn; lia]).
  assert (I : (lower_bound l r < length l)%nat).
  { destruct (Nat.lt_ge_cases (lower_bound l r) (length l)) as [Q|Q]; [exact Q|]. exfalso.
    assert (B := lower_bound_spec l r (length scores - 1) ltac:(lia)). unfold l in B. rewrite sums_exact in B by lia.
    replace (Datatypes.S (length scores - 1)) with (length scores) in B by lia. lra. }
  assert (UP := lower_bound_at l r I). unfold l in UP at 2. rewrite sums_exact in UP by (fold l; lia). fold l in UP.
  assert (LO : (sum_to scores (lower_bound l r) < r)%R).
  { destruct (lower_bound l r) as [|k] eqn:E; [cbn; destruct scores; exact H0|].
    assert (B := lower_bound_spec l r k ltac:(lia)). unfold l in B. rewrite sums_exact in B by lia. exact B. }
  split; [lia|]. split; [split; [exact LO|exact UP]|]. rewrite sum_step in UP by lia. lra.
Qed.

(** For any rounding of the sums: a token is drawn exactly when r is not above the last
    sum (or above all of them), otherwise the result is the number of tokens, no token. *)
Theorem C154_out_of_range : forall rnd scores r,
  (forall i, (i < length scores)%nat -> (nth i (sums rnd scores) 0 < r)%R) -> multinomial rnd scores r = length scores.
Proof.
  intros rnd scores r H. unfold multinomial. rewrite <- (sums_len rnd scores) in H |- *.
  assert (L := lower_bound_le (sums rnd scores) r). destruct (Nat.eq_dec (lower_bound (sums rnd scores) r) (length (sums rnd scores))) as [E|E]; [exact E|].
  exfalso. assert (A := lower_bound_at (sums rnd scores) r ltac:(lia)). assert (B := H (lower_bound (sums rnd scores) r) ltac:(lia)). lra.
Qed.
(** C154 (violated): a token is drawn for every random number in [0, 1) when the
    probabilities sum to 1 up to a rounding error. *)
Theorem C154_always_a_token_refuted :
  ~ (forall scores r, scores <> [] -> (forall x, In x scores -> 0 <= x)%R ->
     (1 - / 16777216 <= sum_to scores (length scores) <= 1)%R -> (0 <= r < 1)%R ->
     (multinomial (fun x => x) scores r < length scores)%nat).
Proof.
  intros H. specialize (H [1 / 2; 1 / 2 - / 16777216]%R (1 - / 33554432)%R).
  rewrite C154_out_of_range in H.
  - cbn [length] in H. apply (Nat.lt_irrefl 2). apply H; [discriminate| | |].
    + intros x [<-|[<-|[]]]; lra.
    + cbn [length sum_to]. lra.
    + lra.
  - intros i I. cbn [length] in I. destruct i as [|[|i]]; [| |lia]; cbn; lra.
Qed.

(** The hypotheses are met: an end code in the third frame's second codebook. *)
Definition ex_draw (p q : nat) (banned : bool) : Z := if (p =? 305)%nat && (q =? 1)%nat && negb banned then 625%Z else Z.of_nat (p + q).
Example C153_hypotheses :
  snd (stream ex_draw 2 625 303 false 4 (start_frames 2 303) 0) = [[303; 304]; [304; 305]]%Z /\
  (forall p q, ex_draw p q true <> (-1)%Z).
Proof.
  split; [vm_compute; reflexivity|]. intros p q. unfold ex_draw. rewrite andb_false_r. lia.
Qed.
Example C154_hypotheses : (0 < 3 / 4 <= sum_to [1 / 2; 0; 1 / 2] 3)%R.
Proof. cbn [sum_to]. lra. Qed.
Print Assumptions C153_codes.
Print Assumptions C153_no_stop.
Print Assumptions C153_cache_full_refuted.
Print Assumptions C154_sampling_partial.
Print Assumptions C154_out_of_range.
Print Assumptions C154_always_a_token_refuted.
