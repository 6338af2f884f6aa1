(** C147, C148: chunked text generation. *)
From Verif Require Import Base ChunkModel ChunkSpec ChunkProofs.

(** C147: reading chunk after chunk gives the answer's text: no chunk but the last is
    marked finished or breaks off inside a character, the last one is, the count it gives
    is the answer's length, there are at most max_new chunks, and the texts together are
    the answer up to some tokens [h] at its end, none unless the answer ends with an
    end-of-sequence token of fewer than three bytes (or broken off itself). *)
Theorem C147_chunks : forall tok piece eos max_new chunk_size fuel,
  (1 <= max_new)%nat -> (1 <= chunk_size)%nat -> (max_new <= fuel)%nat ->
  exists l last, read_all tok piece eos max_new chunk_size fuel gbegin = l ++ [last] /\
    (length (l ++ [last]) <= max_new)%nat /\
    (forall o, In o l -> o_fin o = false /\ ~ broken_off (o_text o)) /\
    o_fin last = true /\ o_tokens last = length (answer tok eos max_new 0) /\
    exists a h, answer tok eos max_new 0 = a ++ h /\ said (l ++ [last]) = spelled piece a /\
      (h = [] \/ exists p t, answer tok eos max_new 0 = p ++ [t] /\ eos t = true /\
                  ~ ((3 <= length (piece t))%nat /\ ~ broken_off (piece t))).
Proof.
  intros tok piece eos mx cs fuel HM HC HF.
  destruct (read_from tok piece eos mx cs fuel gbegin [] HC eq_refl (going_start tok piece eos mx cs HM)) as [l [last [a [h [R1 [R2 [R3 [R4 [R5 [R6 [R7 R8]]]]]]]]]]].
  { cbn. lia. }
  exists l, last. split; [exact R1|]. split; [rewrite app_length; cbn [length]; cbn in R2; lia|]. split.
  { intros o I. destruct (R3 o I) as [A B]. split; [exact A|]. intros BB. apply ends_bad_ok in BB. congruence. }
  split; [exact R4|]. split; [exact R5|]. exists a, h. split; [exact R6|]. split; [exact R7|].
  destruct R8 as [->|[p [t [P1 [P2 P3]]]]]; [left; reflexivity|]. right. exists p, t. split; [exact P1|]. split; [exact P2|].
  intros [Q1 Q2]. apply P3. split; [exact Q1|]. destruct (ends_bad (piece t)) eqn:E; [|reflexivity]. exfalso. apply Q2. apply ends_bad_ok. exact E.
Qed.

(** So with ordinary end-of-sequence tokens nothing is missing. *)
Theorem C147_whole_text : forall tok piece eos max_new chunk_size fuel,
  (1 <= max_new)%nat -> (1 <= chunk_size)%nat -> (max_new <= fuel)%nat -> plain_end piece eos ->
  said (read_all tok piece eos max_new chunk_size fuel gbegin) = spelled piece (answer tok eos max_new 0).
Proof.
  intros tok piece eos mx cs fuel HM HC HF PE.
  destruct (C147_chunks tok piece eos mx cs fuel HM HC HF) as [l [last [R [_ [_ [_ [_ [a [h [A [S T]]]]]]]]]]].
  rewrite R, S, A. destruct T as [->|[p [t [_ [E N]]]]]; [rewrite app_nil_r; reflexivity|]. exfalso. apply N. exact (PE t E).
Qed.

(** Three tokens, the second and third of which make one character; then the end. *)
Definition ex_tok (k : nat) : Z := Z.of_nat k.
Definition ex_piece (t : Z) : bytes :=
  (if t =? 3 then [60; 101; 62] else if t =? 2 then [239; 191; 189] else if t =? 1 then [66; 67] else [65])%Z.
Example C147_hypotheses :
  plain_end ex_piece (fun t => t =? 3)%Z /\
  map o_text (read_all ex_tok ex_piece (fun t => t =? 3)%Z 8 3 8 gbegin) = [[65; 66; 67]; [239; 191; 189; 60; 101; 62]]%Z.
Proof.
  split; [|reflexivity]. intros t H. apply Z.eqb_eq in H. subst t. split; [cbn; lia|]. intros B. apply ends_bad_ok in B. discriminate.
Qed.

(** The usage documented in the header sees an empty output first and never the last. *)
Theorem C148_documented_loop_late : forall tok piece eos max_new chunk_size fuel,
  (1 <= max_new)%nat -> (1 <= chunk_size)%nat -> (max_new <= fuel)%nat ->
  exists last, o_fin last = true /\
    read_all tok piece eos max_new chunk_size fuel gbegin =
      removelast (read_all tok piece eos max_new chunk_size fuel gbegin) ++ [last] /\
    range_for tok piece eos max_new chunk_size fuel gbegin =
      mkO [] false 0 :: removelast (read_all tok piece eos max_new chunk_size fuel gbegin).
Proof.
  intros tok piece eos mx cs fuel HM HC HF.
  destruct (C147_chunks tok piece eos mx cs fuel HM HC HF) as [l [last [R [_ [_ [F _]]]]]].
  exists last. split; [exact F|]. assert (Q := range_late tok piece eos mx cs fuel gbegin l last eq_refl F R).
  rewrite R, removelast_last. split; [reflexivity|exact Q].
Qed.
(** C148 (violated): the documented loop prints the answer. *)
Theorem C148_documented_loop_refuted :
  ~ (forall tok piece eos max_new chunk_size fuel,
     (1 <= max_new)%nat -> (1 <= chunk_size)%nat -> (max_new <= fuel)%nat -> plain_end piece eos ->
     said (range_for tok piece eos max_new chunk_size fuel gbegin) = spelled piece (answer tok eos max_new 0)).
Proof.
  intros H. specialize (H ex_tok ex_piece (fun t => t =? 3)%Z 8 3 8 ltac:(lia) ltac:(lia) ltac:(lia) (proj1 C147_hypotheses))%nat.
  vm_compute in H. discriminate.
Qed.

Print Assumptions C147_chunks.
Print Assumptions C147_whole_text.
Print Assumptions C148_documented_loop_late.
Print Assumptions C148_documented_loop_refuted.
