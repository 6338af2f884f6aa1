(** C149 - C151: the speech stream. *)
From Coq Require Import Reals.
From Verif Require Import Base ChunkModel ChunkSpec ChunkProofs PropertiesChunk StreamModel StreamSpec StreamProofs.

(** C149: joining two waveforms.  With o samples overlapping (at most [ov] and neither
    waveform's length), every row of the first result has the first waveform's length: its
    samples, the last o of them faded into the first o of the second waveform; the second
    result is what follows in the second waveform. *)
Theorem C149_overlap_add : forall B prev cur ov b,
  (b < B)%nat ->
  let o := Nat.min ov (Nat.min (w_len prev) (w_len cur)) in
  let keep := (w_len prev - o)%nat in
  let out := fst (linear_overlap_add B prev cur ov) in
  let next := snd (linear_overlap_add B prev cur ov) in
  w_len out = w_len prev /\ w_len next = (w_len cur - o)%nat /\
  (forall i, (i < keep)%nat -> w_at out (b * w_len out + i)%nat = w_at prev (b * w_len prev + i)%nat) /\
  (forall j, (j < o)%nat -> w_at out (b * w_len out + (keep + j))%nat =
     fade o j (w_at prev (b * w_len prev + (keep + j))%nat) (w_at cur (b * w_len cur + j)%nat)) /\
  (forall i, (i < w_len next)%nat -> w_at next (b * w_len next + i)%nat = w_at cur (b * w_len cur + (o + i))%nat).
Proof.
  intros B p c ov b HB o keep out next. destruct (overlap_lengths B p c ov) as [L1 L2]. fold o in L2. fold out in L1. fold next in L2.
  assert (HO : (o <= w_len p)%nat) by (unfold o; lia).
  split; [exact L1|]. split; [exact L2|]. rewrite L1, L2. split; [|split].
  - intros i I. assert (Q := overlap_out B p c ov b i HB ltac:(unfold keep in I; lia)). cbv zeta in Q. fold o in Q. fold keep in Q. fold out in Q. rewrite Q.
    replace (i <? keep)%nat with true by (symmetry; apply Nat.ltb_lt; exact I). reflexivity.
  - intros j J. assert (Q := overlap_out B p c ov b (keep + j)%nat HB ltac:(unfold keep; lia)). cbv zeta in Q. fold o in Q. fold keep in Q. fold out in Q. rewrite Q.
    replace (keep + j <? keep)%nat with false by (symmetry; apply Nat.ltb_ge; lia). replace (keep + j - keep)%nat with j by lia. reflexivity.
  - intros i I. exact (overlap_next B p c ov b i HB I).
Qed.

(** The fade starts at the first waveform's sample, ends at the second's, and never leaves
    the range of the two: no clicks and no clipping. *)
Theorem C149_smooth : forall n a b,
  fade n 0 a b = a /\ ((2 <= n)%nat -> fade n (n - 1) a b = b) /\
  (forall i lo hi, (i < n)%nat -> (lo <= a <= hi)%R -> (lo <= b <= hi)%R -> (lo <= fade n i a b <= hi)%R).
Proof.
  intros n a b. split; [apply fade_first|]. split; [apply fade_last|]. intros i lo hi. apply fade_between.
Qed.

(** C150: calling the generator until it says it is finished gives the whole audio, every
    waveform faded into the next, nothing left out or repeated; only the last output says
    finished, and it carries the end that was held back for mixing. *)
Theorem C150_all_audio : forall tok piece eos wav tts_fin n, ends_with tts_fin n ->
  let outs := outputs tok piece eos wav tts_fin true in
  audio_of (outs (n + 2)%nat sinit) = fst (whole_audio wav n) /\
  (forall o, In o (outs (n + 1)%nat sinit) -> m_fin o = false) /\
  exists last, outs (n + 2)%nat sinit = outs (n + 1)%nat sinit ++ [last] /\
    m_fin last = true /\ length (heard (m_wav last)) = snd (whole_audio wav n).
Proof.
  intros tok piece eos wav fin n E outs. replace (n + 2)%nat with (Datatypes.S (Datatypes.S n)) by lia. replace (n + 1)%nat with (Datatypes.S n) by lia.
  exact (audio_all tok piece eos wav fin n E).
Qed.

(** The loop in the header's documentation and in the two example programs stops before
    that last output: the audio it sees lacks the end that was held back, and it never
    sees an output marked finished. *)
Theorem C150_loop_misses_the_end : forall tok piece eos wav tts_fin n fuel, ends_with tts_fin n -> (n + 2 <= fuel)%nat ->
  let seen := srange tok piece eos wav tts_fin true fuel (sbegin tok piece eos wav tts_fin true) in
  (forall o, In o seen -> m_fin o = false) /\
  exists lost, audio_of seen ++ lost = fst (whole_audio wav n) /\ length lost = snd (whole_audio wav n).
Proof.
  intros tok piece eos wav fin n fuel E F seen. unfold seen. rewrite (range_audio tok piece eos wav fin n fuel E F).
  destruct (audio_all tok piece eos wav fin n E) as [A [B [last [C [D L]]]]]. split; [exact B|].
  exists (heard (m_wav last)). split; [|exact L]. rewrite C in A. rewrite <- A. unfold audio_of. rewrite map_app, concat_app. cbn [map concat]. rewrite app_nil_r. reflexivity.
Qed.
Theorem C150_loop_refuted :
  ~ (forall tok piece eos wav tts_fin n fuel, ends_with tts_fin n -> (n + 2 <= fuel)%nat ->
     audio_of (srange tok piece eos wav tts_fin true fuel (sbegin tok piece eos wav tts_fin true)) = fst (whole_audio wav n)).
Proof.
  intros H. specialize (H (fun _ => 0%Z) (fun _ => []) (fun _ => true) (fun _ => mkW 1 (fun _ => 0%R)) (fun _ => true) 0%nat 2%nat).
  assert (E : ends_with (fun _ => true) 0) by (split; [reflexivity|intros k K; lia]). specialize (H E ltac:(lia)).
  cbn in H. discriminate.
Qed.

(** C151: the texts of the stream are the chunks' texts in order, none twice: after the
    n+1 outputs of a speaking stream the first n+2 chunks, all of them if there are no
    more.  [C147_chunks] says what the chunks are. *)
Theorem C151_text : forall tok piece eos wav tts_fin n fuel, ends_with tts_fin n -> (n + 2 <= fuel)%nat ->
  let chunks := read_all tok piece eos 10 5 10 gbegin in
  (forall o, In o chunks -> ~ marked (o_text o)) ->
  text_of (srange tok piece eos wav tts_fin true fuel (sbegin tok piece eos wav tts_fin true)) = said (firstn (n + 2) chunks).
Proof.
  intros tok piece eos wav fin n fuel E F chunks NM. rewrite (range_audio tok piece eos wav fin n fuel E F).
  destruct (text_inv tok piece eos wav fin n n E (le_n n) NM) as [A [_ [_ [_ T]]]]. exact (eq_trans T A).
Qed.
Theorem C151_whole_text : forall tok piece eos wav tts_fin n fuel, ends_with tts_fin n -> (n + 2 <= fuel)%nat ->
  let chunks := read_all tok piece eos 10 5 10 gbegin in
  (forall o, In o chunks -> ~ marked (o_text o)) -> plain_end piece eos -> (length chunks <= n + 2)%nat ->
  text_of (srange tok piece eos wav tts_fin true fuel (sbegin tok piece eos wav tts_fin true)) = spelled piece (answer tok eos 10 0).
Proof.
  intros tok piece eos wav fin n fuel E F chunks NM PE L. rewrite (C151_text tok piece eos wav fin n fuel E F NM).
  fold chunks. rewrite firstn_all2 by exact L. unfold chunks.
  apply PropertiesChunk.C147_whole_text; [lia|lia|lia|exact PE].
Qed.
(** C151 (violated): with generate_audio off the outputs carry the text. *)
Theorem C151_no_text_without_audio : forall tok piece eos wav tts_fin n,
  text_of (outputs tok piece eos wav tts_fin false n sinit) = [].
Proof. intros tok piece eos wav fin n. apply silent_text. Qed.
Theorem C151_text_only_refuted :
  ~ (forall tok piece eos wav tts_fin, plain_end piece eos ->
     exists n, text_of (outputs tok piece eos wav tts_fin false n sinit) = spelled piece (answer tok eos 10 0)).
Proof.
  intros H. destruct (H ex_tok ex_piece (fun t => t =? 3)%Z (fun _ => mkW 1 (fun _ => 0%R)) (fun _ => true) (proj1 C147_hypotheses)) as [n Q].
  rewrite C151_no_text_without_audio in Q. vm_compute in Q. discriminate.
Qed.

(** C151 (violated): no text after the end marker is output. *)
Definition mark_piece (t : Z) : bytes := (if t =? 3 then tts_eos else if t =? 8 then [65] else [])%Z.
Theorem C151_marker_refuted :
  ~ (forall tok piece eos wav tts_fin n fuel pre post, ends_with tts_fin n -> (n + 2 <= fuel)%nat ->
     said (read_all tok piece eos 10 5 10 gbegin) = pre ++ tts_eos ++ post ->
     exists k, text_of (srange tok piece eos wav tts_fin true fuel (sbegin tok piece eos wav tts_fin true)) = firstn k pre).
Proof.
  intros H. specialize (H ex_tok mark_piece (fun _ => false) (fun _ => mkW 0 (fun _ => 0%R)) (fun k => (k =? 1)%nat) 1%nat 3%nat [] [65%Z]).
  assert (E : ends_with (fun k => (k =? 1)%nat) 1) by (split; [reflexivity|intros k K; replace k with O by lia; reflexivity]).
  destruct (H E ltac:(lia) eq_refl) as [k Q]. rewrite firstn_nil in Q.
  assert (T : text_of (srange ex_tok mark_piece (fun _ => false) (fun _ => mkW 0 (fun _ => 0%R)) (fun k => (k =? 1)%nat) true 3
     (sbegin ex_tok mark_piece (fun _ => false) (fun _ => mkW 0 (fun _ => 0%R)) (fun k => (k =? 1)%nat) true)) = [65%Z]) by reflexivity.
  rewrite T in Q. discriminate.
Qed.

(** The length of the whole audio when every waveform has 4096 samples or more. *)
Fixpoint total (wav : nat -> wave) (n : nat) : nat :=
  match n with O => w_len (wav O) | Datatypes.S m => (total wav m + w_len (wav (Datatypes.S m)))%nat end.
Theorem C150_length : forall wav n, (forall k, (2 * 2048 <= w_len (wav k))%nat) ->
  (length (fst (whole_audio wav n)) + n * 2048 = total wav n)%nat.
Proof.
  intros wav n H.
  assert (I : (length (fst (whole_audio wav n)) + n * 2048 = total wav n /\ 2048 <= snd (whole_audio wav n) <= length (fst (whole_audio wav n)))%nat).
  { induction n as [|n IH]; cbn [whole_audio total fst snd].
    - rewrite samples_len. assert (Q := H O). lia.
    - destruct IH as [A [B C]]. assert (Q := H (Datatypes.S n)). unfold append_wave. rewrite samples_len.
      destruct (whole_audio wav n) as [s h]. cbn [fst snd] in *.
      replace (Nat.min 2048 (Nat.min h (w_len (wav (Datatypes.S n))))) with 2048%nat by lia. cbn [fst snd].
      rewrite !app_length, firstn_length, map_length, seq_length, skipn_length, samples_len.
      clear - A B C Q. remember 2048%nat as c. clear Heqc. lia. }
  exact (proj1 I).
Qed.

(** The hypotheses are met: three waveforms of 5000 samples. *)
Example C150_hypotheses : ends_with (fun k => (k =? 2)%nat) 2 /\
  (forall k, (2 * 2048 <= w_len ((fun _ : nat => mkW 5000 (fun k => INR k)) k))%nat).
Proof.
  split; [split; [reflexivity|intros k K; destruct k as [|[|k]]; [reflexivity|reflexivity|lia]]|].
  intros k. cbn [w_len]. apply Nat.leb_le. reflexivity.
Qed.
Example C151_hypotheses :
  (forall o, In o (read_all ex_tok ex_piece (fun t => t =? 3)%Z 10 5 10 gbegin) -> ~ marked (o_text o)) /\
  (length (read_all ex_tok ex_piece (fun t => t =? 3)%Z 10 5 10 gbegin) <= 2 + 2)%nat.
Proof.
  split; [|cbn; lia]. intros o I [a [b M]]. assert (L : (length (o_text o) <= 6)%nat).
  { cbn in I. destruct I as [<-|[<-|[]]]; cbn; lia. }
  rewrite M, !app_length in L. cbn in L. lia.
Qed.

Print Assumptions C149_overlap_add.
Print Assumptions C149_smooth.
Print Assumptions C150_all_audio.
Print Assumptions C150_loop_misses_the_end.
Print Assumptions C150_loop_refuted.
Print Assumptions C151_text.
Print Assumptions C151_whole_text.
Print Assumptions C151_no_text_without_audio.
Print Assumptions C151_text_only_refuted.
Print Assumptions C151_marker_refuted.
Print Assumptions C150_length.
