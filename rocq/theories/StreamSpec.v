(** Vocabulary for the speech stream. *)
From Coq Require Import Reals.
From Verif Require Import Base ChunkModel StreamModel.

(** The samples of a waveform. *)
Definition samples (w : wave) : list R := map (w_at w) (seq 0 (w_len w)).
Definition heard (w : option wave) : list R := match w with Some w => samples w | None => [] end.
(** All the audio of a list of outputs, one after the other. *)
Definition audio_of (l : list omni) : list R := concat (map (fun o => heard (m_wav o)) l).
Definition text_of (l : list omni) : bytes := concat (map m_text l).

(** Fading from sample a to sample b: position i of n. *)
Definition fade (n i : nat) (a b : R) : R :=
  let d := if (n <=? 1)%nat then 1%R else INR (n - 1) in ((1 - INR i / d) * a + INR i / d * b)%R.
(** Appending the waveform [b] to a signal [s] whose last [h] samples may still be mixed:
    at most 2048 samples overlap, fading from the one to the other. *)
Definition append_wave (s : list R) (h : nat) (b : list R) : list R * nat :=
  let ov := Nat.min 2048 (Nat.min h (length b)) in
  let keep := (length s - ov)%nat in
  (firstn keep s ++
   map (fun i => fade ov i (nth (keep + i) s 0%R) (nth i b 0%R)) (seq 0 ov) ++
   skipn ov b, (length b - ov)%nat).
(** The audio of the waveforms 0 .. n, the whole of it, and how much of its end may still
    be mixed. *)
Fixpoint whole_audio (wav : nat -> wave) (n : nat) : list R * nat :=
  match n with
  | O => (samples (wav O), w_len (wav O))
  | Datatypes.S m => let r := whole_audio wav m in append_wave (fst r) (snd r) (samples (wav (Datatypes.S m)))
  end.
(** The speech ends with waveform n. *)
Definition ends_with (tts_fin : nat -> bool) (n : nat) : Prop :=
  tts_fin n = true /\ forall k, (k < n)%nat -> tts_fin k = false.
(** The text contains the end marker of the speech model. *)
Definition marked (s : bytes) : Prop := exists a b, s = a ++ tts_eos ++ b.
