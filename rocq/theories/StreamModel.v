(** The speech stream of MiniCPM-o: models/minicpm_o2_6/streaming_generation.{hpp,cpp}
    (StreamingGenerator).

    Simplifications.  The batch size is 1 in the stream (streaming_generation.cpp:88) and
    any number in linear_overlap_add; samples are reals.  What the speech model makes of
    the text is left out: [wav k] is the waveform decoded in the k-th call (line 134) and
    [tts_fin k] the condition of line 149 in that call, any functions of k.  The speaker
    embeddings, text windows, masks and caches handed to the speech model are left out. *)
From Coq Require Import Reals.
From Verif Require Import Base ChunkModel.

(** for (i = 0; i < n; ++i) p[base + i] = v i. *)
Fixpoint write_run (n base : nat) (v : nat -> R) (p : nat -> R) : nat -> R :=
  match n with
  | O => p
  | Datatypes.S m => let q := write_run m base v p in fun k => if (k =? base + m)%nat then v m else q k
  end.
(** for (b = 0; b < n; ++b) row b. *)
Fixpoint each_row (n : nat) (row : nat -> (nat -> R) -> nat -> R) (p : nat -> R) : nat -> R :=
  match n with O => p | Datatypes.S m => row m (each_row m row p) end.

(** A waveform tensor of one row. *)
Record wave := mkW { w_len : nat; w_at : nat -> R }.

(** linear_overlap_add, streaming_generation.cpp:222-277, for B rows. *)
Definition linear_overlap_add (B : nat) (prev cur : wave) (overlap : nat) : wave * wave :=
  let ov := Nat.min (Nat.min overlap (w_len prev)) (w_len cur) in
  let pl := w_len prev in let cl := w_len cur in
  let ol := (pl - ov + ov)%nat in
  let den := if (1 <? ov)%nat then INR (ov - 1) else 1%R in
  let out := each_row B (fun b p =>
    write_run ov (b * ol + (pl - ov)) (fun i =>
       let fade_in := (INR i / den)%R in
       let fade_out := (1 - fade_in)%R in
       (fade_out * w_at prev (b * pl + (pl - ov + i))%nat + fade_in * w_at cur (b * cl + i)%nat)%R)
      (write_run (pl - ov) (b * ol) (fun i => w_at prev (b * pl + i)%nat) p)) (fun _ => 0%R) in
  let rl := (cl - ov)%nat in
  let next := each_row B (fun b p =>
    write_run rl (b * rl) (fun i => w_at cur (b * cl + (ov + i))%nat) p) (fun _ => 0%R) in
  (mkW ol out, mkW rl next).

(** The bytes of the text <|tts_eos|>. *)
Definition tts_eos : bytes := [60; 124; 116; 116; 115; 95; 101; 111; 115; 124; 62]%Z.
Fixpoint starts (p s : bytes) : bool :=
  match p, s with
  | [], _ => true
  | a :: p', b :: s' => (a =? b)%Z && starts p' s'
  | _, _ => false
  end.
(** std::string::find and rfind, None for npos. *)
Fixpoint find_first (p s : bytes) : option nat :=
  if starts p s then Some O else
  match s with [] => None | _ :: s' => option_map Datatypes.S (find_first p s') end.
Fixpoint find_last (p s : bytes) : option nat :=
  match s with
  | [] => if starts p s then Some O else None
  | _ :: s' => match find_last p s' with
               | Some i => Some (Datatypes.S i)
               | None => if starts p s then Some O else None
               end
  end.

Section Stream.
Variable tok : nat -> Z.
Variable piece : Z -> bytes.
Variable eos : Z -> bool.
Variable wav : nat -> wave.
Variable tts_fin : nat -> bool.
Variable generate_audio : bool.

(** The chunk generator is configured with max_new_tokens = 10, chunk_size = 5,
    streaming_generation.hpp:92-93. *)
Definition advance := gadvance tok piece eos 10 5.

(** OmniOutput, hpp:42-47, and the state, hpp:304-333. *)
Record omni := mkOm { m_text : bytes; m_wav : option wave; m_fin : bool }.
Record sst := mkS {
  s_spk : bool; s_it : git; s_raw : bytes; s_plen : nat;
  s_llm : bool; s_fin : bool; s_prev : option wave; s_idx : nat }.
Definition sinit : sst := mkS false gbegin [] 0 false false None 0.

(** generate_next, cpp:16-154; output.text, audio_wav and finished are reset first. *)
Definition generate_next (s : sst) : sst * omni :=
  if s_fin s then
    (mkS (s_spk s) (s_it s) (s_raw s) (s_plen s) (s_llm s) true None (s_idx s), mkOm [] (s_prev s) true)
  else
    (* the first call reads one chunk, lines 31-43 *)
    let it := if s_spk s then s_it s else advance (s_it s) in
    let raw := if s_spk s then s_raw s else
      let t := o_text (i_out it) in
      s_raw s ++ match find_last tts_eos t with Some p => firstn p t | None => t end in
    (* lines 45-51 *)
    let more := negb (o_fin (i_out it)) in
    let it2 := if more then advance it else it in
    let new_text := if more then o_text (i_out it2) else [] in
    let llm := if more then o_fin (i_out it2) else s_llm s in
    (* lines 53-60 *)
    let pos := find_first tts_eos new_text in
    let new_text := match pos with Some p => firstn p new_text | None => new_text end in
    let llm := match pos with Some _ => true | None => llm end in
    let raw := raw ++ new_text in
    if generate_audio then
      let w := wav (s_idx s) in
      let '(aw, pw) := match s_prev s with
        | Some p => let r := linear_overlap_add 1 p w 2048 in (Some (fst r), Some (snd r))
        | None => (None, Some w)
        end in
      (mkS true it2 raw (length raw) llm (tts_fin (s_idx s)) pw (s_idx s + 1),
       mkOm (skipn (s_plen s) raw) aw false)
    else
      (mkS true it2 raw (s_plen s) llm llm (s_prev s) (s_idx s), mkOm [] None llm).

(** The outputs of n calls one after the other. *)
Fixpoint outputs (n : nat) (s : sst) : list omni :=
  match n with
  | O => []
  | Datatypes.S m => let r := generate_next s in snd r :: outputs m (fst r)
  end.

(** StreamingGenerator::Iterator, hpp:128-157: the constructor advances. *)
Record sit := mkSi { si_st : sst; si_end : bool; si_out : omni }.
Definition sadvance (i : sit) : sit :=
  if si_end i then i
  else let r := generate_next (si_st i) in mkSi (fst r) (m_fin (snd r)) (snd r).
Definition sbegin : sit := sadvance (mkSi sinit false (mkOm [] None false)).
(** for (auto& output : streamer), hpp:77-81 and examples/minicpm_o/demo_minicpmo_streaming.cpp. *)
Fixpoint srange (fuel : nat) (i : sit) : list omni :=
  match fuel with
  | O => []
  | Datatypes.S f => if si_end i then [] else si_out i :: srange f (sadvance i)
  end.
End Stream.
