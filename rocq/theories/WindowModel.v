(** The text handed to the speech model of MiniCPM-o piece by piece:
    models/minicpm_o2_6/streaming_generation.cpp:62-105 (the windows of generate_next),
    167-204 (prepare_tts_text) 206-220 (build_streaming_mask), and the part of that
    text an audio token attends to: models/minicpm_o2_6/modeling_chattts.hpp:528-588
    (makeStreamingChunkMask, with the defaults of configuration_chattts.hpp:62-70).

    Simplifications.  A text is the list of the tokens the speech tokenizer makes of it;
    re-encoding the decorated text gives these tokens between the special ones.  What the
    prefill computes is left out: the cache records which token was prefilled at which
    position.  num_spk_embs is 1 (lines 196, 207). *)
From Verif Require Import Base.

(** Special tokens. *)
Inductive ttok := TStts | TSpk | TEtts | TPad | TPtts | TText (t : Z).

(** streaming_text_reserved_len_ = 300, streaming_text_chunk_size_ = 10 (hpp:323-324),
    tts_start_token_len_ = 2 (hpp:108). *)
Definition reserved : nat := 300.
(** prepare_tts_text: the decorated text and the token count, lines 167-204. *)
Definition prepare (text : list Z) : list ttok * nat :=
  let n := length text in
  let '(kept, n', pad) :=
    if (n <? reserved)%nat then (text, n, TEtts :: repeat TPad (reserved - n - 1))
    else (firstn reserved text, reserved, []) in
  ([TStts; TSpk] ++ map TText kept ++ pad ++ [TPtts], n').

(** The window [begin, end) of call k, lines 71-82. *)
Definition window (k : nat) (llm_fin : bool) (len : nat) : nat * nat :=
  let begin := if (k =? 0)%nat then 0%nat else (k * 10 + 2)%nat in
  let end' := if (k =? 0)%nat then 12%nat else Nat.min ((k + 1) * 10 + 2) (1 + 1 + reserved + 1 - 1) in
  (begin, if llm_fin then (len + 2 + 1)%nat else end').

(** Lines 84-105: the tokens ids[begin, end) are prefilled at positions begin, ... *)
Definition cache := nat -> option ttok.
Definition prefill (k : nat) (llm_fin : bool) (text : list Z) (c : cache) : cache :=
  let '(ids, len) := prepare text in
  let '(b, e) := window k llm_fin len in
  if (b <? e)%nat then fun p => if (b <=? p)%nat && (p <? e)%nat then nth_error ids p else c p else c.
(** The cache after the calls 0 .. k, text j being there in call j. *)
Fixpoint filled (text : nat -> list Z) (fin : nat -> bool) (k : nat) : cache :=
  prefill k (fin k) (text k) (match k with O => fun _ => None | Datatypes.S j => filled text fin j end).

(** build_streaming_mask, lines 206-220: the positions that may be attended to. *)
Definition mask (len : nat) (p : nat) : bool :=
  let full := (1 + 1 + reserved + 1)%nat in
  ((p <? Nat.min (1 + 1 + len + 1) full)%nat || (p =? full - 1)%nat) && (p <? full)%nat.

(** makeStreamingChunkMask, lines 548-571, with [past] tokens in the cache: whether the
    text position p may be attended to.  The text mask is 0 or 1. *)
Definition attended (past len p : nat) : bool :=
  let chunk_index := ((past - 300 + 50 - 1) / 50)%nat in
  let start := (Nat.min (chunk_index * 10) 300 + 1 + 1)%nat in
  let end' := (300 + 1 + 1 + 1)%nat in
  negb ((start <=? p)%nat && (p <? end')%nat) && negb ((p <? end')%nat && negb (mask len p)).
