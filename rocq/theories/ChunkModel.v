(** Chunked text generation and the speech stream of MiniCPM-o:
    models/minicpm_o2_6/llm_chunk_generation.hpp (ChunkGenerator) and
    models/minicpm_o2_6/streaming_generation.{hpp,cpp} (StreamingGenerator).

    Simplifications.  Text is a list of bytes.  The language model and the sampler are one
    function: [tok k] is the k-th token sampled after the prompt, any function of k; which
    of the four samplers is used and the saved hidden states are left out.  [piece t] is
    wideString2Utf8String(detokenize(t)).  The sizes in the configuration are not negative
    (negative ones act like 0). *)
From Verif Require Import Base.

Definition bytes := list Z.

Section Chunks.
Variable tok : nat -> Z.
Variable piece : Z -> bytes.
Variable eos : Z -> bool.        (* is_eos_token, llm_chunk_generation.hpp:207-212 *)
Variable max_new chunk_size : nat.

(** decodeTokens, lines 163-170. *)
Definition decode (l : list Z) : bytes := concat (map piece l).
(** The last three bytes are EF BF BD (U+FFFD), lines 190-193. *)
Definition ends_bad (s : bytes) : bool :=
  match rev s with c :: b :: a :: _ => (a =? 239)%Z && (b =? 191)%Z && (c =? 189)%Z | _ => false end.
(** check_incomplete_tokens, lines 181-202: the loop that shortens [end]. *)
Fixpoint trim (l : list Z) (n : nat) : nat :=
  match n with
  | O => O
  | Datatypes.S m => if ends_bad (decode (firstn n l)) then trim l m else n
  end.
Definition check_incomplete (l : list Z) : nat := trim l (length l).

(** ChunkGenerationOutput, lines 20-24, and the state of the generator, lines 325-329. *)
Record gout := mkO { o_text : bytes; o_fin : bool; o_tokens : nat }.
Record gst := mkG { g_left : list Z; g_count : nat; g_first : bool; g_fin : bool }.
(** initialize, lines 99-111. *)
Definition ginit : gst := mkG [] 0 true false.

(** The loop of lines 246-285: up to n tokens, the next one being the pos-th; stops after
    an EOS token.  Also whether EOS was met. *)
Fixpoint sample (n pos : nat) : list Z * bool :=
  match n with
  | O => ([], false)
  | Datatypes.S m =>
      if eos (tok pos) then ([tok pos], true)
      else let r := sample m (Datatypes.S pos) in (tok pos :: fst r, snd r)
  end.

(** generate_next_chunk, lines 217-321.  Only called while not finished or with the
    finished flag set; [o] is the output object of the caller, partly overwritten. *)
Definition next_chunk (s : gst) (o : gout) : gst * gout * bool :=
  if g_fin s then (s, mkO (o_text o) true (o_tokens o), false)
  else if (max_new <=? g_count s)%nat then
    (mkG (g_left s) (g_count s) (g_first s) true,
     mkO (match g_left s with [] => o_text o | l => decode l end) true (o_tokens o), false)
  else
    let size := if g_first s then Nat.min chunk_size 3 else chunk_size in
    let size := Nat.min size (max_new - g_count s) in
    let r := sample size (g_count s) in
    let count := (g_count s + length (fst r))%nat in
    let combined := g_left s ++ fst r in
    let valid := check_incomplete combined in
    let left := skipn valid combined in
    let text := decode (firstn valid combined) in
    let fin := snd r || (max_new <=? count)%nat in
    let text := if fin && negb (snd r) then text ++ decode left else text in
    (* first_chunk_ is cleared by the first token that is not EOS, line 284 *)
    let first := if (1 <=? length (fst r))%nat && negb (snd r && (length (fst r) =? 1)%nat) then false else g_first s in
    (mkG left count first fin, mkO text fin count, true).

(** ChunkGenerator::Iterator, lines 116-155.  Constructing it produces nothing. *)
Record git := mkI { i_st : gst; i_end : bool; i_out : gout }.
Definition gbegin : git := mkI ginit false (mkO [] false 0).
Definition gadvance (it : git) : git :=
  if i_end it then it
  else let '(s, o, has) := next_chunk (i_st it) (i_out it) in mkI s (negb has || o_fin o) o.

(** "++it; use it->text" until the iterator is at its end, as StreamingGenerator does. *)
Fixpoint read_all (fuel : nat) (it : git) : list gout :=
  match fuel with
  | O => []
  | Datatypes.S f => if i_end it then [] else let it' := gadvance it in i_out it' :: read_all f it'
  end.
(** for (auto& o : chunk_gen) use o.text, the usage documented in lines 62-66. *)
Fixpoint range_for (fuel : nat) (it : git) : list gout :=
  match fuel with
  | O => []
  | Datatypes.S f => if i_end it then [] else i_out it :: range_for f (gadvance it)
  end.
End Chunks.
