(** The audio codes of MiniCPM-o's speech: ConditionalChatTTS::generate and
    multinomialSample of models/minicpm_o2_6/modeling_chattts.hpp, and how
    streaming_generation.cpp:107-132 takes them over call after call.

    Simplifications.  A frame is the list of its num_vq codes, num_vq is at least 1 (with
    0 line 339 leaves the loop).  [draw p q banned] is the code sampled for codebook q of
    the frame at position p, [banned] telling whether the end code's logit was set to
    minus infinity before; what the model computes is any such function.  The buffer of
    lines 298 and 306 is the list of the frames in it. *)
From Coq Require Import Reals.
From Verif Require Import Base.

Section Codes.
Variable draw : nat -> nat -> bool -> Z.
Variable num_vq : nat.
Variable eos : Z.
(** condition_length, line 304. *)
Variable cond : nat.

(** Lines 379-419 for one position. *)
Definition one_frame (p : nat) (banned : bool) : list Z := map (fun q => draw p q banned) (seq 0 num_vq).
(** The loop of lines 312-426; n = max_new_token - i. *)
Fixpoint gen_loop (force : bool) (min_new n i : nat) (frames : list (list Z)) : list (list Z) * bool :=
  match n with
  | O => (frames, false)
  | Datatypes.S m =>
      let banned := (i <? min_new)%nat || force in
      let fr := one_frame (length frames) banned in
      if existsb (fun t => (t =? eos)%Z) fr then (frames ++ [fr], true)
      else gen_loop force min_new m (Datatypes.S i) (frames ++ [fr])
  end.
(** generate: new_ids, audio_input_ids, finished, lines 286-439. *)
Definition generate (frames : list (list Z)) (force : bool) (min_new max_new : nat) : list (list Z) * list (list Z) * bool :=
  let '(fs, fin) := gen_loop force min_new max_new 0 frames in
  (skipn cond (firstn (if fin then length fs - 1 else length fs) fs), fs, fin).

(** The calls of a stream, streaming_generation.cpp:113-132 and 149: each with
    min_new_token 0 and max_new_token 25; the frames handed on to the vocoder are those
    from max(new_ids_len - 4, 0) on.  Result: what is handed on, and new_ids. *)
Fixpoint stream (force : bool) (calls : nat) (frames : list (list Z)) (len : nat) : list (list (list Z)) * list (list Z) :=
  match calls with
  | O => ([], skipn cond frames)
  | Datatypes.S m =>
      let '(ids, fs, fin) := generate frames force 0 25 in
      let slice := skipn (len - 4) ids in
      if fin || (1024 <? length ids)%nat then ([slice], ids)
      else let r := stream force m fs (length ids) in (slice :: fst r, snd r)
  end.
(** The zeros of Tensor::zeros({1, condition_length, num_vq}), streaming_generation.hpp:118. *)
Definition start_frames : list (list Z) := repeat (repeat 0%Z num_vq) cond.
End Codes.

(** multinomialSample, lines 711-731, over a rounding of the additions: std::partial_sum,
    then std::lower_bound, the first place whose sum is not below r (the sums of
    non-negative scores do not decrease, so the binary search finds it). *)
Fixpoint partial_sums (rnd : R -> R) (acc : R) (l : list R) : list R :=
  match l with [] => [] | x :: l' => let s := rnd (acc + x)%R in s :: partial_sums rnd s l' end.
Definition sums (rnd : R -> R) (l : list R) : list R :=
  match l with [] => [] | x :: l' => x :: partial_sums rnd x l' end.
Fixpoint lower_bound (l : list R) (r : R) : nat :=
  match l with [] => O | x :: l' => if Rlt_dec x r then Datatypes.S (lower_bound l' r) else O end.
Definition multinomial (rnd : R -> R) (scores : list R) (r : R) : nat := lower_bound (sums rnd scores) r.
