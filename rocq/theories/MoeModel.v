(** The mixture-of-experts layer: /repo/mllm/models/qwen3_moe/modeling_qwen3_moe_fa2.hpp:103-235; the same code is in
    /repo/mllm/models/deepseek_ocr/modeling_deepseek_ocr.hpp:113-283, which adds the shared experts (line 208).

    Simplifications:
    - a row of hidden_dim floats is one element; tensors of rows are lists, row-major ids and weights flat lists;
    - argsort is [sort] (C51: any permutation that sorts the values), indexing (C48), slices (C15), concat (C18), the
      multiplication by weights.unsqueeze(-1) (C47) and sum(1) (C54) are taken from there: [scale] multiplies a row by a
      weight and [total] adds the rows of a lane;
    - the counts, kept in floats by the code, are natural numbers: exact below 2^24;
    - idxs / k is [quot], what the element-wise division of int32 gives (C116). *)
From Verif Require Import Base DTypeModel ParamModel VlModel.
From Verif Require AotModel.
Local Open Scope nat_scope.

Section Moe.
Context {R W : Type} (scale : W -> R -> R) (total : list R -> R).

(** Lines 172-186: cnts, [tokens, experts]; zeros, then one more for every id. *)
Definition count_ids (T k E : nat) (ids : list Z) : res (list nat) :=
  for_up T 0 (fun b c =>
    for_up k 0 (fun j c =>
      do e <- rd ids (b * k + j);
      if (0 <=? e)%Z && (e <? Z.of_nat E)%Z then
        do v <- rd c (b * E + Z.to_nat e);
        wr c (b * E + Z.to_nat e) (v + 1)
      else RAbort) c) (repeat 0 (T * E)).
(** Line 187: cnts.sum(0). *)
Definition per_expert (T E : nat) (cnts : list nat) : list nat :=
  map (fun e => fold_right Nat.add 0 (map (fun b => nth (b * E + e) cnts 0) (seq 0 T))) (seq 0 E).
(** Lines 197-208: the state is start_idx and outputs. *)
Definition run_experts (experts : list (list R -> list R)) (counts : list nat) (sorted : list R) : res (nat * list (list R)) :=
  for_up (length experts) 0 (fun i st =>
    do n <- rd counts i;
    let start := fst st in
    let stop := start + n in
    if n =? 0 then ROk st
    else
      do g <- rd experts i;
      ROk (stop, snd st ++ [g (firstn (stop - start) (skipn start sorted))])) (0, []).
(** moeInfer, lines 168-234; [junk] is what emptyLike gives. *)
Definition moe_infer (sort : list Z -> list nat) (quot : nat -> nat -> nat) (junk : nat -> list R)
  (experts : list (list R -> list R)) (x : list R) (T k : nat) (ids : list Z) (weights : list W) : res (list R) :=
  let E := length experts in
  do cnts <- count_ids T k E ids;
  let idxs := sort ids in
  if k =? 0 then RUB
  else
    do sorted <- AotModel.map_res (fun i => rd x (quot i k)) idxs;
    do st <- run_experts experts (per_expert T E cnts) sorted;
    match snd st with
    | [] => RAbort   (* concat of nothing *)
    | outputs =>
        let outs := concat outputs in
        if length outs =? length idxs then
          do new_x <- for_up (length idxs) 0 (fun i b => do p <- rd idxs i; do r <- rd outs i; wr b p r) (junk (length outs));
          AotModel.map_res (fun t =>
            do rows <- AotModel.map_res (fun j => do r <- rd new_x (t * k + j); do w <- rd weights (t * k + j); ROk (scale w r)) (seq 0 k);
            ROk (total rows)) (seq 0 T)
        else RAbort
    end.

(** DeepseekV2MoE::forward, modeling_deepseek_ocr.hpp:195-210: [shared] are the shared experts, [plus] adds rows. *)
Definition with_shared (plus : R -> R -> R) (shared : option (list R -> list R)) (x y : list R) : list R :=
  match shared with None => y | Some g => map (fun p => plus (fst p) (snd p)) (combine y (g x)) end.
End Moe.

(** MoEGate::forward, lines 122-139, for one token: [topk] gives the weights and positions (C51) of the scores, divided by their
    sum if norm_topk_prob. *)
Definition gate {V} (total : list V -> V) (div : V -> V -> V) (topk : list V -> list (V * Z)) (norm : bool) (scores : list V) : list (V * Z) :=
  let chosen := topk scores in
  if norm then let s := total (map fst chosen) in map (fun p => (div (fst p) s, snd p)) chosen else chosen.
