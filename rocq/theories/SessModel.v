(** A chat session with its prefix cache: /repo/mllm/models/qwen3/modeling_qwen3_service.hpp:133-500 over
    /repo/mllm/models/ARGeneration.cpp:202-264 (streamGenerate), /repo/mllm/engine/prefix_cache/Cache.cpp and
    /repo/mllm/backends/cpu/ops/Scatter2ShardsOp.cpp.  The radix tree is [RadixModel], the lane allocator and its
    translation buffer [ZenModel].

    Simplifications:
    - the network is a parameter: [embed] (Embedding), [kproj]/[vproj] (norm, projection, RMS norm and rotary embedding
      of one layer: the bytes of one token's K and V), [mix] (query, attention over the K/V bytes of a token and its
      predecessors, output projection, residuals, MLP), [logits] (final norm, lm_head).  What the operators compute is
      the subject of C47-C68;
    - a request is its token ids (the chat template and the tokenizer are not part of this model), max_length and a
      sampler, which may depend on the step (random draws);
    - requests of one session run one after the other; timing, printing, thread pool calls are left out;
    - every blob is in memory (kAnonymous, as fromPreTrain sets, line 543), so a lane's bytes are at its base pointer. *)
From Verif Require Import Base DTypeModel ParamModel TensorModel RadixModel ZenModel.
Local Open Scope Z_scope.

(** ** Memory: the bytes behind the pointers *)
Definition memory := Z -> Z.
Definition write_bytes (m : memory) (p : Z) (bs : list Z) : memory :=
  fun a => if (p <=? a) && (a <? p + zlen bs) then nth (Z.to_nat (a - p)) bs 0 else m a.
Definition read_bytes (m : memory) (p : Z) (n : nat) : list Z :=
  map (fun i => m (p + Z.of_nat i)) (seq 0 n).

(** CPUScatter2ShardsOp::forward, Scatter2ShardsOp.cpp:14-46, for [1, S, H, D] and dim 1: floating_shards_point_left = 1,
    floating_shards_point_right = H * D; [w] = H * D * element size; [src] the bytes of the tensor; [dst] the
    pointers.  Row lo goes to dst[lo]. *)
Definition scatter (w : nat) (src : list Z) (dst : list Z) (m : memory) : memory :=
  fold_left (fun m lo => write_bytes m (nth lo dst 0) (firstn w (skipn (lo * w) src))) (seq 0 (length dst)) m.

(** std::vector::resize: new entries are 0. *)
Definition resize (n : nat) (l : list Z) : list Z := firstn n l ++ repeat 0 (n - length l).

(** findThinkStartToken, lines 390-393. *)
Fixpoint find_token (t : Z) (l : list Z) : nat :=
  match l with [] => O | x :: r => if x =? t then O else S (find_token t r) end.

(** The list of one layer of a search result / the columns of an insertion: RadixTree.cpp:150-151, Cache.cpp:18-21. *)
Definition layer_lists (f : col -> list Z) (L : nat) (cs : list col) : list (list Z) :=
  map (fun j => map (fun c => nth j (f c) 0) cs) (seq 0 L).
Definition columns (n : nat) (K V : list (list Z)) : list col :=
  map (fun i => mkCol (map (fun r => nth i r 0) K) (map (fun r => nth i r 0) V)) (seq 0 n).

(** The prefix cache (Cache.hpp: tree_, allocator_), the memory, and how often the blob table was walked (the iteration
    order of an unordered_map may change from walk to walk). *)
Record cache := mkCache { c_tree : node; c_alloc : pca; c_mem : memory; c_walks : nat }.
(** A request and what the client is sent: Some token = its text, with the "finished" flag; None = "". *)
Definition chunk : Type := option Z * bool.

Section Session.
Context {H G : Type}.
Variable L : nat.                       (* num_hidden_layers *)
Variable embed : Z -> H.
Variable kproj vproj : nat -> H -> Z -> list Z.
Variable mix : nat -> H -> Z -> list (list Z) -> list (list Z) -> H.
Variable logits : H -> G.
Variable tok : nat.                     (* bytes of one lane *)
Variable basep : Z -> Z.                (* data pointer of each blob *)
Variable order : nat -> zenfs -> list Z.  (* iteration order of the n-th walk over the blob table *)

Record request := mkRq { rq_ids : list Z; rq_max : Z; rq_sample : nat -> G -> Z }.

(** Cache::alloc(kCPU), Cache.cpp:31, Allocator.cpp:50-54. *)
Definition alloc (c : cache) : res (cache * Z) :=
  let z := pc_zen (c_alloc c) in
  match pca_alloc basep (Z.of_nat tok) (c_alloc c) (order (c_walks c) z) (order (S (c_walks c)) (create_blob z)) with
  | Some (a, x) => ROk (mkCache (c_tree c) a (c_mem c) (S (S (c_walks c))), x)
  | None => RAbort
  end.
(** "Acquire cache", lines 172-178: a K lane and a V lane per new token. *)
Fixpoint alloc_rows (S : nat) (c : cache) : res (cache * list Z * list Z) :=
  match S with
  | O => ROk (c, [], [])
  | Datatypes.S n =>
      do x <- alloc c; let '(c1, k) := x in
      do y <- alloc c1; let '(c2, v) := y in
      do r <- alloc_rows n c2; let '(c3, ks, vs) := r in
      ROk (c3, k :: ks, v :: vs)
  end.
(** Cache::physicalAddr (TLB lookup; nullptr if the address is not mapped, through which nothing may be accessed). *)
Fixpoint pointers (c : cache) (as_ : list Z) : res (list Z) :=
  match as_ with
  | [] => ROk []
  | a :: r => match pca_physical (c_alloc c) a with
              | Some p => do ps <- pointers c r; ROk (p :: ps)
              | None => RUB
              end
  end.

(** Qwen3Attention::forward inside Qwen3Decoder::forward, lines 150-232 and 252-267, of layer [l] for hidden rows [xs]
    at positions [pos]; K, V: the per-layer address lists (k_cache_addr, v_cache_addr).  Query s of S sees the
    first kv_cache_len - S + s + 1 tokens (radix_attn/fwd_bshd.hpp:60-61). *)
Definition layer (l : nat) (c : cache) (xs : list H) (pos : list Z) (K V : list (list Z))
  : res (cache * list H * list (list Z) * list (list Z)) :=
  let S := length xs in
  let rows := combine xs pos in
  let ks := flat_map (fun r => kproj l (fst r) (snd r)) rows in
  let vs := flat_map (fun r => vproj l (fst r) (snd r)) rows in
  do a <- alloc_rows S c; let '(c1, ka, va) := a in
  do kp <- pointers c1 ka;
  do vp <- pointers c1 va;
  let m := scatter tok vs vp (scatter tok ks kp (c_mem c1)) in
  let c2 := mkCache (c_tree c1) (c_alloc c1) m (c_walks c1) in
  let K' := upd_nth l (fun a => a ++ ka) K in
  let V' := upd_nth l (fun a => a ++ va) V in
  do kq <- pointers c2 (nth l K' []);
  do vq <- pointers c2 (nth l V' []);
  let kc := map (fun p => read_bytes m p tok) kq in
  let vc := map (fun p => read_bytes m p tok) vq in
  let n := length kq in
  ROk (c2, map (fun s => mix l (nth s xs (embed 0)) (nth s pos 0) (firstn (n - S + s + 1) kc) (firstn (n - S + s + 1) vc)) (seq 0 S), K', V').
(** Qwen3Text::forward, lines 280-298: the blocks in order. *)
Fixpoint layers (ls : list nat) (c : cache) (xs : list H) (pos : list Z) (K V : list (list Z))
  : res (cache * list H * list (list Z) * list (list Z)) :=
  match ls with
  | [] => ROk (c, xs, K, V)
  | l :: r => do y <- layer l c xs pos K V; let '(c1, xs1, K1, V1) := y in layers r c1 xs1 pos K1 V1
  end.
(** Qwen3ForCausalLM::forward, lines 328-372: with one token the position is the last position given plus 1
    (lines 340-345); the logits are those of row S - 1, which for S = 0 lies before the tensor. *)
Definition forward (c : cache) (ids pos : list Z) (K V : list (list Z))
  : res (cache * list Z * list (list Z) * list (list Z) * G) :=
  let pos' := if (length ids =? 1)%nat then [last pos 0 + 1] else pos in
  do y <- layers (seq 0 L) c (map embed ids) pos' K V; let '(c1, xs, K1, V1) := y in
  match rev xs with
  | [] => RUB
  | x :: _ => ROk (c1, pos', K1, V1, logits x)
  end.

Variable eos : Z.       (* cfg.eos_token_id, compared by the session's callback, line 445 *)
Variable eot : Z.       (* cfg.end_of_text_token_id = eos_token_id_ of the generation loop, line 311 *)
Variable think : Z.     (* cfg.thinking_start_token_id *)

(** The callback given to streamGenerate, lines 442-460: new full_seq_idx, chunk sent; [cnt] = package_cnt. *)
Definition on_token (max_length : Z) (cnt : nat) (full : list Z) (idx : Z) : list Z * chunk :=
  if (idx =? eos) || (max_length <=? Z.of_nat cnt + 1) then (full, (None, true))
  else (full ++ [idx], (Some idx, false)).

(** ARGeneration::streamGenerate, ARGeneration.cpp:216-260, with this callback. *)
Fixpoint stream (rq : request) (fuel i : nat) (c : cache) (ids pos : list Z) (K V : list (list Z)) (full : list Z)
  : res (cache * list (list Z) * list (list Z) * list Z * list chunk) :=
  match fuel with
  | O => ROk (c, K, V, full, [])
  | Datatypes.S f =>
      do y <- forward c ids pos K V; let '(c1, pos1, K1, V1, g) := y in
      let t := rq_sample rq i g in
      let '(full1, ch) := on_token (rq_max rq) i full t in
      if t =? eot then ROk (c1, K1, V1, full1, [ch])
      else do z <- stream rq f (Datatypes.S i) c1 [t] pos1 K1 V1 full1;
           let '(c2, K2, V2, full2, chs) := z in ROk (c2, K2, V2, full2, ch :: chs)
  end.

(** Qwen3Session::streamGenerate, lines 395-498. *)
Definition respond (c : cache) (rq : request) : res (cache * list chunk) :=
  let full := rq_ids rq in
  let r := RadixModel.search (c_tree c) 0 full in
  let m := r_matched r in
  let ids := skipn m full in
  let pos := map Z.of_nat (seq m (length full - m)) in
  do y <- stream rq (Z.to_nat (rq_max rq)) 0 c ids pos (layer_lists ck L (r_addrs r)) (layer_lists cv L (r_addrs r)) full;
  let '(c1, K, V, full1, chs) := y in
  let n := find_token think full1 in
  let full2 := resize n full1 in
  let K2 := map (resize n) K in
  let V2 := map (resize n) V in
  match insert (c_tree c1) 0 full2 (columns n K2 V2) with
  | Some t => ROk (mkCache t (c_alloc c1) (c_mem c1) (c_walks c1), chs)
  | None => RAbort
  end.

(** Requests in order; the replies. *)
Fixpoint serve (c : cache) (rs : list request) : res (cache * list (list chunk)) :=
  match rs with
  | [] => ROk (c, [])
  | r :: rest => do x <- respond c r; let '(c1, o) := x in
                 do y <- serve c1 rest; let '(c2, os) := y in ROk (c2, o :: os)
  end.

(** A new session: fromPreTrain, lines 515-545 (page_bits 7, lane_bits 5 there). *)
Definition fresh (p l : Z) (m : memory) : option cache :=
  match zen_init p l MAnonymous with
  | Some z => Some (mkCache empty_tree (mkPca z []) m 0)
  | None => None
  end.
End Session.
Arguments request : clear implicits.
Arguments mkRq {G}.
Arguments rq_ids {G}.
Arguments rq_max {G}.
Arguments rq_sample {G}.
