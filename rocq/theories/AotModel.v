(** The ahead-of-time compiled runner for QNN: /repo/mllm/backends/qnn/aot_rt/{KVCacheManager,PromptProcessor,TokenGenerator,
    QnnAOTRuntime,QnnAOTModule}.cpp.

    Simplifications:
    - sizes and positions are natural numbers: ar_len <= context_len, and no product of sizes or token id exceeds an int;
    - a compiled graph ("model.0.s<n>") is the causal network it was traced from: [embed], [kproj]/[vproj] (K and V of
      one token in one layer, num_heads * head_dim entries), [mix] (attention of a row over the K/V its mask row shows
      it, and the rest of the layer), [logits]; what the graph's operators compute on the device is not modelled;
    - K and V entries and mask entries are integers, a buffer is a list, an access outside of it is undefined;
    - detokenizing for the callback, timing and logging are left out: the callback is given token ids. *)
From Verif Require Import Base DTypeModel ParamModel TensorModel GenModel.
Local Open Scope nat_scope.

(** QnnAOTConfig.hpp:8-25 (the fields that are used). *)
Record config := mkCfg { c_L : nat; c_H : nat; c_D : nat; c_C : nat; c_A : nat }.   (* layers, heads, head_dim, context_len, ar_len *)

(** ** Buffers: memcpy, memmove, fill_n *)
Definition put (b : list Z) (p : nat) (xs : list Z) : res (list Z) :=
  if p + length xs <=? length b then ROk (firstn p b ++ xs ++ skipn (p + length xs) b) else RUB.
Definition get (b : list Z) (p n : nat) : res (list Z) :=
  if p + n <=? length b then ROk (firstn n (skipn p b)) else RUB.
(** std::fill_n(b + p, n, v): nothing for n <= 0. *)
Definition fill (b : list Z) (p : nat) (n v : Z) : res (list Z) := put b p (repeat v (Z.to_nat n)).
(** memmove within one buffer; memcpy from another. *)
Definition move (b : list Z) (dst src n : nat) : res (list Z) := do xs <- get b src n; put b dst xs.
Definition copy (b : list Z) (dst : nat) (from : list Z) (src n : nat) : res (list Z) := do xs <- get from src n; put b dst xs.
(** for (int i = 0; i < n; ++i). *)
Fixpoint for_up {S} (n : nat) (i : nat) (body : nat -> S -> res S) (s : S) : res S :=
  match n with O => ROk s | Datatypes.S m => do s' <- body i s; for_up m (Datatypes.S i) body s' end.
Fixpoint map_res {X Y} (f : X -> res Y) (l : list X) : res (list Y) :=
  match l with [] => ROk [] | x :: r => do y <- f x; do ys <- map_res f r; ROk (y :: ys) end.

(** ** KVCacheManager *)
Record manager := mkMan { m_cur : nat; m_kin : list (list Z); m_vin : list (list Z); m_kout : list (list Z); m_vout : list (list Z) }.
(** max_cache_len and max_ar_len as Runner::load sets them, QnnAOTRuntime.cpp:27-32; token_generator_ar_len = 1. *)
Definition max_cache_len (g : config) : nat := if c_A g =? c_C g then c_C g else c_C g - Nat.min 1 (c_A g).
Definition max_ar_len (g : config) : nat := Nat.max 1 (c_A g).
(** initCache, KVCacheManager.cpp:24-66. *)
Definition init_cache (g : config) : manager :=
  let i := repeat 0%Z (c_H g * c_D g * max_cache_len g) in
  let o := repeat 0%Z (c_H g * c_D g * max_ar_len g) in
  mkMan (c_A g) (repeat i (c_L g)) (repeat i (c_L g)) (repeat o (c_L g)) (repeat o (c_L g)).

(** src_cache_num / iter_size, lines 184, 212, 251, 284: the row length of the cache when arranged for [a] tokens. *)
Definition cache_num (g : config) (a : nat) : nat := if a =? c_C g then c_C g else c_C g - a.

(** rearrangeKey, lines 181-207 (rows of 1), and rearrangeValue, lines 209-233 (rows of head_dim): [rows] rows of src * w entries. *)
Definition rearrange_rows (rows w src dst : nat) (b : list Z) : res (list Z) :=
  if dst <? src
  then for_up rows 0 (fun i b => move b (i * (dst * w)) (i * (src * w)) (dst * w)) b
  else for_up rows 0 (fun i b => move b ((rows - 1 - i) * (dst * w)) ((rows - 1 - i) * (src * w)) (src * w)) b.
(** rearrangeCache, lines 169-179. *)
Definition rearrange (g : config) (a : nat) (m : manager) : res manager :=
  if m_cur m =? a then ROk m
  else
    let src := cache_num g (m_cur m) in let dst := c_C g - a in
    do k <- map_res (rearrange_rows (c_D g * c_H g) 1 src dst) (m_kin m);
    do v <- map_res (rearrange_rows (c_H g) (c_D g) src dst) (m_vin m);
    ROk (mkMan a k v (m_kout m) (m_vout m)).

(** true_indices, lines 267-270. *)
Fixpoint true_indices (sel : list bool) (i n : nat) : list nat :=
  match n, sel with
  | Datatypes.S m, true :: r => i :: true_indices r (Datatypes.S i) m
  | Datatypes.S m, false :: r => true_indices r (Datatypes.S i) n
  | _, _ => []
  end.
(** updateKey, lines 247-277; rows of the cache have [cache_num] entries, rows of the output [m_cur]. *)
Definition update_key (g : config) (cur n_past n_update : nat) (sel : list bool) (b out : list Z) : res (list Z) :=
  match sel with
  | [] => for_up (c_D g * c_H g) 0 (fun i b => copy b (n_past + i * cache_num g cur) out (i * cur) n_update) b
  | _ :: _ =>
      let ti := true_indices sel 0 n_update in
      for_up (c_D g * c_H g) 0 (fun i b =>
        for_up n_update 0 (fun j b => copy b (n_past + i * cache_num g cur + j) out (i * cur + nth j ti 0) 1) b) b
  end.
(** The loop over [selected] of updateValue, lines 301-309: wp, rp advance; stop once update_cnt = n_update after an element. *)
Fixpoint update_selected (w n_update : nat) (sel : list bool) (cnt wp rp : nat) (out b : list Z) : res (list Z) :=
  match sel with
  | [] => ROk b
  | s :: r =>
      do b1 <- (if s then copy b wp out rp w else ROk b);
      let cnt1 := if s then cnt + 1 else cnt in
      let wp1 := if s then wp + w else wp in
      if cnt1 =? n_update then ROk b1 else update_selected w n_update r cnt1 wp1 (rp + w) out b1
  end.
(** updateValue, lines 279-315. *)
Definition update_value (g : config) (cur n_past n_update : nat) (sel : list bool) (b out : list Z) : res (list Z) :=
  match sel with
  | [] => for_up (c_H g) 0 (fun i b => copy b (n_past * c_D g + i * (cache_num g cur * c_D g)) out (i * (cur * c_D g)) (n_update * c_D g)) b
  | _ :: _ => for_up (c_H g) 0 (fun i b =>
      update_selected (c_D g) n_update sel 0 (n_past * c_D g + i * (cache_num g cur * c_D g)) (i * (cur * c_D g)) out b) b
  end.
(** updateCache, lines 235-245. *)
Definition update_cache (g : config) (a n_past n_update : nat) (sel : list bool) (m : manager) : res manager :=
  if negb (m_cur m =? a) then RAbort
  else
    do k <- map_res (fun bo => update_key g a n_past n_update sel (fst bo) (snd bo)) (combine (m_kin m) (m_kout m));
    do v <- map_res (fun bo => update_value g a n_past n_update sel (fst bo) (snd bo)) (combine (m_vin m) (m_vout m));
    ROk (mkMan (m_cur m) k v (m_kout m) (m_vout m)).

(** initAttentionMask, lines 68-101, and with a sliding window, lines 103-140 (position_offset empty). *)
Definition pos_val : Z := 65535%Z.
Definition init_row (g : config) (a n_past : nat) (map_ : list Z) (window : option Z) (i : nat) (m : list Z) : res (list Z) :=
  match nth_error map_ i with
  | None => RUB
  | Some pidx =>
      do m1 <- (if (pidx <? 0)%Z then fill m (i * c_C g) (Z.of_nat n_past) pos_val
                else move m (i * c_C g) (Z.to_nat pidx * c_C g) (c_C g));
      do m2 <- put m1 (c_C g - a + i * c_C g + i) [pos_val];
      match window with
      | None => ROk m2
      | Some w =>
          let available := (w - Z.of_nat (i + 1) - Z.of_nat n_past)%Z in
          if (available <? Z.of_nat n_past)%Z then fill m2 (i * c_C g) (Z.of_nat n_past - available) 0%Z else ROk m2
      end
  end.
Definition init_mask (g : config) (a n_past : nat) (map_ : list Z) (window : option Z) (m : list Z) : res (list Z) :=
  if a <? length map_ then RAbort
  else do m0 <- fill m 0 (Z.of_nat (a * c_C g)) 0%Z; for_up a 0 (init_row g a n_past map_ window) m0.
(** updateAttentionMask, lines 142-152, and with a sliding window, lines 154-171. *)
Definition update_mask (g : config) (a n_past n_update : nat) (window : option Z) (m : list Z) : res (list Z) :=
  for_up a 0 (fun i m =>
    do m1 <- fill m (n_past + i * c_C g) (Z.of_nat n_update) pos_val;
    match window with
    | None => ROk m1
    | Some w =>
        let available := (w - Z.of_nat (i + 1))%Z in
        if (available <? Z.of_nat (n_past + n_update))%Z
        then fill m1 (i * c_C g) (Z.of_nat (n_past + n_update) - available) 0%Z else ROk m1
    end) m.
(** std::iota from -1: PromptProcessor.cpp:125-126, TokenGenerator.cpp:116-117. *)
Definition iota (a : nat) : list Z := map (fun i => (Z.of_nat i - 1)%Z) (seq 0 a).

(** ** The compiled graphs *)
Section Run.
Context {X : Type}.
Variable g : config.
Variable embed : Z -> X.
Variable kproj vproj : nat -> X -> Z -> list Z.
Variable mix : nat -> X -> Z -> list (list Z) -> list (list Z) -> X.
Variable logits : X -> list Z.
Variable is_eos : Z -> bool.

(** The K and V inputs of the graph have shapes [1, H, D, C - a] and [1, H, C - a, D] (PromptProcessor.cpp:44-62,
    TokenGenerator.cpp:42-60): the entries of token [t]. *)
Definition past_key (a : nat) (b : list Z) (t : nat) : list Z :=
  map (fun r => nth (r * (c_C g - a) + t) b 0%Z) (seq 0 (c_H g * c_D g)).
Definition past_value (a : nat) (b : list Z) (t : nat) : list Z :=
  map (fun r => nth ((r / c_D g * (c_C g - a) + t) * c_D g + r mod c_D g) b 0%Z) (seq 0 (c_H g * c_D g)).
(** The outputs have shapes [1, H, D, a] and [1, H, a, D] (lines 70-87): tokens [rows], entry by entry. *)
Definition key_output (rows : list (list Z)) : list Z :=
  flat_map (fun r => map (fun x => nth r x 0%Z) rows) (seq 0 (c_H g * c_D g)).
Definition value_output (rows : list (list Z)) : list Z :=
  flat_map (fun h => flat_map (fun x => firstn (c_D g) (skipn (h * c_D g) x)) rows) (seq 0 (c_H g)).
(** The columns a row sees: mask shape [1, 1, a, C]. *)
Definition visible (mask : list Z) (s : nat) : list nat :=
  filter (fun c => negb (nth (s * c_C g + c) mask 0%Z =? 0)%Z) (seq 0 (c_C g)).
(** One layer on rows [xs]: column c < C - a is token c of the cache, column C - a + j is row j. *)
Definition g_layer (a l : nat) (xs : list X) (pos : list Z) (mask kb vb : list Z) : list X * list (list Z) * list (list Z) :=
  let ks := map (fun xp => kproj l (fst xp) (snd xp)) (combine xs pos) in
  let vs := map (fun xp => vproj l (fst xp) (snd xp)) (combine xs pos) in
  let kc c := if c <? c_C g - a then past_key a kb c else nth (c - (c_C g - a)) ks [] in
  let vc c := if c <? c_C g - a then past_value a vb c else nth (c - (c_C g - a)) vs [] in
  (map (fun s => mix l (nth s xs (embed 0)) (nth s pos 0%Z) (map kc (visible mask s)) (map vc (visible mask s))) (seq 0 a), ks, vs).
(** All layers; present_key_<l> and present_value_<l> go to the output buffers of the manager. *)
Fixpoint g_layers (a l : nat) (xs : list X) (pos mask : list Z) (kin vin kout vout : list (list Z))
  : res (list X * list (list Z) * list (list Z)) :=
  match kin, vin, kout, vout with
  | kb :: kin', vb :: vin', ko :: kout', vo :: vout' =>
      let '(xs1, ks, vs) := g_layer a l xs pos mask kb vb in
      do ko1 <- put ko 0 (key_output ks);
      do vo1 <- put vo 0 (value_output vs);
      do r <- g_layers a (S l) xs1 pos mask kin' vin' kout' vout'; let '(xs2, kos, vos) := r in
      ROk (xs2, ko1 :: kos, vo1 :: vos)
  | _, _, _, _ => ROk (xs, [], [])
  end.
(** One execution of graph "model.0.s<a>": the logits of every row, and the manager with new output buffers. *)
Definition execute (a : nat) (ids pos mask : list Z) (m : manager) : res (manager * list (list Z)) :=
  do r <- g_layers a 0 (map embed ids) pos mask (m_kin m) (m_vin m) (m_kout m) (m_vout m); let '(xs, ko, vo) := r in
  ROk (mkMan (m_cur m) (m_kin m) (m_vin m) ko vo, map logits xs).

(** QnnAOTModule::sampleGreedy, QnnAOTModule.cpp:17-22. *)
Definition greedy (l : list Z) : Z := max_element Z.ltb l.

(** ** PromptProcessor *)
(** prepare_io, PromptProcessor.cpp:91-111. *)
Definition chunk_ids (toks : list Z) (pos : nat) : list Z :=
  let n := Nat.min (c_A g) (length toks - pos) in
  firstn n (skipn pos toks) ++ repeat 0%Z (c_A g - n).
Definition chunk_pos (start a : nat) : list Z := map (fun i => Z.of_nat (start + i)) (seq 0 a).
(** The loop of prefill, lines 138-158; [out] = the logits of the last execution (initially what the tensor holds). *)
Fixpoint prefill_loop (fuel : nat) (toks : list Z) (processed current : nat) (mask : list Z) (m : manager) (out : list (list Z))
  : res (manager * list (list Z)) :=
  if processed <? length toks then
    match fuel with
    | O => RDiverge
    | S f =>
        let n := Nat.min (c_A g) (length toks - processed) in
        do r <- execute (c_A g) (chunk_ids toks processed) (chunk_pos current (c_A g)) mask m; let '(m1, out1) := r in
        do m2 <- update_cache g (c_A g) current n [] m1;
        do mask1 <- update_mask g (c_A g) current n None mask;
        do mask2 <- update_mask g (c_A g) current n (Some (Z.of_nat (c_C g))) mask1;
        prefill_loop f toks (processed + n) (current + n) mask2 m2 out1
    end
  else ROk (m, out).
(** prefill, lines 113-166; sliding_window = context_len (QnnAOTRuntime.cpp:43).  [mask], [out]: what the tensors held. *)
Definition prefill (toks : list Z) (start : nat) (mask : list Z) (out : list (list Z)) (m : manager) : res (manager * Z) :=
  do m0 <- rearrange g (c_A g) m;
  do k1 <- init_mask g (c_A g) start (iota (c_A g)) None mask;
  do k2 <- init_mask g (c_A g) start (iota (c_A g)) (Some (Z.of_nat (c_C g))) k1;
  do r <- prefill_loop (length toks) toks 0 start k2 m0 out; let '(m1, out1) := r in
  match nth_error out1 ((length toks + c_A g - 1) mod c_A g) with
  | Some row => ROk (m1, greedy row)
  | None => RUB
  end.

(** ** TokenGenerator *)
(** The loop of generate, TokenGenerator.cpp:122-158: the tokens given to the callback. *)
Fixpoint decode (n : nat) (token : Z) (current : nat) (mask : list Z) (m : manager) : res (manager * list Z) :=
  match n with
  | O => ROk (m, [])
  | S f =>
      if c_C g <=? current then ROk (m, [])
      else
        do r <- execute 1 [token] [Z.of_nat current] mask m; let '(m1, out) := r in
        do m2 <- update_cache g 1 current 1 [] m1;
        do mask1 <- update_mask g 1 current 1 None mask;
        let t := greedy (nth 0 out []) in
        if is_eos t then ROk (m2, [t])
        else do q <- decode f t (current + 1) mask1 m2; let '(m3, ts) := q in ROk (m3, t :: ts)
  end.
(** generate, lines 105-161. *)
Definition generate_tokens (token : Z) (start seq_len : nat) (mask : list Z) (m : manager) : res (manager * list Z) :=
  do m0 <- rearrange g 1 m;
  do k1 <- init_mask g 1 start (iota 1) None mask;
  decode seq_len token start k1 m0.

(** Runner::generate, QnnAOTRuntime.cpp:64-104: the tokens given to the callback.  [pm], [po], [tm]: what the mask and
    logits tensors of the two graphs hold from earlier calls. *)
Definition run (pm : list Z) (po : list (list Z)) (tm : list Z) (toks : list Z) (seq_len : nat) (m : manager) : res (manager * list Z) :=
  do r <- prefill toks 0 pm po m; let '(m1, t0) := r in
  do q <- generate_tokens t0 (length toks) seq_len tm m1; let '(m2, ts) := q in
  ROk (m2, t0 :: ts).
End Run.
