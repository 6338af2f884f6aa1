(** Attention on the CPU: flash attention, radix attention (keys and values behind a list
    of addresses), and the variants with a sliding window and attention sinks.
    Sources, all under /repo/mllm/backends/cpu: kernels/common/fa2_1/fwd_bshd.hpp,
    kernels/common/radix_attn/fwd_bshd.hpp, kernels/common/radix_attn_relax/radix_attn_relax_fwd_bshd.hpp,
    kernels/common/radix_swa_sink/radix_swa_sink_fwd_bshd.hpp,
    kernels/common/fa2_1_swa_sink/fa2_swa_sink_fwd_bshd.hpp,
    kernels/common/{fa2_1,radix_attn}/{arch,impl-any,impl-arm,impl-any-simd*}.hpp,
    ops/{FlashAttention2Op,RadixAttnOp,RadixAttnDiffDimOp,RadixAttnWithSinkAndSwaDiffDimOp,FlashAttn2WithSinkAndSwaOp}.cpp.

    Simplifications: numbers are real numbers (no rounding, no overflow); a result that
    is not a number (0 times 1/0) is a cell without a number ([None]); the five kernels, which are copies of one
    loop, are one definition with the differing parts as parameters; SIMD
    lanes as in MatModel.v; the heads, which a parallel loop hands to threads, are
    processed one after the other in an arbitrary order; only fp32 tensors. *)
From Coq Require Import Reals.
From Verif Require Import Base DTypeModel ParamModel TensorModel OpsModel MatModel.
Local Open Scope Z_scope.

(** std::exp2 and std::numbers::log2e *)
Definition exp2 (x : R) : R := Rpower 2 x.
Definition log2e : R := (/ ln 2)%R.

(* ---------------- the four primitives, per architecture ---------------- *)
(** The members of details:: that fwd_bshd calls: VectorDotProduct, MulFromConst,
    FMAConstArray, FilledWithConst (radix_attn/arch.hpp:19-38, fa2_1/arch.hpp).  Pointers are a buffer and
    a position. *)
Record kernels := {
  k_dot : buf R -> Z -> buf R -> Z -> Z -> res R;
  k_scale : option R -> Z -> Z -> buf R -> res (buf R);
  k_fma : R -> buf R -> Z -> Z -> Z -> buf R -> res (buf R);
  k_fill : R -> Z -> Z -> buf R -> res (buf R);
}.
(** Bodies for one element. *)
Definition scale1 (c : option R) (row : Z) (i : Z) (o : buf R) : res (buf R) :=
  do x <- loadv o (row + i);
  store o (row + i) (match c with Some c => Some (x * c)%R | None => None end).
Definition fma1 (p : R) (v : buf R) (vo row : Z) (i : Z) (o : buf R) : res (buf R) :=
  do x <- loadv o (row + i);
  do y <- loadv v (vo + i);
  store o (row + i) (Some (x + p * y)%R).
Definition fill1 (x : R) (row : Z) (i : Z) (o : buf R) : res (buf R) := store o (row + i) (Some x).

(** impl-any.hpp:11-40. *)
Definition any_kernels : kernels := {|
  k_dot := fun x xo y yo n => zloop n (fun i s => do a <- loadv x (xo + i); do b <- loadv y (yo + i); ROk (s + a * b)%R) 0%R;
  k_scale := fun c row n o => zloop n (scale1 c row) o;
  k_fma := fun p v vo row n o => zloop n (fma1 p v vo row) o;
  k_fill := fun x row n o => zloop n (fill1 x row) o;
|}.
(** impl-any-simd-inl.hpp:11-58 (fa2_1, Highway): L lanes and a scalar remainder. *)
Definition simd_kernels (L : Z) : kernels := {|
  k_dot := dot_kernel 0%R Rplus Rmult L;
  k_scale := fun c row n o => vec_for L n (scale1 c row) o;
  k_fma := fun p v vo row n o => vec_for L n (fma1 p v vo row) o;
  k_fill := fun x row n o => vec_for L n (fill1 x row) o;
|}.
(** Blocks of 16, then of 4, then single elements: the loops of impl-arm.hpp. *)
Definition arm_for {S} (n : Z) (body : Z -> S -> res S) (s : S) : res S :=
  let aligned := n / 16 * 16 in
  do s <- zloop (n / 16) (fun v s => zloop 16 (fun j s => body (v * 16 + j) s) s) s;
  vec_for 4 (n - aligned) (fun j s => body (aligned + j) s) s.
(** impl-arm.hpp:14-152.  The dot product has one register of 4 lanes. *)
Definition arm_kernels : kernels := {|
  k_dot := dot_kernel 0%R Rplus Rmult 4;
  k_scale := fun c row n o => arm_for n (scale1 c row) o;
  k_fma := fun p v vo row n o => arm_for n (fma1 p v vo row) o;
  k_fill := fun x row n o => arm_for n (fill1 x row) o;
|}.
(** The primary templates, radix_attn/arch.hpp:19-38: empty bodies.  The result variable of the
    dot product then keeps the indeterminate value it had, [junk]. *)
Definition empty_kernels (junk : R) : kernels := {|
  k_dot := fun _ _ _ _ _ => ROk junk;
  k_scale := fun _ _ _ o => ROk o;
  k_fma := fun _ _ _ _ _ o => ROk o;
  k_fill := fun _ _ _ o => ROk o;
|}.
Inductive arch := Arm | X86 (lanes : Z).
(** Flash attention: fa2_1/impl-arm.hpp, fa2_1/impl-any-simd.hpp:13-42. *)
Definition flash_kernels (a : arch) : kernels :=
  match a with Arm => arm_kernels | X86 L => simd_kernels L end.
(** Radix attention: radix_attn/impl-arm.hpp; radix_attn/impl-any-simd.hpp is an empty file and
    impl-any.hpp specialises for __AnyArchTag only, so __X86ArchTag selects the primary templates. *)
Definition radix_kernels (a : arch) (junk : R) : kernels :=
  match a with Arm => arm_kernels | X86 _ => empty_kernels junk end.

(* ---------------- the loop ---------------- *)
(** scores_max (None: minus infinity) and logsum. *)
Record soft := mkSoft { s_max : option R; s_sum : R }.
Definition soft0 : soft := mkSoft None 0%R.
(** "Do softmax stuff": radix_attn/fwd_bshd.hpp:83-88.  Returns the new state, scores_scale and
    the new acc_s. *)
Definition soft_step (scale : R) (st : soft) (acc_s : R) : soft * R * R :=
  let m := match s_max st with None => acc_s | Some m => Rmax m acc_s end in
  let sc := match s_max st with None => 0%R | Some m0 => exp2 (m0 * scale - m * scale) end in
  let p := exp2 (acc_s * scale - m * scale) in
  (mkSoft (Some m) (s_sum st * sc + p)%R, sc, p).
(** 1.f / logsum, a number unless logsum is zero. *)
Definition inverse (x : R) : option R := if Req_EM_T x 0 then None else Some (/ x)%R.
(** std::sqrt(1.0 / D) * log2e *)
Definition soft_scale (D : Z) : R := (sqrt (1 / IZR D) * log2e)%R.

Section Forward.
Variable K : kernels.
Variables B H_Q H_KV S_Q D_QK D_V : Z.
(** Where the key and the value of token s for batch b and head h start. *)
Variables key value : Z -> Z -> Z -> res (buf R * Z).
(** First visible token and end of the visible tokens for the query at position s. *)
Variables first last : Z -> Z.
(** s_aux, in the variants with attention sinks. *)
Variable sink : option (Z -> res R).
Variables (q : buf R) (qo : Z) (oo : Z).

(** The body of the loop over the keys, radix_attn/fwd_bshd.hpp:63-95. *)
Definition key_step (b h hk s row : Z) (j : Z) (st : soft * buf R) : res (soft * buf R) :=
  do kp <- key b hk (first s + j);
  do vp <- value b hk (first s + j);
  do a <- k_dot K q (qo + (b * H_Q * S_Q * D_QK + s * H_Q * D_QK + h * D_QK)) (fst kp) (snd kp) D_QK;
  let '(st1, sc, p) := soft_step (soft_scale D_QK) (fst st) a in
  do o <- k_scale K (Some sc) row D_V (snd st);
  do o <- k_fma K p (fst vp) (snd vp) row D_V o;
  ROk (st1, o).
(** "We attach virtual sink token", radix_swa_sink_fwd_bshd.hpp:101-116. *)
Definition sink_step (h row : Z) (st : soft * buf R) : res (soft * buf R) :=
  match sink with
  | None => ROk st
  | Some f =>
      do x <- f h;
      let '(st1, sc, _) := soft_step (soft_scale D_QK) (fst st) (x / sqrt (1 / IZR D_QK))%R in
      do o <- k_scale K (Some sc) row D_V (snd st);
      ROk (st1, o)
  end.
(** One query token and head, radix_attn/fwd_bshd.hpp:48-99. *)
Definition query_row (b h hk s : Z) (o : buf R) : res (buf R) :=
  let row := oo + (b * H_Q * S_Q * D_V + s * H_Q * D_V + h * D_V) in
  do o <- k_fill K 0%R row D_V o;
  do st <- zloop (last s - first s) (key_step b h hk s row) (soft0, o);
  do st <- sink_step h row st;
  k_scale K (inverse (s_sum (fst st))) row D_V (snd st).
(** fwd_bshd, radix_attn/fwd_bshd.hpp:31-104; [order]: the heads 0..H_Q-1 as scheduled. *)
Definition fwd_bshd (order : list Z) (o : buf R) : res (buf R) :=
  if H_KV =? 0 then RUB
  else
    let repeat_times := Z.quot H_Q H_KV in
    zloop B (fun b o => each order (fun h o =>
      if repeat_times =? 0 then RUB
      else zloop S_Q (query_row b h (Z.quot h repeat_times)) o) o) o.
End Forward.

(** S_KV_BOUND, radix_attn/fwd_bshd.hpp:60-61. *)
Definition causal_last (S_Q S_KV s : Z) : Z := Z.min (S_KV - S_Q + s + 1) S_KV.

(* ---------------- operators ---------------- *)
Definition dim4 (shape : list Z) : res (Z * Z * Z * Z) :=
  do a <- vget shape 0; do b <- vget shape 1; do c <- vget shape 2; do d <- vget shape 3; ROk (a, b, c, d).

(** FlashAttention2Op::reshape (core/aops/FlashAttention2Op.cpp:31-34) and
    CPUFlashAttention2Op::forward (ops/FlashAttention2Op.cpp:13-60). *)
Definition flash_attention_op (a : arch) (order : list Z) (q_head kv_head : Z) (tq tk tv : tns R) : res (tns R) :=
  do out <- fresh_tensor (x_shape tq);
  if negb (is_contiguous (x_view tq)) then RAbort
  else
    do d <- dim4 (x_shape tq);
    let '(B, S_Q, H_Q, D) := d in
    if negb (H_Q =? q_head) then RAbort
    else
      do S_KV <- vget (x_shape tk) 1;
      do S_V <- vget (x_shape tv) 1;
      if negb (S_KV =? S_V) then RAbort
      else
        let token t b hk s := ROk (x_buf t, x_offset t + (b * S_KV * kv_head * D + s * kv_head * D + hk * D)) in
        do o <- fwd_bshd (flash_kernels a) B q_head kv_head S_Q D D (token tk) (token tv)
             (fun _ => 0) (causal_last S_Q S_KV) None (x_buf tq) (x_offset tq) (x_offset out) order (x_buf out);
        ROk (mkTns (x_view out) o).

(** A one-dimensional int64 tensor of addresses: pointer i is a buffer and a position. *)
Definition pointers := list (buf R * Z).
Definition pointer (ps : pointers) (s : Z) : res (buf R * Z) :=
  if (0 <=? s) then match nth_error ps (Z.to_nat s) with Some p => ROk p | None => RUB end else RUB.

(** RadixAttnOp::reshape (core/aops/RadixAttnOp.cpp:25-31) and CPURadixAttnOp::forward
    (ops/RadixAttnOp.cpp:14-51).  The layout of Q is not checked. *)
Definition radix_attention_op (a : arch) (junk : R) (order : list Z) (q_head kv_head : Z) (tq : tns R) (ks vs : pointers) : res (tns R) :=
  do out <- fresh_tensor (x_shape tq);
  do d <- dim4 (x_shape tq);
  let '(B, S_Q, H_Q, D) := d in
  if negb (H_Q =? q_head) then RAbort
  else
    let S_KV := zlen ks in
    if negb (S_KV =? zlen vs) then RAbort
    else
      let token ps b hk s := do p <- pointer ps s; ROk (fst p, snd p + (b * kv_head * D + hk * D)) in
      do o <- fwd_bshd (radix_kernels a junk) B q_head kv_head S_Q D D (token ks) (token vs)
           (fun _ => 0) (causal_last S_Q S_KV) None (x_buf tq) (x_offset tq) (x_offset out) order (x_buf out);
      ROk (mkTns (x_view out) o).

(** RadixAttnRelaxOp::reshape (core/aops/RadixAttnDiffDimOp.cpp:31-40) and CPURadixAttnRelaxOp::forward
    (ops/RadixAttnDiffDimOp.cpp:13-54): key and value heads of different width.  [B_opt],
    [D_QK], [D_V] are options; the width of Q is not compared with D_QK. *)
Definition radix_relax_op (a : arch) (junk : R) (order : list Z) (B_opt q_head kv_head D_QK D_V : Z) (tq : tns R) (ks vs : pointers) : res (tns R) :=
  if negb (zlen (x_shape tq) =? 4) then RAbort
  else
    do d <- dim4 (x_shape tq);
    let '(B, S_Q, H_Q, _) := d in
    do out <- fresh_tensor [B_opt; S_Q; q_head; D_V];
    if negb (is_contiguous (x_view tq)) then RAbort
    else if negb (H_Q =? q_head) then RAbort
    else
      let S_KV := zlen ks in
      if negb (S_KV =? zlen vs) then RAbort
      else
        let token ps W b hk s := do p <- pointer ps s; ROk (fst p, snd p + (b * kv_head * W + hk * W)) in
        do o <- fwd_bshd (radix_kernels a junk) B q_head kv_head S_Q D_QK D_V (token ks D_QK) (token vs D_V)
             (fun _ => 0) (causal_last S_Q S_KV) None (x_buf tq) (x_offset tq) (x_offset out) order (x_buf out);
        ROk (mkTns (x_view out) o).

(** RadixAttnSwaSinkOp::reshape (core/aops/RadixAttnWithSinkAndSwaDiffDimOp.cpp:29-47) and
    CPURadixAttnSwaSinkOp::forward (ops/RadixAttnWithSinkAndSwaDiffDimOp.cpp:14-96), with
    fwd_bshd_prefill and fwd_bshd_decode (radix_swa_sink_fwd_bshd.hpp:30-211). *)
Inductive pattern := Prefill | Decode | Append.
(** full_attention_start/end of prefill, 156-159; [last] is one past the end, which is inclusive. *)
Definition prefill_first (S_Q S_KV w s : Z) : Z := Z.max 0 (s + S_KV - S_Q - w).
Definition prefill_last (S_Q S_KV s : Z) : Z := Z.min S_KV (s + S_KV - S_Q) + 1.
(** local_attention_end of decode, 58-66. *)
Definition decode_last (S_Q cur w s : Z) : Z :=
  let full_start := Z.max 0 (s + cur - S_Q - w) in
  let full_end := Z.min cur (s + cur - S_Q) in
  let e := full_end - full_start in
  if e <? w then e + 1 else e.
Definition radix_swa_op (a : arch) (junk : R) (pat : pattern) (order : list Z) (B_opt q_head kv_head D_QK D_V cur w : Z)
  (tq : tns R) (ks vs : pointers) (aux : option (tns R)) : res (tns R) :=
  if w =? -1 then RAbort
  else if negb (zlen (x_shape tq) =? 4) then RAbort
  else
    do d <- dim4 (x_shape tq);
    let '(B, S_Q, H_Q, _) := d in
    do out <- fresh_tensor [B_opt; S_Q; q_head; D_V];
    if negb (is_contiguous (x_view tq)) then RAbort
    else if negb (H_Q =? q_head) then RAbort
    else
      let S_KV := zlen ks in
      if negb (S_KV =? zlen vs) then RAbort
      else
        match aux with
        | None => RUB  (* inputs[3] of a vector of 3 *)
        | Some ta =>
            let token ps W b hk s := do p <- pointer ps s; ROk (fst p, snd p + (b * kv_head * W + hk * W)) in
            let run first last := fwd_bshd (radix_kernels a junk) B q_head kv_head S_Q D_QK D_V (token ks D_QK) (token vs D_V)
                 first last (Some (fun h => loadv (x_buf ta) (x_offset ta + h))) (x_buf tq) (x_offset tq) (x_offset out) order (x_buf out) in
            do o <- match pat with
                    | Prefill => run (prefill_first S_Q S_KV w) (prefill_last S_Q S_KV)
                    | Decode => run (fun _ => 0) (decode_last S_Q cur w)
                    | Append => ROk (x_buf out)
                    end;
            ROk (mkTns (x_view out) o)
        end.

(** FlashAttention2SwaSinkOp::reshape (core/aops/FlashAttn2WithSinkAndSwaOp.cpp:29-49), CPUFlashAttention2SwaSinkOp::forward
    (ops/FlashAttn2WithSinkAndSwaOp.cpp:14-66), fwd_bshd_swa_with_sink (fa2_swa_sink_fwd_bshd.hpp:25-128). *)
Definition flash_swa_op (a : arch) (order : list Z) (q_head kv_head cur w : Z) (tq tk tv : tns R) (aux : option (tns R)) : res (tns R) :=
  if w =? -1 then RAbort
  else if negb ((zlen (x_shape tq) =? 4) && (zlen (x_shape tk) =? 4) && (zlen (x_shape tv) =? 4)) then RAbort
  else
    do dq <- dim4 (x_shape tq);
    do dk <- dim4 (x_shape tk);
    do dv <- dim4 (x_shape tv);
    let '(B, S_Q, H_Q, D_QK) := dq in
    let '(_, S_KV, H_K, D_K) := dk in
    let '(B_V, S_V, H_V, D_V) := dv in
    if negb (H_K =? H_V) then RAbort
    else if negb (D_QK =? D_K) then RAbort
    else
      do out <- fresh_tensor [B_V; S_Q; H_Q; D_V];
      if negb (is_contiguous (x_view tq)) then RAbort
      else if negb (H_Q =? q_head) then RAbort
      else if negb (S_KV =? S_V) then RAbort
      else
        match aux with
        | None => RUB
        | Some ta =>
            if w <? S_KV then RAbort
            else
              let token t W b hk s := ROk (x_buf t, x_offset t + (b * S_KV * kv_head * W + s * kv_head * W + hk * W)) in
              do o <- fwd_bshd (flash_kernels a) B q_head kv_head S_Q D_QK D_V (token tk D_QK) (token tv D_V)
                   (fun _ => 0) (decode_last S_Q cur w) (Some (fun h => loadv (x_buf ta) (x_offset ta + h)))
                   (x_buf tq) (x_offset tq) (x_offset out) order (x_buf out);
              ROk (mkTns (x_view out) o)
        end.
