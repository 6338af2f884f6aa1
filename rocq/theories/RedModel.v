(** Reductions (max, min, sum, mean): /repo/mllm/backends/cpu/kernels/arm/reduce.hpp:16-57, reduce.cpp:12-168,
    primitives.hpp (ScalarAdd/Max/Min 19-48, VectorAdd/Max/Min, reductions of a vector 722-857), and the operators,
    /repo/mllm/backends/cpu/ops/ReduceOps.cpp:12-549, with the shapes of core/aops/ReduceOps.cpp:31-64 (the same text four times).

    Simplifications: loops over positions that advance by a constant are run for the number of rounds their bounds give; the
    elements of a vector are loaded one by one; floating point values are real numbers (maxima and minima are exact then, sums and
    quotients are what the kernel computes without rounding); the horizontal sum adds the elements of a vector from the left. *)
From Coq Require Import Reals.
From Flocq Require Import Core.
From Verif Require Import Base DTypeModel QuantModel CpmAudioModel ParamModel TensorModel OpsModel.
Local Open Scope Z_scope.

Section Run.
Context {A : Type} (zero : A) (vop : A -> A -> A) (sop : A -> A -> res A) (hred : list A -> A).
(** Reduce<...>::run, reduce.hpp:18-56. N = lanes(). *)
Definition arm_run (N : Z) (x : buf A) (p stride size : Z) : res A :=
  if size =? 0 then ROk zero
  else
  let vec := size / N * N in
  if (N <=? vec) && (stride =? 1) then
    do v <- load_vec x p N;
    let q := (vec - N) / (4 * N) in
    do v <- zloop q (fun u v =>
      let i := N + u * (4 * N) in
      do v0 <- load_vec x (p + i) N;
      do v1 <- load_vec x (p + (i + N)) N;
      do v2 <- load_vec x (p + (i + 2 * N)) N;
      do v3 <- load_vec x (p + (i + 3 * N)) N;
      ROk (vadd vop (vadd vop (vadd vop (vadd vop v v0) v1) v2) v3)) v;
    let i := N + q * (4 * N) in
    let r := (vec - i) / N in
    do v <- zloop r (fun u v => do w <- load_vec x (p + (i + u * N)) N; ROk (vadd vop v w)) v;
    zloop (size - vec) (fun j acc => do w <- load x (p + (vec + j)); do w <- need w; sop acc w) (hred v)
  else
    do v <- load x p; do v <- need v;
    zloop (size - 1) (fun i acc => do w <- load x (p + (i + 1) * stride); do w <- need w; sop acc w) v.
(** Horizontal reductions: all elements of the vector at once (vmaxvq, vminvq, vaddvq), or first its upper half with its lower
    half (int32x4_t and the sum of float16x8_t). *)
Definition across (l : list A) : A := match l with [] => zero | x :: r => fold_left vop r x end.
Definition halves (l : list A) : A := let h := Nat.div (length l) 2 in across (vadd vop (skipn h l) (firstn h l)).
End Run.

(** a > b ? a : b, and a < b ? a : b. *)
Definition choose {A} (better : A -> A -> bool) (a b : A) : A := if better a b then a else b.
Definition reals_above (a b : R) : bool := if Rlt_dec b a then true else false.
Definition reals_below (a b : R) : bool := if Rlt_dec a b then true else false.

Inductive reduction := RedMax | RedMin | RedSum | RedMean.
(** Two's complement numbers of [bits] bits. *)
Definition wrap (bits z : Z) : Z := (z + 2 ^ (bits - 1)) mod 2 ^ bits - 2 ^ (bits - 1).
Definition in_bits (bits z : Z) : bool := (- 2 ^ (bits - 1) <=? z) && (z <? 2 ^ (bits - 1)).
(** a + b of int8_t or int16_t is computed in int and converted back; of int32_t it may overflow. *)
Definition scalar_add (bits a b : Z) : res Z := if bits =? 32 then (if in_bits 32 (a + b) then ROk (a + b) else RUB) else ROk (wrap bits (a + b)).
Definition lanes_of (bits : Z) : Z := 128 / bits.
(** reduce_{max,min,sum}_{int8,int16,int32}, reduce.cpp:67-131. *)
Definition int_kernel (bits : Z) (better : Z -> Z -> bool) : buf Z -> Z -> Z -> Z -> res Z :=
  let op := choose better in
  arm_run 0 op (fun a b => ROk (op a b)) (if bits =? 32 then halves 0 op else across 0 op) (lanes_of bits).
Definition int_sum (bits : Z) : buf Z -> Z -> Z -> Z -> res Z :=
  let op := fun a b => wrap bits (a + b) in
  arm_run 0 op (scalar_add bits) (if bits =? 32 then halves 0 op else across 0 op) (lanes_of bits).
(** reduce_mean_{int8,int16,int32}, reduce.cpp:149-168: static_cast<T>(static_cast<float>(v) / static_cast<float>(size)); the
    conversion of a NaN or of a value that does not fit is undefined. *)
Definition int_mean (bits : Z) (x : buf Z) (p stride size : Z) : res Z :=
  do v <- int_sum bits x p stride size;
  if size =? 0 then RUB
  else let r := Ztrunc (to_f32 (to_f32 (IZR v) / to_f32 (IZR size))) in if in_bits bits r then ROk r else RUB.
Definition arm_int (bits : Z) (k : reduction) : buf Z -> Z -> Z -> Z -> res Z :=
  match k with
  | RedMax => int_kernel bits Z.gtb
  | RedMin => int_kernel bits Z.ltb
  | RedSum => int_sum bits
  | RedMean => int_mean bits
  end.
(** reduce_*_fp32 and fp16, reduce.cpp:12-65, 133-147. *)
Definition arm_real (lanes : Z) (k : reduction) (x : buf R) (p stride size : Z) : res R :=
  let run := fun op => arm_run 0%R op (fun a b => ROk (op a b)) (across 0%R op) lanes x p stride size in
  match k with
  | RedMax => run (choose reals_above)
  | RedMin => run (choose reals_below)
  | RedSum => run Rplus
  | RedMean => do v <- run Rplus; if size =? 0 then RUB else ROk (v / IZR size)%R
  end.

Section Op.
Context {A : Type}.
(** CPUReduce{Max,Min,Sum}Op::forward and CPUMeanOp::forward, ReduceOps.cpp:12-549. [kernel] is None where the preprocessor leaves
    nothing between the braces of the loops. *)
Definition reduce_op (kernel : option (buf A -> Z -> Z -> Z -> res A)) (x : tns A) (dim0 : Z) (keep : bool) : res (tns A) :=
  let put := fun o pos p stride size =>
    match kernel with
    | None => ROk o
    | Some run => do v <- run (x_buf x) p stride size; store o pos (Some v)
    end in
  let shape := x_shape x in
  do oshape <- reduce_shape shape dim0 keep;
  do out <- fresh_tensor oshape;
  if dim0 =? all_dims then
    do o <- put (x_buf out) 0 (x_offset x) 1 (numel shape);
    ROk (mkTns (x_view out) o)
  else
    let dim := norm_dim (zlen shape) dim0 in
    do n <- vget shape dim;
    let d := Z.to_nat dim in
    let outer := numel (firstn d shape) in
    let inner := numel (skipn (S d) shape) in
    do o <- zloop outer (fun u o => zloop inner (fun v o =>
      put o (u * inner + v) (x_offset x + (u * n * inner + v)) inner n) o) (x_buf out);
    ROk (mkTns (x_view out) o).
End Op.

(** Which kernel a host has: ReduceOps.cpp, the lines between #if and #endif. *)
Inductive host := HostArm | HostX86.
Definition int_reduce (h : host) (bits : Z) (k : reduction) : tns Z -> Z -> bool -> res (tns Z) :=
  reduce_op (match h with HostArm => Some (arm_int bits k) | HostX86 => None end).
(** On x86 the sum of fp32 is OpsModel.sum_op; nothing else is there. *)
Definition real_reduce (h : host) (lanes : Z) (k : reduction) : tns R -> Z -> bool -> res (tns R) :=
  reduce_op (match h with HostArm => Some (arm_real lanes k)
                        | HostX86 => match k with RedSum => Some (reduce_impl 0%R Rplus lanes) | _ => None end end).
