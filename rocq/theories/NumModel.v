(** Softmax, RMS norm, layer norm and activation functions on the CPU.
    Sources, all under /repo/mllm/backends/cpu: ops/{SoftmaxOp,RMSNormOp,LayerNormOp,SiLUOp,SigmoidOp,ReLUOp,
    QuickGELUOp,GELUOp}.cpp, kernels/x86/{softmax,rmsnorm,silu,gelu}.cpp, kernels/arm/{softmax,rmsnorm,
    layernorm,silu,sigmoid,relu,gelu}.cpp, kernels/{x86,arm}/math.hpp, and /repo/mllm/core/aops of the same names.

    Simplifications: numbers are real numbers (no rounding, no overflow); a result that is not a finite
    number is a cell without a number ([None]); only fp32 tensors; partial sums and maxima of
    registers are accumulated in one variable where the lanes do not matter otherwise; rows and blocks that a
    parallel loop hands to threads are processed one after the other in an arbitrary
    order; __restrict is ignored; buffers start at an address aligned for the registers. *)
From Coq Require Import Reals.
From Verif Require Import Base DTypeModel ParamModel TensorModel OpsModel MatModel ExpModel AttnModel.
Local Open Scope Z_scope.

(** The loop of a kernel over n elements: registers, then single elements. *)
Definition simd_for {S} (a : arch) (n : Z) (body : Z -> S -> res S) (s : S) : res S :=
  match a with Arm => arm_for n body s | X86 L => vec_for L n body s end.
(** Element i of n is processed in a register. *)
Definition in_register (a : arch) (n i : Z) : bool :=
  match a with Arm => i <? n / 4 * 4 | X86 L => i <? n / L * L end.
(** vexpq_fast_f32 *)
Definition fast (a : arch) (x : R) : R := match a with Arm => fast_exp_arm x | X86 _ => fast_exp_x86 x end.
(** In place, the input is the buffer being written. *)
Definition source {A} (inplace : bool) (x o : buf A) : buf A := if inplace then o else x.

(* ---------------- softmax ---------------- *)
(** Pass 1, one element; None: no element seen yet. *)
Definition max1 (x : buf R) (xo i : Z) (m : option R) : res (option R) :=
  do v <- loadv x (xo + i);
  ROk (Some (match m with None => v | Some m => Rmax m v end)).
(** Pass 2, one element: Y[i] = exp(X[i] - max); sum += Y[i]. *)
Definition exp1 (e : Z -> R -> R) (x : buf R) (xo : Z) (m : R) (yo i : Z) (st : buf R * R) : res (buf R * R) :=
  do v <- loadv x (xo + i);
  let t := e i (v - m)%R in
  do y <- store (fst st) (yo + i) (Some t);
  ROk (y, (snd st + t)%R).
(** softmax_v1_fp32 with stride 1: x86/softmax.cpp:18-67, arm/softmax.cpp:18-150.  Rows of up to 16 elements
    use std::exp throughout; longer rows use the fast exponential in registers and
    std::exp for the remaining elements. *)
Definition softmax_row (a : arch) (x : buf R) (xo yo n : Z) (y : buf R) : res (buf R) :=
  let for_ := if n <=? 16 then (fun S => @zloop S n) else (fun S => @simd_for S a n) in
  let e i v := if n <=? 16 then exp v else if in_register a n i then fast a v else exp v in
  do m <- for_ _ (max1 x xo) None;
  do st <- for_ _ (exp1 e x xo (match m with Some m => m | None => 0%R end) yo) (y, 0%R);
  for_ _ (scale1 (inverse (snd st)) yo) (fst st).
(** SoftmaxOp::reshape (core/aops/SoftmaxOp.cpp:32-35) and CPUSoftmaxOp::forward (ops/SoftmaxOp.cpp:15-105).
    Case 2 of the code asserts rank 4 and axis -1 or 3, which is case 1: it always stops. *)
Definition softmax_op (a : arch) (order : list Z) (axis : Z) (t : tns R) : res (tns R) :=
  do out <- fresh_tensor (x_shape t);
  let rank := zlen (x_shape t) in
  let reduce_dim := if axis <? 0 then axis + rank else axis in
  if reduce_dim =? rank - 1 then
    do n <- vget (x_shape t) reduce_dim;
    do y <- each order (fun l y => softmax_row a (x_buf t) (x_offset t + l * n) (x_offset out + l * n) n y) (x_buf out);
    ROk (mkTns (x_view out) y)
  else RAbort.

(* ---------------- RMS norm ---------------- *)
(** vsquare_mean_fp32: x86/math.hpp:75-90, arm/math.hpp:270-284.  The x86 version loads registers with
    the aligned load: a row that does not start at a multiple of the register width
    must not be loaded. *)
Definition square_sum (a : arch) (x : buf R) (xo n : Z) : res R :=
  match a with
  | Arm => dot_kernel 0%R Rplus Rmult 4 x xo x xo n
  | X86 L => if (L <=? n) && negb (xo mod L =? 0) then RUB else dot_kernel 0%R Rplus Rmult L x xo x xo n
  end.
(** 1.f / std::sqrt(mean + epsilon), a number if the argument is positive. *)
Definition inv_root (x : R) : option R := if Rlt_dec 0 x then Some (/ sqrt x)%R else None.
Definition times (r : option R) (x : R) : option R := match r with Some r => Some (r * x)%R | None => None end.
(** w or w + 1 *)
Definition unit_weight (unit_offset : bool) (w : R) : R := if unit_offset then (w + 1)%R else w.
(** Pass 2: y[i] = x[i] * rms * w[i]. *)
Definition norm1 (r : option R) (unit_offset inplace : bool) (x : buf R) (xo : Z) (w : buf R) (wo yo i : Z) (y : buf R) : res (buf R) :=
  do v <- loadv (source inplace x y) (xo + i);
  do u <- loadv w (wo + i);
  store y (yo + i) (times r (v * unit_weight unit_offset u)%R).
(** x86/rmsnorm.cpp:15-48; arm/rmsnorm.cpp:12-52, whose registers of 4 advance by one element (++d); the
    in-place version arm/rmsnorm.cpp:54-101 has a pass y = x * rms and a pass y = y * w. *)
Definition rmsnorm_row (a : arch) (eps : R) (unit_offset inplace : bool) (x : buf R) (xo : Z) (w : buf R) (wo yo n : Z) (y : buf R) : res (buf R) :=
  do s <- square_sum a (source inplace x y) xo n;
  let r := inv_root (s / IZR n + eps) in
  match a, inplace with
  | X86 L, _ => vec_for L n (norm1 r unit_offset inplace x xo w wo yo) y
  | Arm, false =>
      do y <- zloop (n - 3) (fun d y => zloop 4 (fun j => norm1 r unit_offset false x xo w wo yo (d + j)) y) y;
      let d := Z.max 0 (n - 3) in
      zloop (n - d) (fun j => norm1 r unit_offset false x xo w wo yo (d + j)) y
  | Arm, true =>
      do y <- vec_for 4 n (fun i y => do v <- loadv y (xo + i); store y (yo + i) (times r v)) y;
      vec_for 4 n (fun i y =>
        do v <- load y (yo + i);
        do u <- loadv w (wo + i);
        store y (yo + i) (times v (unit_weight unit_offset u))) y
  end.
(** RMSNormOp::reshape (core/aops/RMSNormOp.cpp:51-58) and CPURMSNormOp::forward (ops/RMSNormOp.cpp:14-87).
    Neither the layout of the input nor the length of the weight is checked. *)
Definition rmsnorm_op (a : arch) (order : list Z) (eps : R) (unit_offset inplace : bool) (weight t : tns R) : res (tns R) :=
  do out <- (if inplace then ROk t else fresh_tensor (x_shape t));
  do n <- vget (x_shape t) (zlen (x_shape t) - 1);
  do y <- each order (fun l y => rmsnorm_row a eps unit_offset inplace (x_buf t) (x_offset t + l * n)
                                   (x_buf weight) (x_offset weight) (x_offset out + l * n) n y) (x_buf out);
  ROk (mkTns (x_view out) y).

(* ---------------- layer norm ---------------- *)
(** The last loops of layernorm_N_fp32, one element. *)
Definition affine1 (mean : R) (r : option R) (x : buf R) (xo : Z) (gamma beta : option (buf R * Z)) (zo i : Z) (z : buf R) : res (buf R) :=
  do v <- loadv x (xo + i);
  let v := times r (v - mean)%R in
  do v <- match gamma with None => ROk v | Some g => do w <- loadv (fst g) (snd g + i); ROk (times v w) end;
  do v <- match beta with None => ROk v | Some b => do w <- loadv (fst b) (snd b + i); ROk (match v with Some v => Some (v + w)%R | None => None end) end;
  store z (zo + i) v.
(** layernorm_N_fp32, arm/layernorm.cpp:12-107: three passes in registers of 4. *)
Definition layernorm_row (eps : R) (x : buf R) (xo : Z) (gamma beta : option (buf R * Z)) (zo n : Z) (z : buf R) : res (buf R) :=
  if n =? 0 then ROk z
  else
    do s <- vec_for 4 n (fun i s => do v <- loadv x (xo + i); ROk (s + v)%R) 0%R;
    let mean := (s / IZR n)%R in
    do q <- vec_for 4 n (fun i s => do v <- loadv x (xo + i); ROk (s + (v - mean) * (v - mean))%R) 0%R;
    let r := inv_root (q / IZR n + eps) in
    vec_for 4 n (affine1 mean r x xo gamma beta zo) z.
(** LayerNormOp::reshape (core/aops/LayerNormOp.cpp:48-51) and CPULayerNormOp::forward (ops/LayerNormOp.cpp:14-57).
    On x86 the body of the loop is a comment. *)
Definition layernorm_op (a : arch) (order : list Z) (eps : R) (normalized_shape : list Z) (gamma beta : option (tns R)) (t : tns R) : res (tns R) :=
  do out <- fresh_tensor (x_shape t);
  if negb (is_contiguous (x_view t)) then RAbort
  else
    let n := numel normalized_shape in
    if negb (0 <? n) then RAbort
    else if negb (numel (x_shape t) mod n =? 0) then RAbort
    else
      let p := option_map (fun g : tns R => (x_buf g, x_offset g)) in
      do z <- each order (fun l z =>
          match a with
          | X86 _ => ROk z
          | Arm => layernorm_row eps (x_buf t) (x_offset t + l * n) (p gamma) (p beta) (x_offset out + l * n) n z
          end) (x_buf out);
      ROk (mkTns (x_view out) z).

(* ---------------- activation functions ---------------- *)
Inductive activation := SiLU | Sigmoid | ReLU | QuickGELU.
(** vsigmoid_f32, arm/math.hpp:259-267: [est] is the reciprocal estimate of the processor (vrecpe), refined by two
    steps (vrecps(x, y) = 2 - x y). *)
Definition recip (est : R -> R) (x : R) : R :=
  let y := est x in
  let y := ((2 - x * y) * y)%R in
  ((2 - x * y) * y)%R.
Definition vsigmoid (est : R -> R) (x : R) : R := recip est (fast_exp_arm (- x) + 1)%R.
(** __sigmoid_fp32_vector, kernels/common/sigmoid-inl.hpp:33-76: a quotient of polynomials on [-11.5, 11.5]. *)
Definition rational_sigmoid (v : R) : R :=
  let c0 := 0.00949107017368078%R in
  let c1 := 0.0654858946800232%R in
  let c2 := (0.231547489762306 - 0.00949107017368078)%R in
  let c3 := 0.530778527259827%R in
  let c4 := 0.855334937572479%R in
  let c5 := 0.500000894069672%R in
  let d0 := 0.130970627069473%R in
  let d1 := 3.99615288415589e-07%R in
  let d2 := (1.06155431270599 - 0.130970627069473)%R in
  let d3 := 1.35144250634767e-06%R in
  let d4 := 1%R in
  let f := (Rmin (Rmax v (-11.5)) 11.5 * (1 / 12))%R in
  let f2 := (f + f)%R in
  let a1 := (f2 * c0 + c1)%R in
  let a2 := (f2 * a1 + c2)%R in
  let a3 := (f2 * a2 + c3 - a1)%R in
  let a4 := (f2 * a3 + c4 - a2)%R in
  let f0 := (f * a4 + c5 - a3)%R in
  let b1 := (f2 * d0 + d1)%R in
  let b2 := (f2 * b1 + d2)%R in
  let b3 := (f2 * b2 + d3 - b1)%R in
  let f1 := (f * b3 + d4 - b2)%R in
  (f0 / f1)%R.
(** One element in a register: x86/silu.cpp:22-27, x86/sigmoid.cpp:22-40; arm/silu.cpp:21-23, arm/sigmoid.cpp:20-22, arm/relu.cpp:17-19,
    arm/gelu.cpp:83-89. *)
Definition register_value (a : arch) (est : R -> R) (k : activation) (x : R) : R :=
  match a, k with
  | X86 _, Sigmoid => rational_sigmoid x
  | X86 _, _ => (x * (1 / (1 + fast_exp_x86 (- x))))%R
  | Arm, SiLU => (x * vsigmoid est x)%R
  | Arm, Sigmoid => vsigmoid est x
  | Arm, ReLU => Rmax x 0
  | Arm, QuickGELU => (x * vsigmoid est (x * 1.702))%R
  end.
(** A remaining element: x86/silu.cpp:44-56; arm/silu.cpp:59, arm/sigmoid.cpp:55, arm/relu.cpp:50, arm/gelu.cpp:92-97. *)
Definition scalar_value (k : activation) (x : R) : R :=
  match k with
  | SiLU => (x / (1 + exp (- x)))%R
  | Sigmoid => (1 / (1 + exp (- x)))%R
  | ReLU => if Rlt_dec 0 x then x else 0%R
  | QuickGELU => (x * (1 / (1 + exp (- (1.702 * x)))))%R
  end.
Definition act1 (a : arch) (est : R -> R) (k : activation) (inplace : bool) (n : Z) (x : buf R) (xo yo i : Z) (y : buf R) : res (buf R) :=
  do v <- loadv (source inplace x y) (xo + i);
  store y (yo + i) (Some (if in_register a n i then register_value a est k v else scalar_value k v)).
(** Blocks that the parallel loop hands out: 16 elements on ARM (4 for QuickGELU), a register on x86. *)
Definition block (a : arch) (k : activation) : Z :=
  match a, k with X86 L, _ => L | Arm, QuickGELU => 4 | Arm, _ => 16 end.
(** [order]: the blocks 0 .. n / W - 1 as scheduled; then the rest. *)
Definition act_row (a : arch) (est : R -> R) (order : list Z) (k : activation) (inplace : bool) (n : Z) (x : buf R) (xo yo : Z) (y : buf R) : res (buf R) :=
  let W := block a k in
  do y <- each order (fun v => zloop W (fun j => act1 a est k inplace n x xo yo (v * W + j))) y;
  zloop (n - n / W * W) (fun j => act1 a est k inplace n x xo yo (n / W * W + j)) y.
(** SiLUOp, SigmoidOp, ReLUOp, QuickGELUOp: reshape and setup (core/aops), CPUSiLUOp::forward etc.  (ops/SiLUOp.cpp:13-38,
    ops/SigmoidOp.cpp:12-40, ops/ReLUOp.cpp:13-38, ops/QuickGELUOp.cpp:12-37).  QuickGELU checks the layout of
    the input, the others do not.  An in-place sigmoid allocates its output, which is its input, once more
    (SigmoidOp::setup), so that its cells hold nothing.  On x86 QuickGELU has an empty body and ReLU is not
    implemented (NYI prints). *)
Definition activation_op (a : arch) (est : R -> R) (order : list Z) (k : activation) (inplace : bool) (t : tns R) : res (tns R) :=
  do out <- (if inplace && (match k with SiLU | Sigmoid => true | _ => false end) then
               (match k with Sigmoid => ROk (mkTns (x_view t) (mkBuf (b_len (x_buf t)) (fun _ => None))) | _ => ROk t end)
             else fresh_tensor (x_shape t));
  if (match k with QuickGELU => negb (is_contiguous (x_view t)) | _ => false end) then RAbort
  else
    let n := numel (x_shape t) in
    let aliased := inplace && (match k with SiLU | Sigmoid => true | _ => false end) in
    do y <- match a, k with
            | X86 _, (ReLU | QuickGELU) => ROk (x_buf out)
            | _, _ => act_row a est order k aliased n (x_buf t) (x_offset t) (x_offset out) (x_buf out)
            end;
    ROk (mkTns (x_view out) y).
