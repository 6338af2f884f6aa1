(** Transpose and permute on ARM.

    Models /repo/mllm/backends/cpu/kernels/arm/transpose.cpp,
    /repo/mllm/backends/cpu/kernels/arm/permute.cpp and the ARM branches of
    backends/cpu/ops/TransposeOp.cpp and PermuteOp.cpp.  Memory, tensors and the
    scalar loops are those of TensorModel (same simplifications: one opaque value
    per element, exact integer arithmetic except where said otherwise, a fresh
    output buffer).  A NEON register is a list of lanes. *)
From Verif Require Import Base DTypeModel ParamModel TensorModel.
Local Open Scope Z_scope.

(** vtrnq_f32 (4 lanes of 32 bits) and vtrn_f16 (4 lanes of 16 bits). *)
Definition vtrn {A} (a b : list (option A)) : list (option A) * list (option A) :=
  ([lane a 0; lane b 0; lane a 2; lane b 2], [lane a 1; lane b 1; lane a 3; lane b 3]).
(** vtrn_f32 of two registers of four 16-bit lanes seen as two 32-bit lanes. *)
Definition vtrn_pairs {A} (a b : list (option A)) : list (option A) * list (option A) :=
  ([lane a 0; lane a 1; lane b 0; lane b 1], [lane a 2; lane a 3; lane b 2; lane b 3]).
(** vcombine of two low halves / two high halves of 4-lane registers. *)
Definition lows {A} (a b : list (option A)) := [lane a 0; lane a 1; lane b 0; lane b 1].
Definition highs {A} (a b : list (option A)) := [lane a 2; lane a 3; lane b 2; lane b 3].

(** transpose.cpp:15-34 (and 169-188): one 4x4 block of fp32. *)
Definition arm_block44 {A} (X : buf A) (x H W i j : Z) (y : Z) (Y : buf A) : res (buf A) :=
  do r0 <- loadu 4 X (x + i * W + j);
  do r1 <- loadu 4 X (x + (i + 1) * W + j);
  do r2 <- loadu 4 X (x + (i + 2) * W + j);
  do r3 <- loadu 4 X (x + (i + 3) * W + j);
  let r0r1 := vtrn r0 r1 in
  let r2r3 := vtrn r2 r3 in
  let col0 := lows (fst r0r1) (fst r2r3) in
  let col1 := lows (snd r0r1) (snd r2r3) in
  let col2 := highs (fst r0r1) (fst r2r3) in
  let col3 := highs (snd r0r1) (snd r2r3) in
  do Y <- storeu Y (y + j * H + i) col0;
  do Y <- storeu Y (y + (j + 1) * H + i) col1;
  do Y <- storeu Y (y + (j + 2) * H + i) col2;
  storeu Y (y + (j + 3) * H + i) col3.

(** transpose.cpp:76-117 (and 208-249): one block of 4 rows and 8 columns of fp16. *)
Definition arm_block48 {A} (X : buf A) (x H W i j : Z) (y : Z) (Y : buf A) : res (buf A) :=
  do r0 <- loadu 8 X (x + i * W + j);
  do r1 <- loadu 8 X (x + (i + 1) * W + j);
  do r2 <- loadu 8 X (x + (i + 2) * W + j);
  do r3 <- loadu 8 X (x + (i + 3) * W + j);
  let r00 := firstn 4 r0 in let r01 := skipn 4 r0 in
  let r10 := firstn 4 r1 in let r11 := skipn 4 r1 in
  let r20 := firstn 4 r2 in let r21 := skipn 4 r2 in
  let r30 := firstn 4 r3 in let r31 := skipn 4 r3 in
  let tr00 := vtrn r00 r10 in
  let tr01 := vtrn r20 r30 in
  let tr00_32 := vtrn_pairs (fst tr00) (fst tr01) in
  let tr01_32 := vtrn_pairs (snd tr00) (snd tr01) in
  let tr10 := vtrn r01 r11 in
  let tr11 := vtrn r21 r31 in
  let tr10_32 := vtrn_pairs (fst tr10) (fst tr11) in
  let tr11_32 := vtrn_pairs (snd tr10) (snd tr11) in
  do Y <- storeu Y (y + j * H + i) (fst tr00_32);
  do Y <- storeu Y (y + (j + 1) * H + i) (fst tr01_32);
  do Y <- storeu Y (y + (j + 2) * H + i) (snd tr00_32);
  do Y <- storeu Y (y + (j + 3) * H + i) (snd tr01_32);
  do Y <- storeu Y (y + (j + 4) * H + i) (fst tr10_32);
  do Y <- storeu Y (y + (j + 5) * H + i) (fst tr11_32);
  do Y <- storeu Y (y + (j + 6) * H + i) (snd tr10_32);
  storeu Y (y + (j + 7) * H + i) (snd tr11_32).

(** transpose.cpp:284-294 (and 337-347): one 2x2 block of int64; vget_low_s64 is
    lane 0, vget_high_s64 lane 1. *)
Definition arm_block22 {A} (X : buf A) (x H W i j : Z) (y : Z) (Y : buf A) : res (buf A) :=
  do r0 <- loadu 2 X (x + i * W + j);
  do r1 <- loadu 2 X (x + (i + 1) * W + j);
  do Y <- storeu Y (y + j * H + i) [lane r0 0; lane r1 0];
  storeu Y (y + (j + 1) * H + i) [lane r0 1; lane r1 1].

(** transpose_hw_wh_{fp32,fp16,int64}, lines 13-47, 75-128, 282-308: blocks of
    [rn] rows and [cn] columns, then the columns left over (one store of [rn]
    lanes, or [rn] scalar stores for fp16), then the rows left over. *)
Definition arm_hw {A} (rn cn : Z)
    (block : buf A -> Z -> Z -> Z -> Z -> Z -> Z -> buf A -> res (buf A))
    (X : buf A) (x H W : Z) (y : Z) (Y : buf A) : res (buf A) :=
  do Y <- zloop (H / rn) (fun bi Y =>
    let i := rn * bi in
    do Y <- zloop (W / cn) (fun bj Y => block X x H W i (cn * bj) y Y) Y;
    let j_remain := W - W mod cn in
    zloop (W - j_remain) (fun k Y => column rn X x H W i (j_remain + k) y Y) Y) Y;
  let i_remain := H - H mod rn in
  zloop W (fun j Y =>
    zloop (H - i_remain) (fun k Y =>
      copy1 X (x + (i_remain + k) * W + j) (y + j * H + (i_remain + k)) Y) Y) Y.

(** Element types: 0 is kFloat32, 1 kFloat16, 132 kInt64. *)
Definition arm_hw_of {A} (dt : Z) : buf A -> Z -> Z -> Z -> Z -> buf A -> res (buf A) :=
  if dt =? 0 then arm_hw 4 4 arm_block44
  else if dt =? 1 then arm_hw 4 8 arm_block48
  else arm_hw 2 2 arm_block22.

(** Elements per vector register in transpose_bshd_bhsd_*. *)
Definition arm_lanes (dt : Z) : Z := if dt =? 0 then 4 else if dt =? 1 then 8 else 2.

(** Rounds of [for (d = 0; d <= D - n; d += n)] where D is a size_t: the
    subtraction wraps when D < n.  (The [int] d is taken not to overflow: the
    accesses leave any buffer long before.) *)
Definition arm_rounds (D n : Z) : Z := to_u64 (D - n) / n + 1.

(** transpose_bshd_bhsd_{fp32,fp16,int64}, lines 49-73, 130-154, 310-334. *)
Definition arm_bshd {A} (n : Z) (X : buf A) (x B S H D : Z) (Y : buf A) : res (buf A) :=
  zloop B (fun b Y => zloop H (fun h Y => zloop S (fun s Y =>
    let src := x + b * S * H * D + s * H * D + h * D in
    let dst := b * H * S * D + h * S * D + s * D in
    do Y <- zloop (arm_rounds D n) (fun k Y => memcpy X (src + n * k) (dst + n * k) n Y) Y;
    let d := n * arm_rounds D n in
    zloop (D - d) (fun k Y => copy1 X (src + (d + k)) (dst + (d + k)) Y) Y) Y) Y) Y.

(** transpose_last_dims_{fp32,fp16,int64}, lines 156-201, 203-280, 336-369. *)
Definition arm_last {A} (dt : Z) (X : buf A) (x batch dim0 dim1 : Z) (Y : buf A) : res (buf A) :=
  zloop batch (fun b Y => arm_hw_of dt X (x + b * dim0 * dim1) dim0 dim1 (b * dim0 * dim1) Y) Y.

(** permute.cpp:47-52 (fp32): a row of [inner] elements, four at a time. *)
Definition arm_row_fp32 {A} (inp : buf A) (src dst inner : Z) (out : buf A) : res (buf A) :=
  do out <- zloop (inner / 4) (fun k out => memcpy inp (src + 4 * k) (dst + 4 * k) 4 out) out;
  let j := 4 * (inner / 4) in
  zloop (inner - j) (fun k out => copy1 inp (src + (j + k)) (dst + (j + k)) out) out.
(** permute.cpp:115-127 (fp16): eight at a time, then four if four are left, then
    one at a time. *)
Definition arm_row_fp16 {A} (inp : buf A) (src dst inner : Z) (out : buf A) : res (buf A) :=
  do out <- zloop (inner / 8) (fun k out => memcpy inp (src + 8 * k) (dst + 8 * k) 8 out) out;
  let j := 8 * (inner / 8) in
  let four := 4 <=? inner - j in
  do out <- (if four then memcpy inp (src + j) (dst + j) 4 out else ROk out);
  let j := if four then j + 4 else j in
  zloop (inner - j) (fun k out => copy1 inp (src + (j + k)) (dst + (j + k)) out) out.

(** permute_fp32, permute.cpp:20-74 ([least] = 4) and permute_fp16, 76-147
    ([least] = 8): whole rows when the last axis stays last and has at least
    [least] elements, otherwise element by element (the loops of lines 56-72 and
    130-145 are those of permute_generic). *)
Definition arm_permute_rows {A} (least : Z) (row : buf A -> Z -> Z -> Z -> buf A -> res (buf A))
    (inp : buf A) (base : Z) (in_shape perm : list Z) (out : buf A) : res (buf A) :=
  let ndim := zlen perm in
  let out_shape := permuted_shape in_shape perm in
  let in_strides := compute_strides in_shape in
  let out_strides := compute_strides out_shape in
  let inner := last out_shape 0 in
  if (last perm 0 =? ndim - 1) && (least <=? inner) then
    let outer := numel in_shape / inner in
    zloop outer (fun o out =>
      let coord := unravel (removelast out_shape) o in
      let in_offset := dot coord (map (fun p => nth (Z.to_nat p) in_strides 0) (removelast perm)) in
      let out_offset := dot coord (removelast out_strides) in
      row inp (base + in_offset) out_offset inner out) out
  else permute_generic inp base in_shape perm out.
Definition arm_permute_of {A} (dt : Z) : buf A -> Z -> list Z -> list Z -> buf A -> res (buf A) :=
  if dt =? 0 then arm_permute_rows 4 arm_row_fp32
  else if dt =? 1 then arm_permute_rows 8 arm_row_fp16
  else permute_generic.

(** CPUPermuteOp::forward (ARM), PermuteOp.cpp:12-119, after PermuteOp::reshape. *)
Definition arm_permute_op {A} (dt : Z) (t : tns A) (axis : list Z) : res (tns A) :=
  if negb (axis_in_range (zlen (x_shape t)) axis) then RUB
  else do out <- fresh_tensor (permuted_shape (x_shape t) axis);
       if permute_supported dt
       then do b <- arm_permute_of dt (x_buf t) (x_offset t) (x_shape t) axis (x_buf out);
            ROk (mkTns (x_view out) b)
       else ROk out.

(** CPUTransposeOp::forward (ARM), TransposeOp.cpp:12-170; other element types
    only print. *)
Definition arm_transpose_supported (dt : Z) : bool := (dt =? 0) || (dt =? 1) || (dt =? 132).
Definition arm_transpose_forward {A} (dt : Z) (t : tns A) (dim0 dim1 : Z) (out : buf A) : res (buf A) :=
  let s := x_shape t in
  let d k := nth k s 0 in
  if negb (arm_transpose_supported dt) then ROk out
  else if (zlen s =? 2) && (dim0 + dim1 =? 1) then
    arm_hw_of dt (x_buf t) (x_offset t) (d 0%nat) (d 1%nat) 0 out
  else if (zlen s =? 4) && ((dim0 =? 1) && (dim1 =? 2) || (dim0 =? 2) && (dim1 =? 1)) then
    arm_bshd (arm_lanes dt) (x_buf t) (x_offset t) (d 0%nat) (d 1%nat) (d 2%nat) (d 3%nat) out
  else if negb (zlen s =? 2) && (dim0 + dim1 =? 1) then
    let batch := fold_left Z.mul (firstn (length s - 2) s) 0 in     (* int batch = 0; batch *= ... *)
    arm_last dt (x_buf t) (x_offset t) batch (d 0%nat) (d 1%nat) out
  else
    let perm := swap_at (map Z.of_nat (seq 0 (length s))) dim0 dim1 in
    arm_permute_of dt (x_buf t) (x_offset t) s perm out.
Definition arm_transpose_op {A} (dt : Z) (t : tns A) (d0 d1 : Z) : res (tns A) :=
  let rank := zlen (x_shape t) in
  let dim0 := norm_dim rank d0 in
  let dim1 := norm_dim rank d1 in
  if (0 <=? dim0) && (dim0 <? rank) && (0 <=? dim1) && (dim1 <? rank) then
    do out <- fresh_tensor (swap_at (x_shape t) dim0 dim1);
    do b <- arm_transpose_forward dt t dim0 dim1 (x_buf out);
    ROk (mkTns (x_view out) b)
  else RAbort.
