(** Convolutions and average pooling on the CPU, fp32.
    Sources: /repo/mllm/core/aops/{Conv1DOp,Conv2DOp,Conv3DOp,AvgPool1dOp}.cpp, the files of the same names in
    /repo/mllm/backends/cpu/ops, backends/cpu/kernels/arm/{conv2d,conv3d}.cpp.

    Simplifications: those of OpsModel.v and MatModel.v; int arithmetic is exact; "x += a * b" is
    [add x (mul a b)], fused or not; the options are as given (a vector option has as many
    entries as the operator reads).  The iterations of a parallel loop run one after the
    other in an arbitrary order, a parameter. *)
From Verif Require Import Base DTypeModel ParamModel TensorModel OpsModel MatModel.
Local Open Scope Z_scope.

(** The lambda out_shape: core/aops/Conv1DOp.cpp:85-88, Conv2DOp.cpp:99-102, Conv3DOp.cpp:85-88;
    division of ints truncates; a stride of 0 divides by zero. *)
Definition out_extent (dim kernel stride padding dilation : Z) : res Z :=
  if stride =? 0 then RUB
  else ROk (Z.quot (dim + 2 * padding - dilation * (kernel - 1) - 1) stride + 1).

(** Conv1DOpOptions, core/aops/Conv1DOp.hpp:16-25. *)
Record conv1d_options := mkConv1d {
  c1_in : Z; c1_out : Z; c1_kernel : Z; c1_stride : Z; c1_padding : Z; c1_groups : Z; c1_dilation : Z }.

Section Conv.
Context {A : Type}.
Variable zero : A.
Variable add : A -> A -> A.
Variable mul : A -> A -> A.

(** "if (bias_ptr) { sum += bias_ptr[oc]; }" is [plus_vec] of MatModel.v. *)
Definition bias_ptr (bias : option (tns A)) : option (buf A * Z) := option_map (fun t => (x_buf t, x_offset t)) bias.

(** std::fill_n(output_ptr, n, 0.0f) *)
Definition fill_zero (n : Z) (o : buf A) : res (buf A) := zloop n (fun i o => store o i (Some zero)) o.

(** Conv1DOp::reshape, core/aops/Conv1DOp.cpp:55-93. *)
Definition conv1d_reshape (o : conv1d_options) (shape : list Z) : res (list Z) :=
  match shape with
  | [batch; ic; seq] =>
      if negb (ic =? c1_in o) then RAbort
      else if c1_groups o =? 0 then RUB
      else if negb (Z.rem ic (c1_groups o) =? 0) then RAbort
      else if negb (Z.rem (c1_out o) (c1_groups o) =? 0) then RAbort
      else do so <- out_extent seq (c1_kernel o) (c1_stride o) (c1_padding o) (c1_dilation o);
           ROk [batch; c1_out o; so]
  | _ => RAbort
  end.

(** One iteration of the loop of CPUConv1DOp::forward, backends/cpu/ops/Conv1DOp.cpp:51-88. *)
Definition conv1d_cell (o : conv1d_options) (ic seq oc so : Z) (w : buf A) (wo : Z) (bias : option (buf A * Z))
  (x : buf A) (xo : Z) (idx : Z) (out : buf A) : res (buf A) :=
  let icpg := ic / c1_groups o in
  let ocpg := oc / c1_groups o in
  let b := idx / (oc * so) in
  let c := idx mod (oc * so) / so in
  let os := idx mod so in
  let group_idx := c / ocpg in
  let oc_in_group := c mod ocpg in
  do sum <- zloop icpg (fun ic_in_group sum =>
      let i := group_idx * icpg + ic_in_group in
      zloop (c1_kernel o) (fun k sum =>
        let pos := os * c1_stride o - c1_padding o + k * c1_dilation o in
        if (0 <=? pos) && (pos <? seq) then
          do a <- loadv x (xo + (b * (ic * seq) + i * seq + pos));
          do v <- loadv w (wo + (group_idx * (ocpg * icpg * c1_kernel o) + oc_in_group * (icpg * c1_kernel o) + ic_in_group * c1_kernel o + k));
          ROk (add sum (mul a v))
        else ROk sum) sum) zero;
  do sum <- plus_vec add bias c sum;
  store out (b * (oc * so) + c * so + os) (Some sum).

(** Conv1D: reshape, allocation, CPUConv1DOp::forward (backends/cpu/ops/Conv1DOp.cpp:13-92). *)
Definition conv1d_op (order : list Z) (o : conv1d_options) (weight : tns A) (bias : option (tns A)) (x : tns A) : res (tns A) :=
  do s <- conv1d_reshape o (x_shape x);
  do out <- fresh_tensor s;
  match x_shape x, s with
  | [batch; ic; seq], [_; oc; so] =>
      do b <- fill_zero (numel s) (x_buf out);
      do b <- each order (conv1d_cell o ic seq oc so (x_buf weight) (x_offset weight) (bias_ptr bias) (x_buf x) (x_offset x)) b;
      ROk (mkTns (x_view out) b)
  | _, _ => RAbort
  end.

(* ---------------- Conv3D ---------------- *)
Record conv3d_options := mkConv3d {
  c3_in : Z; c3_out : Z; c3_kd : Z; c3_kh : Z; c3_kw : Z; c3_sd : Z; c3_sh : Z; c3_sw : Z }.

(** Conv3DOp::reshape, core/aops/Conv3DOp.cpp:60-101. *)
Definition conv3d_reshape (o : conv3d_options) (shape : list Z) : res (list Z) :=
  match shape with
  | [batch; ic; d; h; w] =>
      if negb (ic =? c3_in o) then RAbort
      else do od <- out_extent d (c3_kd o) (c3_sd o) 0 1;
           do oh <- out_extent h (c3_kh o) (c3_sh o) 0 1;
           do ow <- out_extent w (c3_kw o) (c3_sw o) 0 1;
           ROk [batch; c3_out o; od; oh; ow]
  | _ => RAbort
  end.

(** The loops over ic, kd, kh, kw, conv3d.cpp:66-77 (scalar; 84-95 with a stride). *)
Definition conv3d_scalar (ic kd kh kw : Z) (x : buf A) (inp in_c in_d in_w : Z) (w : buf A) (wp k_ic k_d : Z) : res A :=
  zloop ic (fun c s => zloop kd (fun z s => zloop kh (fun y s => zloop kw (fun k s =>
    do a <- loadv x (inp + (c * in_c + z * in_d + y * in_w + k));
    do v <- loadv w (wp + (c * k_ic + z * k_d + y * kw + k));
    ROk (add s (mul a v))) s) s) s) zero.
(** The same with vectors of 4 outputs, conv3d.cpp:41-58. *)
Definition conv3d_vector (ic kd kh kw : Z) (x : buf A) (inp in_c in_d in_w : Z) (w : buf A) (wp k_ic k_d : Z) : res (list A) :=
  zloop ic (fun c s => zloop kd (fun z s => zloop kh (fun y s => zloop kw (fun k s =>
    do a <- load_vec x (inp + (c * in_c + z * in_d + y * in_w + k)) 4;
    do v <- loadv w (wp + (c * k_ic + z * k_d + y * kw + k));
    ROk (vadd add s (map (fun e => mul e v) a))) s) s) s) (repeat zero 4).

(** conv3d_fp32_baseline, kernels/arm/conv3d.cpp:11-101. *)
Definition conv3d_baseline (o : conv3d_options) (batch ic d h w : Z) (x : buf A) (xo : Z) (wt : buf A) (wo : Z)
  (bias : option (buf A * Z)) (out : buf A) : res (buf A) :=
  let od := Z.quot (d - c3_kd o) (c3_sd o) + 1 in
  let oh := Z.quot (h - c3_kh o) (c3_sh o) + 1 in
  let ow := Z.quot (w - c3_kw o) (c3_sw o) + 1 in
  let in_d := h * w in
  let in_c := d * in_d in
  let in_b := ic * in_c in
  let out_d := oh * ow in
  let out_c := od * out_d in
  let out_b := c3_out o * out_c in
  let k_d := c3_kh o * c3_kw o in
  let k_ic := c3_kd o * k_d in
  let k_oc := ic * k_ic in
  zloop batch (fun b out => zloop (c3_out o) (fun oc out => zloop od (fun z out => zloop oh (fun y out =>
    let inp := xo + b * in_b + (z * c3_sd o * in_d + y * c3_sh o * w) in
    let wp := wo + oc * k_oc in
    let outp := b * out_b + (oc * out_c + z * out_d + y * ow) in
    let scalar t out :=
      do s <- conv3d_scalar ic (c3_kd o) (c3_kh o) (c3_kw o) x (inp + t * c3_sw o) in_c in_d w wt wp k_ic k_d;
      do s <- plus_vec add bias oc s;
      store out (outp + t) (Some s) in
    if c3_sw o =? 1 then
      let full := Z.max 0 ow / 4 in
      do out <- zloop full (fun q out =>
        do l <- conv3d_vector ic (c3_kd o) (c3_kh o) (c3_kw o) x (inp + 4 * q) in_c in_d w wt wp k_ic k_d;
        do l <- match bias with
                | None => ROk l
                | Some (p, po) => do v <- loadv p (po + oc); ROk (map (fun e => add e v) l)
                end;
        zloop 4 (fun j out => store out (outp + 4 * q + j) (nth_error l (Z.to_nat j))) out) out;
      zloop (ow - 4 * full) (fun t out => scalar (4 * full + t) out) out
    else zloop ow scalar out) out) out) out) out.

(** Conv3D: reshape, allocation, CPUConv3DOp::forward (backends/cpu/ops/Conv3DOp.cpp:13-42); only ARM has
    a kernel. *)
Definition conv3d_op (cpu : isa) (o : conv3d_options) (weight : tns A) (bias : option (tns A)) (x : tns A) : res (tns A) :=
  do s <- conv3d_reshape o (x_shape x);
  do out <- fresh_tensor s;
  match cpu, x_shape x with
  | Neon, [batch; ic; d; h; w] =>
      do b <- conv3d_baseline o batch ic d h w (x_buf x) (x_offset x) (x_buf weight) (x_offset weight) (bias_ptr bias) (x_buf out);
      ROk (mkTns (x_view out) b)
  | _, _ => ROk out
  end.

(* ---------------- Conv2D ---------------- *)
Record conv2d_options := mkConv2d {
  c2_in : Z; c2_out : Z; c2_kh : Z; c2_kw : Z; c2_sh : Z; c2_sw : Z; c2_ph : Z; c2_pw : Z; c2_dh : Z; c2_dw : Z }.

(** Conv2DOp::reshape, core/aops/Conv2DOp.cpp:63-122 (not the QNN layouts). *)
Definition conv2d_reshape (o : conv2d_options) (shape : list Z) : res (list Z) :=
  match shape with
  | [batch; ic; h; w] =>
      if negb (ic =? c2_in o) then RAbort
      else do oh <- out_extent h (c2_kh o) (c2_sh o) (c2_ph o) (c2_dh o);
           do ow <- out_extent w (c2_kw o) (c2_sw o) (c2_pw o) (c2_dw o);
           ROk [batch; c2_out o; oh; ow]
  | _ => RAbort
  end.

(** conv2d_fp32_im2col_weight, kernels/arm/conv2d.cpp:80-95. *)
Definition im2col_weight (oc ic kh kw : Z) (src : buf A) (so : Z) (dst : buf A) : res (buf A) :=
  zloop oc (fun o dst => zloop ic (fun i dst => zloop kh (fun y dst => zloop kw (fun x dst =>
    let idx := o * (ic * kh * kw) + i * (kh * kw) + y * kw + x in
    copy1 src (so + idx) idx dst) dst) dst) dst) dst.

(** One row of outputs, kernels/arm/conv2d.cpp:28-68: [col_data] advances with every element; the row
    is written by vectors of 4 and a remainder.  The casts to unsigned test 0 <= y < height and
    0 <= x < width. *)
Definition im2col_row (ow h w sw : Z) (inp : Z -> Z) (cur_y start_x : Z) (x : buf A) (st : Z * buf A) : res (Z * buf A) :=
  vec_for 4 ow (fun ox st =>
    let cur_x := start_x + ox * sw in
    do v <- (if (0 <=? cur_y) && (cur_y <? h) then
               if (0 <=? cur_x) && (cur_x <? w) then load x (inp (cur_y * w + cur_x)) else ROk (Some zero)
             else ROk (Some zero));
    do c <- store (snd st) (fst st) v; ROk (fst st + 1, c)) st.
(** conv2d_fp32_im2col_input, kernels/arm/conv2d.cpp:11-78; input_data is advanced by one channel per
    iteration, here a multiple of the channel size. *)
Definition im2col_input (o : conv2d_options) (ic h w : Z) (x : buf A) (xo : Z) (col : buf A) : res (buf A) :=
  let oh := Z.quot (h + 2 * c2_ph o - (c2_dh o * (c2_kh o - 1) + 1)) (c2_sh o) + 1 in
  let ow := Z.quot (w + 2 * c2_pw o - (c2_dw o * (c2_kw o - 1) + 1)) (c2_sw o) + 1 in
  do st <- zloop ic (fun c st => zloop (c2_kh o) (fun ky st => zloop (c2_kw o) (fun kx st =>
      let start_y := - c2_ph o + ky * c2_dh o in
      let start_x := - c2_pw o + kx * c2_dw o in
      zloop oh (fun oy st =>
        im2col_row ow h w (c2_sw o) (fun i => xo + c * (h * w) + i) (start_y + oy * c2_sh o) start_x x st) st) st) st) (0, col);
  ROk (snd st).

(** CPUConv2DOp::load, backends/cpu/ops/Conv2DOp.cpp:13-73, for a weight of type fp32 already pulled: the
    packed weight [out_channels, in_channels * kh * kw]; other architectures exit. *)
Definition conv2d_load (cpu : isa) (o : conv2d_options) (weight : tns A) : res (tns A) :=
  do packed <- fresh_tensor [c2_out o; c2_in o * c2_kh o * c2_kw o];
  match cpu with
  | Neon => do b <- im2col_weight (c2_out o) (c2_in o) (c2_kh o) (c2_kw o) (x_buf weight) (x_offset weight) (x_buf packed);
            ROk (mkTns (x_view packed) b)
  | _ => RAbort
  end.

(** Conv2D: reshape, allocation, CPUConv2DOp::forward (backends/cpu/ops/Conv2DOp.cpp:75-181) without BLAS;
    [weight] is the packed weight.  The buffer of columns is reused from batch to batch. *)
Definition conv2d_forward (cpu : isa) (threads : Z) (o : conv2d_options) (weight : tns A) (bias : option (tns A)) (x : tns A) : res (tns A) :=
  do s <- conv2d_reshape o (x_shape x);
  do out <- fresh_tensor s;
  match cpu, x_shape x, s with
  | Neon, [batch; ic; h; w], [_; oc; oh; ow] =>
      let M := c2_out o in
      let K := c2_in o * c2_kh o * c2_kw o in
      let N := oh * ow in
      do packed <- fresh_tensor [K; N];
      do st <- zloop batch (fun b st =>
          do col <- im2col_input o (c2_in o) h w (x_buf x) (x_offset x + b * (ic * h * w)) (fst st);
          let co := b * (oc * oh * ow) in
          do r <- blas_matmul zero add mul cpu false M K N (x_buf weight) (x_offset weight) col 0 co threads None (snd st);
          do r <- match bias with
                  | None => ROk r
                  | Some t => zloop M (fun m r =>
                      do v <- loadv (x_buf t) (x_offset t + m);
                      zloop N (fun n r => do s <- loadv r (co + (m * N + n)); store r (co + (m * N + n)) (Some (add s v))) r) r
                  end;
          ROk (col, r)) (x_buf packed, x_buf out);
      ROk (mkTns (x_view out) (snd st))
  | _, _, _ => RAbort   (* exits on x86 once there is a batch *)
  end.
Definition conv2d_op (cpu : isa) (threads : Z) (o : conv2d_options) (weight : tns A) (bias : option (tns A)) (x : tns A) : res (tns A) :=
  do packed <- conv2d_load cpu o weight; conv2d_forward cpu threads o packed bias x.

(* ---------------- AvgPool1d ---------------- *)
(** [divn s n]: s / static_cast<float>(n). *)
Variable divn : A -> Z -> A.
Record pool_options := mkPool { ap_kernel : Z; ap_stride : Z; ap_padding : Z; ap_ceil : bool; ap_include_pad : bool }.

(** AvgPool1dOp::reshape, core/aops/AvgPool1dOp.cpp:14-44; std::ceil of a float quotient, exact here. *)
Definition pool_reshape (o : pool_options) (shape : list Z) : res (list Z) :=
  match shape with
  | [batch; ch; len] =>
      if ap_stride o =? 0 then RUB
      else
        let n := len + 2 * ap_padding o - ap_kernel o in
        ROk [batch; ch; (if ap_ceil o then - ((- n) / ap_stride o) else Z.quot n (ap_stride o)) + 1]
  | _ => RAbort
  end.
(** One iteration, backends/cpu/ops/AvgPool1dOp.cpp:42-75. *)
Definition pool_cell (o : pool_options) (ch len pooled : Z) (x : buf A) (xo : Z) (idx : Z) (out : buf A) : res (buf A) :=
  let b := idx / (ch * pooled) in
  let c := idx mod (ch * pooled) / pooled in
  let out_pos := idx mod pooled in
  let start_pos := out_pos * ap_stride o - ap_padding o in
  do sc <- zloop (ap_kernel o) (fun k sc =>
      let pos := start_pos + k in
      if (0 <=? pos) && (pos <? len)
      then do v <- loadv x (xo + (b * (ch * len) + c * len + pos)); ROk (add (fst sc) v, snd sc + 1)
      else if ap_include_pad o then ROk (fst sc, snd sc + 1) else ROk sc) (zero, 0);
  if 0 <? snd sc then store out (b * (ch * pooled) + c * pooled + out_pos) (Some (divn (fst sc) (snd sc))) else ROk out.
(** AvgPool1d: reshape, allocation, CPUAvgPool1dOp::forward (backends/cpu/ops/AvgPool1dOp.cpp:12-80). *)
Definition pool_op (order : list Z) (o : pool_options) (x : tns A) : res (tns A) :=
  do s <- pool_reshape o (x_shape x);
  do out <- fresh_tensor s;
  match x_shape x, s with
  | [_; ch; len], [_; _; pooled] =>
      do b <- fill_zero (numel s) (x_buf out);
      do b <- each order (pool_cell o ch len pooled (x_buf x) (x_offset x)) b;
      ROk (mkTns (x_view out) b)
  | _, _ => RAbort
  end.
End Conv.
