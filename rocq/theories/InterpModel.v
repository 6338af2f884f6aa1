(** Resampling of images on the CPU.
    Sources: /repo/mllm/backends/cpu/ops/InterpolateOp.cpp, /repo/mllm/core/aops/InterpolateOp.cpp.

    Simplifications: real numbers instead of float (no rounding, no overflow of int); std::vector kernels are functions;
    NYI only prints (Common.hpp:53-55), so unsupported ranks leave the output as it was allocated. *)
From Coq Require Import Reals.
From Flocq Require Import Core.
From Verif Require Import Base DTypeModel ParamModel TensorModel OpsModel MatModel AttnModel QuantModel.
Local Open Scope Z_scope.

(** InterpolateOpMode, core/aops/InterpolateOp.hpp. *)
Inductive imode := Nearest | Linear | Bilinear | Bicubic | Trilinear.

(** compute_scale_factors, InterpolateOp.cpp:14-26, one axis. *)
Definition scale_of (align : bool) (inp out : Z) : R :=
  if out =? 1 then 0%R
  else if align then (IZR (inp - 1) / IZR (out - 1))%R
  else (IZR inp / IZR out)%R.
(** "Compute source position": InterpolateOp.cpp:48-49, :88, :134-135, :218-219, :284-286, :431. *)
Definition source_pos (align : bool) (scale : R) (o : Z) : R :=
  if align then (IZR o * scale)%R else ((IZR o + 1 / 2) * scale - 1 / 2)%R.
(** std::max(0, std::min(i, n - 1)), e.g. InterpolateOp.cpp:99-100. *)
Definition clampi (i n : Z) : Z := Z.max 0 (Z.min i (n - 1)).

(** nearest_interpolate_2d, InterpolateOp.cpp:29-68; xo and oo are the places of the data pointers. *)
Definition nearest_2d (align : bool) (N C H W OH OW : Z) (x : buf R) (xo : Z) (oo : Z) (o : buf R) : res (buf R) :=
  let hs := scale_of align H OH in
  let ws := scale_of align W OW in
  zloop N (fun n => zloop C (fun c => zloop OH (fun oh => zloop OW (fun ow o =>
    let ih := Z.max 0 (Z.min (roundf (source_pos align hs oh)) (H - 1)) in
    let iw := Z.max 0 (Z.min (roundf (source_pos align ws ow)) (W - 1)) in
    do v <- loadv x (xo + (((n * C + c) * H + ih) * W + iw));
    store o (oo + (((n * C + c) * OH + oh) * OW + ow)) (Some v))))) o.

(** linear_interpolate_1d, InterpolateOp.cpp:71-112. *)
Definition linear_1d (align : bool) (N C L OL : Z) (x : buf R) (xo : Z) (oo : Z) (o : buf R) : res (buf R) :=
  let ls := scale_of align L OL in
  zloop N (fun n => zloop C (fun c => zloop OL (fun ol o =>
    let p := source_pos align ls ol in
    let low := Zfloor p in
    let high := low + 1 in
    let w_high := (p - IZR low)%R in
    let w_low := (1 - w_high)%R in
    let low := clampi low L in
    let high := clampi high L in
    do a <- loadv x (xo + ((n * C + c) * L + low));
    do b <- loadv x (xo + ((n * C + c) * L + high));
    store o (oo + ((n * C + c) * OL + ol)) (Some (w_low * a + w_high * b)%R)))) o.

(** bilinear_interpolate_2d, InterpolateOp.cpp:115-176. *)
Definition bilinear_2d (align : bool) (N C H W OH OW : Z) (x : buf R) (xo : Z) (oo : Z) (o : buf R) : res (buf R) :=
  let hs := scale_of align H OH in
  let ws := scale_of align W OW in
  zloop N (fun n => zloop C (fun c => zloop OH (fun oh => zloop OW (fun ow o =>
    let ph := source_pos align hs oh in
    let pw := source_pos align ws ow in
    let h0 := Zfloor ph in
    let w0 := Zfloor pw in
    let h1 := h0 + 1 in
    let w1 := w0 + 1 in
    let hh := (ph - IZR h0)%R in
    let wh := (pw - IZR w0)%R in
    let hl := (1 - hh)%R in
    let wl := (1 - wh)%R in
    let h0 := clampi h0 H in
    let h1 := clampi h1 H in
    let w0 := clampi w0 W in
    let w1 := clampi w1 W in
    do tl <- loadv x (xo + (((n * C + c) * H + h0) * W + w0));
    do tr <- loadv x (xo + (((n * C + c) * H + h0) * W + w1));
    do bl <- loadv x (xo + (((n * C + c) * H + h1) * W + w0));
    do br <- loadv x (xo + (((n * C + c) * H + h1) * W + w1));
    store o (oo + (((n * C + c) * OH + oh) * OW + ow)) (Some (hl * wl * tl + hl * wh * tr + hh * wl * bl + hh * wh * br)%R))))) o.

(** cubic_interp1d, InterpolateOp.cpp:179-186. *)
Definition cubic_interp1d (x0 x1 x2 x3 t : R) : R :=
  let a := (- (1 / 2) * x0 + 3 / 2 * x1 - 3 / 2 * x2 + 1 / 2 * x3)%R in
  let b := (x0 - 5 / 2 * x1 + 2 * x2 - 1 / 2 * x3)%R in
  let c := (- (1 / 2) * x0 + 1 / 2 * x2)%R in
  let d := x1 in
  (((a * t + b) * t + c) * t + d)%R.
(** bicubic_interpolate_2d, InterpolateOp.cpp:189-251; the loops over the 4 x 4 neighbours are written out. *)
Definition bicubic_2d (align : bool) (N C H W OH OW : Z) (x : buf R) (xo : Z) (oo : Z) (o : buf R) : res (buf R) :=
  let hs := scale_of align H OH in
  let ws := scale_of align W OW in
  let get n c h w := loadv x (xo + (((n * C + c) * H + clampi h H) * W + clampi w W)) in
  zloop N (fun n => zloop C (fun c => zloop OH (fun oh => zloop OW (fun ow o =>
    let ph := source_pos align hs oh in
    let pw := source_pos align ws ow in
    let ih := Zfloor ph in
    let iw := Zfloor pw in
    let hf := (ph - IZR ih)%R in
    let wf := (pw - IZR iw)%R in
    let coeff i :=
      do r0 <- get n c (ih + i - 1) (iw + 0 - 1);
      do r1 <- get n c (ih + i - 1) (iw + 1 - 1);
      do r2 <- get n c (ih + i - 1) (iw + 2 - 1);
      do r3 <- get n c (ih + i - 1) (iw + 3 - 1);
      ROk (cubic_interp1d r0 r1 r2 r3 wf) in
    do c0 <- coeff 0;
    do c1 <- coeff 1;
    do c2 <- coeff 2;
    do c3 <- coeff 3;
    store o (oo + (((n * C + c) * OH + oh) * OW + ow)) (Some (cubic_interp1d c0 c1 c2 c3 hf)))))) o.

(** trilinear_interpolate_3d, InterpolateOp.cpp:254-343. *)
Definition trilinear_3d (align : bool) (N C D H W OD OH OW : Z) (x : buf R) (xo : Z) (oo : Z) (o : buf R) : res (buf R) :=
  let ds := scale_of align D OD in
  let hs := scale_of align H OH in
  let ws := scale_of align W OW in
  zloop N (fun n => zloop C (fun c => zloop OD (fun od => zloop OH (fun oh => zloop OW (fun ow o =>
    let pd := source_pos align ds od in
    let ph := source_pos align hs oh in
    let pw := source_pos align ws ow in
    let d0 := Zfloor pd in
    let h0 := Zfloor ph in
    let w0 := Zfloor pw in
    let d1 := d0 + 1 in
    let h1 := h0 + 1 in
    let w1 := w0 + 1 in
    let dh := (pd - IZR d0)%R in
    let hh := (ph - IZR h0)%R in
    let wh := (pw - IZR w0)%R in
    let dl := (1 - dh)%R in
    let hl := (1 - hh)%R in
    let wl := (1 - wh)%R in
    let d0 := clampi d0 D in
    let d1 := clampi d1 D in
    let h0 := clampi h0 H in
    let h1 := clampi h1 H in
    let w0 := clampi w0 W in
    let w1 := clampi w1 W in
    let get d h w := loadv x (xo + ((((n * C + c) * D + d) * H + h) * W + w)) in
    do v000 <- get d0 h0 w0;
    do v001 <- get d0 h0 w1;
    do v010 <- get d0 h1 w0;
    do v011 <- get d0 h1 w1;
    do v100 <- get d1 h0 w0;
    do v101 <- get d1 h0 w1;
    do v110 <- get d1 h1 w0;
    do v111 <- get d1 h1 w1;
    store o (oo + ((((n * C + c) * OD + od) * OH + oh) * OW + ow))
      (Some (dl * hl * wl * v000 + dl * hl * wh * v001 + dl * hh * wl * v010 + dl * hh * wh * v011
             + dh * hl * wl * v100 + dh * hl * wh * v101 + dh * hh * wl * v110 + dh * hh * wh * v111)%R)))))) o.

(** gaussian_blur_nchw, InterpolateOp.cpp:369-416. *)
Definition blur_radius (sigma : R) : Z := Z.max 1 (Zceil (3 * sigma)).
(** The kernel before normalisation, :373-377; entry k + radius of the vector. *)
Definition blur_weight (sigma : R) (k : Z) : R := exp (- (IZR k * IZR k) / (2 * sigma * sigma)).
Definition blur_sum (sigma : R) : R :=
  let r := blur_radius sigma in
  fold_left (fun s i => (s + blur_weight sigma (Z.of_nat i - r))%R) (seq 0 (Z.to_nat (2 * r + 1))) 0%R.
Definition blur_kernel (sigma : R) (k : Z) : R := (blur_weight sigma k / blur_sum sigma)%R.
(** One output of a pass: :390-397 and :406-413; [at_ k] is the place of the neighbour k. *)
Definition blur_acc (sigma : R) (src : buf R) (at_ : Z -> Z) : res R :=
  let r := blur_radius sigma in
  zloop (2 * r + 1) (fun i acc => do v <- loadv src (at_ (i - r)); ROk (acc + blur_kernel sigma (i - r) * v)%R) 0%R.
Definition blur (N C H W : Z) (sigma : R) (x : buf R) (xo : Z) : res (buf R) :=
  let z := mkBuf (N * C * H * W) (fun _ => Some 0%R) in
  do tmp <- zloop N (fun n => zloop C (fun c => zloop H (fun h => zloop W (fun w o =>
      do acc <- blur_acc sigma x (fun k => xo + (((n * C + c) * H + h) * W + Z.min (Z.max (w + k) 0) (W - 1)));
      store o (((n * C + c) * H + h) * W + w) (Some acc))))) z;
  zloop N (fun n => zloop C (fun c => zloop H (fun h => zloop W (fun w o =>
      do acc <- blur_acc sigma tmp (fun k => ((n * C + c) * H + Z.min (Z.max (h + k) 0) (H - 1)) * W + w);
      store o (((n * C + c) * H + h) * W + w) (Some acc))))) z.
(** "Antialias for downsampling", InterpolateOp.cpp:467-479 and :486-498: the data to be resampled and its place. *)
Definition rgt (a b : R) : bool := if Rlt_dec b a then true else false.
Definition antialiased (aa align : bool) (N C H W OH OW : Z) (x : buf R) (xo : Z) : res (buf R * Z) :=
  let hs := scale_of align H OH in
  let ws := scale_of align W OW in
  if aa && (rgt hs 1 || rgt ws 1) then
    do b <- blur N C H W (1 / 2 * Rmax hs ws) x xo;
    ROk (b, 0)
  else ROk (x, xo).

(** CPUInterpolateOp::forward for float, InterpolateOp.cpp:345-514; the ranks and modes without an implementation leave the
    output alone. *)
Definition interpolate_forward (mode : imode) (align aa : bool) (ish osh : list Z) (x : buf R) (xo : Z) (o : buf R) : res (buf R) :=
  match mode, ish, osh with
  | Nearest, [N; C; L], [_; _; OL] => nearest_2d align N C 1 L 1 OL x xo 0 o
  | Nearest, [N; C; H; W], [_; _; OH; OW] => nearest_2d align N C H W OH OW x xo 0 o
  | Nearest, [N; C; D; H; W], [_; _; OD; OH; OW] =>
      let ds := scale_of align D OD in
      zloop OD (fun od o =>
        let id := Z.max 0 (Z.min (roundf (source_pos align ds od)) (D - 1)) in
        zloop N (fun n => zloop C (fun c o =>
          nearest_2d align 1 1 H W OH OW x (xo + ((n * C + c) * D + id) * H * W) (((n * C + c) * OD + od) * OH * OW) o)) o) o
  | Linear, [N; C; L], [_; _; OL] => linear_1d align N C L OL x xo 0 o
  | Bilinear, [N; C; H; W], [_; _; OH; OW] =>
      do s <- antialiased aa align N C H W OH OW x xo;
      bilinear_2d align N C H W OH OW (fst s) (snd s) 0 o
  | Bicubic, [N; C; H; W], [_; _; OH; OW] =>
      do s <- antialiased aa align N C H W OH OW x xo;
      bicubic_2d align N C H W OH OW (fst s) (snd s) 0 o
  | Trilinear, [N; C; D; H; W], [_; _; OD; OH; OW] => trilinear_3d align N C D H W OD OH OW x xo 0 o
  | _, _, _ => ROk o
  end.

(** InterpolateOp::reshape, core/aops/InterpolateOp.cpp:26-64. *)
Definition interpolate_shape (shape size : list Z) (factor : list R) : res (list Z) :=
  match size, factor with
  | _ :: _, _ => if zlen size <=? zlen shape then ROk (firstn (length shape - length size) shape ++ size) else RAbort
  | [], _ :: _ =>
      if zlen factor <=? zlen shape
      then ROk (firstn (length shape - length factor) shape ++
                map (fun p => Ztrunc (IZR (fst p) * snd p)) (combine (skipn (length shape - length factor) shape) factor))
      else RAbort
  | [], [] => ROk shape
  end.
Definition interpolate_op (mode : imode) (align aa : bool) (size : list Z) (factor : list R) (t : tns R) : res (tns R) :=
  do osh <- interpolate_shape (x_shape t) size factor;
  do out <- fresh_tensor osh;
  do o <- interpolate_forward mode align aa (x_shape t) osh (x_buf t) (x_offset t) (x_buf out);
  ROk (mkTns (x_view out) o).
