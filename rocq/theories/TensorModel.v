(** Tensor views and the element-moving CPU operators.
    Sources: /repo/mllm/core/TensorViewImpl.{hpp,cpp}, core/Tensor.cpp,
    core/aops/{Slice,View,Reshape,Split,Concat,Stack,Permute,Transpose,Contiguous,Clone,Copy,Repeat}Op.cpp,
    backends/cpu/ops/*Op.cpp, backends/cpu/kernels/{common/permute-inl.hpp,x86/transpose.cpp}.

    Simplifications common to this file:
    - memory is modelled per element (element types with one element per block,
      i.e. the fp32/fp16/integer types these kernels accept), an element being an
      opaque value of type [A]; [None] is a cell never written (fresh allocation);
    - int32/size_t arithmetic is exact (no overflow), except where a definition
      says otherwise;
    - a kernel's output buffer is a fresh allocation, distinct from its inputs;
    - the parallel/serial dispatch layer is not modelled: an operator is its
      [reshape] (shape computation), [setup] (allocation) and [forward]. *)
From Verif Require Import Base DTypeModel ParamModel.
Local Open Scope Z_scope.

(** for (int k = 0; k < n; ++k) body(k) *)
Fixpoint loop {S} (n : nat) (body : Z -> S -> res S) (s : S) : res S :=
  match n with
  | O => ROk s
  | Datatypes.S m => do s' <- loop m body s; body (Z.of_nat m) s'
  end.
Definition zloop {S} (n : Z) (body : Z -> S -> res S) (s : S) : res S := loop (Z.to_nat n) body s.

(** for (auto& x : l) body(x) *)
Fixpoint each {X S} (l : list X) (body : X -> S -> res S) (s : S) : res S :=
  match l with
  | [] => ROk s
  | x :: r => do s' <- body x s; each r body s'
  end.

(** Allocated element memory: [b_len] cells. *)
Record buf (A : Type) := mkBuf { b_len : Z; b_at : Z -> option A }.
Arguments mkBuf {A}.
Arguments b_len {A}.
Arguments b_at {A}.

(** TensorViewImpl's fields, /repo/mllm/core/TensorViewImpl.hpp:96-105. *)
Record view := mkV { v_shape : list Z; v_stride : list Z; v_offset : Z }.
Record tns (A : Type) := mkTns { x_view : view; x_buf : buf A }.
Arguments mkTns {A}.
Arguments x_view {A}.
Arguments x_buf {A}.

Definition x_shape {A} (t : tns A) := v_shape (x_view t).
Definition x_stride {A} (t : tns A) := v_stride (x_view t).
Definition x_offset {A} (t : tns A) := v_offset (x_view t).

(** TensorViewImpl::numel, TensorViewImpl.cpp:28-32. *)
Definition numel (shape : list Z) : Z := fold_left Z.mul shape 1.

(** TensorViewImpl::isContiguous, TensorViewImpl.cpp:36-47: right-to-left scan.
    The accumulator is (still contiguous, expected_stride). *)
Fixpoint contig_scan (shape stride : list Z) : bool * Z :=
  match shape, stride with
  | d :: ds, s :: ss =>
      let '(ok, expected) := contig_scan ds ss in
      (ok && (s =? expected), expected * d)
  | _, _ => (true, 1)
  end.
Definition is_contiguous (v : view) : bool := fst (contig_scan (v_shape v) (v_stride v)).

(** TensorViewImpl::isContiguousN, TensorViewImpl.cpp:49-62. *)
Definition is_contiguous_n (v : view) (n : Z) : bool :=
  if n <=? 0 then true
  else let k := (length (v_shape v) - Z.to_nat n)%nat in
       fst (contig_scan (skipn k (v_shape v)) (skipn k (v_stride v))).

(** TensorViewImpl::create(shape, storage), TensorViewImpl.cpp:84-101.  The
    arrays have 16 entries, and rank 0 writes stride_[-1]. *)
Definition create_view (shape : list Z) : res view :=
  if (1 <=? zlen shape) && (zlen shape <=? 16)
  then ROk (mkV shape (default_strides shape) 0) else RUB.
(** TensorViewImpl::create(offset, shape, stride, storage), TensorViewImpl.cpp:123-137. *)
Definition create_strided (offset : Z) (shape stride : list Z) : res view :=
  if (zlen shape <=? 16) && (zlen stride <=? 16) then ROk (mkV shape stride offset) else RUB.

(** TensorViewImpl::offsettedPtr, TensorViewImpl.hpp:81-89: sum of
    offsets[i] * stride_[i]. *)
Fixpoint dot (idx stride : list Z) : Z :=
  match idx, stride with i :: r, s :: q => i * s + dot r q | _, _ => 0 end.
Definition offsetted (v : view) (idx : list Z) : res Z :=
  if zlen idx =? zlen (v_shape v) then ROk (v_offset v + dot idx (v_stride v)) else RAbort.

(** Pointer accesses. *)
Definition load {A} (b : buf A) (i : Z) : res (option A) :=
  if (0 <=? i) && (i <? b_len b) then ROk (b_at b i) else RUB.
Definition store {A} (b : buf A) (i : Z) (x : option A) : res (buf A) :=
  if (0 <=? i) && (i <? b_len b)
  then ROk (mkBuf (b_len b) (fun j => if j =? i then x else b_at b j)) else RUB.
(** *(dst + d) = *(src + s) *)
Definition copy1 {A} (src : buf A) (s d : Z) (dst : buf A) : res (buf A) :=
  do x <- load src s; store dst d x.
(** std::memcpy / std::copy of n elements *)
Definition memcpy {A} (src : buf A) (s d n : Z) (dst : buf A) : res (buf A) :=
  zloop n (fun k => copy1 src (s + k) (d + k)) dst.

(** Tensor::empty + alloc, core/Tensor.cpp:71-82: fresh storage of numel cells. *)
Definition fresh_tensor {A} (shape : list Z) : res (tns A) :=
  do v <- create_view shape; ROk (mkTns v (mkBuf (numel shape) (fun _ => None))).

(** Tensor::at<T>(idx) as a value, core/Tensor.hpp:696-698. *)
Definition at_load {A} (t : tns A) (idx : list Z) : res (option A) :=
  do o <- offsetted (x_view t) idx; load (x_buf t) o.
Definition at_store {A} (t : tns A) (idx : list Z) (x : option A) : res (tns A) :=
  do o <- offsetted (x_view t) idx; do b <- store (x_buf t) o x; ROk (mkTns (x_view t) b).

(** The loop "for (k = n-1; k >= 0; --k) { index[k] = temp % shape[k]; temp /= shape[k]; }"
    (e.g. backends/cpu/ops/ConcatOp.cpp:93-99).  Returns the index and the rest. *)
Fixpoint unravel_aux (shape : list Z) (temp : Z) : list Z * Z :=
  match shape with
  | [] => ([], temp)
  | d :: ds => let '(idx, t) := unravel_aux ds temp in (t mod d :: idx, t / d)
  end.
Definition unravel (shape : list Z) (i : Z) : list Z := fst (unravel_aux shape i).

(** "if (dim < 0) dim += rank;" *)
Definition norm_dim (rank dim : Z) : Z := if dim <? 0 then dim + rank else dim.

(** std::vector operator[] *)
Definition vget {X} (l : list X) (i : Z) : res X :=
  if 0 <=? i then match nth_error l (Z.to_nat i) with Some x => ROk x | None => RUB end else RUB.
Definition vset {X} (l : list X) (i : Z) (x : X) : res (list X) :=
  if (0 <=? i) && (i <? zlen l) then ROk (upd_nth (Z.to_nat i) (fun _ => x) l) else RUB.

(* ------------------------------------------------------------------ *)
(** ** Slice: SliceOp::reshape, core/aops/SliceOp.cpp:25-75 *)

Definition kAll : Z := 2147483633.  (* 0x7FFFFFF1, core/SlicePrimitives.hpp:11-15 *)
Record slice_pair := mkSl { sl_start : Z; sl_end : Z; sl_step : Z }.
(** SliceIndicesPair(int32_t v), core/SlicePrimitives.cpp:8-13. *)
Definition slice_at (v : Z) : slice_pair :=
  if v =? kAll then mkSl kAll kAll 1 else mkSl v (v + 1) 1.

(** Lines 43-67 for one dimension of extent d and stride st: (start * st, count, st * step).
    A step below 1 only prints (NYI does not stop); step 0 divides by zero. *)
Definition slice_dim (d st : Z) (p : slice_pair) : res (Z * Z * Z) :=
  let start := sl_start p in
  let end_ := sl_end p in
  let step := sl_step p in
  let start := if start =? kAll then 0 else start in
  let end_ := if end_ =? kAll then d else end_ in
  let both := (start <? 0) && negb (end_ =? kAll) && (end_ - start =? 1) in
  let end_ := if both then end_ + d else end_ in
  let start := if both then start + d else start in
  let start := if start <? 0 then start + d else start in
  let end_ := if end_ <? 0 then end_ + d else end_ in
  if start <? end_ then
    if step =? 0 then RUB
    else ROk (start * st, Z.quot (end_ - start + step - 1) step, st * step)
  else ROk (start * st, 0, st * step).

Fixpoint slice_dims (shape stride : list Z) (ps : list slice_pair) : res (Z * list Z * list Z) :=
  match shape, stride, ps with
  | d :: ds, st :: sts, p :: ps' =>
      do x <- slice_dim d st p;
      do y <- slice_dims ds sts ps';
      ROk (fst (fst x) + fst (fst y), snd (fst x) :: snd (fst y), snd x :: snd y)
  | _, _, _ => ROk (0, [], [])
  end.

Definition slice_view (v : view) (ps : list slice_pair) : res view :=
  if zlen ps =? zlen (v_shape v) then
    do x <- slice_dims (v_shape v) (v_stride v) ps;
    create_strided (v_offset v + fst (fst x)) (snd (fst x)) (snd x)
  else RAbort.
(** With enable_ssa = false the result shares the storage. *)
Definition slice {A} (t : tns A) (ps : list slice_pair) : res (tns A) :=
  do v <- slice_view (x_view t) ps; ROk (mkTns v (x_buf t)).

(* ------------------------------------------------------------------ *)
(** ** View: ViewOp::reshape, core/aops/ViewOp.cpp:27-101 *)

(** Lines 36-45: position of the single -1, product of the others. *)
Fixpoint view_scan (i : Z) (l : list Z) (infer product : Z) : res (Z * Z) :=
  match l with
  | [] => ROk (infer, product)
  | d :: r =>
      if d =? -1 then if infer =? -1 then view_scan (i + 1) r i product else RAbort
      else if 0 <=? d then view_scan (i + 1) r infer (product * d) else RAbort
  end.

Definition actual_shape (n : Z) (to_shape : list Z) : res (list Z) :=
  do x <- view_scan 0 to_shape (-1) 1;
  do shape <- (if fst x =? -1 then ROk to_shape
               else if snd x =? 0 then RAbort
               else if n mod snd x =? 0 then vset to_shape (fst x) (n / snd x) else RAbort);
  if n =? numel shape then ROk shape else RAbort.

(** Lines 72-81. *)
Fixpoint view_contig_scan (shape stride : list Z) : bool * Z :=
  match shape, stride with
  | d :: ds, s :: ss =>
      let '(ok, cur) := view_contig_scan ds ss in
      (ok && (s =? cur), if d =? 1 then cur else cur * d)
  | _, _ => (true, 1)
  end.
(** Lines 86-90: new strides. *)
Fixpoint view_strides (shape : list Z) : list Z * Z :=
  match shape with
  | [] => ([], 1)
  | d :: ds => let '(st, cur) := view_strides ds in (cur :: st, cur * d)
  end.

Definition view_view (v : view) (to_shape : list Z) : res view :=
  do shape <- actual_shape (numel (v_shape v)) to_shape;
  if list_eq_dec Z.eq_dec (v_shape v) shape
  then create_strided (v_offset v) (v_shape v) (v_stride v)
  else if fst (view_contig_scan (v_shape v) (v_stride v))
       then create_strided (v_offset v) shape (fst (view_strides shape))
       else RAbort.
Definition to_view {A} (t : tns A) (to_shape : list Z) : res (tns A) :=
  do v <- view_view (x_view t) to_shape; ROk (mkTns v (x_buf t)).

(** Tensor::unsqueeze / squeeze / flatten, core/Tensor.cpp:590-657; [all] is the
    default argument 0x7fffffff. *)
Definition insert_at {X} (i : nat) (x : X) (l : list X) : list X := firstn i l ++ x :: skipn i l.
Definition unsqueeze {A} (t : tns A) (dim : Z) : res (tns A) :=
  let r := zlen (x_shape t) in
  let dim := if dim <? 0 then r + dim + 1 else dim in
  if (0 <=? dim) && (dim <=? r) then to_view t (insert_at (Z.to_nat dim) 1 (x_shape t)) else RUB.
Definition squeeze_all {A} (t : tns A) : res (tns A) :=
  let s := filter (fun d => negb (d =? 1)) (x_shape t) in
  to_view t (match s, x_shape t with [], _ :: _ => [1] | _, _ => s end).
Definition squeeze {A} (t : tns A) (dim : Z) : res (tns A) :=
  let r := zlen (x_shape t) in
  let dim := norm_dim r dim in
  if (dim <? 0) || (r <=? dim) then ROk t
  else if nth (Z.to_nat dim) (x_shape t) 0 =? 1
       then to_view t (firstn (Z.to_nat dim) (x_shape t) ++ skipn (S (Z.to_nat dim)) (x_shape t))
       else ROk t.
Definition flatten_all {A} (t : tns A) : res (tns A) := to_view t [numel (x_shape t)].
Definition flatten_from {A} (t : tns A) (dim : Z) : res (tns A) :=
  let r := zlen (x_shape t) in
  if r =? 0 then to_view t [1]
  else let dim := norm_dim r dim in
       if (dim <? 0) || (r <=? dim) then RAbort
       else to_view t (firstn (Z.to_nat dim) (x_shape t) ++ [numel (skipn (Z.to_nat dim) (x_shape t))]).

(* ------------------------------------------------------------------ *)
(** ** Reshape: ReshapeOp::reshape, core/aops/ReshapeOp.cpp:27-59; size_t
    arithmetic modulo 2^64. *)
Fixpoint reshape_scan (i : Z) (l : list Z) (infer product : Z) : res (Z * Z) :=
  match l with
  | [] => ROk (infer, product)
  | d :: r =>
      if d =? -1 then if infer =? -1 then reshape_scan (i + 1) r i product else RAbort
      else reshape_scan (i + 1) r infer (to_u64 (product * d))
  end.
Definition reshape_shape (n : Z) (to_shape : list Z) : res (list Z) :=
  do x <- reshape_scan 0 to_shape (-1) 1;
  do shape <- (if fst x =? -1 then ROk to_shape
               else if snd x =? 0 then RAbort
               else if n mod snd x =? 0 then vset to_shape (fst x) (to_i32 (n / snd x)) else RAbort);
  if n =? fold_left (fun c d => to_u64 (c * d)) shape 1 then ROk shape else RAbort.
(** setup allocates; CPUReshapeOp::forward (backends/cpu/ops/ReshapeOp.cpp:12-15)
    only prints. *)
Definition reshape {A} (t : tns A) (to_shape : list Z) : res (tns A) :=
  do shape <- reshape_shape (numel (x_shape t)) to_shape; fresh_tensor shape.

(* ------------------------------------------------------------------ *)
(** ** Split: SplitOp::reshape, core/aops/SplitOp.cpp:25-64 *)
Definition split_sections (extent : Z) (spec : list Z) : res (list Z) :=
  match spec with
  | [s] => if s =? 0 then RUB
           else if Z.rem extent s =? 0 then ROk (repeat s (Z.to_nat (Z.quot extent s))) else RAbort
  | _ => if fold_left Z.add spec 0 =? extent then ROk spec else RAbort
  end.
Fixpoint split_views (v : view) (dim st sum : Z) (sections : list Z) : res (list view) :=
  match sections with
  | [] => ROk []
  | s :: r =>
      do shape <- vset (v_shape v) dim s;
      do x <- create_strided (v_offset v + sum * st) shape (v_stride v);
      do xs <- split_views v dim st (sum + s) r;
      ROk (x :: xs)
  end.
Definition split {A} (t : tns A) (dim : Z) (spec : list Z) : res (list (tns A)) :=
  let dim := norm_dim (zlen (x_shape t)) dim in
  do extent <- vget (x_shape t) dim;
  do sections <- split_sections extent spec;
  do st <- vget (x_stride t) dim;
  do vs <- split_views (x_view t) dim st 0 sections;
  ROk (map (fun v => mkTns v (x_buf t)) vs).

(* ------------------------------------------------------------------ *)
(** ** Concat: ConcatOp::reshape, core/aops/ConcatOp.cpp:27-57 *)
Fixpoint all_dims_match (n : nat) (at_dim : Z) (ref shape : list Z) : res bool :=
  match n with
  | O => ROk true
  | S m => do ok <- all_dims_match m at_dim ref shape;
           if negb ok then ROk false
           else if Z.of_nat m =? at_dim then ROk true
           else do a <- vget ref (Z.of_nat m); do b <- vget shape (Z.of_nat m); ROk (a =? b)
  end.
(** (Simplified: the checks are done input by input rather than dimension by
    dimension.) *)
Fixpoint all_match {A} (at_dim : Z) (ref : list Z) (ts : list (tns A)) : res bool :=
  match ts with
  | [] => ROk true
  | t :: r => do ok <- all_dims_match (length ref) at_dim ref (x_shape t);
              if ok then all_match at_dim ref r else ROk false
  end.
Fixpoint sum_dims {A} (at_dim : Z) (ts : list (tns A)) (acc : Z) : res Z :=
  match ts with
  | [] => ROk acc
  | t :: r => do d <- vget (x_shape t) at_dim; sum_dims at_dim r (acc + d)
  end.
Definition concat_shape {A} (ts : list (tns A)) (dim : Z) : res (list Z) :=
  match ts with
  | [] => RAbort
  | t0 :: r =>
      let n := zlen (x_shape t0) in
      let at_dim := norm_dim n dim in
      if n <=? at_dim then RAbort
      else do ok <- all_match at_dim (x_shape t0) r;
           if negb ok then RAbort
           else do total <- sum_dims at_dim ts 0;
                vset (x_shape t0) at_dim total
  end.

(** kFloat32 = 0, kFloat16 = 1 (core/DataTypes.hpp:353-354): the element types
    with a copying loop; for others NYI prints and returns. *)
Definition has_copy_loop (dt : Z) : bool := (dt =? 0) || (dt =? 1).

(** CPUConcatOp::forward, backends/cpu/ops/ConcatOp.cpp:12-73, contiguous inputs.
    The state is (output, current_offset). *)
Definition concat_contig {A} (ts : list (tns A)) (shape0 : list Z) (dim total : Z) (out : buf A) : res (buf A) :=
  let base_size := numel (skipn (S (Z.to_nat dim)) shape0) in
  let num_slices := numel (firstn (Z.to_nat dim) shape0) in
  do r <- each ts (fun t s =>
    do cur <- vget (x_shape t) dim;
    let chunk := cur * base_size in
    do o <- zloop num_slices (fun slice o =>
        memcpy (x_buf t) (x_offset t + slice * chunk)
               (slice * (total * base_size) + snd s * base_size) chunk o) (fst s);
    ROk (o, snd s + cur)) (out, 0);
  ROk (fst r).
(** Lines 74-104: element by element. *)
Definition concat_strided {A} (ts : list (tns A)) (dim : Z) (out : tns A) : res (tns A) :=
  do r <- each ts (fun t s =>
    do cur <- vget (x_shape t) dim;
    do o <- zloop (numel (x_shape t)) (fun j o =>
        let idx := unravel (x_shape t) j in
        do c <- vget idx dim;
        do oidx <- vset idx dim (snd s + c);
        do x <- at_load t idx;
        at_store o oidx x) (fst s);
    ROk (o, snd s + cur)) (out, 0);
  ROk (fst r).
Definition concat_forward {A} (dt : Z) (ts : list (tns A)) (dim0 : Z) (out : tns A) : res (tns A) :=
  match ts with
  | [] => RUB
  | t0 :: _ =>
      let dim := norm_dim (zlen (x_shape t0)) dim0 in
      if forallb (fun t => is_contiguous (x_view t)) ts then
        if negb (has_copy_loop dt) then ROk out
        else do total <- sum_dims dim ts 0;
             do b <- concat_contig ts (x_shape t0) dim total (x_buf out);
             ROk (mkTns (x_view out) b)
      else if negb (has_copy_loop dt) then ROk out else concat_strided ts dim out
  end.
Definition concat_op {A} (dt : Z) (ts : list (tns A)) (dim : Z) : res (tns A) :=
  do shape <- concat_shape ts dim;
  do out <- fresh_tensor shape;
  concat_forward dt ts dim out.

(* ------------------------------------------------------------------ *)
(** ** Stack: StackOp::reshape, core/aops/StackOp.cpp:27-59;
    CPUStackOp::forward, backends/cpu/ops/StackOp.cpp:12-111 *)
Definition stack_shape {A} (ts : list (tns A)) (dim : Z) : res (list Z) :=
  match ts with
  | [] => RAbort
  | t0 :: r =>
      let n := zlen (x_shape t0) in
      let at_dim := if dim <? 0 then dim + (n + 1) else dim in
      if (at_dim <? 0) || (n <? at_dim) then RAbort
      else if forallb (fun t => if list_eq_dec Z.eq_dec (x_shape t) (x_shape t0) then true else false) r
           then ROk (firstn (Z.to_nat at_dim) (x_shape t0) ++ zlen ts :: skipn (Z.to_nat at_dim) (x_shape t0))
           else RAbort
  end.
Definition stack_contig {A} (ts : list (tns A)) (shape0 : list Z) (dim : Z) (out : buf A) : res (buf A) :=
  let N := zlen ts in
  let num_slices := numel (firstn (Z.to_nat dim) shape0) in
  let inner := numel (skipn (Z.to_nat dim) shape0) in
  zloop N (fun k o =>
    do t <- vget ts k;
    zloop num_slices (fun slice o =>
      memcpy (x_buf t) (x_offset t + slice * inner) ((slice * N + k) * inner) inner o) o) out.
Definition stack_strided {A} (ts : list (tns A)) (dim : Z) (out : tns A) : res (tns A) :=
  zloop (zlen ts) (fun k o =>
    do t <- vget ts k;
    zloop (numel (x_shape t)) (fun j o =>
      let idx := unravel (x_shape t) j in
      do x <- at_load t idx;
      at_store o (firstn (Z.to_nat dim) idx ++ k :: skipn (Z.to_nat dim) idx) x) o) out.
Definition stack_forward {A} (dt : Z) (ts : list (tns A)) (dim0 : Z) (out : tns A) : res (tns A) :=
  match ts with
  | [] => RUB
  | t0 :: _ =>
      let dim := if dim0 <? 0 then dim0 + (zlen (x_shape t0) + 1) else dim0 in
      if negb (has_copy_loop dt) then ROk out
      else if forallb (fun t => is_contiguous (x_view t)) ts
           then do b <- stack_contig ts (x_shape t0) dim (x_buf out); ROk (mkTns (x_view out) b)
           else stack_strided ts dim out
  end.
Definition stack_op {A} (dt : Z) (ts : list (tns A)) (dim : Z) : res (tns A) :=
  do shape <- stack_shape ts dim;
  do out <- fresh_tensor shape;
  stack_forward dt ts dim out.

(* ------------------------------------------------------------------ *)
(** ** Permute *)

(** PermuteOp::reshape, core/aops/PermuteOp.cpp:27-37.  Together with the kernel
    below any axis list of another length, or an axis out of range, is an
    out-of-bounds access. *)
Definition axis_in_range (rank : Z) (axis : list Z) : bool :=
  (zlen axis =? rank) && forallb (fun a => (0 <=? a) && (a <? rank)) axis.
Definition permuted_shape (shape axis : list Z) : list Z := map (fun a => nth (Z.to_nat a) shape 0) axis.

(** compute_strides_internal, kernels/common/permute-inl.hpp:10-13 and
    compute_strides, kernels/x86/transpose.cpp:22-25. *)
Definition compute_strides (shape : list Z) : list Z := default_strides shape.

(** "for (d = 0; d < ndim; ++d) in_coord[perm[d]] = out_coord[d];" *)
Fixpoint scatter (perm coord : list Z) (in_coord : list Z) : list Z :=
  match perm, coord with
  | p :: ps, c :: cs => scatter ps cs (upd_nth (Z.to_nat p) (fun _ => c) in_coord)
  | _, _ => in_coord
  end.

(** permute_generic, kernels/common/permute-inl.hpp:15-43 and
    kernels/x86/transpose.cpp:372-402.  The state is (output, in_coord); in_coord
    starts zero-initialised and is reused between iterations. *)
Definition permute_generic {A} (inp : buf A) (base : Z) (in_shape perm : list Z) (out : buf A) : res (buf A) :=
  let out_shape := permuted_shape in_shape perm in
  let in_strides := compute_strides in_shape in
  do r <- zloop (numel in_shape) (fun i s =>
    let out_coord := unravel out_shape i in
    let in_coord := scatter perm out_coord (snd s) in
    do o <- copy1 inp (base + dot in_coord in_strides) i (fst s);
    ROk (o, in_coord)) (out, map (fun _ => 0) perm);
  ROk (fst r).

(** CPUPermuteOp::forward (x86), backends/cpu/ops/PermuteOp.cpp:12-119; data types:
    fp32, fp16 and the 8..64 bit integers. *)
Definition permute_supported (dt : Z) : bool :=
  existsb (Z.eqb dt) [0; 1; 16; 17; 18; 132; 129; 130; 131; 133].
Definition permute_op {A} (dt : Z) (t : tns A) (axis : list Z) : res (tns A) :=
  if negb (axis_in_range (zlen (x_shape t)) axis) then RUB
  else do out <- fresh_tensor (permuted_shape (x_shape t) axis);
       if permute_supported dt
       then do b <- permute_generic (x_buf t) (x_offset t) (x_shape t) axis (x_buf out);
            ROk (mkTns (x_view out) b)
       else ROk out.

(* ------------------------------------------------------------------ *)
(** ** Transpose kernels, kernels/x86/transpose.cpp *)

(** SSE registers of 4 (fp32) lanes as lists. *)
Definition loadu {A} (n : nat) (b : buf A) (i : Z) : res (list (option A)) :=
  (fix go m := match m with
               | O => ROk []
               | S k => do r <- go k; do x <- load b (i + Z.of_nat k); ROk (r ++ [x])
               end) n.
Fixpoint storeu {A} (b : buf A) (i : Z) (r : list (option A)) : res (buf A) :=
  match r with
  | [] => ROk b
  | x :: q => do b' <- store b i x; storeu b' (i + 1) q
  end.
(** Lanes of the shuffles used: _mm_unpacklo_ps, _mm_unpackhi_ps, _mm_movelh_ps,
    _mm_movehl_ps (the last takes the high half of its second argument first). *)
Definition lane {A} (r : list (option A)) (k : nat) : option A := nth k r None.
Definition unpacklo_ps {A} (a b : list (option A)) := [lane a 0; lane b 0; lane a 1; lane b 1].
Definition unpackhi_ps {A} (a b : list (option A)) := [lane a 2; lane b 2; lane a 3; lane b 3].
Definition movelh_ps {A} (a b : list (option A)) := [lane a 0; lane a 1; lane b 0; lane b 1].
Definition movehl_ps {A} (a b : list (option A)) := [lane b 2; lane b 3; lane a 2; lane a 3].

(** Lines 32-57: one 4x4 block. *)
Definition block4 {A} (X : buf A) (x H W i j : Z) (y : Z) (Y : buf A) : res (buf A) :=
  do r0 <- loadu 4 X (x + i * W + j);
  do r1 <- loadu 4 X (x + (i + 1) * W + j);
  do r2 <- loadu 4 X (x + (i + 2) * W + j);
  do r3 <- loadu 4 X (x + (i + 3) * W + j);
  let t0 := unpacklo_ps r0 r1 in
  let t1 := unpackhi_ps r0 r1 in
  let t2 := unpacklo_ps r2 r3 in
  let t3 := unpackhi_ps r2 r3 in
  let col0 := movelh_ps t0 t2 in
  let col1 := movehl_ps t2 t0 in
  let col2 := movelh_ps t1 t3 in
  let col3 := movehl_ps t3 t1 in
  do Y <- storeu Y (y + j * H + i) col0;
  do Y <- storeu Y (y + (j + 1) * H + i) col1;
  do Y <- storeu Y (y + (j + 2) * H + i) col2;
  storeu Y (y + (j + 3) * H + i) col3.
(** Lines 183-198: one 2x2 block of int64 (_mm_unpacklo_epi64 / _mm_unpackhi_epi64). *)
Definition block2 {A} (X : buf A) (x H W i j : Z) (y : Z) (Y : buf A) : res (buf A) :=
  do r0 <- loadu 2 X (x + i * W + j);
  do r1 <- loadu 2 X (x + (i + 1) * W + j);
  do Y <- storeu Y (y + j * H + i) [lane r0 0; lane r1 0];
  storeu Y (y + (j + 1) * H + i) [lane r0 1; lane r1 1].
(** One column of n rows ("remaining columns"): _mm_set_ps lists the lanes from
    high to low. *)
Definition column {A} (n : Z) (X : buf A) (x H W i j : Z) (y : Z) (Y : buf A) : res (buf A) :=
  zloop n (fun r => copy1 X (x + (i + r) * W + j) (y + j * H + (i + r))) Y.

(** transpose_hw_wh_fp32, lines 28-76 (n = 4) and transpose_hw_wh_int64, lines
    179-215 (n = 2), SSE paths.  x, y: start of the matrices in the buffers. *)
Definition transpose_hw {A} (n : Z) (X : buf A) (x H W : Z) (y : Z) (Y : buf A) : res (buf A) :=
  do Y <- zloop (H / n) (fun bi Y =>
    let i := n * bi in
    do Y <- zloop (W / n) (fun bj Y =>
      let j := n * bj in
      if n =? 4 then block4 X x H W i j y Y else block2 X x H W i j y Y) Y;
    let j_remain := W - W mod n in
    zloop (W - j_remain) (fun k Y => column n X x H W i (j_remain + k) y Y) Y) Y;
  let i_remain := H - H mod n in
  zloop W (fun j Y =>
    zloop (H - i_remain) (fun k Y =>
      copy1 X (x + (i_remain + k) * W + j) (y + j * H + (i_remain + k)) Y) Y) Y.

(** transpose_bshd_bhsd_fp32 / _int64, lines 78-118 / 217-257: vector copies of n
    elements, then the rest one by one. *)
Definition transpose_bshd {A} (n : Z) (X : buf A) (x B S H D : Z) (Y : buf A) : res (buf A) :=
  zloop B (fun b Y => zloop H (fun h Y => zloop S (fun s Y =>
    let src := x + b * S * H * D + s * H * D + h * D in
    let dst := b * H * S * D + h * S * D + s * D in
    do Y <- zloop (D / n) (fun k Y => memcpy X (src + n * k) (dst + n * k) n Y) Y;
    let d := n * (D / n) in
    zloop (D - d) (fun k Y => copy1 X (src + (d + k)) (dst + (d + k)) Y) Y) Y) Y) Y.

(** transpose_last_dims_fp32 / _int64, lines 120-177 / 259-307. *)
Definition transpose_last {A} (n : Z) (X : buf A) (x batch dim0 dim1 : Z) (Y : buf A) : res (buf A) :=
  zloop batch (fun b Y =>
    transpose_hw n X (x + b * dim0 * dim1) dim0 dim1 (b * dim0 * dim1) Y) Y.

(** permute_fp32, lines 309-368 (SSE: chunk_size = 4). *)
Definition permute_fp32 {A} (inp : buf A) (base : Z) (in_shape perm : list Z) (out : buf A) : res (buf A) :=
  let ndim := zlen perm in
  let out_shape := permuted_shape in_shape perm in
  let in_strides := compute_strides in_shape in
  let out_strides := compute_strides out_shape in
  let inner := last out_shape 0 in
  if (last perm 0 =? ndim - 1) && (4 <=? inner) then
    let outer := numel in_shape / inner in
    zloop outer (fun o out =>
      let coord := unravel (removelast out_shape) o in
      let in_offset := dot coord (map (fun p => nth (Z.to_nat p) in_strides 0) (removelast perm)) in
      let out_offset := dot coord (removelast out_strides) in
      do out <- zloop (inner / 4) (fun k out =>
        memcpy inp (base + in_offset + 4 * k) (out_offset + 4 * k) 4 out) out;
      let j := 4 * (inner / 4) in
      zloop (inner - j) (fun k out => copy1 inp (base + in_offset + (j + k)) (out_offset + (j + k)) out) out) out
  else permute_generic inp base in_shape perm out.

(** TransposeOp::reshape, core/aops/TransposeOp.cpp:27-47. *)
Definition swap_at (l : list Z) (i j : Z) : list Z :=
  upd_nth (Z.to_nat j) (fun _ => nth (Z.to_nat i) l 0)
    (upd_nth (Z.to_nat i) (fun _ => nth (Z.to_nat j) l 0) l).
(** CPUTransposeOp::forward (x86), backends/cpu/ops/TransposeOp.cpp:12-170.
    kFloat32 = 0, kInt64 = 132; other types only print. *)
Definition transpose_lanes (dt : Z) : Z := if dt =? 0 then 4 else 2.
Definition transpose_forward {A} (dt : Z) (t : tns A) (dim0 dim1 : Z) (out : buf A) : res (buf A) :=
  let s := x_shape t in
  let d k := nth k s 0 in
  let n := transpose_lanes dt in
  if negb ((dt =? 0) || (dt =? 132)) then ROk out
  else if (zlen s =? 2) && (dim0 + dim1 =? 1) then
    transpose_hw n (x_buf t) (x_offset t) (d 0%nat) (d 1%nat) 0 out
  else if (zlen s =? 4) && ((dim0 =? 1) && (dim1 =? 2) || (dim0 =? 2) && (dim1 =? 1)) then
    transpose_bshd n (x_buf t) (x_offset t) (d 0%nat) (d 1%nat) (d 2%nat) (d 3%nat) out
  else if negb (zlen s =? 2) && (dim0 + dim1 =? 1) then
    let batch := fold_left Z.mul (firstn (length s - 2) s) 0 in     (* int batch = 0; batch *= ... *)
    transpose_last n (x_buf t) (x_offset t) batch (d 0%nat) (d 1%nat) out
  else
    let perm := swap_at (map Z.of_nat (seq 0 (length s))) dim0 dim1 in
    if dt =? 0 then permute_fp32 (x_buf t) (x_offset t) s perm out
    else permute_generic (x_buf t) (x_offset t) s perm out.
Definition transpose_op {A} (dt : Z) (t : tns A) (d0 d1 : Z) : res (tns A) :=
  let rank := zlen (x_shape t) in
  let dim0 := norm_dim rank d0 in
  let dim1 := norm_dim rank d1 in
  if (0 <=? dim0) && (dim0 <? rank) && (0 <=? dim1) && (dim1 <? rank) then
    do out <- fresh_tensor (swap_at (x_shape t) dim0 dim1);
    do b <- transpose_forward dt t dim0 dim1 (x_buf out);
    ROk (mkTns (x_view out) b)
  else RAbort.

(* ------------------------------------------------------------------ *)
(** ** Contiguous: CPUContiguousOp::forward, backends/cpu/ops/ContiguousOp.cpp:12-126 *)

(** Lines 28-76, rank 1.  The state is (output, source position, destination
    position). *)
Definition contig_step {A} (src : buf A) (stride : Z) (s : buf A * Z * Z) : res (buf A * Z * Z) :=
  do o <- copy1 src (snd (fst s)) (snd s) (fst (fst s));
  ROk (o, snd (fst s) + stride, snd s + 1).
Definition contig_rank1 {A} (t : tns A) (size stride : Z) (out : buf A) : res (buf A) :=
  let remainder := size mod 8 in
  let end_ := size - remainder in
  do s <- zloop remainder (fun _ => contig_step (x_buf t) stride) (out, x_offset t, 0);
  do s <- zloop (end_ / 8) (fun _ s => zloop 8 (fun _ => contig_step (x_buf t) stride) s) s;
  ROk (fst (fst s)).
(** Lines 78-84: the test in front of the blocked copy. *)
Fixpoint last_dim_contiguous (stride : list Z) : bool :=
  match stride with
  | s :: ((s' :: _) as r) => last_dim_contiguous r && (s =? s' * s')
  | _ => true
  end.
(** Lines 86-108. *)
Fixpoint outer_strides (shape stride : list Z) : list Z * Z :=
  match shape, stride with
  | _ :: ((d1 :: _) as ds), s :: ss =>
      let '(os, cum) := outer_strides ds ss in
      (s * (cum * d1) :: os, cum * d1)
  | _, _ => ([], 1)
  end.
Fixpoint outer_offset (shape os : list Z) (temp : Z) : Z :=
  match shape, os with
  | d :: ds, o :: r => temp mod d * o + outer_offset ds r (temp / d)
  | _, _ => 0
  end.
Definition contig_blocks {A} (t : tns A) (out : buf A) : res (buf A) :=
  let s := x_shape t in
  let inner := last s 0 in
  let outer_count := numel s / inner in
  let os := fst (outer_strides s (x_stride t)) in
  zloop outer_count (fun idx o =>
    memcpy (x_buf t) (x_offset t + outer_offset (removelast s) os idx) (idx * inner) inner o) out.
(** Lines 110-125: odometer; (carry, indices) right to left. *)
Fixpoint advance (shape idx : list Z) : bool * list Z :=
  match shape, idx with
  | d :: ds, i :: r =>
      let '(carry, r') := advance ds r in
      if carry then if i + 1 <? d then (false, i + 1 :: r') else (true, 0 :: r') else (false, i :: r')
  | _, _ => (true, [])
  end.
Definition contig_general {A} (t : tns A) (out : buf A) : res (buf A) :=
  do s <- zloop (numel (x_shape t)) (fun count s =>
    do o <- copy1 (x_buf t) (x_offset t + dot (snd s) (x_stride t)) count (fst s);
    ROk (o, snd (advance (x_shape t) (snd s)))) (out, map (fun _ => 0) (x_shape t));
  ROk (fst s).
Definition contiguous_forward {A} (t : tns A) (out : buf A) : res (buf A) :=
  if numel (x_shape t) =? 0 then ROk out
  else match x_shape t, x_stride t with
       | [n], [s] => contig_rank1 t n s out
       | _, _ => if last_dim_contiguous (x_stride t) then contig_blocks t out else contig_general t out
       end.
Definition contiguous_op {A} (t : tns A) : res (tns A) :=
  do out <- fresh_tensor (x_shape t);
  do b <- contiguous_forward t (x_buf out);
  ROk (mkTns (x_view out) b).

(* ------------------------------------------------------------------ *)
(** ** Clone: CPUCloneOp::forward, backends/cpu/ops/CloneOp.cpp:12-20.  bytes() is
    the size of the whole storage (core/Tensor.cpp:676, TensorViewImpl.cpp:26). *)
Definition clone_op {A} (t : tns A) : res (tns A) :=
  do out <- fresh_tensor (x_shape t);
  if is_contiguous (x_view t)
  then do b <- memcpy (x_buf t) (x_offset t) 0 (b_len (x_buf t)) (x_buf out); ROk (mkTns (x_view out) b)
  else RAbort.

(** copy2: Tensor::copy2, core/Tensor.cpp:661-663 and CPUCopyOp::forward,
    backends/cpu/ops/CopyOp.cpp:12-19: "self.copy2(src)" runs the operator on
    inputs {self, src} and copies input 0 into input 1.  Returns the new content of
    the argument [src]. *)
Definition copy2 {A} (self src : tns A) : res (buf A) :=
  memcpy (x_buf self) (x_offset self) (x_offset src) (b_len (x_buf self)) (x_buf src).

(** ** Repeat: RepeatOp::reshape, core/aops/RepeatOp.cpp:27-32, CPURepeatOp::forward,
    backends/cpu/ops/RepeatOp.cpp:12-72, Tensor::repeat, core/Tensor.cpp:583-588. *)
Definition repeat_forward {A} (t : tns A) (dim times : Z) (out : buf A) : res (buf A) :=
  let s := x_shape t in
  let outer_num := numel (firstn (Z.to_nat dim) s) in
  let dim_size := nth (Z.to_nat dim) s 0 in
  let inner := numel (skipn (S (Z.to_nat dim)) s) in
  let x_step := dim_size * inner in
  let y_step := dim_size * times * inner in
  zloop outer_num (fun outer o =>
    zloop dim_size (fun d o =>
      zloop times (fun m o =>
        memcpy (x_buf t) (x_offset t + outer * x_step + d * inner)
               (outer * y_step + d * times * inner + m * inner) inner o) o) o) out.
Definition repeat_op {A} (dt : Z) (t : tns A) (times dim : Z) : res (tns A) :=
  if times =? 1 then ROk t
  else
    let dim := norm_dim (zlen (x_shape t)) dim in
    do d <- vget (x_shape t) dim;
    do shape <- vset (x_shape t) dim (d * times);
    do out <- fresh_tensor shape;
    if has_copy_loop dt then
      do b <- repeat_forward t dim times (x_buf out); ROk (mkTns (x_view out) b)
    else ROk out.
