(** CPU operators: broadcasting arithmetic, indexing, gather, embedding, padding,
    causal masks, masked scatter, sorting and sums.
    Sources: /repo/mllm/core/aops/{ElewiseOps,IndexOp,GatherOp,EmbeddingOp,PadOp,
    CausalMaskOp,MaskedScatterOp,ArgsortOp,TopKOp,ReduceOps}.cpp and the files of the
    same names in /repo/mllm/backends/cpu/ops, backends/cpu/kernels/common/{elewise,reduce}-inl.hpp.

    Simplifications common to this file (besides those of TensorModel.v): the x86
    build; an operator's output is a fresh allocation (masked scatter excepted, which
    works in place); "parallel for" loops run their iterations one after the other
    (they write disjoint rows); arithmetic on elements is a function of the
    values (no rounding model); [None] is an unwritten cell and an operation on it
    gives [None]. *)
From Verif Require Import Base DTypeModel ParamModel TensorModel.
Local Open Scope Z_scope.

(* ------------------------------------------------------------------ *)
(** ** Element-wise arithmetic *)

(** broadcastShapes, core/aops/ElewiseOps.cpp:10-32.  [bc_size] is lines 18-19,
    [bc_dim] the inner loop (lines 17-28) for output dimension [i]. *)
Definition bc_size (max_dims i : Z) (shape : list Z) : Z :=
  let dim := zlen shape - max_dims + i in
  if 0 <=? dim then nth (Z.to_nat dim) shape 0 else 1.
Definition bc_dim (max_dims i : Z) (shapes : list (list Z)) : res Z :=
  each shapes (fun shape out =>
    let size := bc_size max_dims i shape in
    if negb (size =? 1)
    then if out =? 1 then ROk size else if negb (out =? size) then RAbort else ROk out
    else ROk out) 1.
Definition bc_max_dims (shapes : list (list Z)) : Z :=
  fold_left (fun m shape => Z.max m (zlen shape)) shapes 0.
Definition broadcast_shapes (shapes : list (list Z)) : res (list Z) :=
  match shapes with
  | [] => ROk []
  | _ => let max_dims := bc_max_dims shapes in
         zloop max_dims (fun i out => do d <- bc_dim max_dims i shapes; ROk (out ++ [d])) []
  end.

(** BroadcastInfo, backends/cpu/ops/ElewiseOps.hpp:12-17. *)
Record bc_info := mkBc { bi_naive : bool; bi_loops : Z; bi_batch : Z; bi_size : Z }.

(** Lines 21-27: shapes padded with leading 1s. *)
Definition pad_shape (max_rank : nat) (shape : list Z) : list Z :=
  repeat 1 (max_rank - length shape) ++ shape.
(** Lines 34-41: length of the longest common prefix. *)
Fixpoint common_prefix (a b : list Z) : nat :=
  match a, b with
  | x :: a', y :: b' => if x =? y then S (common_prefix a' b') else O
  | _, _ => O
  end.
(** Lines 61-68 / 82-89: first position where the lists differ. *)
Fixpoint first_diff (a r : list Z) : option nat :=
  match a, r with
  | x :: a', y :: r' => if negb (x =? y) then Some O else option_map S (first_diff a' r')
  | _, _ => None
  end.
(** Lines 70-79 / 91-100. *)
Definition can_naive (a r : list Z) : bool :=
  match first_diff a r with
  | Some i => (nth i a 0 =? 1) && forallb (fun p => fst p =? snd p) (combine (skipn (S i) a) (skipn (S i) r))
  | None => false
  end.
(** calculateBroadcastInfo, backends/cpu/ops/ElewiseOps.cpp:10-123. *)
Definition broadcast_info (a_shape b_shape : list Z) : bc_info :=
  let max_rank := Nat.max (length a_shape) (length b_shape) in
  let a := pad_shape max_rank a_shape in
  let b := pad_shape max_rank b_shape in
  let result := map (fun p => Z.max (fst p) (snd p)) (combine a b) in
  let batch_dims := common_prefix a b in
  let batch_size := numel (firstn batch_dims result) in
  if Nat.eqb batch_dims max_rank then mkBc false 0 batch_size (numel result)
  else
    let a' := skipn batch_dims a in
    let b' := skipn batch_dims b in
    let r' := skipn batch_dims result in
    let a_naive := can_naive a' r' in
    let b_naive := can_naive b' r' in
    let with_loops fd :=
      match fd with
      | Some i => let loops := nth i r' 0 in mkBc true loops batch_size (Z.quot (numel r') loops)
      | None => mkBc false 0 batch_size (numel result)
      end in
    if a_naive && negb b_naive then with_loops (first_diff a' r')
    else if b_naive && negb a_naive then with_loops (first_diff b' r')
    else mkBc false 0 batch_size (numel result).

(** The Highway loops of backends/cpu/kernels/common/elewise-inl.hpp:43-62:
    vectors of N lanes, then the remaining count - idx elements.  A lane is one
    application of [body]. *)
Definition vec_for {S} (N count : Z) (body : Z -> S -> res S) (s : S) : res S :=
  let full := count / N in
  do s1 <- zloop full (fun v s => zloop N (fun j s => body (v * N + j) s) s) s;
  let idx := full * N in
  if idx <? count then zloop (count - idx) (fun j s => body (idx + j) s) s1 else ROk s1.

Definition lift2 {A} (f : A -> A -> A) (x y : option A) : option A :=
  match x, y with Some a, Some b => Some (f a b) | _, _ => None end.

(** elementwise_impl, elewise-inl.hpp:43-62; pointers are (buffer, position). *)
Definition ew_impl {A} (f : A -> A -> A) (N : Z) (x : buf A) (xo : Z) (y : buf A) (yo : Z) (oo count : Z)
  (out : buf A) : res (buf A) :=
  vec_for N count (fun j o =>
    do a <- load x (xo + j); do b <- load y (yo + j); store o (oo + j) (lift2 f a b)) out.
(** elementwise_scl_impl, elewise-inl.hpp:150-170. *)
Definition ew_scl_impl {A} (f : A -> A -> A) (N : Z) (x : buf A) (xo : Z) (y : option A) (oo count : Z)
  (out : buf A) : res (buf A) :=
  vec_for N count (fun j o => do a <- load x (xo + j); store o (oo + j) (lift2 f a y)) out.

(** Element types as the switch in CPU{Add,Sub,Mul,Div}Op::forward distinguishes
    them on x86: fp32; the integer types with a kernel (int32, and for Add/Sub/Mul
    int16 and int8); types whose case only prints NYI or is empty (fp16, complex,
    for Div int16 and int8). *)
Inductive ew_type := EwFloat32 | EwInteger | EwNoKernel.

(** CPUAddOp::forward, backends/cpu/ops/ElewiseOps.cpp:127-325 (CPUSubOp 329-528,
    CPUMulOp 532-731, CPUDivOp 735-937 are the same text with another kernel). *)
Definition ew_forward {A} (ty : ew_type) (f : A -> A -> A) (N : Z) (a b : tns A) (out : tns A) : res (tns A) :=
  let info := broadcast_info (x_shape a) (x_shape b) in
  let count := numel (x_shape out) in
  let ret r := do o <- r; ROk (mkTns (x_view out) o) in
  match ty with
  | EwNoKernel => ROk out
  | _ =>
    if numel (x_shape a) =? numel (x_shape b) then
      ret (ew_impl f N (x_buf a) (x_offset a) (x_buf b) (x_offset b) (x_offset out) count (x_buf out))
    else if numel (x_shape b) =? 1 then
      do y <- load (x_buf b) (x_offset b);
      ret (ew_scl_impl f N (x_buf a) (x_offset a) y (x_offset out) count (x_buf out))
    else match ty with
      | EwFloat32 =>
        if bi_naive info then
          let loops := bi_loops info in
          let size := bi_size info in
          ret (zloop (bi_batch info) (fun batch o =>
                 zloop loops (fun l o =>
                   let a_offset := batch * loops * size + l * size in
                   let b_offset := batch * size in
                   ew_impl f N (x_buf a) (x_offset a + a_offset) (x_buf b) (x_offset b + b_offset)
                           (x_offset out + a_offset) size o) o) (x_buf out))
        else ROk out
      | _ => ROk out
      end
  end.
(** AddOp::reshape (core/aops/ElewiseOps.cpp:60-76, not in place) then forward. *)
Definition ew_op {A} (ty : ew_type) (f : A -> A -> A) (N : Z) (a b : tns A) : res (tns A) :=
  do shape <- broadcast_shapes [x_shape a; x_shape b];
  do out <- fresh_tensor (match shape with [] => x_shape a | _ => shape end);
  ew_forward ty f N a b out.

(* ------------------------------------------------------------------ *)
(** ** IndexOp, core/aops/IndexOp.cpp *)

(** ComplexIndices: a slice, a vector of positions, or an int32 tensor. *)
Inductive index_arg := IxSlice (p : slice_pair) | IxVector (l : list Z) | IxTensor (t : tns Z).

Definition is_slice (a : index_arg) : bool := match a with IxSlice _ => true | _ => false end.

(** calculateOutputShape, IndexOp.cpp:209-232, entry number i. *)
Fixpoint index_shape (i : nat) (args : list index_arg) (shape : list Z) : res (list Z) :=
  match args with
  | [] => ROk []
  | IxSlice p :: r =>
      let start := if sl_start p =? kAll then 0 else sl_start p in
      do end_ <- (if sl_end p =? kAll then vget shape (Z.of_nat i) else ROk (sl_end p));
      do s <- index_shape (S i) r shape;
      if sl_step p =? 0 then RUB
      else ROk (Z.quot (end_ - start + sl_step p - 1) (sl_step p) :: s)
  | IxVector l :: r => do s <- index_shape (S i) r shape; ROk (zlen l :: s)
  | IxTensor t :: r => do s <- index_shape (S i) r shape; ROk (x_shape t ++ s)
  end.

(** Lines 113-126: position in the index tensor's row-major order; the first output
    coordinate has weight 1, the next ones the products of the trailing extents.
    [rshape] is the index tensor's shape reversed. *)
Fixpoint index_tensor_pos (rshape coords : list Z) (stride : Z) : Z :=
  match rshape, coords with
  | d :: r, c :: cs => c * stride + index_tensor_pos r cs (stride * d)
  | _, _ => 0
  end.

(** Lines 77-142: the input coordinates; None is valid_index = false. *)
Fixpoint index_coords (args : list index_arg) (shape oidx : list Z) : res (option (list Z)) :=
  match args, shape with
  | a :: args', d :: shape' =>
      do p <- match a with
              | IxSlice p =>
                  match oidx with
                  | [] => RUB
                  | c :: rest => let start := if sl_start p =? kAll then 0 else sl_start p in
                                 ROk (Some (start + c * sl_step p, rest))
                  end
              | IxVector l =>
                  match oidx with
                  | [] => ROk None
                  | c :: rest => if zlen l <=? c then ROk None
                                 else do v <- vget l c; ROk (Some (v, rest))
                  end
              | IxTensor t =>
                  let n := length (x_shape t) in
                  if (length oidx <? n)%nat then ROk None
                  else let pos := index_tensor_pos (rev (x_shape t)) (firstn n oidx) 1 in
                       do v <- at_load t (unravel (x_shape t) pos);
                       match v with Some v => ROk (Some (v, skipn n oidx)) | None => RUB end
              end;
      match p with
      | None => ROk None
      | Some (v, rest) =>
          if (v <? 0) || (d <=? v) then ROk None
          else do r <- index_coords args' shape' rest;
               match r with Some l => ROk (Some (v :: l)) | None => ROk None end
      end
  (* dimensions without an index keep the initial 0 of in_indices (line 45) *)
  | [], _ => ROk (Some (map (fun _ => 0) shape))
  | _, [] => ROk (Some [])
  end.

(** Lines 145-161: offsets recomputed from the coordinates, row-major. *)
Fixpoint linear (shape idx : list Z) : Z * Z :=
  match shape, idx with
  | d :: ds, i :: is => let '(o, m) := linear ds is in (o + i * m, m * d)
  | _, _ => (0, 1)
  end.

(** reshape (lines 171-205) and forward (lines 24-169).  A nil result is None. *)
Definition index_rank (a : index_arg) : Z := match a with IxTensor t => zlen (x_shape t) | _ => 1 end.
Definition index_op {A} (x : tns A) (args : list index_arg) : res (option (tns A)) :=
  let shape := x_shape x in
  if forallb is_slice args then ROk None
  else if negb (fold_left Z.add (map index_rank args) 0 =? zlen shape) then RAbort
  else
    do oshape <- index_shape 0 args shape;
    do out <- fresh_tensor oshape;
    if negb (is_contiguous (x_view x)) then RAbort
    else if numel shape =? 0 then RUB
    else
      do o <- zloop (numel oshape) (fun i o =>
        let oidx := unravel oshape i in
        do c <- index_coords args shape oidx;
        match c with
        | None => ROk o
        | Some iidx => copy1 (x_buf x) (x_offset x + fst (linear shape iidx)) (fst (linear oshape oidx)) o
        end) (x_buf out);
      ROk (Some (mkTns (x_view out) o)).

(* ------------------------------------------------------------------ *)
(** ** Gather: GatherOp::reshape, core/aops/GatherOp.cpp:26-43;
    CPUGatherOp::forward, backends/cpu/ops/GatherOp.cpp:11-64 (int32 indices). *)
Definition gather_op {A} (table : tns A) (indices : tns Z) (dim0 : Z) : res (tns A) :=
  let shape := x_shape table in
  let dim := norm_dim (zlen shape) dim0 in
  if negb ((0 <=? dim) && (dim <? zlen shape)) then RAbort
  else
    let d := Z.to_nat dim in
    do out <- fresh_tensor (firstn d shape ++ x_shape indices ++ skipn (S d) shape);
    let outer_size := numel (firstn d shape) in
    let inner_size := numel (skipn (S d) shape) in
    do dim_size <- vget shape dim;
    let count := numel (x_shape indices) in
    do o <- zloop outer_size (fun o b =>
      zloop count (fun i b =>
        do v <- load (x_buf indices) (x_offset indices + i);
        match v with
        | None => RUB
        | Some idx =>
            let idx := if idx <? 0 then idx + dim_size else idx in
            if (idx <? 0) || (dim_size <=? idx) then ROk b
            else memcpy (x_buf table) (x_offset table + (o * dim_size + idx) * inner_size)
                        ((o * count + i) * inner_size) inner_size b
        end) b) (x_buf out);
    ROk (mkTns (x_view out) o).

(* ------------------------------------------------------------------ *)
(** ** Embedding: EmbeddingOp::reshape, core/aops/EmbeddingOp.cpp:66-77;
    CPUEmbeddingOp::forward, backends/cpu/ops/EmbeddingOp.cpp:15-63 (fp32/fp16
    weights, int64 ids). *)
Definition embedding_op {A} (weight : tns A) (hidden : Z) (ids : tns Z) : res (tns A) :=
  do B <- vget (x_shape ids) 0;
  do S <- vget (x_shape ids) 1;
  do out <- fresh_tensor [B; S; hidden];
  zloop B (fun b o => zloop S (fun s o =>
    do v <- at_load ids [b; s];
    match v with
    | None => RUB
    | Some id =>
        do p <- offsetted (x_view o) [b; s; 0];
        do ob <- memcpy (x_buf weight) (x_offset weight + hidden * id) p hidden (x_buf o);
        ROk (mkTns (x_view o) ob)
    end) o) out.

(* ------------------------------------------------------------------ *)
(** ** Pad: PadOp::reshape, core/aops/PadOp.cpp:26-44; CPUPadOp::forward,
    backends/cpu/ops/PadOp.cpp:54-147 (fp32). *)
Inductive pad_mode := PadConstant | PadReflect | PadReplicate | PadCircular.

(** reflect_index / replicate_index / circular_index, PadOp.cpp:28-52. *)
Definition reflect_index (x size : Z) : Z :=
  if size <=? 1 then 0
  else let m := size - 1 in
       let p := Z.abs x in
       let period := 2 * m in
       let r := Z.rem p period in
       if size <=? r then period - r else r.
Definition replicate_index (x size : Z) : Z :=
  if size <=? 1 then 0 else Z.max 0 (Z.min x (size - 1)).
Definition circular_index (x size : Z) : Z :=
  if size <=? 1 then 0 else let r := Z.rem x size in if r <? 0 then r + size else r.

(** pad_before / pad_after of dimension i, lines 68-73: pad lists the pairs from
    the last dimension. *)
Definition pad_low (D i : nat) (pad : list Z) : Z := nth (2 * (D - 1 - i)) pad 0.
Definition pad_high (D i : nat) (pad : list Z) : Z := nth (2 * (D - 1 - i) + 1) pad 0.
Definition pad_out_shape (shape pad : list Z) : list Z :=
  map (fun p => snd p + pad_low (length shape) (fst p) pad + pad_high (length shape) (fst p) pad)
      (combine (seq 0 (length shape)) shape).

(** Lines 97-104: coordinates of position t from the strides. *)
Fixpoint decode (strides : list Z) (t : Z) : list Z :=
  match strides with
  | [] => []
  | [_] => [t]
  | s :: r => Z.quot t s :: decode r (Z.rem t s)
  end.
(** Lines 107-127 for one coordinate: None is out of range in constant mode. *)
Definition pad_coord (mode : pad_mode) (xi s : Z) : option Z :=
  match mode with
  | PadConstant => if (xi <? 0) || (s <=? xi) then None else Some xi
  | PadReflect => Some (reflect_index xi s)
  | PadReplicate => Some (replicate_index xi s)
  | PadCircular => Some (circular_index xi s)
  end.
Fixpoint pad_coords (mode : pad_mode) (xs shape : list Z) : option (list Z) :=
  match xs, shape with
  | x :: xs', s :: shape' =>
      match pad_coord mode x s, pad_coords mode xs' shape' with
      | Some c, Some cs => Some (c :: cs)
      | _, _ => None
      end
  | _, _ => Some []
  end.
Definition pad_op {A} (mode : pad_mode) (value : A) (pad : list Z) (x : tns A) : res (tns A) :=
  let shape := x_shape x in
  let D := length shape in
  let oshape := pad_out_shape shape pad in
  do out <- fresh_tensor oshape;
  do o <- zloop (numel oshape) (fun idx o =>
    let oc := decode (default_strides oshape) idx in
    let xs := map (fun p => snd p - pad_low D (fst p) pad) (combine (seq 0 D) oc) in
    match pad_coords mode xs shape with
    | None => store o idx (Some value)
    | Some ic => copy1 (x_buf x) (x_offset x + dot ic (default_strides shape)) idx o
    end) (x_buf out);
  ROk (mkTns (x_view out) o).

(* ------------------------------------------------------------------ *)
(** ** Causal mask: CausalMaskOp::reshape, core/aops/CausalMaskOp.cpp:27-30;
    CPUCausalMaskOp::forward, backends/cpu/ops/CausalMaskOp.cpp:20-273. *)
(** Storing the mask value into n cells (vector stores and their remainder). *)
Definition fill {A} (m : A) (d n : Z) (o : buf A) : res (buf A) :=
  zloop n (fun k o => store o (d + k) (Some m)) o.
(** memcpy whose size_t count was computed as [n]: a negative n wraps to at least 2^63
    and leaves the buffers. *)
Definition memcpy_size {A} (src : buf A) (s d n : Z) (o : buf A) : res (buf A) :=
  if n <? 0 then RUB else memcpy src s d n o.

(** One row of the fp32 branch without window, lines 55-71. *)
Definition mask_row {A} (m : A) (src : buf A) (ip op S D r : Z) (o : buf A) : res (buf A) :=
  let row := r * D in
  let copy_count := D - S + r + 1 in
  do o <- memcpy_size src (ip + row) (op + row) copy_count o;
  fill m (op + row + copy_count) (Z.max (D - copy_count) 0) o.
(** One row of the fp16 branch without window, lines 159-207. *)
Definition mask_row16 {A} (m : A) (src : buf A) (ip op S r : Z) (o : buf A) : res (buf A) :=
  let row := r * S in
  do o <- memcpy src (ip + row) (op + row) (r + 1) o;
  fill m (op + row + (r + 1)) (S - (r + 1)) o.
(** One row with a window, lines 101-143 (fp32), 212-262 (fp16). *)
Definition mask_row_window {A} (m : A) (w : Z) (src : buf A) (ip op S r : Z) (o : buf A) : res (buf A) :=
  let row := r * S in
  let start := Z.max 0 (r - w + 1) in
  do o <- memcpy_size src (ip + row + start) (op + row + start) (r - start + 1) o;
  do o <- fill m (op + row) start o;
  fill m (op + row + (r + 1)) (S - (r + 1)) o.

Inductive mask_type := MaskFloat32 | MaskFloat16.
Definition causal_mask {A} (ty : mask_type) (window : option Z) (m : A) (x : tns A) : res (tns A) :=
  do out <- fresh_tensor (x_shape x);
  do B <- vget (x_shape x) 0;
  do H <- vget (x_shape x) 1;
  do S <- vget (x_shape x) 2;
  do D <- vget (x_shape x) 3;
  zloop B (fun b t => zloop H (fun h t =>
    do ip <- offsetted (x_view x) [b; h; 0; 0];
    do op <- offsetted (x_view t) [b; h; 0; 0];
    do o <- (if S =? 1 then memcpy (x_buf x) ip op D (x_buf t)
             else zloop S (fun r o =>
               match window, ty with
               | None, MaskFloat32 => mask_row m (x_buf x) ip op S D r o
               | None, MaskFloat16 => mask_row16 m (x_buf x) ip op S r o
               | Some w, _ => mask_row_window m w (x_buf x) ip op S r o
               end) (x_buf t));
    ROk (mkTns (x_view t) o)) t) out.

(* ------------------------------------------------------------------ *)
(** ** Masked scatter: CPUMaskedScatterOp::forward,
    backends/cpu/ops/MaskedScatterOp.cpp:68-222; the output is the first input
    (core/aops/MaskedScatterOp.cpp:28-30). *)
(** calculateBroadcastShape, lines 14-45 (an incompatible pair takes the larger). *)
Definition ms_broadcast (a b : list Z) : list Z :=
  let n := Nat.max (length a) (length b) in
  map (fun p => let '(x, y) := p in
         if x =? y then x else if x =? 1 then y else if y =? 1 then x else Z.max x y)
      (combine (pad_shape n a) (pad_shape n b)).
(** Lines 108-118 and the like: position in a tensor of [shape] of broadcast index [idx]. *)
Definition ms_pos (shape idx : list Z) : Z :=
  match shape with
  | [1] => 0
  | _ => dot (map (fun p => Z.rem (fst p) (snd p)) (combine (skipn (length idx - length shape) idx) shape))
             (default_strides shape)
  end.
Definition masked_scatter {A} (dst : tns A) (mask : tns Z) (src : tns A) : res (tns A) :=
  let bshape := ms_broadcast (ms_broadcast (x_shape dst) (x_shape mask)) (x_shape src) in
  do o <- zloop (numel bshape) (fun i o =>
    let idx := unravel bshape i in
    do m <- load (x_buf mask) (x_offset mask + ms_pos (x_shape mask) idx);
    match m with
    | None => RUB
    | Some m =>
        if negb (m =? 0)
        then copy1 (x_buf src) (x_offset src + ms_pos (x_shape src) idx)
                   (x_offset dst + ms_pos (x_shape dst) idx) o
        else ROk o
    end) (x_buf dst);
  ROk (mkTns (x_view dst) o).

(* ------------------------------------------------------------------ *)
(** ** Argsort: ArgsortOp::reshape, core/aops/ArgsortOp.cpp:27-36; argsort_impl,
    backends/cpu/ops/ArgsortOp.cpp:20-49, and forward 53-100.  [sort] is what
    std::sort did to the row of (value, position) pairs. *)
Definition lane {A} (x : buf A) (base stride n : Z) : res (list A) :=
  zloop n (fun i acc => do v <- load x (base + i * stride);
                        match v with Some v => ROk (acc ++ [v]) | None => RUB end) [].
Definition positions (n : nat) : list Z := map Z.of_nat (seq 0 n).
Definition argsort_op {A} (sort : list (A * Z) -> list (A * Z)) (x : tns A) (dim0 : Z) : res (tns Z) :=
  let shape := x_shape x in
  let dim := norm_dim (zlen shape) dim0 in
  do out <- fresh_tensor shape;
  do n <- vget shape dim;
  let d := Z.to_nat dim in
  let outer := numel (firstn d shape) in
  let inner := numel (skipn (S d) shape) in
  do o <- zloop outer (fun u b => zloop inner (fun v b =>
    do vals <- lane (x_buf x) (x_offset x + u * n * inner + v) inner n;
    let sorted := sort (combine vals (positions (length vals))) in
    zloop n (fun i b => do p <- vget sorted i; store b (u * n * inner + i * inner + v) (Some (snd p))) b) b)
    (x_buf out);
  ROk (mkTns (x_view out) o).

(* ------------------------------------------------------------------ *)
(** ** TopK: TopKOp::reshape, core/aops/TopKOp.cpp:27-49; topk_impl,
    backends/cpu/ops/TopKOp.cpp:20-68.
    The std::priority_queue is a list of its elements with the functions [push] and
    [pop] (top and pop: the element removed, and what remains); [sort] is what
    std::sort does.  Their contracts are hypotheses of the theorems. *)
Section TopK.
Context {A : Type}.
Variable before : A -> A -> bool.                              (* value_compare = heap_compare *)
Variable push : A * Z -> list (A * Z) -> list (A * Z).
Variable pop : list (A * Z) -> option ((A * Z) * list (A * Z)). (* None: empty *)
Variable sort : list (A * Z) -> list (A * Z).
(** Lines 42-53 over one lane. *)
Fixpoint topk_scan (k : Z) (items : list (A * Z)) (heap : list (A * Z)) : res (list (A * Z)) :=
  match items with
  | [] => ROk heap
  | x :: r =>
      if zlen heap <? k then topk_scan k r (push x heap)
      else match pop heap with
           | None => RUB
           | Some (top, rest) => topk_scan k r (if before (fst x) (fst top) then push x rest else heap)
           end
  end.
(** Lines 54-58: emptying the heap. *)
Fixpoint topk_drain (fuel : nat) (heap : list (A * Z)) : list (A * Z) :=
  match fuel with
  | O => []
  | S f => match pop heap with None => [] | Some (top, rest) => top :: topk_drain f rest end
  end.
Definition topk_lane (k : Z) (vals : list A) : res (list (A * Z)) :=
  do heap <- topk_scan k (combine vals (positions (length vals))) [];
  ROk (sort (topk_drain (length heap) heap)).
Definition topk_op (x : tns A) (k dim0 : Z) : res (tns A * tns Z) :=
  let shape := x_shape x in
  let dim := norm_dim (zlen shape) dim0 in
  do oshape <- vset shape dim k;
  do values <- fresh_tensor oshape;
  do indices <- fresh_tensor oshape;
  do n <- vget shape dim;
  let d := Z.to_nat dim in
  let outer := numel (firstn d shape) in
  let inner := numel (skipn (S d) shape) in
  do r <- zloop outer (fun u s => zloop inner (fun v s =>
    do vals <- lane (x_buf x) (x_offset x + u * n * inner + v) inner n;
    do chosen <- topk_lane k vals;
    zloop k (fun i s =>
      do p <- vget chosen i;
      do bv <- store (fst s) (u * k * inner + i * inner + v) (Some (fst p));
      do bi <- store (snd s) (u * k * inner + i * inner + v) (Some (snd p));
      ROk (bv, bi)) s) s) (x_buf values, x_buf indices);
  ROk (mkTns (x_view values) (fst r), mkTns (x_view indices) (snd r)).
End TopK.

(* ------------------------------------------------------------------ *)
(** ** Sums: ReduceSumOp::reshape (same text as ReduceMaxOp's, core/aops/ReduceOps.cpp:31-64),
    reduce_impl, backends/cpu/kernels/common/reduce-inl.hpp:65-111, and
    CPUReduceSumOp::forward, backends/cpu/ops/ReduceOps.cpp:281-414 (fp32). *)
Section Sum.
Context {A : Type}.
Variable zero : A.
Variable add : A -> A -> A.
Definition need (v : option A) : res A := match v with Some x => ROk x | None => RUB end.
(** N lanes loaded from position p; LoadN(d, p, n) sets the lanes from n on to zero. *)
Definition load_vec (x : buf A) (p N : Z) : res (list A) :=
  zloop N (fun j acc => do v <- load x (p + j); do v <- need v; ROk (acc ++ [v])) [].
Definition load_vec_n (x : buf A) (p n N : Z) : res (list A) :=
  do l <- load_vec x p n; ROk (l ++ repeat zero (Z.to_nat (N - n))).
Definition vadd (a b : list A) : list A := map (fun p => add (fst p) (snd p)) (combine a b).
Definition reduce_impl (N : Z) (x : buf A) (p stride size : Z) : res A :=
  if size =? 0 then ROk zero
  else if (stride =? 1) && (N <=? size) then
    do v <- load_vec x p N;
    let i := N in
    let q := (size - i) / (4 * N) in
    do v <- zloop q (fun u v =>
      let i := N + u * (4 * N) in
      do v0 <- load_vec x (p + i) N;
      do v1 <- load_vec x (p + i + N) N;
      do v2 <- load_vec x (p + i + 2 * N) N;
      do v3 <- load_vec x (p + i + 3 * N) N;
      ROk (vadd (vadd (vadd (vadd v v0) v1) v2) v3)) v;
    let i := N + q * (4 * N) in
    let r := (size - i) / N in
    do v <- zloop r (fun u v => do w <- load_vec x (p + (i + u * N)) N; ROk (vadd v w)) v;
    let i := i + r * N in
    do v <- (if i <? size then do w <- load_vec_n x (p + i) (size - i) N; ROk (vadd v w) else ROk v);
    ROk (fold_left add v zero)  (* hn::ReduceSum *)
  else
    do v <- load x p; do v <- need v;
    zloop (size - 1) (fun i acc => do w <- load x (p + (i + 1) * stride); do w <- need w; ROk (add acc w)) v.

Definition all_dims : Z := 2147483647.  (* 0x7fffffff *)
Definition reduce_shape (shape : list Z) (dim0 : Z) (keep : bool) : res (list Z) :=
  if dim0 =? all_dims then ROk (if keep then map (fun _ => 1) shape else [1])
  else let dim := norm_dim (zlen shape) dim0 in
       if keep then vset shape dim 1
       else ROk (map snd (filter (fun p => negb (Z.of_nat (fst p) =? dim)) (combine (seq 0 (length shape)) shape))).
Definition sum_op (N : Z) (x : tns A) (dim0 : Z) (keep : bool) : res (tns A) :=
  let shape := x_shape x in
  do oshape <- reduce_shape shape dim0 keep;
  do out <- fresh_tensor oshape;
  if dim0 =? all_dims then
    do v <- reduce_impl N (x_buf x) (x_offset x) 1 (numel shape);
    do o <- store (x_buf out) 0 (Some v);
    ROk (mkTns (x_view out) o)
  else
    let dim := norm_dim (zlen shape) dim0 in
    do n <- vget shape dim;
    let d := Z.to_nat dim in
    let outer := numel (firstn d shape) in
    let inner := numel (skipn (S d) shape) in
    do o <- zloop outer (fun u o => zloop inner (fun v o =>
      do s <- reduce_impl N (x_buf x) (x_offset x + (u * n * inner + v)) inner n;
      store o (u * inner + v) (Some s)) o) (x_buf out);
    ROk (mkTns (x_view out) o).
End Sum.
