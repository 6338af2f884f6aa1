(** Matrix products on the CPU: MatMul and Linear in fp32 on x86 (AVX2, AVX-512) and ARM.
    Sources: /repo/mllm/core/aops/{MatMulOp,LinearOp}.cpp, backends/cpu/ops/{MatMulOp,LinearOp}.cpp,
    backends/cpu/kernels/{x86,arm}/mllm_blas/mllm_blas_sgemm.{hpp,cpp} (cited as x86 and arm below),
    backends/cpu/kernels/common/ggml/{matmul,vec_dot}.cpp,
    backends/cpu/kernels/common/llamafile/llamafile_sgemm.cpp.

    Simplifications: those of OpsModel.v; a product-sum is [add acc (mul x y)] (fused or
    not); the order in which the lanes of registers are added at the end
    (hsum, MLLM_F32_VEC_REDUCE, the shuffles of the gemv kernel) is left to
    right; several accumulator registers used round-robin are one long list of lanes;
    the accumulators of different cells of a tile are computed one cell after
    the other (they are independent); iterations of parallel loops run one after the
    other.  Transposing the left operand is not supported by the code (NYI) and not
    modelled; nor are other element types and BLAS. *)
From Verif Require Import Base DTypeModel ParamModel TensorModel OpsModel.
Local Open Scope Z_scope.

Section Mat.
Context {A : Type}.
Variable zero : A.
Variable add : A -> A -> A.
Variable mul : A -> A -> A.

(** p[i] for a pointer p, read as a number. *)
Definition loadv (b : buf A) (i : Z) : res A := do v <- load b i; need v.

(** The vector instructions the library is compiled for. *)
Inductive isa := Avx2 | Avx512 | Neon.
(** Floats per register, llamafile_sgemm.cpp:844-866. *)
Definition reg_floats (cpu : isa) : Z := match cpu with Avx2 => 8 | Avx512 => 16 | Neon => 4 end.
(** VECTOR_REGISTERS == 32, llamafile_sgemm.cpp:61-65. *)
Definition wide_regs (cpu : isa) : bool := match cpu with Avx2 => false | _ => true end.
(** check_llamafile_sgemm for fp32, llamafile_sgemm.cpp:958-991 (the leading dimensions are
    those of contiguous matrices): on ARM small matrices are refused. *)
Definition llamafile_serves (cpu : isa) (M K : Z) : bool :=
  (match cpu with Neon => 4 <=? M | _ => true end) && (K mod reg_floats cpu =? 0).
(** Lanes used by vec_dot_fp32: ggml/vec_dot.hpp:153-155 (x86), 304-306 (ARM). *)
Definition dot_lanes (cpu : isa) : Z := match cpu with Neon => 16 | _ => 32 end.
(** Columns of the largest tile of mllm_blas: x86 8, ARM 16. *)
Definition tile_cols (cpu : isa) : Z := match cpu with Neon => 16 | _ => 8 end.

(** Product-sum of K elements with W accumulator lanes and a scalar remainder:
    vec_dot_fp32_avx2 (ggml/vec_dot.cpp:34-60, 4 registers of 8 lanes, W = 32),
    vec_dot_fp32_arm (ggml/vec_dot.cpp:63-87, 4 registers of 4 lanes, W = 16), the body of
    the loop over s in gemv_nt_t (x86 mllm_blas_sgemm.cpp:54-118; arm 56-113, where K is a
    multiple of W; W = 32), and the loop over l
    of tinyBLAS::gemm (llamafile_sgemm.cpp:395-401, W = KN, K a multiple of KN). *)
Definition dot_kernel (W : Z) (x : buf A) (xo : Z) (y : buf A) (yo K : Z) : res A :=
  let tiles := K / W in
  do acc <- zloop tiles (fun t acc =>
      do a <- load_vec x (xo + t * W) W;
      do b <- load_vec y (yo + t * W) W;
      ROk (vadd add acc (vadd mul a b)))  (* lane by lane: acc + a * b *)
    (repeat zero (Z.to_nat W));
  zloop (K - tiles * W) (fun r s =>
      do a <- loadv x (xo + (tiles * W + r));
      do b <- loadv y (yo + (tiles * W + r));
      ROk (add s (mul a b))) (fold_left add acc zero).

(** C[n] added to a result if C is not nullptr. *)
Definition plus_vec (bias : option (buf A * Z)) (n : Z) (s : A) : res A :=
  match bias with
  | None => ROk s
  | Some (p, o) => do v <- loadv p (o + n); ROk (add s v)
  end.
(** __mllm_blas_matmul_fp32_gemv_nt_t_decode_small_d_qk, x86 mllm_blas_sgemm.cpp:39-124, arm 40-121. *)
Definition gemv_nt_t (K N : Z) (a : buf A) (ao : Z) (b : buf A) (bo co : Z) (bias : option (buf A * Z)) (c : buf A) : res (buf A) :=
  zloop N (fun s c => do r <- dot_kernel 32 a ao b (bo + s * K) K; do r <- plus_vec bias s r; store c (co + s) (Some r)) c.

(** __mllm_blas_matmul_fp32_gemv_nt_nt_decode_small_d_wv, x86
    mllm_blas_sgemm.cpp:151-249, arm 147-198 (C = nullptr; every caller passes that).  [w0]
    floats are cleared at a time (on ARM one by one), [w] computed at a time. *)
Definition gemv_nt_nt (w0 w K N : Z) (a : buf A) (ao : Z) (b : buf A) (bo co : Z) (c : buf A) : res (buf A) :=
  do c <- vec_for w0 N (fun n c => store c (co + n) (Some zero)) c;
  let q := K / 4 in
  do c <- zloop q (fun u c =>
      do a0 <- loadv a (ao + 4 * u);
      do a1 <- loadv a (ao + (4 * u + 1));
      do a2 <- loadv a (ao + (4 * u + 2));
      do a3 <- loadv a (ao + (4 * u + 3));
      vec_for w N (fun n c =>
        do s <- loadv c (co + n);
        do b0 <- loadv b (bo + (4 * u * N + n));
        do b1 <- loadv b (bo + ((4 * u + 1) * N + n));
        do b2 <- loadv b (bo + ((4 * u + 2) * N + n));
        do b3 <- loadv b (bo + ((4 * u + 3) * N + n));
        store c (co + n) (Some (add (add (add (add s (mul a0 b0)) (mul a1 b1)) (mul a2 b2)) (mul a3 b3)))) c) c;
  zloop (K - 4 * q) (fun r c =>
      do a0 <- loadv a (ao + (4 * q + r));
      vec_for w N (fun n c =>
        do s <- loadv c (co + n);
        do b0 <- loadv b (bo + ((4 * q + r) * N + n));
        store c (co + n) (Some (add s (mul a0 b0)))) c) c.

(** MicroKernel<RM, RN>::accumulate, generic (mllm_blas_sgemm.hpp: x86 297-312, arm 374-391) and the
    default case of dispatch_tile (mllm_blas_sgemm.cpp: x86 319-331, arm 283-296). *)
Definition tile_generic (rm rn : Z) (a : buf A) (ao lda : Z) (b : buf A) (bo ldb co ldc k : Z) (c : buf A) : res (buf A) :=
  do c <- zloop rm (fun i c => zloop rn (fun j c => store c (co + (i * ldc + j)) (Some zero)) c) c;
  zloop k (fun l c => zloop rm (fun i c =>
      do ai <- loadv a (ao + (i * lda + l));
      zloop rn (fun j c =>
        do s <- loadv c (co + (i * ldc + j));
        do bj <- loadv b (bo + (l * ldb + j));
        store c (co + (i * ldc + j)) (Some (add s (mul ai bj)))) c) c) c.
(** MicroKernel<8,8>, <4,8>, <1,8> with AVX registers (x86 mllm_blas_sgemm.hpp:139-290),
    MicroKernel<8,16>, <4,16>, <1,4> with NEON registers (arm mllm_blas_sgemm.hpp:145-372). *)
Definition tile_vec (rm rn : Z) (a : buf A) (ao lda : Z) (b : buf A) (bo ldb co ldc k : Z) (c : buf A) : res (buf A) :=
  zloop rm (fun i c =>
    do acc <- zloop k (fun l acc =>
        do bv <- load_vec b (bo + l * ldb) rn;
        do ai <- loadv a (ao + (i * lda + l));
        ROk (vadd add acc (map (mul ai) bv))) (repeat zero (Z.to_nat rn));
    zloop rn (fun j c => store c (co + (i * ldc + j)) (nth_error acc (Z.to_nat j))) c) c.
(** dispatch_tile, mllm_blas_sgemm.cpp: x86 290-346, arm 245-300. *)
Definition dispatch_tile (cpu : isa) (rm rn : Z) (a : buf A) (ao lda : Z) (b : buf A) (bo ldb co ldc k : Z) (c : buf A) : res (buf A) :=
  let rm := Z.min rm 8 in
  let rn := Z.min rn (tile_cols cpu) in
  let vec := match cpu with
             | Neon => ((rn =? 16) && ((rm =? 8) || (rm =? 4))) || ((rm =? 1) && (rn =? 4))
             | _ => (rn =? 8) && ((rm =? 8) || (rm =? 4) || (rm =? 1))
             end in
  if vec then tile_vec rm rn a ao lda b bo ldb co ldc k c
  else tile_generic rm rn a ao lda b bo ldb co ldc k c.
(** dispatch_tile_nt_t, mllm_blas_sgemm.cpp: x86 350-399, arm 304-364, and
    MicroKernel_NT_T_Bias, mllm_blas_sgemm.hpp: x86 318-342, arm 396-418. *)
Definition dispatch_tile_nt_t (cpu : isa) (rm rn : Z) (a : buf A) (ao lda : Z) (b : buf A) (bo ldb co ldc k : Z) (bias : option (buf A * Z)) (c : buf A) : res (buf A) :=
  let rm := Z.min rm 8 in
  let rn := Z.min rn (tile_cols cpu) in
  do c <- zloop rm (fun i c => zloop rn (fun j c =>
    do s <- zloop k (fun l s =>
      do x <- loadv a (ao + (i * lda + l));
      do y <- loadv b (bo + (j * ldb + l));
      ROk (add s (mul x y))) zero;
    store c (co + (i * ldc + j)) (Some s)) c) c;
  match bias with
  | None => ROk c
  | Some _ => zloop rm (fun i c => zloop rn (fun j c =>
      do s <- loadv c (co + (i * ldc + j));
      do s <- plus_vec bias j s;
      store c (co + (i * ldc + j)) (Some s)) c) c
  end.

(** Tile sizes, mllm_blas_sgemm.cpp: x86 409-413, arm 374-378; [w] is the largest. *)
Definition tile_size (w m : Z) : Z := if m <? 4 then 1 else if m <? w then 4 else w.
(** __mllm_blas_sgemm_nt_nt / _nt_t, mllm_blas_sgemm.cpp: x86 402-454, arm 368-412.  [tb]: the right
    operand is N x K.  Returning false leaves the output as it was. *)
Definition sgemm (cpu : isa) (tb : bool) (m n k : Z) (a : buf A) (ao lda : Z) (b : buf A) (bo ldb co ldc threads : Z) (bias : option (buf A * Z)) (c : buf A) : res (buf A) :=
  if (m <=? 0) || (n <=? 0) || (k <=? 0) then ROk c
  else if (lda <? k) || (ldb <? (if tb then k else n)) || (ldc <? n) then ROk c
  else if threads <=? 0 then ROk c
  else
    let mc := tile_size 8 m in
    let nc := tile_size (tile_cols cpu) n in
    let yt := (m + mc - 1) / mc in
    let xt := (n + nc - 1) / nc in
    zloop (yt * xt) (fun job c =>
      let ii := job / xt * mc in
      let jj := job mod xt * nc in
      let rm := Z.min mc (m - ii) in
      let rn := Z.min nc (n - jj) in
      if tb then dispatch_tile_nt_t cpu rm rn a (ao + ii * lda) lda b (bo + jj * ldb) ldb (co + (ii * ldc + jj)) ldc k
                   (option_map (fun q => (fst q, snd q + jj)) bias) c
      else dispatch_tile cpu rm rn a (ao + ii * lda) lda b (bo + jj) ldb (co + (ii * ldc + jj)) ldc k c) c.

(** mllm_blas_matmul_fp32, mllm_blas_sgemm.cpp: x86 456-488, arm 414-444.  [bias] (the argument
    C) is nullptr unless the right operand is transposed. *)
Definition blas_matmul (cpu : isa) (tb : bool) (M K N : Z) (a : buf A) (ao : Z) (b : buf A) (bo co threads : Z) (bias : option (buf A * Z)) (c : buf A) : res (buf A) :=
  if negb tb then
    if M =? 1 then gemv_nt_nt (match cpu with Neon => 1 | _ => 8 end) (match cpu with Neon => 4 | _ => 8 end) K N a ao b bo co c
    else sgemm cpu false M N K a ao K b bo N co N threads None c
  else
    if (M =? 1) && (match cpu with Neon => K mod 32 =? 0 | _ => true end) then gemv_nt_t K N a ao b bo co bias c
    else sgemm cpu true M N K a ao K b bo K co N threads bias c.
(** mllm_blas_batch_matmul_fp32, mllm_blas_sgemm.cpp: x86 490-534, arm 446-488, with
    __mllm_blas_batch_matmul_fp32_gemv (x86 264-288, hpp 36-59 and 84-109; arm 212-241, hpp 36-65 and
    89-116); the batch stride of C is 0 in every call. *)
Definition blas_batch_matmul (cpu : isa) (tb : bool) (batch M K N sc sa sb : Z) (a : buf A) (ao : Z) (b : buf A) (bo co threads : Z) (bias : option (buf A * Z)) (c : buf A) : res (buf A) :=
  zloop batch (fun i c => blas_matmul cpu tb M K N a (ao + i * sa) b (bo + i * sb) (co + i * sc) threads bias c) c.

(* ---------------- llamafile ---------------- *)
(** The switch of tinyBLAS::mnpack, llamafile_sgemm.cpp:256-377: rows and columns of a tile;
    [wide]: 32 vector registers (AVX-512).  None is the default case. *)
Definition pack_tile (wide : bool) (dm dn : Z) : option (Z * Z) :=
  let p := Z.min dm 5 in
  let q := Z.min dn 5 in
  if (p <=? 0) || (q <=? 0) then None
  else if wide then Some (p, q)
  else
    Some (if (4 <=? p) && (3 <=? q) then (4, 3)
          else if (p =? 3) && (4 <=? q) then (3, 4)
          else (p, q)).
(** tinyBLAS::gemm<RM, RN>, llamafile_sgemm.cpp:379-416; [value i j] is the accumulated and
    summed register for row i of A and row j of B (plus bias). *)
Definition pack_gemm (value : Z -> Z -> res A) (co ldc : Z) (RM RN m0 m n0 n ith nth : Z) (c : buf A) : res (buf A) :=
  let ytiles := (m - m0) / RM in
  let xtiles := (n - n0) / RN in
  let tiles := xtiles * ytiles in
  let duty := (tiles + nth - 1) / nth in
  let start := duty * ith in
  let end_ := if tiles <? start + duty then tiles else start + duty in
  zloop (end_ - start) (fun t c =>
    let job := start + t in
    let ii := m0 + job / xtiles * RM in
    let jj := n0 + job mod xtiles * RN in
    zloop RN (fun j c => zloop RM (fun i c =>
      do v <- value (ii + i) (jj + j); store c (co + (ldc * (jj + j) + (ii + i))) (Some v)) c) c) c.
(** tinyBLAS::mnpack, llamafile_sgemm.cpp:253-377.  Fuel: number of nested calls; [tile]: the
    switch (also of tinyBLAS_Q0_ARM and tinyBLAS_Q0_AVX, 462-515 and 577-690). *)
Fixpoint mnpack (fuel : nat) (tile : Z -> Z -> option (Z * Z)) (value : Z -> Z -> res A) (co ldc : Z) (m0 m n0 n ith nth : Z) (c : buf A) : res (buf A) :=
  match fuel with
  | O => RDiverge
  | S f =>
      match tile (m - m0) (n - n0) with
      | None => ROk c
      | Some (mc, nc) =>
          do c <- pack_gemm value co ldc mc nc m0 m n0 n ith nth c;
          let mp := m0 + (m - m0) / mc * mc in
          let np := n0 + (n - n0) / nc * nc in
          do c <- mnpack f tile value co ldc mp m n0 np ith nth c;
          mnpack f tile value co ldc m0 m np n ith nth c
      end
  end.
(** llamafile_sgemm for fp32, llamafile_sgemm.cpp:827-857, run for every thread id
    (matmul.cpp:87-95): C[j * ldc + i] = A row i times B row j. *)
Definition llamafile (KN : Z) (wide : bool) (m n k : Z) (a : buf A) (ao lda : Z) (b : buf A) (bo ldb co ldc : Z)
  (bias : option (buf A * Z)) (threads : Z) (c : buf A) : res (buf A) :=
  let value i j :=
    do s <- dot_kernel KN a (ao + lda * i) b (bo + ldb * j) k;
    match bias with
    | None => ROk s
    | Some (p, o) => do v <- loadv p (o + i); ROk (add v s)
    end in
  zloop threads (fun id c => mnpack (S (Z.to_nat (m + n))) (pack_tile wide) value co ldc 0 m 0 n id threads c) c.

(** ggml::mat_mul for fp32 with transpose0 = false, transpose1 = true,
    backends/cpu/kernels/common/ggml/matmul.cpp:42-394; shapes of the two operands as M, K, N and the batch count; strides of the
    batch dimension; [sb] is None if the right operand is a matrix; [rs0], [rs1]
    are the strides of the row dimension. *)
Definition gguf_matmul (cpu : isa) (batch M K N sa rs0 : Z) (sb : option Z) (rs1 sc : Z)
  (a : buf A) (ao : Z) (b : buf A) (bo co : Z) (bias : option (buf A * Z)) (threads : Z) (c : buf A) : res (buf A) :=
  if llamafile_serves cpu M K then
    if batch =? 1 then llamafile (reg_floats cpu) (wide_regs cpu) N M K b bo K a ao K co N bias threads c
    else zloop batch (fun i c =>
      let src1_offset := match sb with Some s => if 0 <? s then i * s else 0 | None => 0 end in
      llamafile (reg_floats cpu) (wide_regs cpu) N M K b (bo + src1_offset) K a (ao + i * sa) K (co + i * sc) N bias threads c) c
  else
    (* vec_dot fallback, lines 342-393 *)
    let blocks := N / 16 + 1 in
    zloop (batch * M * blocks) (fun combined c =>
      let bi := combined / (M * blocks) in
      let temp := combined mod (M * blocks) in
      let m := temp / blocks in
      let block := temp mod blocks in
      zloop (Z.min 16 (N - block * 16)) (fun t c =>
        let n := block * 16 + t in
        let src0_offset := (if 1 <? batch then bi * sa else 0) + m * rs0 in
        let src1_offset := n * rs1 in
        do s <- dot_kernel (dot_lanes cpu) b (bo + src1_offset) a (ao + src0_offset) K;
        do s <- plus_vec bias n s;
        store c (co + (bi * sc + (m * N + n))) (Some s)) c) c.

(* ---------------- operators ---------------- *)
(** MatMulOp::reshape, core/aops/MatMulOp.cpp:28-60, then CPUMatMulOp::forward,
    backends/cpu/ops/MatMulOp.cpp:17-134 (default type).  A left operand of rank
    below 2 makes reserve() throw; the right operand's shape is indexed unchecked. *)
Definition matmul_op (cpu : isa) (tb : bool) (threads : Z) (a b : tns A) : res (tns A) :=
  let sa := x_shape a in
  let sb := x_shape b in
  let ra := length sa in
  let rb := length sb in
  if (ra <? 2)%nat then RAbort
  else if (rb <? 2)%nat then RUB
  else
    let M := nth (ra - 2) sa 0 in
    let K := nth (ra - 1) sa 0 in
    let N := nth (if tb then rb - 2 else rb - 1)%nat sb 0 in
    let K' := nth (if tb then rb - 1 else rb - 2)%nat sb 0 in
    if negb (K =? K') then RAbort
    else
      do out <- fresh_tensor (firstn (ra - 2) sa ++ [M; N]);
      let batch := numel (firstn (ra - 2) sa) in
      if negb (batch =? numel (firstn (rb - 2) sb)) then RAbort
      else
        let stride t := nth (length (x_shape t) - 3) (x_stride t) 0 in
        do o <- (if tb && (4 <=? M)
                 (* isContiguousN(0), TensorViewImpl.cpp:52-53, is true for every tensor *)
                 then gguf_matmul cpu batch M K N (stride a) (nth (ra - 2) (x_stride a) 0)
                        (if (2 <? rb)%nat then Some (stride b) else None) (nth (rb - 2) (x_stride b) 0)
                        (if (2 <? ra)%nat then stride out else 0)
                        (x_buf a) (x_offset a) (x_buf b) (x_offset b) (x_offset out) None threads (x_buf out)
                 else if batch =? 1
                 then blas_matmul cpu tb M K N (x_buf a) (x_offset a) (x_buf b) (x_offset b) (x_offset out) threads None (x_buf out)
                 else blas_batch_matmul cpu tb batch M K N (stride out) (stride a) (stride b)
                        (x_buf a) (x_offset a) (x_buf b) (x_offset b) (x_offset out) threads None (x_buf out));
        ROk (mkTns (x_view out) o).

(** CPULinearOp::reshape and forward, backends/cpu/ops/LinearOp.cpp:99-129, 282-297, 318-332 (fp32,
    default implementation): weight [out_channels, in_channels]. *)
Definition linear_op (cpu : isa) (threads inc outc : Z) (weight : tns A) (bias : option (tns A)) (x : tns A) : res (tns A) :=
  let sx := x_shape x in
  let r := length sx in
  if (r <? 1)%nat then RUB
  else if negb (nth (r - 1) sx 0 =? inc) then RAbort
  else
    do out <- fresh_tensor (firstn (r - 1) sx ++ [outc]);
    if (r <? 2)%nat then RAbort
    else
      let M := nth (r - 2) sx 0 in
      let K := inc in
      let batch := numel (firstn (r - 2) sx) in
      let stride t := nth (length (x_shape t) - 3) (x_stride t) 0 in
      let bias := option_map (fun t => (x_buf t, x_offset t)) bias in
      if K <? 4 then
        match cpu with
        | Neon =>
            do o <- (if batch =? 1
                     then blas_matmul cpu true M K outc (x_buf x) (x_offset x) (x_buf weight) (x_offset weight) (x_offset out) threads bias (x_buf out)
                     else blas_batch_matmul cpu true batch M K outc (stride out) (stride x) 0
                            (x_buf x) (x_offset x) (x_buf weight) (x_offset weight) (x_offset out) threads bias (x_buf out));
            ROk (mkTns (x_view out) o)
        | _ => ROk out   (* NYI on x86 *)
        end
      else
        do o <- gguf_matmul cpu batch M K outc (stride x) (nth (r - 2) (x_stride x) 0)
                  None (nth (length (x_shape weight) - 2) (x_stride weight) 0)
                  (if (2 <? r)%nat then stride out else 0)
                  (x_buf x) (x_offset x) (x_buf weight) (x_offset weight) (x_offset out)
                  bias threads (x_buf out);
        ROk (mkTns (x_view out) o).
End Mat.
