(** Block quantization on the CPU: Q8_0, Q4_0, Q8_K and the int8 format with a given scale; dot products of
    quantized rows; the matrix product of a quantized weight.
    Sources, all under /repo/mllm/backends/cpu/kernels/common: ggml/quantize/{quantize_q8,quantize_q4}.cpp,
    ggml/quantize/quantize.hpp, ggml/vec_dot.{cpp,hpp}, ggml/matmul.cpp, ggml/vec_dot_type.{cpp,hpp},
    llamafile/llamafile_sgemm.cpp; and /repo/mllm/backends/cpu/ops/{LinearOp,EmbeddingOp}.cpp.

    Here float arithmetic is rounded: every operation of a quantizer and a dequantizer rounds to
    the nearest binary32 number (ties to even), a scale is rounded to the nearest binary16 number.
    Simplifications: infinities and not-a-numbers are [None]; converting one to an
    integer is RUB; the compiler does not contract a multiplication and an addition; the greatest
    absolute value of a block, which the vector code finds as a tree of maxima, is one fold;
    the sums of floats over blocks and lanes, and a bias, are exact (real numbers); threads are
    processed one after the other. *)
From Coq Require Import Reals.
From Flocq Require Import Core.
From Verif Require Import Base DTypeModel ParamModel TensorModel OpsModel MatModel.
Local Open Scope Z_scope.

(* ---------------- numbers ---------------- *)
(** Round to nearest, ties to even, precision [prec], exponent range from [emin]. *)
Definition nearest (emin prec : Z) (x : R) : R := round radix2 (FLT_exp emin prec) ZnearestE x.
(** Result of a float operation: binary32, None if it overflows. *)
Definition f32 (x : R) : option R :=
  let r := nearest (-149) 24 x in if Rlt_dec (Rabs r) (bpow radix2 128) then Some r else None.
(** MLLM_FP32_TO_FP16 followed by MLLM_FP16_TO_FP32 (quantize.hpp:68-134; _cvtss_sh with
    rounding mode 0, or a cast to __fp16): binary16, None if it overflows. *)
Definition f16 (x : R) : option R :=
  let r := nearest (-24) 11 x in if Rlt_dec (Rabs r) (bpow radix2 16) then Some r else None.
(** a float operation whose result is used as a number *)
Definition fop (x : R) : res R := need (f32 x).
(** roundf: to the nearest integer, ties away from zero. *)
Definition roundf (x : R) : Z := ZnearestA x.
(** Conversion of a float that is the integer z to int8_t: undefined out of range. *)
Definition to_int8 (z : Z) : res Z := if (-128 <=? z) && (z <=? 127) then ROk z else RUB.
(** Conversion of an int to int8_t. *)
Definition wrap8 (z : Z) : Z := (z + 128) mod 256 - 128.
(** Saturation of the packs instructions. *)
Definition sat8 (z : Z) : Z := Z.max (-128) (Z.min 127 z).
Definition sat16 (z : Z) : Z := Z.max (-32768) (Z.min 32767 z).
(** vcvtnq_s32_f32 and _mm256_cvtps_epi32: out of range gives INT_MIN on x86 and the nearest
    limit on ARM. *)
Definition to_int32_x86 (z : Z) : Z := if (-2147483648 <=? z) && (z <=? 2147483647) then z else -2147483648.
Definition to_int32_arm (z : Z) : Z := Z.max (-2147483648) (Z.min 2147483647 z).
(** nearest_int, quantize.hpp:261-267: adds 1.5 * 2^23 and reads the fraction bits of the sum.  A float in
    [2^23, 2^24) has the fraction bits sum - 2^23; other sums give unrelated bits (RUB; the code
    asserts that the argument is at most 4194303). *)
Definition nearest_int (fval : R) : res Z :=
  do val <- fop (fval + 12582912);
  let i := Ztrunc val in
  if (8388608 <=? i) && (i <? 16777216) then ROk (i - 8388608 - 4194304) else RUB.

(** for each element: the first failure is the result *)
Fixpoint rmap {A B} (f : A -> res B) (l : list A) : res (list B) :=
  match l with
  | [] => ROk []
  | x :: r => do y <- f x; do ys <- rmap f r; ROk (y :: ys)
  end.

(* ---------------- Q8_0 ---------------- *)
(** block_q8_0 and block_q4_0: scale and quants (32 int8_t; 16 bytes with two 4-bit numbers each). *)
Record qblock := mkQ { q_d : option R; q_qs : list Z }.
(** Greatest absolute value (quantize_q8.cpp:39-42, 86-90, 119-128). *)
Definition amax (v : list R) : R := fold_left (fun m x => Rmax m (Rabs x)) v 0%R.
(** const float id = d ? 1.0f / d : 0.0f; None: infinity. *)
Definition inv_scale (d : R) : option R := if Req_EM_T d 0 then Some 0%R else f32 (1 / d).
(** x * id *)
Definition times (id : option R) (x : R) : option R := match id with Some i => f32 (x * i) | None => None end.

(** quantize_row_q8_0_reference, quantize_q8.cpp:32-55: one block. *)
Definition q8_0_reference (v : list R) : res qblock :=
  do d <- fop (amax v / 127);
  let id := inv_scale d in
  do qs <- rmap (fun x => do x0 <- need (times id x); to_int8 (roundf x0)) v;
  ROk (mkQ (f16 d) qs).
(** The vector instructions convert an infinity or a not-a-number to some int32_t, [junk x]. *)
Definition convert (junk : R -> Z) (lim : Z -> Z) (id : option R) (x : R) : Z :=
  lim (match times id x with Some x0 => ZnearestE x0 | None => junk x end).
(** quantize_row_q8_0, ARM NEON: 76-104. *)
Definition q8_0_neon (junk : R -> Z) (v : list R) : res qblock :=
  do d <- fop (amax v / 127);
  let id := inv_scale d in
  ROk (mkQ (f16 d) (map (fun x => wrap8 (convert junk to_int32_arm id x)) v)).
(** _mm256_packs_epi32, _mm256_packs_epi16: each 128-bit half of the result packs the same halves
    of the operands; [h] elements per half. *)
Definition packs (sat : Z -> Z) (h : nat) (a b : list Z) : list Z :=
  map sat (firstn h a ++ firstn h b ++ skipn h a ++ skipn h b).
(** _mm256_permutevar8x32_epi32 on bytes: group i of the result is group perm[i]. *)
Definition permute32 (perm : list nat) (b : list Z) : list Z :=
  flat_map (fun p => firstn 4 (skipn (4 * p) b)) perm.
(** Four registers of eight int32_t to 32 int8_t, quantize_q8.cpp:148-166 (the AVX version of the packing, 168-190, keeps the order by itself). *)
Definition pack32 (i : list Z) : list Z :=
  let i0 := firstn 8 i in
  let i1 := firstn 8 (skipn 8 i) in
  let i2 := firstn 8 (skipn 16 i) in
  let i3 := firstn 8 (skipn 24 i) in
  let j0 := packs sat16 4 i0 i1 in
  let j2 := packs sat16 4 i2 i3 in
  permute32 [0; 4; 1; 5; 2; 6; 3; 7]%nat (packs sat8 8 j0 j2).
(** quantize_row_q8_0, AVX2: 106-166. *)
Definition q8_0_avx2 (junk : R -> Z) (v : list R) : res qblock :=
  let maxScalar := amax v in
  do d <- fop (maxScalar / 127);
  let id := if Req_EM_T maxScalar 0 then Some 0%R else f32 (127 / maxScalar) in
  ROk (mkQ (f16 d) (pack32 (map (convert junk to_int32_x86 id) v))).
Inductive quantizer := Reference | Neon (junk : R -> Z) | Avx2 (junk : R -> Z).
Definition q8_0_block (t : quantizer) : list R -> res qblock :=
  match t with Reference => q8_0_reference | Neon junk => q8_0_neon junk | Avx2 junk => q8_0_avx2 junk end.
(** dequantize_row_q8_0, 197-210: one block. *)
Definition scaled (d : option R) (q : Z) : option R := match d with Some d => f32 (IZR q * d) | None => None end.
Definition dequant_q8_0 (b : qblock) : list (option R) := map (scaled (q_d b)) (q_qs b).

(* ---------------- Q4_0 ---------------- *)
(** Element of greatest absolute value, the first of several, 0 if all are 0 (quantize_q4.cpp:43-49). *)
Definition max_abs_elem (v : list R) : R := fold_left (fun m x => if Rlt_dec (Rabs m) (Rabs x) then x else m) v 0%R.
(** MIN(15, (int8_t)(x * id + 8.5f)) as uint8_t, 58-62. *)
Definition nibble (id : option R) (x : R) : res Z :=
  do x0 <- need (times id x);
  do s <- fop (x0 + 8.5);
  do i <- to_int8 (Ztrunc s);
  ROk (Z.min 15 i mod 256).
(** quantize_row_q4_0_reference, quantize_q4.cpp:33-68: one block. *)
Definition q4_0_block (v : list R) : res qblock :=
  do d <- fop (max_abs_elem v / -8);
  let id := inv_scale d in
  do qs <- rmap (fun p => do xi0 <- nibble id (fst p); do xi1 <- nibble id (snd p);
                          ROk (Z.lor xi0 (Z.shiftl xi1 4) mod 256))
             (combine (firstn 16 v) (skipn 16 v));
  ROk (mkQ (f16 d) qs).
(** The 32 numbers in a block: low halves, then high halves, minus 8 (dequantize_row_q4_0, 87-88;
    load_lo / load_hi and denibble, llamafile_sgemm.cpp:557-564, 742-780; bytes_from_nibbles_32, vec_dot.hpp:244-249). *)
Definition unpack_q4_0 (qs : list Z) : list Z :=
  map (fun b => Z.land b 15 - 8) qs ++ map (fun b => Z.shiftr b 4 - 8) qs.
(** dequantize_row_q4_0, 74-95: one block. *)
Definition dequant_q4_0 (b : qblock) : list (option R) := map (scaled (q_d b)) (unpack_q4_0 (q_qs b)).

(* ---------------- Q8_K ---------------- *)
(** block_q8_K; bsums None: not written. *)
Record kblock := mkK { k_d : option R; k_qs : list Z; k_bsums : option (list Z) }.
(** quantize_row_q8_K_reference, quantize_q8.cpp:215-250: one block. *)
Definition q8_K_block (v : list R) : res kblock :=
  let max := max_abs_elem v in
  if Req_EM_T max 0 then ROk (mkK (Some 0%R) (map (fun _ => 0) v) None)
  else
    do iscale <- fop (-128 / max);
    do qs <- rmap (fun x => do x0 <- fop (iscale * x); do i <- nearest_int x0; ROk (wrap8 (Z.min 127 i))) v;
    do d <- fop (1 / iscale);
    ROk (mkK (Some d) qs (Some (map (fun j => fold_left Z.add (firstn 16 (skipn (16 * j) qs)) 0) (seq 0 16)))).
(** dequantize_row_q8_K, 252-259. *)
Definition dequant_q8_K (b : kblock) : list (option R) := map (scaled (k_d b)) (k_qs b).

(* ---------------- int8 with a given scale ---------------- *)
(** quantize_row_i8, quantize_q8.cpp:271-307, ARM NEON: one element. *)
Definition i8_neon (junk : R -> Z) (scale x : R) : Z :=
  wrap8 (Z.max (-128) (Z.min (convert junk to_int32_arm (inv_scale scale) x) 127)).
(** quantize_row_i8_reference, 264-270, called by quantize_row_i8 without NEON (388-390): the loop over i < k uses index k. *)
Definition i8_row_reference (scale : R) (k : Z) (x : buf R) (y : buf Z) : res (buf Z) :=
  do id <- fop (1 / scale);
  zloop k (fun i y =>
    do v <- loadv x k;
    do x0 <- fop (v * id);
    do q <- to_int8 (roundf x0);
    store y k (Some q)) y.
(** quantize_row_i8, ARM NEON: a row. *)
Definition i8_row_neon (junk : R -> Z) (scale : R) (k : Z) (x : buf R) (y : buf Z) : res (buf Z) :=
  zloop (k / 32 * 32) (fun i y => do v <- loadv x i; store y i (Some (i8_neon junk scale v))) y.
(** dequantize_row_i8, 395-445: one element. *)
Definition i8_dequant (scale : R) (q : Z) : option R := f32 (IZR q * scale).

(* ---------------- rows ---------------- *)
(** quantize_row_*: the loop over k / [lanes] blocks; x at position xo (elements), y at yo (blocks). *)
Definition quantize_row {B} (lanes : Z) (block : list R -> res B) (k : Z) (x : buf R) (xo yo : Z) (y : buf B) : res (buf B) :=
  zloop (k / lanes) (fun i y =>
    do v <- load_vec x (xo + i * lanes) lanes;
    do b <- block v;
    store y (yo + i) (Some b)) y.
(** dequantize_row_* *)
Definition dequantize_row {B} (lanes : Z) (dequant : B -> list (option R)) (k : Z) (x : buf B) (xo yo : Z) (y : buf R) : res (buf R) :=
  zloop (k / lanes) (fun i y =>
    do b <- loadv x (xo + i);
    zloop lanes (fun j y =>
      match nth_error (dequant b) (Z.to_nat j) with
      | Some v => store y (yo + i * lanes + j) v
      | None => RUB
      end) y) y.

(* ---------------- dot products of blocks ---------------- *)
(** _mm256_sign_epi8(x, y) *)
Definition sign8 (x y : Z) : Z := if y <? 0 then wrap8 (- x) else if y =? 0 then 0 else x.
(** sums of adjacent pairs *)
Fixpoint pairs_sum (sat : Z -> Z) (l : list Z) : list Z :=
  match l with a :: b :: r => sat (a + b) :: pairs_sum sat r | _ => [] end.
Definition products (a b : list Z) : list Z := map (fun p => fst p * snd p) (combine a b).
(** _mm256_maddubs_epi16(u, s): u as unsigned bytes; saturating. *)
Definition maddubs (u s : list Z) : list Z := pairs_sum sat16 (products (map (fun x => x mod 256) u) s).
(** Instructions for the product of 32 pairs of signed bytes. *)
Inductive dot_isa :=
  | Maddubs    (* AVX2: updot, llamafile_sgemm.cpp:762-772, mul_sum_i8_pairs_float, vec_dot.hpp:258-287 *)
  | Vnni       (* AVX-VNNI, AVX512-VNNI: the same with dpbusd *)
  | VnniInt8   (* AVX-VNNI-INT8: dpbssd, vec_dot.hpp:278-281 *)
  | Vdot       (* ARM dot product: vdotq_s32, llamafile_sgemm.cpp:533-538, vec_dot.cpp:283-288 *)
  | Vmull.     (* ARM without it: vmull_s8, vpaddlq_s16, vec_dot.cpp:289-308 *)
(** Integer sums per lane; their 32-bit additions cannot overflow. *)
Definition lanes_dot (isa : dot_isa) (a b : list Z) : list Z :=
  let ab := combine a b in
  let u := map (fun x => sign8 x x) a in
  let s := map (fun p => sign8 (snd p) (fst p)) ab in
  match isa with
  | Maddubs => pairs_sum (fun z => z) (maddubs u s)
  | Vnni => pairs_sum (fun z => z) (pairs_sum (fun z => z) (products (map (fun x => x mod 256) u) s))
  | VnniInt8 => pairs_sum (fun z => z) (pairs_sum (fun z => z) (products a b))
  | Vdot =>
      vadd Z.add (pairs_sum (fun z => z) (pairs_sum (fun z => z) (products (firstn 16 a) (firstn 16 b))))
                 (pairs_sum (fun z => z) (pairs_sum (fun z => z) (products (skipn 16 a) (skipn 16 b))))
  | Vmull =>
      let half l := vadd Z.add (pairs_sum (fun z => z) (firstn 8 l)) (pairs_sum (fun z => z) (skipn 8 l)) in
      vadd Z.add (half (products (firstn 16 a) (firstn 16 b))) (half (products (skipn 16 a) (skipn 16 b)))
  end.
Inductive wtype := Q8_0 | Q4_0.
Definition block_ints (t : wtype) (b : qblock) : list Z := match t with Q8_0 => q_qs b | Q4_0 => unpack_q4_0 (q_qs b) end.
Definition isa_lanes (isa : dot_isa) : nat := match isa with Maddubs | Vnni | VnniInt8 => 8%nat | _ => 4%nat end.
(** One block: acc + d_a * d_b * lanes, lane by lane. *)
Definition block_fma (isa : dot_isa) (t : wtype) (a b : qblock) (acc : list R) : res (list R) :=
  do da <- need (q_d a);
  do db <- need (q_d b);
  ROk (vadd Rplus acc (map (fun z => (da * db * IZR z)%R) (lanes_dot isa (block_ints t a) (q_qs b)))).
(** The loop over l of gemm<RM, RN>, llamafile_sgemm.cpp:530-541 and 713-741, and hsum: [k] blocks of row A at ao and
    row B at bo; vec_dot_q4_0_q8_0_avx (vec_dot.cpp:132-162) and the AVX part of vec_dot_q8_0_q8_0 (1558-1584). *)
Definition blocks_dot (isa : dot_isa) (t : wtype) (k : Z) (a : buf qblock) (ao : Z) (b : buf qblock) (bo : Z) : res R :=
  do acc <- zloop k (fun l acc =>
    do x <- loadv a (ao + l);
    do y <- loadv b (bo + l);
    block_fma isa t x y acc) (repeat 0%R (isa_lanes isa));
  ROk (fold_left Rplus acc 0%R).
(** vec_dot_q4_0_q8_0_arm (vec_dot.cpp:248-312) and vec_dot_q8_0_q8_0 on ARM (1521-1557): two blocks per step
    and two accumulators, without __ARM_FEATURE_MATMUL_INT8. *)
Definition vec_dot_arm (isa : dot_isa) (t : wtype) (n : Z) (a : buf qblock) (ao : Z) (b : buf qblock) (bo : Z) : res R :=
  let nb := n / 32 in
  do acc <- zloop ((nb + 1) / 2) (fun i acc =>
    do x0 <- loadv a (ao + 2 * i);
    do x1 <- loadv a (ao + (2 * i + 1));
    do y0 <- loadv b (bo + 2 * i);
    do y1 <- loadv b (bo + (2 * i + 1));
    do s0 <- block_fma isa t x0 y0 (fst acc);
    do s1 <- block_fma isa t x1 y1 (snd acc);
    ROk (s0, s1)) (repeat 0%R 4, repeat 0%R 4);
  ROk (fold_left Rplus (fst acc) 0 + fold_left Rplus (snd acc) 0)%R.
(** vec_dot_q4_0_q8_0_arm with __ARM_FEATURE_MATMUL_INT8, vec_dot.cpp:177-246: both operands twice (bx = by = 0),
    bs = 0; the four results are equal, and two floats are stored at s, twice. *)
Definition vec_dot_mmla (n : Z) (a : buf qblock) (ao : Z) (b : buf qblock) (bo : Z) (s : buf R) (so : Z) : res (buf R) :=
  do r <- blocks_dot Vdot Q4_0 (n / 32) a ao b bo;
  do s <- store s so (Some r);
  do s <- store s (so + 1) (Some r);
  do s <- store s so (Some r);
  store s (so + 1) (Some r).

(* ---------------- matrix product with a quantized weight ---------------- *)
(** The switch of tinyBLAS_Q0_ARM::mnpack, llamafile_sgemm.cpp:462-515, and of tinyBLAS_Q0_AVX::mnpack, 577-686
    ([wide]: 32 vector registers). *)
Inductive packing := PackArm | PackAvx (wide : bool).
Definition pack_tile_q (p : packing) (dm dn : Z) : option (Z * Z) :=
  match p with
  | PackArm =>
      let m := Z.min dm 3 in
      let n := Z.min dn 3 in
      if (m <=? 0) || (n <=? 0) then None else Some (m, n)
  | PackAvx wide =>
      let m := Z.min dm 4 in
      let n := Z.min dn 4 in
      if (m <=? 0) || (n <=? 0) then None
      else if wide then Some (m, n)
      else
        Some (if (m =? 4) && (2 <=? n) then (4, 2)
              else if ((m =? 3) || (m =? 2)) && (n =? 4) then (2, 4)
              else if (m =? 3) && (n =? 3) then (3, 2)
              else (m, n))
  end.
(** llamafile_sgemm for Q8_0 and Q4_0 weights, llamafile_sgemm.cpp:903-943, for every thread id: m rows of A (weight), n rows of
    B (input), k blocks per row. *)
Definition llamafile_q (isa : dot_isa) (p : packing) (t : wtype) (m n k : Z) (a : buf qblock) (ao lda : Z) (b : buf qblock) (bo ldb co ldc : Z)
  (bias : option (buf R * Z)) (threads : Z) (c : buf R) : res (buf R) :=
  let value i j :=
    do s <- blocks_dot isa t k a (ao + lda * i) b (bo + ldb * j);
    match bias with
    | None => ROk s
    | Some (q, o) => do v <- loadv q (o + i); ROk (v + s)%R
    end in
  zloop threads (fun id c => mnpack (S (Z.to_nat (m + n))) (pack_tile_q p) value co ldc 0 m 0 n id threads c) c.
(** ggml::mat_mul (matmul.cpp:42-394) with a Q8_0 or Q4_0 weight [N, K], an fp32 input and transpose1: the first check for
    llamafile fails (the types differ); the input is quantized row by row (186-208; the type has no
    from_float_to_mat); the second check succeeds (AVX, or ARM with dot product); 210-248.
    [sa], [rs0]: strides of the batch and row dimension of the input; [sc]: batch stride of the output.  Offsets of the
    quantized input are offsets of elements divided by 32. *)
Definition mat_mul_q (qt : quantizer) (isa : dot_isa) (p : packing) (t : wtype) (batch M K N sa rs0 sc : Z)
  (x : buf R) (xo : Z) (w : buf qblock) (wo co : Z) (bias : option (buf R * Z)) (threads : Z) (c : buf R) : res (buf R) :=
  let blocks := numel [batch; M; K] / 32 in
  do q <- zloop (batch * M) (fun combined q =>
      let b := combined / M in
      let s := combined mod M in
      let src0_offset := (if 0 <? b then sa * b else 0) + s * rs0 in
      let to_offset := (if 0 <? b then M * K * b else 0) + s * K in
      quantize_row 32 (q8_0_block qt) K x (xo + src0_offset) (to_offset / 32) q)
    (mkBuf blocks (fun _ => None));
  if batch =? 1 then llamafile_q isa p t N M (K / 32) w wo (K / 32) q 0 (K / 32) co N bias threads c
  else zloop batch (fun b c =>
    llamafile_q isa p t N M (K / 32) w wo (K / 32) q (b * (M * K) / 32) (K / 32) (co + b * sc) N bias threads c) c.
(** CPULinearOp::reshape and forward with a Q8_0 or Q4_0 weight, ops/LinearOp.cpp:99-129, 282-289, 318-332. *)
Definition linear_q (qt : quantizer) (isa : dot_isa) (p : packing) (t : wtype) (threads inc outc : Z)
  (weight : buf qblock) (bias : option (tns R)) (x : tns R) : res (tns R) :=
  let sx := x_shape x in
  let r := length sx in
  if (r <? 1)%nat then RUB
  else if negb (nth (r - 1) sx 0 =? inc) then RAbort
  else
    do out <- fresh_tensor (firstn (r - 1) sx ++ [outc]);
    if (r <? 2)%nat then RAbort
    else
      let stride t := nth (length (x_shape t) - 3) (x_stride t) 0 in
      do o <- mat_mul_q qt isa p t (numel (firstn (r - 2) sx)) (nth (r - 2) sx 0) inc outc
                (stride x) (nth (r - 2) (x_stride x) 0) (if (2 <? r)%nat then stride out else 0)
                (x_buf x) (x_offset x) weight 0 (x_offset out)
                (option_map (fun t => (x_buf t, x_offset t)) bias) threads (x_buf out);
      ROk (mkTns (x_view out) o).
(** CPUEmbeddingOp::forward with a Q4_0 weight, ops/EmbeddingOp.cpp:49-56: a token at position (b, s). *)
Definition embedding_q4_0 (hidden : Z) (weight : buf qblock) (token yo : Z) (y : buf R) : res (buf R) :=
  if 0 <=? token then dequantize_row 32 dequant_q4_0 hidden weight (token * hidden / 32) yo y else ROk y.
