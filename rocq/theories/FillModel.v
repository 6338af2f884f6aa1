(** Filling tensors: backends/cpu/kernels/common/fill-inl.hpp, the x86 branches of
    backends/cpu/ops/FillOp.cpp, Tensor::zeros/ones/arange/random of core/Tensor.cpp.

    A vector register has N >= 1 lanes ([hn::Lanes], any number).  A number is the real it
    denotes; every floating-point operation is followed by [rnd] (the identity for exact
    arithmetic, [to_f32] for binary32), products and sums are rounded separately.  Buffers
    and out-of-bounds accesses are those of TensorModel.v; a cell that was never written is
    None.  Simplifications: size_t arithmetic does not overflow except in the random number
    generator, where it wraps; float16 (a separate scalar loop) is left out. *)
From Verif Require Import Base DTypeModel ParamModel TensorModel.
From Coq Require Import Reals.
From Flocq Require Import Core.
Local Open Scope Z_scope.

(** The element type of the destination: float, or an integer type with its bounds. *)
Inductive ety := EFloat | EInt (lo hi : Z).
(** static_cast<T>(float): towards zero, undefined out of range. *)
Definition cast (t : ety) (x : R) : res R :=
  match t with
  | EFloat => ROk x
  | EInt lo hi => if (lo <=? Ztrunc x) && (Ztrunc x <=? hi) then ROk (IZR (Ztrunc x)) else RUB
  end.

(** hn::StoreU (n = N) and hn::StoreN: lanes 0..n-1 of v to dst + idx. *)
Definition store_lanes (b : buf R) (idx n : Z) (v : Z -> R) : res (buf R) :=
  zloop n (fun j b => store b (idx + j) (Some (v j))) b.
(** for (; idx + N <= count; idx += N) body(idx) *)
Fixpoint vec_loop {S} (fuel : nat) (N count idx : Z) (body : Z -> S -> res S) (s : S) : res (Z * S) :=
  if idx + N <=? count then
    match fuel with
    | O => RDiverge
    | Datatypes.S f => do s' <- body idx s; vec_loop f N count (idx + N) body s'
    end
  else ROk (idx, s).

(** fill_value_impl, fill-inl.hpp:141-151; fill_zeros_impl (20-30) and fill_ones_impl
    (86-96) are the same with the constants 0 and 1. *)
Definition fill_value_impl (N : Z) (dst : buf R) (count : Z) (value : R) : res (buf R) :=
  do r <- vec_loop (Z.to_nat count) N count 0 (fun idx b => store_lanes b idx N (fun _ => value)) dst;
  if fst r <? count then store_lanes (snd r) (fst r) (count - fst r) (fun _ => value) else ROk (snd r).
Definition fill_zeros_impl (N : Z) (dst : buf R) (count : Z) : res (buf R) := fill_value_impl N dst count 0%R.
Definition fill_ones_impl (N : Z) (dst : buf R) (count : Z) : res (buf R) := fill_value_impl N dst count 1%R.

Section Rounded.
Variable rnd : R -> R.
Let add x y := rnd (x + y)%R.
Let sub x y := rnd (x - y)%R.
Let mul x y := rnd (x * y)%R.
Let fdiv x y := rnd (x / y)%R.
(** An integer as a float. *)
Let i2f (z : Z) := rnd (IZR z).
Definition gtb (x y : R) : bool := if Rlt_dec y x then true else false.
Definition eqb0 (x : R) : bool := if Req_EM_T x 0 then true else false.
(** start + i * step, lines 210, 239, 242. *)
Definition arange_at (start step : R) (i : Z) : R := add start (mul (i2f i) step).

(** Lines 204-216: how many elements are filled. *)
Definition arange_count (count : Z) (start fin step : R) : Z :=
  if (gtb step 0 && gtb fin start) || (gtb 0 step && gtb start fin) then
    let n_float := fdiv (sub fin start) step in
    if gtb n_float 0 then
      let n := Zceil n_float in
      let n := if gtb step 0 then (if negb (gtb fin (arange_at start step (n - 1))) then n - 1 else n)
               else (if negb (gtb (arange_at start step (n - 1)) fin) then n - 1 else n) in
      Z.min n count
    else 0
  else 0.

(** Lines 219-239 (float): blocks of lanes advanced by step * N, then single elements. *)
Definition arange_float (N : Z) (dst : buf R) (n : Z) (start step : R) : res (buf R) :=
  let n_step := mul step (i2f N) in
  let first := fun j => add start (mul (i2f j) step) in
  do r <- vec_loop (Z.to_nat n) N n 0 (fun idx s =>
            do b <- store_lanes (fst s) idx N (snd s); ROk (b, fun j => add (snd s j) n_step)) (dst, first);
  let idx := fst r in
  zloop (n - idx) (fun k b => store b (idx + k) (Some (arange_at start step (idx + k)))) (fst (snd r)).
(** Lines 241-242 (other types). *)
Definition arange_int (t : ety) (dst : buf R) (n : Z) (start step : R) : res (buf R) :=
  zloop n (fun i b => do x <- cast t (arange_at start step i); store b i (Some x)) dst.
(** fill_arange_impl, lines 196-244. *)
Definition fill_arange_impl (t : ety) (N : Z) (dst : buf R) (count : Z) (start fin step : R) : res (buf R) :=
  if eqb0 step then do x <- cast t start; fill_value_impl N dst count x
  else
    let n := arange_count count start fin step in
    match t with
    | EFloat => arange_float N dst n start step
    | EInt _ _ => arange_int t dst n start step
    end.

(** The generator, lines 296-298, 306-310: uint64_t, so the product wraps. *)
Definition lcg (state : Z) : Z := ((1103515245 * state + 12345) mod 2 ^ 64) mod 2 ^ 31.
(** Lines 311-312. *)
Definition random_at (start range : R) (state : Z) : R :=
  add start (mul (fdiv (i2f state) (i2f (2 ^ 31 - 1))) range).
(** fill_random_impl, lines 294-314. *)
Definition fill_random_impl (t : ety) (N : Z) (dst : buf R) (count : Z) (start fin : R) (seed : Z) : res (buf R) :=
  let range := sub fin start in
  if eqb0 range then do x <- cast t start; fill_value_impl N dst count x
  else
    do r <- zloop count (fun i s =>
              let state := lcg (fst s) in
              do x <- cast t (random_at start range state);
              do b <- store (snd s) i (Some x); ROk (state, b)) (lcg seed, dst);
    ROk (snd r).

(** Tensor::arange, core/Tensor.cpp:132-138: one dimension of (int32_t)((end - start) / step)
    elements, allocated, then filled in place (FillOp.cpp:267-308; reshape returns the input). *)
Definition tensor_arange (t : ety) (N : Z) (start fin step : R) : res (buf R) :=
  if eqb0 step then RUB
  else
    let len := Ztrunc (fdiv (sub fin start) step) in
    if (len <? 0) || (2 ^ 31 <=? len) then RUB else fill_arange_impl t N (mkBuf len (fun _ => None)) len start fin step.
End Rounded.

(** Tensor::zeros, ones, random, Tensor.cpp:120-130, 140-147, and a scalar operand
    (Tensor.cpp:171-175, FillOp.cpp:398-): a fresh tensor of n elements. *)
Definition tensor_zeros (N n : Z) : res (buf R) := fill_zeros_impl N (mkBuf n (fun _ => None)) n.
Definition tensor_ones (N n : Z) : res (buf R) := fill_ones_impl N (mkBuf n (fun _ => None)) n.
Definition tensor_random (rnd : R -> R) (t : ety) (N n : Z) (start fin : R) (seed : Z) : res (buf R) :=
  fill_random_impl rnd t N (mkBuf n (fun _ => None)) n start fin seed.
