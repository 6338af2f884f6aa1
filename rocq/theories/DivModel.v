(** Element-wise loops on ARM and the division of integers: /repo/mllm/backends/cpu/kernels/arm/elementwise.hpp:23-135,
    primitives.hpp:33-37, 150-165, 208-230, 268-300; elementwise.cpp:82-150, 224-276.

    Simplifications: vectors are loaded, computed and stored lane by lane; lanes is a power of two, so that
    size & ~(lanes - 1) is the largest multiple of it; chunks given to threads run one after the other in some order. *)
From Coq Require Import Reals.
From Flocq Require Import Core.
From Verif Require Import Base DTypeModel QuantModel VlModel CpmAudioModel.
From Verif Require AotModel.
Local Open Scope nat_scope.

Section Loops.
Context {A : Type} (vop : A -> A -> A) (sop : A -> A -> res A) (lanes unroll : nat).
(** while (c i) { body; i += step } *)
Fixpoint while_do {S} (fuel : nat) (c : nat -> bool) (step : nat) (body : nat -> S -> res S) (i : nat) (s : S) : res (nat * S) :=
  if c i then match fuel with O => RDiverge | Datatypes.S m => do s' <- body i s; while_do m c step body (i + step) s' end else ROk (i, s).
Definition vec_size (size : nat) : nat := size / lanes * lanes.
(** Load two vectors at [p], compute, store. *)
Definition vec_step (a b : list A) (p : nat) (dst : list A) : res (list A) :=
  for_up lanes 0 (fun l d => do x <- rd a (p + l); do y <- rd b (p + l); wr d (p + l) (vop x y)) dst.
Definition scalar_step (a b : list A) (p : nat) (dst : list A) : res (list A) :=
  do x <- rd a p; do y <- rd b p; do r <- sop x y; wr dst p r.
(** __ew_loop::run, lines 25-49, with the three pointers moved by [o]. *)
Definition ew_loop (a b : list A) (o size : nat) (dst : list A) : res (list A) :=
  let vec := vec_size size in
  do s <- while_do (S size) (fun i => i + lanes * unroll <=? vec) (lanes * unroll)
            (fun i d => for_up unroll 0 (fun u d => vec_step a b (o + (i + u * lanes)) d) d) 0 dst;
  do s <- while_do (S size) (fun i => i <? vec) lanes (fun i d => vec_step a b (o + i) d) (fst s) (snd s);
  do s <- while_do (S size) (fun i => i <? size) 1 (fun i d => scalar_step a b (o + i) d) (fst s) (snd s);
  ROk (snd s).
(** ParallelElementwiseLoop::run, lines 55-78: chunk_size, the chunks, and the remaining elements. *)
Definition chunk_size (size threads : nat) : nat :=
  let c := (vec_size size + threads - 1) / threads in (c + lanes - 1) / lanes * lanes.
Fixpoint starts (fuel start lim step : nat) : list nat :=
  match fuel with O => [] | S m => if start <? lim then start :: starts m (start + step) lim step else [] end.
Fixpoint run_chunks (l : list nat) (a b : list A) (chunk vec : nat) (dst : list A) : res (list A) :=
  match l with [] => ROk dst | s :: r => do d <- ew_loop a b s (Nat.min (s + chunk) vec - s) dst; run_chunks r a b chunk vec d end.
Definition parallel_ew (order : list nat -> list nat) (a b : list A) (size threads : nat) (dst : list A) : res (list A) :=
  if 1 <? threads then
    let vec := vec_size size in
    let chunk := chunk_size size threads in
    do d <- run_chunks (order (starts (S size) 0 vec chunk)) a b chunk vec dst;
    if vec <? size then ew_loop a b vec (size - vec) d else ROk d
  else ew_loop a b 0 size dst.
(** Array and scalar: __ew_loop_array_scalar, lines 82-135, is the same with one value loaded into every lane. *)
Definition parallel_ew_scalar (order : list nat -> list nat) (a : list A) (y : A) (size threads : nat) (dst : list A) : res (list A) :=
  parallel_ew order a (repeat y size) size threads dst.
End Loops.

(** __ScalarDiv<int32>: C++'s /. *)
Definition scalar_div (bits : Z) (a b : Z) : res Z :=
  if (b =? 0)%Z then RUB
  else let q := Z.quot a b in
       if (bits =? 32)%Z then (if (q =? 2 ^ 31)%Z then RUB else ROk q)
       else ROk (if (q =? 2 ^ (bits - 1))%Z then - 2 ^ (bits - 1) else q)%Z.   (* int arithmetic, then back to the narrow type *)
(** vcvtq_s32_f32 truncates and saturates. *)
Definition sat (bits z : Z) : Z := Z.max (- 2 ^ (bits - 1)) (Z.min (2 ^ (bits - 1) - 1) z).
(** __VectorDiv<int32x4_t>, <int16x8_t> and <int8x16_t>: convert to float, divide, convert back and narrow with saturation; n / 0
    is an infinity, 0 / 0 a NaN, which becomes 0. *)
Definition vector_div (bits a b : Z) : Z :=
  if (b =? 0)%Z then (if (a =? 0)%Z then 0 else if (0 <? a)%Z then 2 ^ (bits - 1) - 1 else - 2 ^ (bits - 1))%Z
  else sat bits (Ztrunc (to_f32 (to_f32 (IZR a) / to_f32 (IZR b)))).
Definition div_lanes (bits : Z) : nat := Z.to_nat (128 / bits).
(** ew_div_int8 / int16 / int32; loop_unroll_size is 4. *)
Definition arm_div (bits : Z) (order : list nat -> list nat) (a b : list Z) (threads : nat) (dst : list Z) : res (list Z) :=
  parallel_ew (vector_div bits) (scalar_div bits) (div_lanes bits) 4 order a b (length a) threads dst.
