(** Rotary position embedding on the CPU.
    Sources: /repo/mllm/backends/cpu/ops/RoPEOp.cpp, /repo/mllm/core/aops/RoPEOp.cpp, and the tables of
    /repo/mllm/models/qwen3/modeling_qwen3_service.hpp:26-79 (the same functions are in the other models).

    Simplifications: real numbers; fp32 only; the lanes of a register are processed one after the other (front
    and back half of a row do not overlap within a register); the two
    outputs of a pair are written when both inputs have been read, as in the code. *)
From Coq Require Import Reals.
From Verif Require Import Base DTypeModel ParamModel TensorModel OpsModel MatModel AttnModel NumModel.
Local Open Scope Z_scope.

(** RoPEOpOptionsInputType *)
Inductive layout := BHSD | BSHD.

(** One pair: RoPEOp.cpp:66-74, :101-107, :165-173, :235-243. *)
Definition rotate1 (inplace : bool) (x : buf R) (ao oo half : Z) (sb : buf R) (so : Z) (cb : buf R) (co : Z) (d : Z) (o : buf R) : res (buf R) :=
  do u <- loadv (source inplace x o) (ao + d);
  do v <- loadv (source inplace x o) (ao + d + half);
  do s <- loadv sb (so + d);
  do c <- loadv cb (co + d);
  do o <- store o (oo + d) (Some (u * c - v * s)%R);
  store o (oo + d + half) (Some (u * s + v * c)%R).
(** The first half of a row: RoPEOp.cpp:66-74 (x86), :145-173 (ARM: registers of 4, then the rest). *)
Definition rotate_row (a : arch) (inplace : bool) (x : buf R) (ao oo half : Z) (sb : buf R) (so : Z) (cb : buf R) (co : Z) (o : buf R) : res (buf R) :=
  match a with
  | X86 _ => zloop half (rotate1 inplace x ao oo half sb so cb co) o
  | Arm => vec_for 4 half (rotate1 inplace x ao oo half sb so cb co) o
  end.
(** The tail of a row is copied: RoPEOp.cpp:85-88 (x86), :188-200 (ARM). *)
Definition tail1 (inplace : bool) (x : buf R) (ao oo : Z) (d : Z) (o : buf R) : res (buf R) :=
  do u <- loadv (source inplace x o) (ao + d);
  store o (oo + d) (Some u).
Definition tail_row (a : arch) (inplace : bool) (x : buf R) (ao oo start D : Z) (o : buf R) : res (buf R) :=
  match a with
  | X86 _ => zloop (D - start) (fun j => tail1 inplace x ao oo (start + j)) o
  | Arm => if start <=? D then vec_for 4 (D - start) (fun j => tail1 inplace x ao oo (start + j)) o else ROk o
  end.

(** RoPEOp::reshape (core/aops/RoPEOp.cpp:27-43), setup (:45-47), CPURoPEOp::forward (RoPEOp.cpp:496-514) and
    RoPEOpImpl::forward (RoPEOp.cpp:17-121 x86, :122-265 ARM). *)
Definition rope_op (a : arch) (lay : layout) (partial_dim : Z) (inplace : bool) (t sin cos : tns R) : res (tns R) :=
  if negb (zlen (x_shape t) =? 4) then RAbort
  else
    do out <- (if inplace then ROk t else fresh_tensor (x_shape t));
    do sh <- dim4 (x_shape t);
    let '(n0, n1, n2, D) := sh in
    let half := if partial_dim =? -1 then D ÷ 2 else partial_dim ÷ 2 in
    let ov := x_view out in
    do o <- match lay with
            | BHSD =>
                zloop n0 (fun n => zloop n1 (fun h => zloop n2 (fun s o =>
                  do ao <- offsetted (x_view t) [n; h; s; 0];
                  do oo <- offsetted ov [n; h; s; 0];
                  do so <- offsetted (x_view sin) [n; s; 0];
                  do co <- offsetted (x_view cos) [n; s; 0];
                  rotate_row a inplace (x_buf t) ao oo half (x_buf sin) so (x_buf cos) co o))) (x_buf out)
            | BSHD =>
                zloop n0 (fun n => zloop n1 (fun s o =>
                  do so <- offsetted (x_view sin) [n; s; 0];
                  do co <- offsetted (x_view cos) [n; s; 0];
                  zloop n2 (fun h o =>
                    do ao <- offsetted (x_view t) [n; s; h; 0];
                    do oo <- offsetted ov [n; s; h; 0];
                    rotate_row a inplace (x_buf t) ao oo half (x_buf sin) so (x_buf cos) co o) o)) (x_buf out)
            end;
    do o <- zloop n0 (fun i => zloop n1 (fun j => zloop n2 (fun k o =>
              do ao <- offsetted (x_view t) [i; j; k; 0];
              do oo <- offsetted ov [i; j; k; 0];
              tail_row a inplace (x_buf t) ao oo (half * 2) D o))) o;
    ROk (mkTns ov o).

(** makeRoPEInvFreq, modeling_qwen3_service.hpp:27-32: 1 / theta^(2 i / dim). *)
Definition inv_freq (dim : Z) (theta : R) : res (tns R) :=
  do out <- fresh_tensor [dim ÷ 2];
  do o <- zloop (dim ÷ 2) (fun i o => store o i (Some (1 / Rpower theta (2 * IZR i / IZR dim))%R)) (x_buf out);
  ROk (mkTns (x_view out) o).
(** makeRotaryPosEmbedding, modeling_qwen3_service.hpp:34-79.  Integer positions, read through the data pointer.  The
    intermediate product of position and frequency is computed in place. *)
Definition rope_tables (pos : tns Z) (freq : tns R) (scaling : R) : res (tns R * tns R) :=
  do B <- vget (x_shape pos) 0;
  do S <- vget (x_shape pos) 1;
  do m <- vget (x_shape freq) 0;
  let dim := m * 2 in
  do so <- fresh_tensor [B; S; dim];
  do co <- fresh_tensor [B; S; dim];
  do r <- zloop B (fun b => zloop S (fun s => zloop m (fun d (st : buf R * buf R) =>
      do p <- loadv (x_buf pos) (x_offset pos + (b * S + s));
      do w <- loadv (x_buf freq) (x_offset freq + d);
      let q := (IZR p * w)%R in
      let i := b * S * dim + s * dim + d in
      do x <- store (fst st) i (Some (sin q * scaling)%R);
      do x <- store x (i + m) (Some (sin q * scaling)%R);
      do y <- store (snd st) i (Some (cos q * scaling)%R);
      do y <- store y (i + m) (Some (cos q * scaling)%R);
      ROk (x, y)))) (x_buf so, x_buf co);
  ROk (mkTns (x_view so) (fst r), mkTns (x_view co) (snd r)).
