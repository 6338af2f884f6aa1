(** Rotary position embeddings of the vision-language models on the CPU.
    Sources: /repo/mllm/backends/cpu/ops/MultimodalRoPEOp.cpp, /repo/mllm/backends/cpu/ops/VisionRoPEOp.cpp,
    /repo/mllm/core/aops/MultimodalRoPEOp.cpp, /repo/mllm/core/aops/VisionRoPEOp.cpp and makeVisualRotarySinCos of
    /repo/mllm/models/qwen2vl/modeling_qwen2vl.hpp:109-128.

    Simplifications: real numbers; fp32 only (the loops for fp16 are the same with other widths of registers); the lanes
    of a register are processed one after the other (the output is a fresh tensor, so no lane reads what another
    wrote); NYI only prints (Common.hpp:53-55). *)
From Coq Require Import Reals.
From Verif Require Import Base DTypeModel ParamModel TensorModel OpsModel MatModel AttnModel NumModel RopeModel.
Local Open Scope Z_scope.

(** MultimodalRoPEOp::reshape (core/aops/MultimodalRoPEOp.cpp:30-33), CPUMultimodalRoPEOp::forward with the options of
    Qwen2-VL (MultimodalRoPEOp.cpp:268-296) and Qwen2VLMultimodalRoPEOpImpl::forward (:17-149). *)
Definition mrope_op (a : arch) (lay : layout) (t sin cos : tns R) : res (tns R) :=
  do out <- fresh_tensor (x_shape t);
  if negb (zlen (x_shape t) =? 4) then RAbort
  else
    do sh <- dim4 (x_shape t);
    let '(n0, n1, n2, D) := sh in
    let half := D ÷ 2 in
    let ov := x_view out in
    match a with
    | X86 _ => ROk out
    | Arm =>
        do o <- match lay with
                | BHSD =>
                    zloop n0 (fun n => zloop n1 (fun h => zloop n2 (fun s o =>
                      do ao <- offsetted (x_view t) [n; h; s; 0];
                      do oo <- offsetted ov [n; h; s; 0];
                      do so <- offsetted (x_view sin) [s; 0];
                      do co <- offsetted (x_view cos) [s; 0];
                      rotate_row a false (x_buf t) ao oo half (x_buf sin) so (x_buf cos) co o))) (x_buf out)
                | BSHD =>
                    zloop n0 (fun n => zloop n1 (fun s => zloop n2 (fun h o =>
                      do ao <- offsetted (x_view t) [n; s; h; 0];
                      do oo <- offsetted ov [n; s; h; 0];
                      do so <- offsetted (x_view sin) [s; 0];
                      do co <- offsetted (x_view cos) [s; 0];
                      rotate_row a false (x_buf t) ao oo half (x_buf sin) so (x_buf cos) co o))) (x_buf out)
                end;
        ROk (mkTns ov o)
    end.

(** VisionRoPEOp::reshape (core/aops/VisionRoPEOp.cpp:29-32), CPUVisionRoPEOp::forward (VisionRoPEOp.cpp:143-176, given
    sin and cos) and Qwen2VLVisionRoPEOpImpl::forward (:20-23, :79-133): everything is addressed from the data pointers. *)
Definition vision_rope_op (a : arch) (t sin cos : tns R) : res (tns R) :=
  do out <- fresh_tensor (x_shape t);
  if negb (zlen (x_shape t) =? 4) then RAbort
  else
    do sh <- dim4 (x_shape t);
    let '(B, S_, H, D) := sh in
    let half := D ÷ 2 in
    match a with
    | X86 _ => ROk out
    | Arm =>
        do o <- zloop B (fun b => zloop S_ (fun s => zloop H (fun h o =>
                  let at_ := b * S_ * H * D + s * H * D + h * D in
                  rotate_row a false (x_buf t) (x_offset t + at_) (x_offset out + at_) half
                    (x_buf sin) (x_offset sin + s * half) (x_buf cos) (x_offset cos + s * half) o))) (x_buf out);
        ROk (mkTns (x_view out) o)
    end.

(** makeVisualRotarySinCos, modeling_qwen2vl.hpp:109-128: the sine and the cosine of every angle. *)
Definition visual_sin_cos (ang : tns R) : res (tns R * tns R) :=
  do seq <- vget (x_shape ang) 0;
  do dim <- vget (x_shape ang) 1;
  do so <- fresh_tensor [seq; dim];
  do co <- fresh_tensor [seq; dim];
  do r <- zloop seq (fun i => zloop dim (fun j (st : buf R * buf R) =>
      do v <- loadv (x_buf ang) (x_offset ang + (i * dim + j));
      do x <- store (fst st) (x_offset so + (i * dim + j)) (Some (sin v));
      do y <- store (snd st) (x_offset co + (i * dim + j)) (Some (cos v));
      ROk (x, y))) (x_buf so, x_buf co);
  ROk (mkTns (x_view so) (fst r), mkTns (x_view co) (snd r)).
