(** From the resized image to the patches: Image::tensor, /repo/mllm/preprocessor/visual/Image.cpp:86-96, and
    Qwen2VLImagePreprocessor::operator(), /repo/mllm/models/qwen2vl/image_preprocessor_qwen2vl.hpp:63-113.

    Simplifications: reading and resizing the file (stb) is left out: the resized image is its bytes, row by row, 3 channels
    per pixel; floats are an arbitrary type with the conversion from a byte, product, difference and quotient; [N] is the
    number of lanes of the vector kernel of the product (OpsModel). *)
From Verif Require Import Base DTypeModel ParamModel TensorModel OpsModel.
Local Open Scope Z_scope.

(** image_preprocessor_qwen2vl.hpp:119-123. *)
Definition patch_size : Z := 14.
Definition merge_size : Z := 2.
Definition temporal_patch_size : Z := 2.

Section Img.
Context {A : Type}.
Variables (conv : Z -> A) (mul sub div : A -> A -> A) (rescale : A) (mean std : Z -> A) (N : Z).

(** Image::tensor, Image.cpp:86-96: std::copy over numel() bytes. *)
Definition image_tensor (bytes : list Z) (h w c : Z) : res (tns A) :=
  if negb (c =? 3) then RAbort
  else do t <- fresh_tensor [h; w; c];
       do b <- zloop (numel [h; w; c]) (fun i b => do x <- vget bytes i; store b i (Some (conv x))) (x_buf t);
       ROk (mkTns (x_view t) b).

(** Tensor::operator*(float), core/Tensor.cpp:257-277. *)
Definition mul_scalar (t : tns A) (x : A) : res (tns A) :=
  do r <- fresh_tensor [1];
  do r <- at_store r [0] (Some x);
  ew_op EwFloat32 mul N t r.

(** Lines 76-86. *)
Definition normalize (t : tns A) (new_h new_w : Z) : res (tns A) :=
  zloop 3 (fun c t => zloop new_h (fun h t => zloop new_w (fun w t =>
    do x <- at_load t [c; h; w];
    at_store t [c; h; w] (option_map (fun x => div (sub x (mean c)) (std c)) x)) t) t) t.

(** Lines 70-113, as (flatten_patches, grid_thw). *)
Definition flatten_patches (bytes : list Z) (new_h new_w : Z) : res (tns A * (Z * Z * Z)) :=
  do p <- image_tensor bytes new_h new_w 3;
  do p <- permute_op 0 p [2; 0; 1];
  do p <- mul_scalar p rescale;
  do p <- normalize p new_h new_w;
  do p <- unsqueeze p 0;
  do p <- repeat_op 0 p 2 0;
  do channel <- vget (x_shape p) 1;
  do time <- vget (x_shape p) 0;
  let grid_t := time / temporal_patch_size in
  let grid_h := new_h / patch_size in
  let grid_w := new_w / patch_size in
  do p <- to_view p [grid_t; temporal_patch_size; channel; grid_h / merge_size; merge_size; patch_size;
                     grid_w / merge_size; merge_size; patch_size];
  do p <- permute_op 0 p [0; 3; 6; 4; 7; 2; 1; 5; 8];
  do p <- to_view p [grid_t * grid_h * grid_w; channel * temporal_patch_size * patch_size * patch_size];
  ROk (p, (grid_t, grid_h, grid_w)).
End Img.
