(** Choosing the size of the resized image: Qwen2VLImagePreprocessor::smartResize,
    /repo/mllm/models/qwen2vl/image_preprocessor_qwen2vl.hpp:32-61.

    Doubles are real numbers rounded to 53 bits after every operation (ties to even, gradual underflow; nothing here comes
    near overflow); sqrt, floor, ceil and round are the functions of the C library, correctly rounded.  Converting a double to
    int and int arithmetic are undefined out of range.  Sizes are positive (what the image decoder returns). *)
From Coq Require Import Reals.
From Flocq Require Import Core.
From Verif Require Import Base DTypeModel QuantModel.
Local Open Scope Z_scope.

Definition d64 (x : R) : R := nearest (-1074) 53 x.
Definition int_of (z : Z) : res Z := if (-2147483648 <=? z) && (z <=? 2147483647) then ROk z else RUB.

(** Lines 34-36: the aspect ratio. *)
Definition too_long (height width : Z) : bool :=
  if Rlt_dec 200 (d64 (IZR (Z.max height width) / IZR (Z.min height width))) then true else false.
(** Lines 38-39: static_cast<int>(std::round(static_cast<double>(height) / factor)) * factor. *)
Definition round_to (x factor : Z) : res Z :=
  do r <- int_of (ZnearestA (d64 (IZR x / IZR factor))); int_of (r * factor).
(** Lines 45 and 48: std::max(1, static_cast<int>(std::floor(height / beta))), std::max(factor, (new_height / factor) * factor). *)
Definition shrink (x factor : Z) (beta : R) : res Z :=
  do f <- int_of (Zfloor (d64 (IZR x / beta)));
  let n := Z.max 1 f in ROk (Z.max factor (Z.quot n factor * factor)).
(** Lines 54 and 57: static_cast<int>(std::ceil(height * beta)), (new_height + factor - 1) / factor * factor. *)
Definition grow (x factor : Z) (beta : R) : res Z :=
  do n <- int_of (Zceil (d64 (IZR x * beta)));
  do s <- int_of (n + factor);
  int_of (Z.quot (s - 1) factor * factor).

Definition smart_resize (height width factor min_pixels max_pixels : Z) : res (Z * Z) :=
  if too_long height width then RAbort
  else
    do h_bar <- round_to height factor;
    do w_bar <- round_to width factor;
    do current <- int_of (h_bar * w_bar);
    if max_pixels <? current then
      let beta := d64 (sqrt (d64 (d64 (IZR height * IZR width) / IZR max_pixels))) in
      do h <- shrink height factor beta;
      do w <- shrink width factor beta;
      ROk (h, w)
    else if current <? min_pixels then
      do hw <- int_of (height * width);
      let beta := d64 (sqrt (d64 (IZR min_pixels / IZR hw))) in
      do h <- grow height factor beta;
      do w <- grow width factor beta;
      ROk (h, w)
    else ROk (h_bar, w_bar).
