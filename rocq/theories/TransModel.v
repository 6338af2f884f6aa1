(** Resize::apply, ToTensor::apply, Normalize::apply and BasicImageTransform of
    preprocessor/visual/ImageTransform.cpp:31-50, 73-110, 144-152, and Image::tensor,
    preprocessor/visual/Image.cpp:86-96.

    Simplifications.  The scale of Resize is an exact quotient (a double in the code).  Values
    are of an arbitrary type with the conversion from a byte, division and subtraction of the
    code.  A tensor is the values at the addresses of its buffer; the permutation is by index,
    [fresh] is what a new buffer holds; Normalize works in place. *)
From Verif Require Import Base CropModel CropSpec.
Local Open Scope Z_scope.

(** Lines 31-50: new height and width of the shorter-side resize. *)
Definition resize_shorter (h w target : Z) : Z * Z :=
  let shorter := Z.min h w in
  (round_div (h * target) shorter, round_div (w * target) shorter).
Inductive resize_to := Shorter (size : Z) | Exactly (h w : Z).
Definition resize_apply (resize : image -> Z -> Z -> image) (r : resize_to) (m : image) : image :=
  match r with
  | Exactly h w => resize m w h
  | Shorter s => let (h, w) := resize_shorter (ih m) (iw m) s in resize m w h
  end.

Section Tensor.
Context {V : Type}.
Variables (conv : Z -> V) (div sub : V -> V -> V) (v255 : V).

(** Image::tensor: height, width, channels. *)
Definition image_tensor (m : image) : Z -> V := fun i => conv (bytes m i).
(** permute({2, 0, 1}) into a new buffer, line 81, then t / 255.0f, line 84. *)
Definition set (t : Z -> V) (i : Z) (v : V) : Z -> V := fun j => if j =? i then v else t j.
Definition to_tensor (fresh : Z -> V) (m : image) : Z -> V :=
  let t := image_tensor m in
  let p := fold_left (fun p c => loop2 (ih m) (iw m) (fun y x p =>
    set p ((c * ih m + y) * iw m + x) (t ((y * iw m + x) * 3 + c))) p) (zseq 3) fresh in
  fun i => div (p i) v255.
(** Normalize::apply, lines 91-110, for c = 3. *)
Definition normalize (mean std : Z -> V) (h w : Z) (t : Z -> V) : Z -> V :=
  let plane := h * w in
  fold_left (fun t ch => fold_left (fun t i => let a := ch * plane + i in set t a (div (sub (t a) (mean ch)) (std ch)))
    (zseq plane) t) (zseq 3) t.
(** BasicImageTransform::operator(), lines 144-152, without resizing and cropping. *)
Definition transform (fresh : Z -> V) (mean std : Z -> V) (m : image) : Z -> V :=
  normalize mean std (ih m) (iw m) (to_tensor fresh m).
End Tensor.
