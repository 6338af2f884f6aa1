(** Vocabulary for cropped and padded images. *)
From Verif Require Import Base CropModel.
Local Open Scope Z_scope.

(** Is there a pixel at column x and row y? *)
Definition inside (m : image) (x y : Z) : bool := (0 <=? x) && (x <? iw m) && (0 <=? y) && (y <? ih m).
(** Channel c of the pixel in column x, row y: images are stored row after row, three bytes
    a pixel. *)
Definition at_pixel (m : image) (x y c : Z) : Z := bytes m ((y * iw m + x) * 3 + c).
(** stb returns an image of the size asked for. *)
Definition resizes (resize : image -> Z -> Z -> image) : Prop :=
  forall m w h, iw (resize m w h) = w /\ ih (resize m w h) = h.
