(** Cropping, padding and tiling images: Image::crop and Image::pad of
    preprocessor/visual/Image.cpp:108-215, CenterCrop::apply of
    preprocessor/visual/ImageTransform.cpp:57-70, the tiles of dynamicPreprocess of
    models/deepseek_ocr/conversation_preprocess.hpp:426-452.

    Simplifications.  An image is its width, height and the bytes at the addresses of its
    buffer (a function of the address, 3 bytes per pixel: c_ is 3 for every image the class
    makes); a fresh buffer holds arbitrary bytes, [fresh].  Integers are unbounded.  The
    resizing of stb is an arbitrary function of the image and the two sizes.  The scale of
    Image::pad is an exact quotient, not a double. *)
From Verif Require Import Base.
Local Open Scope Z_scope.

Record image := mkImage { iw : Z; ih : Z; bytes : Z -> Z }.

Definition zseq (n : Z) : list Z := map Z.of_nat (seq 0 (Z.to_nat n)).
(** for y < rows, for x < cols. *)
Definition loop2 {S : Type} (rows cols : Z) (body : Z -> Z -> S -> S) (s : S) : S :=
  fold_left (fun s y => fold_left (fun s x => body y x s) (zseq cols) s) (zseq rows) s.
(** dst_px[0], dst_px[1], dst_px[2]. *)
Definition write3 (m : Z -> Z) (a : Z) (v : Z -> Z) : Z -> Z :=
  let set m i x := fun j => if j =? i then x else m j in
  set (set (set m a (v 0)) (a + 1) (v 1)) (a + 2) (v 2).

(** Image::crop, Image.cpp:108-147; None: an assertion of line 111 fails. *)
Definition crop (fresh : Z -> Z) (src : image) (left upper right lower : Z) : option image :=
  if negb ((left <? right) && (upper <? lower)) then None
  else
    let crop_w := right - left in
    let crop_h := lower - upper in
    Some (mkImage crop_w crop_h (loop2 crop_h crop_w (fun y x out =>
      let sy := upper + y in
      let sx := left + x in
      let dst := (y * crop_w + x) * 3 in
      if (0 <=? sx) && (sx <? iw src) && (0 <=? sy) && (sy <? ih src)
      then let s := (sy * iw src + sx) * 3 in write3 out dst (fun c => bytes src (s + c))
      else write3 out dst (fun _ => 0)) fresh)).

(** CenterCrop::apply, ImageTransform.cpp:57-70; the division truncates. *)
Definition center_crop (fresh : Z -> Z) (src : image) (crop_h crop_w : Z) : option image :=
  let left := Z.quot (iw src - crop_w) 2 in
  let upper := Z.quot (ih src - crop_h) 2 in
  crop fresh src left upper (left + crop_w) (upper + crop_h).

(** std::round(a / b) for a >= 0, b > 0. *)
Definition round_div (a b : Z) : Z := (2 * a + b) / (2 * b).
(** The sizes of Image::pad, Image.cpp:158-166: the scale is the smaller of target_w / w and
    target_h / h. *)
Definition pad_size (w h target_w target_h : Z) : Z * Z :=
  let s := if target_w * h <=? target_h * w then (target_w, w) else (target_h, h) in
  (Z.max 1 (round_div (w * fst s) (snd s)), Z.max 1 (round_div (h * fst s) (snd s))).
(** Image::pad, Image.cpp:152-215; [color] are r, g, b. *)
Definition pad (resize : image -> Z -> Z -> image) (fresh : Z -> Z) (src : image) (target_w target_h : Z) (color : Z -> Z) : option image :=
  if negb ((0 <? target_w) && (0 <? target_h)) then None
  else
    let (new_w, new_h) := pad_size (iw src) (ih src) target_w target_h in
    let resized := resize src new_w new_h in
    let canvas := loop2 target_h target_w (fun y x m => write3 m ((y * target_w + x) * 3) color) fresh in
    let offset_x := Z.quot (target_w - new_w) 2 in
    let offset_y := Z.quot (target_h - new_h) 2 in
    Some (mkImage target_w target_h (loop2 new_h new_w (fun y x m =>
      let dy := offset_y + y in
      let dx := offset_x + x in
      if (dy <? 0) || (target_h <=? dy) then m
      else if (dx <? 0) || (target_w <=? dx) then m
      else write3 m ((dy * target_w + dx) * 3) (fun c => bytes resized ((y * new_w + x) * 3 + c))) canvas)).

(** The tiles of dynamicPreprocess, conversation_preprocess.hpp:426-445, of an image resized
    to [across] by [down] squares. *)
Definition tiles (resize : image -> Z -> Z -> image) (fresh : Z -> Z) (src : image) (size across down : Z) : list (option image) :=
  let target_width := size * across in
  let target_height := size * down in
  let resized := resize src target_width target_height in
  map (fun i =>
    let cols := target_width / size in
    let x0 := (i mod cols) * size in
    let y0 := (i / cols) * size in
    crop fresh resized x0 y0 (x0 + size) (y0 + size)) (zseq (across * down)).
