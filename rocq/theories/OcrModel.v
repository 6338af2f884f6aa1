(** One page in DeepSeek-OCR: the image places of the prompt, models/deepseek_ocr/
    modeling_deepseek_ocr.hpp:783-864, the features laid out for them, lines 475-613, and
    their placing by the masked scatter, backends/cpu/ops/MaskedScatterOp.cpp:85-158.

    Simplifications.  One image (the code says it supports one).  A feature row is a value of
    an arbitrary type; the encoders are left out: they give nb * nb rows for the page and
    nq * nq rows for each tile (sizes that are multiples of 64).  The scatter is stated for
    rows: with destination [1, S, D], mask [1, S, 1] and source [K, D] the broadcast shape is
    [1, max S K, D] (element by element it is OpsModel.masked_scatter).  The sum of the
    normalized pixels (v / 255 - 1/2) / (1/2) is taken exactly, times 255. *)
From Verif Require Import Base.

Definition image_id : Z := 128815.

(** Lines 821-845; nb and nq are num_queries_base and num_queries, (wc, hc) crop_ratio. *)
Definition image_tokens (nb nq wc hc : nat) : list Z :=
  flat_map (fun _ => repeat image_id nb ++ [image_id]) (seq 0 nb) ++ [image_id] ++
  (if (1 <? wc) || (1 <? hc)
   then flat_map (fun _ => repeat image_id (nq * wc) ++ [image_id]) (seq 0 (nq * hc)) else []).
(** tokenized_str and images_seq_mask, lines 775-780, 846-863. *)
Definition prompt_ids (before after : list Z) (nb nq wc hc : nat) : list Z :=
  0%Z :: before ++ image_tokens nb nq wc hc ++ after.
Definition prompt_mask (before after : list Z) (nb nq wc hc : nat) : list bool :=
  false :: map (fun _ => false) before ++ map (fun _ => true) (image_tokens nb nq wc hc) ++ map (fun _ => false) after.

(** Line 477: are there tiles?  [pixels] are the bytes of all tiles; without tiles the patches
    are zeros (line 887). *)
Definition patches_present (pixels : list Z) : bool :=
  negb (fold_right (fun v s => 2 * v - 255 + s) 0 pixels =? 0)%Z.

Section Rows.
Context {F : Type}.
Variables (newline separator : F).

(** view({rows, cols, n}), concat with image_newline along axis 1, view({-1, n}): lines
    521-538, 543-555, 586-604. *)
Definition with_newlines (rows cols : nat) (l : list F) : list F :=
  flat_map (fun y => firstn cols (skipn (y * cols) l) ++ [newline]) (seq 0 rows).
(** view({hc, wc, h2, w2, n}).permute({0, 2, 1, 3, 4}).view(...), lines 540-542: tile after
    tile to row after row. *)
Definition tiles_to_rows (hc wc h2 w2 : nat) (l : list F) : list F :=
  flat_map (fun a => flat_map (fun r => flat_map (fun b =>
    firstn w2 (skipn (((a * wc + b) * h2 + r) * w2) l)) (seq 0 wc)) (seq 0 h2)) (seq 0 hc).
(** images_in_this_batch, lines 476-613. *)
Definition features (present : bool) (nb nq wc hc : nat) (page tiles : list F) : list F :=
  (if present then with_newlines (hc * nq) (wc * nq) (tiles_to_rows hc wc nq nq tiles) else []) ++
  with_newlines nb nb page ++ [separator].

(** Masked scatter, MaskedScatterOp.cpp:114-157: the row of the source for place s is s
    modulo the number of rows; a place without a row in the source would be read out of
    bounds only if the source were empty. *)
Definition scatter (emb : list F) (mask : list bool) (src : list F) : list F :=
  map (fun s => let keep := nth s emb separator in
    if nth s mask false then nth (s mod length src) src separator else keep) (seq 0 (length emb)).
End Rows.
