(** The image and audio input of MiniCPM-o: /repo/mllm/models/minicpm_o2_6/{image_preprocessor_minicpmo,audio_preprocessor_minicpmo,
    tokenization_minicpmo,modeling_minicpmo,modeling_siglip,modeling_resampler}.hpp.

    Simplifications:
    - sizes and indices are natural numbers and no product of sizes exceeds an int; a division by zero is undefined;
    - a tensor owning its storage is a list in row-major order, which at first holds anything; accesses outside are undefined;
    - what the float computations of the image sizes give is left open ([floats]): the theorems hold whatever they give;
    - writing a cropped image as PNG and opening it again gives the same bytes; stb's resampling is any function with the
      asked-for size. *)
From Verif Require Import Base DTypeModel ParamModel TensorModel VlModel.
From Verif Require AotModel.
Local Open Scope nat_scope.

(** ** Slicing: image_preprocessor_minicpmo.hpp:21-170 *)
(** preprocessor/visual/Image.hpp: w_, h_, c_ and the bytes, row by row. *)
Record image := mkImage { i_w : nat; i_h : nat; i_c : nat; i_data : list Z }.

(** What the float computations give. *)
Record floats := mkFloats {
  f_multiple : nat -> nat -> nat;                              (* (int)ceil(ratio), lines 77-78 *)
  f_closer : nat -> nat -> option (nat * nat) -> nat * nat -> bool;   (* error < min_error, lines 95-97; None: INFINITY *)
  f_fit : nat -> nat -> nat * nat;                             (* (new_width, new_height), lines 108-110 *)
  f_round : nat -> nat -> nat                                  (* round((float)length / divisor), line 120 *)
}.

(** Lines 86-91: the ways to write [s] as columns times rows. *)
Definition grids_of (s : nat) : list (nat * nat) := flat_map (fun m => if s mod m =? 0 then [(m, s / m)] else []) (seq 1 s).
(** Lines 80-91. *)
Definition candidates (maxs m : nat) : list (nat * nat) :=
  flat_map grids_of (filter (fun i => (1 <? i) && (i <=? maxs)) [m - 1; m; m + 1]).
(** get_sliced_grid, lines 75-103: (columns, rows), or the empty vector. *)
Definition get_sliced_grid (fl : floats) (maxs w h : nat) (never : bool) : option (nat * nat) :=
  let m := Nat.min (f_multiple fl w h) maxs in
  if (m <=? 1) || never then None
  else Some (fst (fold_left (fun st g => if f_closer fl w h (snd st) g then (g, Some g) else st) (candidates maxs m) ((1, 1), None))).

(** ensure_divide, lines 119-121. *)
Definition ensure_divide (fl : floats) (length divisor : nat) : nat := Nat.max (f_round fl length divisor * divisor) divisor.
(** find_best_resize, lines 105-117. *)
Definition find_best_resize (fl : floats) (scale ps w h : nat) (allow : bool) : nat * nat :=
  let wh := if (scale * scale <? w * h) || allow then f_fit fl w h else (w, h) in
  (ensure_divide fl (fst wh) ps, ensure_divide fl (snd wh) ps).
(** get_refine_size, lines 123-132. *)
Definition get_refine_size (fl : floats) (scale ps w h : nat) (g : nat * nat) : res (nat * nat) :=
  do gw <- ndiv (ensure_divide fl w (fst g)) (fst g);
  do gh <- ndiv (ensure_divide fl h (snd g)) (snd g);
  let b := find_best_resize fl scale ps gw gh true in
  ROk (fst b * fst g, snd b * snd g).

(** memcpy(b + off, src + soff, n), element by element. *)
Definition memcpy {A} (b : list A) (off : nat) (src : list A) (soff n : nat) : res (list A) :=
  for_up n 0 (fun k b => do v <- rd src (soff + k); wr b (off + k) v) b.
(** crop_image, lines 135-168. *)
Definition crop_image (img : image) (x y cw ch : nat) : res image :=
  let x := Nat.min x (i_w img - 1) in
  let y := Nat.min y (i_h img - 1) in
  let cw := Nat.min cw (i_w img - x) in
  let ch := Nat.min ch (i_h img - y) in
  let c := i_c img in
  do d <- for_up ch 0 (fun row d => memcpy d (row * cw * c) (i_data img) (((y + row) * i_w img + x) * c) (cw * c)) (repeat 0%Z (cw * ch * c));
  ROk (mkImage cw ch c d).
(** for (i = ..; i < lim; i += step), collecting. *)
Fixpoint stepping {X} (fuel i lim step : nat) (f : nat -> res X) : res (list X) :=
  if i <? lim then
    match fuel with
    | O => RDiverge
    | S k => do x <- f i; do r <- stepping k (i + step) lim step f; ROk (x :: r)
    end
  else ROk [].
(** split_to_patches, lines 52-73. *)
Definition split_to_patches (img : image) (g : nat * nat) : res (list (list image)) :=
  do gx <- ndiv (i_w img) (fst g);
  do gy <- ndiv (i_h img) (snd g);
  stepping (S (i_h img)) 0 (i_h img) gy (fun i =>
    stepping (S (i_w img)) 0 (i_w img) gx (fun j =>
      crop_image img j i (Nat.min gx (i_w img - j)) (Nat.min gy (i_h img - i)))).
(** slice_image, lines 28-50. *)
Definition slice_image (fl : floats) (resize : image -> nat -> nat -> image) (maxs scale ps : nat) (img : image)
  : res (image * list (list image) * option (nat * nat)) :=
  match get_sliced_grid fl maxs (i_w img) (i_h img) false with
  | None => let b := find_best_resize fl scale ps (i_w img) (i_h img) true in ROk (resize img (fst b) (snd b), [], None)
  | Some g =>
      let b := find_best_resize fl scale ps (i_w img) (i_h img) false in
      do r <- get_refine_size fl scale ps (i_w img) (i_h img) g;
      do p <- split_to_patches (resize img (fst r) (snd r)) g;
      ROk (resize img (fst b) (snd b), p, Some g)
  end.

(** ** The pictures as patches, lines 245-340 *)
Section Pixels.
Context {F : Type} (ofbyte : Z -> F) (sub div : F -> F -> F) (mean std : list F) (zero : F).
(** Lines 261-263: Image::tensor() is [H, W, C]; permute({2, 0, 1}) and * (1 / 255): see C16 and C104. [ofbyte] scales. *)
Definition chw (img : image) : list F :=
  flat_map (fun c => flat_map (fun y => map (fun x => ofbyte (nth ((y * i_w img + x) * i_c img + c) (i_data img) 0%Z)) (seq 0 (i_w img))) (seq 0 (i_h img))) (seq 0 (i_c img)).
(** normalize_tensor, lines 277-294. *)
Definition normalize_tensor (channels height width : nat) (t : list F) : res (list F) :=
  for_up channels 0 (fun c t =>
    do m <- rd mean c;
    do s <- rd std c;
    for_up height 0 (fun h t =>
      for_up width 0 (fun w t =>
        let idx := c * height * width + h * width + w in
        do v <- rd t idx;
        wr t idx (div (sub v m) s)) t) t) t.
(** reshape_by_patch, lines 296-338; [b] is what Tensor::empty gives. *)
Definition reshape_by_patch (ps channels height width : nat) (input b : list F) : res (list F) :=
  do nh <- ndiv height ps;
  do nw <- ndiv width ps;
  let total := nh * nw in
  if length b =? channels * (ps * (total * ps)) then
    for_up channels 0 (fun c out =>
      for_up nh 0 (fun ph out =>
        for_up nw 0 (fun pw out =>
          for_up ps 0 (fun kh out =>
            memcpy out (c * (ps * total * ps) + kh * (total * ps) + (ph * nw + pw) * ps)
                   input (c * (height * width) + (ph * ps + kh) * width + pw * ps) ps) out) out) out) b
  else RUB.
(** One turn of the loop of process, lines 260-272: the tensor (with its last dimension) and the target size. *)
Definition process_one (ps : nat) (junk : nat -> list F) (img : image) : res ((nat * list F) * (nat * nat)) :=
  do t <- normalize_tensor (i_c img) (i_h img) (i_w img) (chw img);
  do th <- ndiv (i_h img) ps;
  do tw <- ndiv (i_w img) ps;
  do r <- reshape_by_patch ps (i_c img) (i_h img) (i_w img) t (junk (i_c img * (ps * (th * tw * ps))));
  ROk ((th * tw * ps, r), (th, tw)).
Definition process (ps : nat) (junk : nat -> list F) (source : image) (patches : list (list image)) : res (list ((nat * list F) * (nat * nat))) :=
  AotModel.map_res (process_one ps junk) (source :: concat patches).

(** convertToTensors, tokenization_minicpmo.hpp:427-464: the widest tensor; zeros; the rows of every tensor. *)
Definition widest (ts : list (nat * list F)) : nat := fold_left (fun m t => if m <? fst t then fst t else m) ts (match ts with [] => 0 | t :: _ => fst t end).
Definition pixel_values (channels ps : nat) (ts : list (nat * list F)) : res (list F) :=
  let hw := widest ts in
  for_up (length ts) 0 (fun b out =>
    do t <- rd ts b;
    for_up channels 0 (fun c out =>
      for_up ps 0 (fun p out =>
        memcpy out (b * channels * ps * hw + c * ps * hw + p * hw) (snd t) (c * ps * fst t + p * fst t) (fst t)) out) out)
    (repeat zero (length ts * channels * ps * hw)).
End Pixels.

(** ** The prompt: image_preprocessor_minicpmo.hpp:184-243, tokenization_minicpmo.hpp:345-376 *)
(** A text: characters and the special tokens the trie knows (C40: the trie finds them). *)
Inductive special := SImage | SImageEnd | SSlice | SSliceEnd | SUnk | SIdStart | SIdEnd | SAudio | SAudioEnd | SOther (k : nat).
Inductive sym := Special (s : special) | Char (c : Z).
Definition text := list sym.

(** get_grid_placeholder, lines 203-223; [n] is image_feature_size; 10 is the line feed. *)
Definition unks (n : nat) : text := repeat (Special SUnk) n.
Definition slice_placeholder (n : nat) : text := Special SSlice :: unks n ++ [Special SSliceEnd].
Fixpoint join_lines (i : nat) (lines : list text) : text :=
  match lines with [] => [] | l :: r => (if 0 <? i then [Char 10%Z] else []) ++ l ++ join_lines (S i) r end.
Definition get_grid_placeholder (n : nat) (g : nat * nat) : text :=
  join_lines 0 (repeat (concat (repeat (slice_placeholder n) (fst g))) (snd g)).
(** get_slice_image_placeholder, lines 184-201; [number] is std::to_string(image_idx). *)
Definition image_placeholder (n : nat) (number : list Z) (g : option (nat * nat)) : text :=
  (Special SIdStart :: map Char number ++ [Special SIdEnd]) ++ (Special SImage :: unks n ++ [Special SImageEnd]) ++
  match g with None => [] | Some g => get_grid_placeholder n g end.
(** Lines 367-373 for a message in which the tag occurs once: [pre] and [post] are the two chunks. *)
Definition prompt_text (n : nat) (pre post : text) (g : option (nat * nat)) : text :=
  pre ++ image_placeholder n [48%Z] g ++ [Char 10%Z] ++ post.

(** tokenize, tokenization_minicpmo.hpp:289-302, and the vocabulary: runs of characters through [bpe], special tokens to
    their id. *)
Fixpoint tokenize_from (ids : special -> Z) (bpe : list Z -> list Z) (run : list Z) (t : text) : list Z :=
  let flush := match run with [] => [] | _ => bpe run end in
  match t with
  | [] => flush
  | Char c :: r => tokenize_from ids bpe (run ++ [c]) r
  | Special s :: r => flush ++ ids s :: tokenize_from ids bpe [] r
  end.
Definition tokenize (ids : special -> Z) (bpe : list Z -> list Z) (t : text) : list Z := tokenize_from ids bpe [] t.

(** calc_bounds, image_preprocessor_minicpmo.hpp:225-243. *)
Fixpoint positions_from (p : Z -> bool) (i : nat) (l : list Z) : list nat :=
  match l with [] => [] | x :: r => (if p x then [i] else []) ++ positions_from p (S i) r end.
Definition calc_bounds (ids : special -> Z) (l : list Z) : list (nat * nat) :=
  combine (positions_from (fun x => (x =? ids SImage)%Z || (x =? ids SSlice)%Z) 0 l)
          (positions_from (fun x => (x =? ids SImageEnd)%Z || (x =? ids SSliceEnd)%Z) 0 l).

(** merge_vision_text_embeddings, modeling_minicpmo.hpp:275-301, for one batch: rows of the embedding; [vision] has
    one list of rows per picture.  The inner loop: pos from start to end (inclusive), vision_idx from 0. *)
Definition bound_of (bounds : list (nat * nat)) (i : nat) : res (nat * nat) := rd bounds i.
Definition merge_one {R} (rows : list R) (v : list R) (first last : nat) : res (list R) :=
  for_up (Nat.min (last + 1 - first) (length v)) 0 (fun k rows => do r <- rd v k; wr rows (first + k) r) rows.
Definition merge_vision {R} (rows : list R) (vision : list (list R)) (bounds : list (nat * nat)) : res (list R) :=
  for_up (length vision) 0 (fun i rows =>
    do b <- rd bounds i;
    do v <- rd vision i;
    merge_one rows v (fst b + 1) (snd b - 1)) rows.

(** ** The vision encoder's positions and masks: modeling_siglip.hpp:51-140, 345-425 *)
(** Lines 97-109: [lt i] is coord < boundaries[i]; [n1] boundaries. *)
Fixpoint bucket_from (lt : nat -> bool) (i n1 bucket : nat) : nat :=
  match n1 with O => bucket | S k => if lt i then i else bucket_from lt (S i) k (S i) end.
Definition bucket (lt : nat -> bool) (n : nat) : nat := bucket_from lt 0 (n - 1) 0.
(** Lines 71-142 for one picture: [lth h i], [ltw w i] compare the fraction h / nb_patches_h (w / nb_patches_w) with the
    i-th boundary (i + 1) / n. *)
Definition pos_ids (lth ltw : nat -> nat -> bool) (n nbh nbw : nat) : list nat :=
  flat_map (fun h => map (fun w => bucket (lth h) n * n + bucket (ltw w) n) (seq 0 nbw)) (seq 0 nbh).
(** Lines 134-141: the mask row and the ids; zeros first. *)
Fixpoint apply_ids (mask : list bool) (ids : list nat) : list nat :=
  match mask with
  | [] => []
  | true :: m => match ids with i :: r => i :: apply_ids m r | [] => 0 :: apply_ids m [] end
  | false :: m => 0 :: apply_ids m ids
  end.
(** Lines 351-368. *)
Definition max_patches (tgt : list (nat * nat)) : nat :=
  fold_left (fun m t => if (0 <? fst t) && (0 <? snd t) then (if m <? fst t * snd t then fst t * snd t else m) else m) tgt 0.
Definition patch_mask (maxp : nat) (t : nat * nat) : list bool := map (fun j => j <? fst t * snd t) (seq 0 maxp).
(** Lines 379-425: no mask if every entry is set, else 0 or -1e9 for every pair; [None] is a nil tensor. *)
Definition attention_mask (masks : list (list bool)) : option (list (list (list bool))) :=
  if forallb (forallb (fun b => b)) masks then None
  else Some (map (fun m => map (fun mi => map (fun mj => mi && mj) m) m) masks).

(** ** The resampler's positions: modeling_resampler.hpp:21-47, 213-270 *)
Section Resampler.
Context {F : Type} (value : nat -> nat -> nat -> F) (zero : F).   (* value h w d: lines 30-42 *)
Record resampler := mkResampler { r_max : nat * nat; r_table : list F }.
(** get2DSinCosPosEmbed. *)
Definition table (dim : nat) (s : nat * nat) : list F :=
  flat_map (fun h => flat_map (fun w => map (value h w) (seq 0 dim)) (seq 0 (snd s))) (seq 0 (fst s)).
Definition new_resampler (dim : nat) (s : nat * nat) : resampler := mkResampler s (table dim s).
(** Lines 214-230. *)
Definition max_of (f : nat * nat -> nat) (tgt : list (nat * nat)) : nat := fold_left (fun m t => if m <? f t then f t else m) tgt 0.
Definition adjust (dim : nat) (tgt : list (nat * nat)) (r : resampler) : resampler :=
  let mh := max_of fst tgt in
  let mw := max_of snd tgt in
  if (fst (r_max r) <? mh) || (snd (r_max r) <? mw) then new_resampler dim (mh, mw) else r.
(** Lines 242-258: the rows of one picture. *)
Definition pos_rows (dim : nat) (r : resampler) (t : nat * nat) : res (list (list F)) :=
  AotModel.map_res (fun hw => AotModel.map_res (fun d => rd (r_table r) ((fst hw * snd (r_max r) + snd hw) * dim + d)) (seq 0 dim))
    (flat_map (fun h => map (fun w => (h, w)) (seq 0 (snd t))) (seq 0 (fst t))).
(** Lines 232-236 and 260-275: padded with zeros; the mask is 1 where a key is padding. *)
Definition patch_lens (tgt : list (nat * nat)) : nat := max_of (fun t => fst t * snd t) tgt.
Definition padded (dim maxp : nat) (rows : list (list F)) : list (list F) :=
  firstn maxp rows ++ repeat (repeat zero dim) (maxp - length rows).
Definition key_mask (maxp : nat) (t : nat * nat) : list bool := map (fun j => negb (j <? fst t * snd t)) (seq 0 maxp).
(** One call, lines 200-275: the new state, and position rows and mask of every picture. *)
Definition resample_positions (dim : nat) (tgt : list (nat * nat)) (r : resampler) : res (resampler * list (list (list F) * list bool)) :=
  let r := adjust dim tgt r in
  do rows <- AotModel.map_res (pos_rows dim r) tgt;
  ROk (r, map (fun x => (padded dim (patch_lens tgt) (fst x), key_mask (patch_lens tgt) (snd x))) (combine rows tgt)).
End Resampler.

(** ** Audio: audio_preprocessor_minicpmo.hpp:228-350 *)
(** Lines 231-242; [frames] is (int)ceil((float)audio_length / hop). *)
Definition audio_slots (frames : Z) : Z := let f := (Z.quot (frames - 1) 2 + 1)%Z in (Z.quot (f - 2) 2 + 1)%Z.
(** getAudioPlaceholder without chunks, lines 263-267. *)
Definition audio_placeholder (frames : Z) : text := Special SAudio :: unks (Z.to_nat (audio_slots frames)) ++ [Special SAudioEnd].
(** With chunks, lines 246-262: [per] is audio_embeds_in_chunk, [left] what is missing. *)
Fixpoint audio_chunks (n : nat) (per total out : Z) : text :=
  match n with
  | O => []
  | S k => let u := Z.min per (out - total) in
           (Special SAudio :: unks (Z.to_nat u) ++ [Special SAudioEnd]) ++ audio_chunks k per (total + u) out
  end.
Definition audio_chunked (frames fbank : Z) : text :=
  let out := audio_slots frames in
  let per := audio_slots fbank in
  audio_chunks (Z.to_nat (Z.quot (out + per - 1) per)) per 0 out.
(** calcAudioBounds, lines 332-349. *)
Fixpoint first_end (e : Z) (j : nat) (l : list Z) : option nat :=
  match l with [] => None | x :: r => if (x =? e)%Z then Some j else first_end e (S j) r end.
Fixpoint audio_bounds_from (s e : Z) (i : nat) (l : list Z) : list (nat * nat) :=
  match l with
  | [] => []
  | x :: r => (if (x =? s)%Z then match first_end e (S i) r with Some j => [(S i, j)] | None => [] end else []) ++ audio_bounds_from s e (S i) r
  end.
Definition audio_bounds (ids : special -> Z) (l : list Z) : list (nat * nat) := audio_bounds_from (ids SAudio) (ids SAudioEnd) 0 l.
(** merge_audio_text_embeddings, modeling_minicpmo.hpp:303-329: last inclusive is the bound less one. *)
Definition merge_audio {R} (rows : list R) (audio : list (list R)) (bounds : list (nat * nat)) : res (list R) :=
  for_up (length audio) 0 (fun i rows =>
    do b <- rd bounds i;
    do v <- rd audio i;
    for_up (Nat.min (snd b - fst b) (length v)) 0 (fun k rows => do r <- rd v k; wr rows (fst b + k) r) rows) rows.
