(** The vision pipeline of Qwen2-VL and Qwen2.5-VL:
    /repo/mllm/models/qwen2vl/{image_preprocessor,tokenization,modeling}_qwen2vl.hpp,
    /repo/mllm/models/qwen2_5vl/modeling_qwen2_5vl.hpp.

    Simplifications:
    - sizes, grid cells and indices are natural numbers and no product of sizes exceeds an int; a division by zero is
      undefined;
    - tensors of rank 2 and 3 owning their storage are lists in row-major order, which [b] at first holds anything
      (Tensor::empty does not initialise it); a write or read outside of the storage is undefined;
    - floats are an arbitrary type with the few operations used. *)
From Verif Require Import Base DTypeModel ParamModel TensorModel.
From Verif Require AotModel.
Local Open Scope nat_scope.
Notation for_up := AotModel.for_up.

(** b[p] = x and b[p]. *)
Definition wr {A} (b : list A) (p : nat) (x : A) : res (list A) :=
  if p <? length b then ROk (firstn p b ++ x :: skipn (S p) b) else RUB.
Definition rd {A} (b : list A) (p : nat) : res A := match nth_error b p with Some x => ROk x | None => RUB end.
Definition ndiv (a b : nat) : res nat := if b =? 0 then RUB else ROk (a / b).
Definition nmod (a b : nat) : res nat := if b =? 0 then RUB else ROk (a mod b).

(** ** Vision rotary position ids *)

(** The positions of one image's grid, modeling_qwen2vl.hpp:60-80; flatten_hpos and flatten_wpos start as zeros.
    (i_h, i_w) are block_idx / num_w_blocks and block_idx % num_w_blocks. *)
Definition grid_block (m nw idx : nat) (st : list nat * list nat) : res (list nat * list nat) :=
  do i_h <- ndiv idx nw;
  do i_w <- nmod idx nw;
  for_up m 0 (fun j_h st =>
    for_up m 0 (fun j_w st =>
      let pos := idx * (m * m) + j_h * m + j_w in
      do hp <- wr (fst st) pos (i_h * m + j_h);
      do wp <- wr (snd st) pos (i_w * m + j_w);
      ROk (hp, wp)) st) st.
Definition grid_positions (m h w : nat) : res (list nat * list nat) :=
  do nh <- ndiv h m;
  do nw <- ndiv w m;
  for_up (nh * nw) 0 (grid_block m nw) (repeat 0 (h * w), repeat 0 (h * w)).
(** One image of grid_thw, lines 47-88; the state is (out_offset, out). *)
Definition image_ids (m : nat) (thw : nat * nat * nat) (st : nat * list nat) : res (nat * list nat) :=
  let '(t, h, w) := thw in
  let '(off, out) := st in
  do hw <- grid_positions m h w;
  do out <- for_up t 0 (fun frame out =>
    for_up (h * w) 0 (fun pos out =>
      let i := off + (frame * (h * w) + pos) * 2 in
      do y <- rd (fst hw) pos;
      do x <- rd (snd hw) pos;
      do out <- wr out i y;
      wr out (i + 1) x) out) out;
  ROk (off + t * (h * w) * 2, out).
Fixpoint images_ids (m : nat) (grid : list (nat * nat * nat)) (st : nat * list nat) : res (nat * list nat) :=
  match grid with [] => ROk st | g :: r => do st <- image_ids m g st; images_ids m r st end.
(** makeVisualRotaryPosEmbIds, lines 29-92: lines 34-42 size the [total_positions, 2] output. *)
Definition positions_of (g : nat * nat * nat) : nat := let '(t, h, w) := g in t * h * w.
Definition total_positions (grid : list (nat * nat * nat)) : nat := fold_left (fun n g => n + positions_of g) grid 0.
Definition visual_ids (m : nat) (grid : list (nat * nat * nat)) (b : list nat) : res (list nat) :=
  if length b =? total_positions grid * 2 then do st <- images_ids m grid (0, b); ROk (snd st) else RUB.

Section Rotary.
Context {F : Type}.
Variable times : nat -> F -> F.   (* static_cast<float>(i) * inv_freq[j] *)

(** makeVisualRotaryPosEmbFull, lines 94-106. *)
Definition rotary_full (inv_freq : list F) (seq_len : nat) (b : list F) : res (list F) :=
  if seq_len =? 0 then RAbort
  else
    let dim := length inv_freq in
    if length b =? seq_len * dim
    then for_up seq_len 0 (fun i b => for_up dim 0 (fun j b => do f <- rd inv_freq j; wr b (i * dim + j) (times i f)) b) b
    else RUB.

(** std::copy(emb_ptr, emb_ptr + dim, batch_ptr + offset). *)
Definition copy_row (from : list F) (p dim : nat) (b : list F) (q : nat) : res (list F) :=
  for_up dim 0 (fun k b => do x <- rd from (p + k); wr b (q + k) x) b.
(** makeVisualRotaryPosEmb, lines 130-174; [full] is [num, dim], [ids] is [n, 2], only the first row of grid_thw is read. *)
Definition visual_rotary (full : list F) (num dim : nat) (ids : list nat) (n : nat) (thw : nat * nat * nat) (b : list F) : res (list F) :=
  if negb (length b =? n * (2 * dim)) then RUB
  else if (num =? 0) || (dim =? 0) || (n =? 0) then RAbort
  else if negb (positions_of thw =? n) then RAbort
  else
    do _ <- for_up n 0 (fun i u => for_up 2 0 (fun j u => do p <- rd ids (i * 2 + j); if num <=? p then RAbort else ROk u) u) tt;
    for_up n 0 (fun i b =>
      do st <- for_up 2 0 (fun j st => do p <- rd ids (i * 2 + j);
                                       do b <- copy_row full (p * dim) dim (snd st) (i * (2 * dim) + fst st);
                                       ROk (fst st + dim, b)) (0, b);
      ROk (snd st)) b.

(** The lines of forward which make the angles of the patches, modeling_qwen2vl.hpp:724-728: v_len is the number of
    patches; b1, b2, b3 are the storages of the three tensors. *)
Definition patch_angles (m : nat) (grid : list (nat * nat * nat)) (inv_freq : list F) (v_len : nat)
           (b1 : list nat) (b2 b3 : list F) : res (list F) :=
  do ids <- visual_ids m grid b1;
  do full <- rotary_full inv_freq v_len b2;
  match grid with
  | [] => RUB
  | g :: _ => visual_rotary full v_len (length inv_freq) ids (total_positions grid) g b3
  end.
End Rotary.

(** ** Position ids of the language model *)

(** The first index of the vision token, lines 813-823 and 738-750. *)
Fixpoint find_first (v : Z) (ids : list Z) : option nat :=
  match ids with [] => None | x :: r => if (x =? v)%Z then Some 0 else option_map S (find_first v r) end.

(** std::max({a, b, c}). *)
Definition max3 (a b c : Z) : Z := Z.max (Z.max a b) c.

(** getPositionIdsPrefill, lines 798-894; [b] is the storage of position_ids, [3, 1, S]. *)
Definition position_ids_prefill (vtok : Z) (m : nat) (ids : list Z) (thw : nat * nat * nat) (b : list Z) : res (list Z) :=
  let S_ := length ids in
  if negb (length b =? 3 * S_) then RUB
  else
  match find_first vtok ids with
  | None => RAbort
  | Some start =>
      let '(t, h, w) := thw in
      do h' <- ndiv h m;
      do w' <- ndiv w m;
      let n := t * h' * w' in
      (* 3.1 *)
      do b <- for_up 3 0 (fun d b => for_up start 0 (fun k b => wr b (d * S_ + k) (Z.of_nat k)) b) b;
      let vision_start := (Z.of_nat start - 1 + 1)%Z in
      (* 3.2 *)
      do st <- for_up t 0 (fun ti st => for_up h' 0 (fun hi st => for_up w' 0 (fun wi st =>
                 let '(cnt, b) := st in
                 do b <- wr b (0 * S_ + (start + cnt)) (vision_start + Z.of_nat ti)%Z;
                 do b <- wr b (1 * S_ + (start + cnt)) (vision_start + Z.of_nat hi)%Z;
                 do b <- wr b (2 * S_ + (start + cnt)) (vision_start + Z.of_nat wi)%Z;
                 ROk (cnt + 1, b)) st) st) (0, b);
      let b := snd st in
      (* reading at index -1 of the storage when nothing precedes *)
      if (start + n =? 0) then RUB
      else
        do t0 <- rd b (0 * S_ + (start + n - 1));
        do t1 <- rd b (1 * S_ + (start + n - 1));
        do t2 <- rd b (2 * S_ + (start + n - 1));
        let cur := max3 t0 t1 t2 in
        (* 3.3 *)
        for_up 3 0 (fun d b => for_up (S_ - (start + n)) 0 (fun k b => wr b (d * S_ + (start + n + k)) (cur + 1 + Z.of_nat k)%Z) b) b
  end.
(** getPositionIds without an image, lines 789-794; position_ids is [3, 1, S]. *)
Definition position_ids_decode (ids : list Z) : res (list Z) :=
  let S_ := length ids / 3 in
  if S_ =? 0 then RUB else do last <- rd ids (0 * S_ + (S_ - 1)); ROk [(last + 1)%Z; (last + 1)%Z; (last + 1)%Z].

(** k further tokens: each forward passes on the position_ids of the one before, lines 757-768 and 776-779. *)
Fixpoint decode_steps (k : nat) (ids : list Z) : res (list Z) :=
  match k with O => ROk ids | S k' => do i <- position_ids_decode ids; decode_steps k' i end.

(** ** The message: tokenization_qwen2vl.hpp:257-273 *)
(** [ids] are the ids of the template with the prompt in place; grid_thw as the preprocessor returns it.
    ids.insert(it + 1, n - 1, pad): it + 1 past the end is undefined, -1 copies throw. *)
Definition expand_pads (pad : Z) (ids : list Z) (thw : nat * nat * nat) : res (list Z) :=
  let n := positions_of thw / 4 in
  match find_first pad ids with
  | None => RUB
  | Some p => if n =? 0 then RAbort else ROk (firstn (p + 1) ids ++ repeat pad (n - 1) ++ skipn (p + 1) ids)
  end.
(** Inserting the visual embeddings, modeling_qwen2vl.hpp:738-755: the rows of the slice are overwritten by copy2; a slice
    reaching past the sequence is undefined. *)
Definition insert_visual {R} (vtok : Z) (ids : list Z) (rows visual : list R) : res (list R) :=
  match find_first vtok ids with
  | None => RAbort
  | Some p => for_up (length visual) 0 (fun k rows => do x <- rd visual k; wr rows (p + k) x) rows
  end.

(** ** Qwen2.5-VL: windows *)

(** The state of the window loop: window_index and seqlens.  seqlens[window_idx]++. *)
Definition bump (l : list nat) (i : nat) : res (list nat) := do x <- rd l i; wr l i (x + 1).
(** makeWindowIndex, qwen2_5vl/modeling_qwen2_5vl.hpp:20-88, as (window_index, cu_window_seqlens).  index and
    index_padded are kept as one list each, cell [t][h][w] at (t * rows + h) * columns + w; None is the padding -100. *)
Definition window_index (window merge patch : nat) (thw : nat * nat * nat) : res (list nat * list nat) :=
  let '(gt, gh, gw) := thw in
  do v1 <- ndiv window merge;
  do V <- ndiv v1 patch;
  do H <- ndiv gh merge;
  do W <- ndiv gw merge;
  do rh <- nmod H V; do pad_h <- nmod (V - rh) V;
  do rw <- nmod W V; do pad_w <- nmod (V - rw) V;
  do nwh <- ndiv (H + pad_h) V;
  do nww <- ndiv (W + pad_w) V;
  (* lines 43-48 *)
  do ic <- for_up gt 0 (fun t st => for_up H 0 (fun h st => for_up W 0 (fun w st =>
             do i <- wr (snd st) ((t * H + h) * W + w) (fst st); ROk (fst st + 1, i)) st) st) (0, repeat 0 (gt * H * W));
  let index := snd ic in
  (* lines 50-57 *)
  let PH := H + pad_h in let PW := W + pad_w in
  do padded <- for_up gt 0 (fun t b => for_up H 0 (fun h b => for_up W 0 (fun w b =>
             do x <- rd index ((t * H + h) * W + w); wr b ((t * PH + h) * PW + w) (Some x)) b) b) (repeat None (gt * PH * PW));
  (* lines 59-80 *)
  do st <- for_up gt 0 (fun t st => for_up nwh 0 (fun wh st => for_up nww 0 (fun ww st =>
             for_up V 0 (fun h st => for_up V 0 (fun w st =>
               do c <- rd padded ((t * PH + (wh * V + h)) * PW + (ww * V + w));
               match c with
               | None => ROk st
               | Some x => do s <- bump (snd st) (t * nwh * nww + wh * nww + ww); ROk (fst st ++ [x], s)
               end) st) st) st) st) ([], repeat 0 (gt * nwh * nww));
  (* lines 82-87 *)
  do cu <- for_up (gt * nwh * nww) 0 (fun i cc =>
             do s <- rd (snd st) i;
             let c := fst cc + s * (merge * merge) in ROk (c, snd cc ++ [c])) (0, [0]);
  ROk (fst st, snd cu).

(** The window mask, lines 579-592: [true] is 0.0f, [false] is -1e12f. *)
Definition window_mask (seq_len : nat) (cu : list nat) (b : list bool) : res (list bool) :=
  if negb (length b =? seq_len * seq_len) then RUB
  else
    do b <- for_up (seq_len * seq_len) 0 (fun i b => wr b i false) b;
    for_up (length cu - 1) 1 (fun i b =>
      do start <- rd cu (i - 1);
      do end_ <- rd cu i;
      for_up (end_ - start) start (fun r b => for_up (end_ - start) start (fun c b => wr b (r * seq_len + c) true) b) b) b.

(** Indexing by a list of rows, hidden_states[{indices, ...}], lines 560-575 and 612: the result's row k is row indices[k]. *)
Definition gather {R} (rows : list R) (idx : list nat) : res (list R) := AotModel.map_res (rd rows) idx.

(** ** Multimodal rotary embedding of the language model *)
Section Mrope.
Context {F : Type}.
Variable angle : F -> Z -> F.   (* inv_freq[d] * position *)
Variable trig : F -> F.         (* cosf, or sinf *)

(** tmp_cos (tmp_sin alike), modeling_qwen2vl.hpp:188-202: [3, S, 2 * half]. *)
Definition mrope_tmp (pos : list Z) (S_ : nat) (inv_freq : list F) (b : list F) : res (list F) :=
  let half := length inv_freq in
  if negb (length b =? 3 * S_ * (half * 2)) then RUB
  else
  for_up 3 0 (fun a b => for_up half 0 (fun d b => for_up S_ 0 (fun s b =>
    do f <- rd inv_freq d;
    do p <- rd pos (a * S_ + s);
    let v := trig (angle f p) in
    do b <- wr b ((a * S_ + s) * (half * 2) + d) v;
    wr b ((a * S_ + s) * (half * 2) + (d + half)) v) b) b) b.
(** start_cols, lines 223-229. *)
Fixpoint start_cols (cur : nat) (sections : list nat) : list nat :=
  cur :: match sections with [] => [] | s :: r => start_cols (cur + s) r end.
(** makeMultimodalPositionEmbedding, lines 181-254, one of sin and cos; with no sections the [3, S, 2 * half] tensor itself. *)
Definition mrope (pos : list Z) (S_ : nat) (inv_freq : list F) (sections : list nat) (b b2 : list F) : res (list F) :=
  let cols := length inv_freq * 2 in
  do tmp <- mrope_tmp pos S_ inv_freq b;
  match sections with
  | [] => ROk tmp
  | _ :: _ =>
      let dbl := sections ++ sections in
      let starts := start_cols 0 dbl in
      if negb (length b2 =? S_ * cols) then RUB
      else
      for_up (length dbl) 0 (fun j b2 =>
        do s_j <- rd dbl j;
        do st <- rd starts j;
        for_up S_ 0 (fun row b2 => for_up s_j 0 (fun c b2 =>
          do x <- rd tmp ((j mod 3 * S_ + row) * cols + (st + c));
          wr b2 (row * cols + (st + c)) x) b2) b2) b2
  end.
End Mrope.
