(** Finite scalar quantisation of the audio codec: models/minicpm_o2_6/
    modeling_vector_quantize.hpp (FSQ, ResidualFSQ::getCodesFromIndices and
    getOutputFromIndices).

    Simplifications.  A tensor is the list of its elements in memory order (all
    tensors here are contiguous; [contiguous()] is called at 660) with its sizes
    passed beside it.  A float is the real number it denotes and every operation
    rounds to binary32 ([to_f32]); products and sums are rounded separately (no
    contraction into fused multiply-add).  A division by zero, a conversion to
    int32 out of range, a signed overflow and an access out of bounds are all
    [RUB].  The projection layers and [forward] (marked NOT VERIFIED by its
    author) are not modelled. *)
From Verif Require Import Base DTypeModel ParamModel AotModel VlModel QuantModel CpmAudioModel.
From Coq Require Import Reals.
From Flocq Require Import Core.
Import ListNotations.
Open Scope nat_scope.

(** int32 arithmetic: overflow is undefined. *)
Definition i32 (z : Z) : res Z := if ((- 2 ^ 31 <=? z) && (z <? 2 ^ 31))%Z then ROk z else RUB.
(** static_cast<int32_t>(float): towards zero, undefined out of range. *)
Definition f2i (x : R) : res Z := i32 (Ztrunc x).
(** static_cast<float>(int32). *)
Definition i2f (z : Z) : R := to_f32 (IZR z).
Definition fdiv (x y : R) : res R := if Req_EM_T y 0 then RUB else ROk (to_f32 (x / y)).
(** C++ integer division and remainder: towards zero, undefined by 0. *)
Definition idiv (a b : Z) : res Z := if (b =? 0)%Z then RUB else i32 (Z.quot a b).
Definition imod (a b : Z) : res Z := if (b =? 0)%Z then RUB else i32 (Z.rem a b).

(** create_levels_tensor, 35-40. *)
Definition levels_tensor (levels : list Z) : list R := map i2f levels.
(** create_basis_tensor, 43-55.  An empty list of levels makes the loop bound of
    45 wrap around, so levels[0] is read out of bounds. *)
Definition basis_vec (levels : list Z) : res (list Z) :=
  match levels with
  | [] => RUB
  | _ => let b := 1%Z :: firstn (length levels - 1) levels in
         for_up (length b - 1) 1 (fun i b => do x <- rd b i; do y <- rd b (i - 1); do z <- i32 (x * y); wr b i z) b
  end.
Definition basis_tensor (levels : list Z) : res (list R) := do b <- basis_vec levels; ROk (map i2f b).
(** FSQ constructor, 142-143. *)
Definition codebook_size (levels : list Z) : res Z :=
  for_up (length levels) 0 (fun i s => do l <- rd levels i; i32 (s * l)) 1%Z.

(** round_ste, 21-33. *)
Definition round_ste (z : list R) : res (list R) :=
  for_up (length z) 0 (fun i b => do x <- rd z i; wr b i (IZR (roundf x))) (repeat 0%R (length z)).

(** bound, 167-188; [eps] is the default argument 1e-3f. *)
Definition bound (lv : list R) (eps : R) (z : list R) : res (list R) :=
  for_up (length z) 0 (fun i b =>
    do k <- nmod i (length lv); do level <- rd lv k;
    do li <- f2i level;
    let half_l := to_f32 (to_f32 (to_f32 (level - 1) * to_f32 (1 + eps)) / 2) in
    let offset := if (Z.rem li 2 =? 0)%Z then (1 / 2)%R else 0%R in
    do x <- rd z i;
    wr b i (Rmax (to_f32 (- half_l + offset)) (Rmin (to_f32 (half_l + offset)) x))) (repeat 0%R (length z)).

(** quantize, 196-213. *)
Definition quantize (lv : list R) (eps : R) (z : list R) : res (list R) :=
  do q <- bound lv eps z; do q <- round_ste q;
  for_up (length q) 0 (fun i b =>
    do k <- nmod i (length lv); do level <- rd lv k; do x <- rd q i;
    do v <- fdiv x (to_f32 (level / 2)); wr b i v) (repeat 0%R (length q)).

(** scaleAndShift, 218-232. *)
Definition scale_and_shift (lv : list R) (z : list R) : res (list R) :=
  for_up (length z) 0 (fun i b =>
    do k <- nmod i (length lv); do level <- rd lv k;
    do l <- f2i level; do half_width <- idiv l 2; do x <- rd z i;
    wr b i (to_f32 (to_f32 (x * i2f half_width) + i2f half_width))) (repeat 0%R (length z)).

(** scaleAndShiftInverse, 237-251. *)
Definition scale_and_shift_inverse (lv : list R) (z : list R) : res (list R) :=
  for_up (length z) 0 (fun i b =>
    do k <- nmod i (length lv); do level <- rd lv k;
    do l <- f2i level; do half_width <- idiv l 2; do x <- rd z i;
    do v <- fdiv (to_f32 (x - i2f half_width)) (i2f half_width); wr b i v) (repeat 0%R (length z)).

(** indicesToLevelIndices, 256-280. *)
Definition indices_to_level_indices (lv basis indices : list R) : res (list R) :=
  let dim := length lv in
  for_up (length indices) 0 (fun i b =>
    do x <- rd indices i; do idx <- f2i x;
    for_up dim 0 (fun d b =>
      do bs <- rd basis d; do bs <- f2i bs;
      do level <- rd lv d; do level <- f2i level;
      do q <- idiv idx bs; do code <- imod q level;
      wr b (i * dim + d) (i2f code)) b) (repeat 0%R (length indices * dim)).

(** indicesToCodes, 285-288. *)
Definition indices_to_codes (levels : list Z) (indices : list R) : res (list R) :=
  do basis <- basis_tensor levels;
  do li <- indices_to_level_indices (levels_tensor levels) basis indices;
  scale_and_shift_inverse (levels_tensor levels) li.

(** codesToIndices, 293-322.  A last dimension other than the number of levels is
    only logged (296); here the number of elements is a multiple of it. *)
Definition codes_to_indices (levels : list Z) (codes : list R) : res (list R) :=
  do basis <- basis_tensor levels;
  let dim := length levels in
  do n <- ndiv (length codes) dim;
  do sh <- scale_and_shift (levels_tensor levels) codes;
  for_up n 0 (fun i b =>
    do sum <- for_up dim 0 (fun d sum =>
      do x <- rd sh (i * dim + d); do bs <- rd basis d;
      do v <- f2i (to_f32 (x * bs)); i32 (sum + v)) 0%Z;
    wr b i (i2f sum)) (repeat 0%R n).

(** createImplicitCodebook, 154-157 (the i-th element of arange(0, n, 1) is i). *)
Definition implicit_codebook (levels : list Z) : res (list R) :=
  do n <- codebook_size levels;
  indices_to_codes levels (map (fun i => i2f (Z.of_nat i)) (seq 0 (Z.to_nat n))).

(** ResidualFSQ::getCodebooks, 546-553: all layers are built from the same levels. *)
Definition codebooks (levels : list Z) (Q : nat) : res (list R) :=
  do c <- implicit_codebook levels; ROk (concat (repeat c Q)).

(** static_cast<int>(int64_t). *)
Definition to_int (z : Z) : Z := ((z + 2 ^ 31) mod 2 ^ 32 - 2 ^ 31)%Z.

(** ResidualFSQ::getCodesFromIndices, 560-652, up to the multiplication by the
    scales.  [qd] is the last dimension of the indices, [batch] the first.  The
    padding that 575-581 report as an error when dropout is off happens anyway. *)
Definition reshape_indices (batch Q qd : nat) (indices : list Z) : res (list Z * nat) :=
  if length indices mod (batch * Q) =? 0 then
    do n <- ndiv (length indices) (batch * Q);
    if qd <? Q then
      do p <- for_up (batch * n * qd) 0 (fun i b => do x <- rd indices i; wr b i x) (repeat (-1)%Z (batch * n * Q));
      ROk (p, n)
    else ROk (indices, n)
  else RAbort.
Definition unmask (indices : list Z) : res (list Z) :=
  for_up (length indices) 0 (fun i b => do x <- rd b i; if (x =? -1)%Z then wr b i 0%Z else ROk b) indices.
Definition gather_codes (cb : list R) (size dim batch n Q : nat) (indices : list Z) : res (list R) :=
  for_up Q 0 (fun q b0 => for_up batch 0 (fun b b0 => for_up n 0 (fun k out =>
    do raw <- rd indices (b * n * Q + k * Q + q);
    let idx := Z.max 0 (Z.min (to_int raw) (Z.of_nat size - 1)) in
    do out <- for_up dim 0 (fun d out =>
      do x <- rd cb (q * size * dim + Z.to_nat idx * dim + d);
      wr out (q * batch * n * dim + b * n * dim + k * dim + d) x) out;
    if (raw =? 0)%Z then
      for_up dim 0 (fun d out => wr out (q * batch * n * dim + b * n * dim + k * dim + d) 0%R) out
    else ROk out) b0) b0) (repeat 0%R (Q * batch * n * dim)).

(** The multiplication by the scales, 649: broadcasting [Q,1,1,D] over [Q,B,N,D]
    (C47: the operator reads past the end of the scales when B and N are both
    larger than 1; otherwise one of the two is the broadcast loop). *)
Definition apply_scales (batch n Q dim : nat) (scales codes : list R) : res (list R) :=
  if (1 <? batch) && (1 <? n) then RUB else
  for_up Q 0 (fun q b => for_up (batch * n) 0 (fun k b => for_up dim 0 (fun d b =>
    do x <- rd codes ((q * (batch * n) + k) * dim + d); do s <- rd scales (q * dim + d);
    wr b ((q * (batch * n) + k) * dim + d) (to_f32 (x * s))) b) b) (repeat 0%R (Q * batch * n * dim)).

Definition codes_from_indices (levels : list Z) (scales : list R) (batch Q qd : nat) (indices : list Z) : res (list R) :=
  do cb <- codebooks levels Q;
  do rs <- reshape_indices batch Q qd indices;
  let '(ids, n) := rs in
  do ids <- unmask ids;
  do size <- codebook_size levels;
  do c <- gather_codes cb (Z.to_nat size) (length levels) batch n Q ids;
  apply_scales batch n Q (length levels) scales c.

(** ResidualFSQ::getOutputFromIndices, 659-667, up to the output projection: the
    sum over the quantisers (C54), added in order. *)
Definition output_from_indices (levels : list Z) (scales : list R) (batch Q qd : nat) (indices : list Z) : res (list R) :=
  do c <- codes_from_indices levels scales batch Q qd indices;
  do m <- ndiv (length c) Q;
  for_up m 0 (fun i b =>
    do s <- for_up Q 0 (fun q s => do x <- rd c (q * m + i); ROk (to_f32 (s + x))) 0%R;
    wr b i s) (repeat 0%R m).
