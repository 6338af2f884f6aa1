(** Specification vocabulary for the vision pipeline: the order of the patches of an image, and the layout of its tokens. *)
From Verif Require Import Base.
Local Open Scope nat_scope.

(** The cells (row, column) of an h x w grid of patches in the order the model wants them: m x m blocks in row-major
    order, each block in row-major order. *)
Definition cells (m h w : nat) : list (nat * nat) :=
  flat_map (fun by_ => flat_map (fun bx => flat_map (fun jh => map (fun jw => (by_ * m + jh, bx * m + jw))
    (seq 0 m)) (seq 0 m)) (seq 0 (w / m))) (seq 0 (h / m)).
(** The same for t frames. *)
Definition patch_cells (m : nat) (thw : nat * nat * nat) : list (nat * nat) :=
  let '(t, h, w) := thw in concat (repeat (cells m h w) t).
(** A grid the merger can handle: at least one patch, whole blocks. *)
Definition whole_blocks (m : nat) (thw : nat * nat * nat) : Prop :=
  let '(t, h, w) := thw in 0 < m /\ 0 < t /\ 0 < h /\ 0 < w /\ (exists a, h = a * m) /\ (exists b, w = b * m).

(** The position (temporal, row, column) of merged row number r of an image: frames of h x w merged cells. *)
Definition merged_cell (h w r : nat) : nat * nat * nat := (r / (h * w), r mod (h * w) / w, r mod w).
Definition axis (a : nat) (p : nat * nat * nat) : nat :=
  let '(t, y, x) := p in match a with 0 => t | 1 => y | _ => x end.

(** Entry (a, s) of a [3, 1, n] tensor. *)
Definition pos_entry (n : nat) (ids : list Z) (a s : nat) : option Z := nth_error ids (a * n + s).

(** Sorting indices by key: [r] is a permutation of 0 .. n-1 along which the keys do not descend (what std::sort with
    the comparison keys[i] < keys[j] guarantees). *)
Definition sorts_by (keys r : list nat) : Prop :=
  Permutation r (seq 0 (length keys)) /\
  forall i j, i < j -> j < length r -> nth (nth i r 0) keys 0 <= nth (nth j r 0) keys 0.

(** The window (frame, row, column) a merged cell belongs to, for windows of V x V merged cells; the merged cell number c
    of an image is (c / (H * W), c / W mod H, c mod W). *)
Definition window_of (V H W c : nat) : nat * nat * nat := (c / (H * W), (c / W mod H) / V, (c mod W) / V).

(** The axis (0 temporal, 1 row, 2 column) which turns column c of a half row, for sections of s0, s1 and the other columns. *)
Definition section_axis (s0 s1 c : nat) : nat := if c <? s0 then 0 else if c <? s0 + s1 then 1 else 2.
