(** Specification vocabulary for Fourier transforms. *)
From Coq Require Import Reals.
From Verif Require Import Base DTypeModel ParamModel ParamSpec TensorModel TensorSpec OpsModel MatModel MatSpec AttnSpec FftModel.
Local Open Scope Z_scope.

(** f(0) + ... + f(n - 1). *)
Definition csum (n : Z) (f : Z -> cx) : cx := fold_right cadd c0 (map f (range n)).
(** The m-th power of the principal n-th root of unity. *)
Definition root (n m : Z) : cx := cis (2 * PI * IZR m / IZR n).
(** The discrete Fourier transform of size n, and its inverse. *)
Definition dft (n : Z) (x : Z -> cx) (k : Z) : cx := csum n (fun j => cmul (x j) (root n (- (j * k)))).
Definition idft (n : Z) (x : Z -> cx) (k : Z) : cx := cdivr (csum n (fun j => cmul (x j) (root n (j * k)))) (IZR n).
(** A vector in memory with the elements x(0) .. x(n - 1). *)
Definition vector {A} (b : buf A) (n : Z) (x : Z -> A) : Prop := b_len b = n /\ forall i, 0 <= i < n -> b_at b i = Some (x i).

(** A short-time transform.  Hop and window length 0 mean n/4 and n. *)
Definition hop_of (o : stft_options) : Z := if o_hop o =? 0 then o_n o / 4 else o_hop o.
Definition win_of (o : stft_options) : Z := if o_win o =? 0 then o_n o else Z.min (o_win o) (o_n o).
(** With [center], the signal x of length len is extended by n/2 samples on both sides: zeros, or its mirror image about the
    first and the last sample. *)
Definition margin (o : stft_options) : Z := if o_center o then o_n o / 2 else 0.
Definition extended (o : stft_options) (len : Z) (x : Z -> R) (p : Z) : R :=
  let i := p - margin o in
  if (0 <=? i) && (i <? len) then x i
  else match o_pad o with PConstant => 0%R | _ => if i <? 0 then x (- i) else x (2 * (len - 1) - i) end.
Definition mirrors (o : stft_options) : bool := o_center o && match o_pad o with PConstant => false | _ => true end.
(** The number of frames that fit, and bin k of frame f: the DFT of size n of the windowed samples. *)
Definition frame_count (o : stft_options) (len : Z) : Z := 1 + (len + 2 * margin o - win_of o) / hop_of o.
Definition stft (o : stft_options) (len : Z) (x w : Z -> R) (k f : Z) : cx :=
  csum (win_of o) (fun i => cmul (real (extended o len x (f * hop_of o + i) * w i)) (root (o_n o) (- (i * k)))).
(** Overlap-add: sample p collects g(f, p - f hop) from every frame that contains it. *)
Definition overlap (hop win frames : Z) (g : Z -> Z -> R) (p : Z) : R :=
  total_over (range frames) (fun f => if (0 <=? p - f * hop) && (p - f * hop <? win) then g f (p - f * hop) else 0%R).
(** The spectrum of a real signal from its first n/2 + 1 bins. *)
Definition whole_spectrum (n : Z) (X : Z -> cx) (k : Z) : cx := if k <=? n / 2 then X k else conj (X (n - k)).
(** The energy of the windows over sample p, and the inverse of the short-time transform. *)
Definition energy (o : stft_options) (frames : Z) (w : Z -> R) : Z -> R := overlap (hop_of o) (win_of o) frames (fun _ i => (w i * w i)%R).
Definition istft (o : stft_options) (frames : Z) (X : Z -> Z -> cx) (w : Z -> R) (p : Z) : R :=
  let v := overlap (hop_of o) (win_of o) frames (fun f i => (fst (idft (o_n o) (whole_spectrum (o_n o) (fun k => X k f)) i) * w i)%R) p in
  if Rlt_dec tiny (energy o frames w p) then (v / energy o frames w p)%R else v.

(** Elements by their coordinates. *)
Definition at2 {A} (d : A) (F : Z -> Z -> A) (idx : list Z) : A := match idx with [b; p] => F b p | _ => d end.
Definition at3 {A} (d : A) (F : Z -> Z -> Z -> A) (idx : list Z) : A := match idx with [b; k; f] => F b k f | _ => d end.
(** A one-dimensional tensor, and a single signal. *)
Definition is_window (t : tns R) (n : Z) (w : Z -> R) : Prop := holds t [n] (fun idx => w (nth 0 idx 0)).
Definition is_signal (t : tns R) (len : Z) (x : Z -> R) : Prop :=
  holds t [len] (fun idx => x (nth 0 idx 0)) \/ holds t [1; len] (fun idx => x (nth 1 idx 0)).
