(** Specification vocabulary for convolutions and pooling. *)
From Verif Require Import Base DTypeModel ParamModel ParamSpec TensorModel TensorSpec OpsModel OpsSpec MatModel MatSpec ConvModel.
Local Open Scope Z_scope.

(** Window number o of a kernel of k taps, d apart, with stride s, over L elements with p
    zeros on both sides, ends inside. *)
Definition window_fits (L k s p d o : Z) : Prop := 0 <= o /\ o * s + d * (k - 1) < L + 2 * p.
(** Position of tap t of window o; it may lie in the padding. *)
Definition tap (s p d o t : Z) : Z := o * s - p + t * d.
Definition inside (L pos : Z) : bool := (0 <=? pos) && (pos <? L).
(** f with zeros outside 0 .. L-1. *)
Definition zero_padded {A} (zero : A) (L : Z) (f : Z -> A) (pos : Z) : A := if inside L pos then f pos else zero.
(** f 0 + ... + f (n-1) *)
Definition total {A} (zero : A) (add : A -> A -> A) (n : Z) (f : Z -> A) : A := sum zero add (map f (range n)).
(** Left-to-right accumulation, as written: ((zero + x1) + x2) + ... *)
Definition accumulate {A} (zero : A) (add : A -> A -> A) (l : list A) : A := fold_left add l zero.
(** The list of f i for i = 0 .. n-1, for f giving lists. *)
Definition each_of {A} (n : Z) (f : Z -> list A) : list A := flat_map f (range n).

(** The products that make up output (b, c, o) of a one-dimensional convolution, input channel
    by input channel of the group, tap by tap, those in the padding left out. *)
Definition conv1d_terms {A} (mul : A -> A -> A) (opt : conv1d_options) (L : Z) (X W : list Z -> A) (b c o : Z) : list A :=
  let per_group := c1_in opt / c1_groups opt in
  let group := c / (c1_out opt / c1_groups opt) in
  each_of per_group (fun i => each_of (c1_kernel opt) (fun k =>
    let pos := tap (c1_stride opt) (c1_padding opt) (c1_dilation opt) o k in
    if inside L pos then [mul (X [b; group * per_group + i; pos]) (W [c; i; k])] else [])).
(** The elements under window o of a pooling, those in the padding left out. *)
Definition pool_window {A} (opt : pool_options) (L : Z) (X : list Z -> A) (b c o : Z) : list A :=
  each_of (ap_kernel opt) (fun k =>
    let pos := tap (ap_stride opt) (ap_padding opt) 1 o k in
    if inside L pos then [X [b; c; pos]] else []).
(** Their sum divided by their number, or by the size of the window if padding counts. *)
Definition pool_average {A} (zero : A) (add : A -> A -> A) (divn : A -> Z -> A) (opt : pool_options) (window : list A) : A :=
  let n := if ap_include_pad opt then ap_kernel opt else zlen window in
  if 0 <? n then divn (accumulate zero add window) n else zero.
(** The products that make up output (b, c, z, y, x) of a three-dimensional convolution. *)
Definition conv3d_terms {A} (mul : A -> A -> A) (opt : conv3d_options) (X W : list Z -> A) (b c z y x : Z) : list A :=
  each_of (c3_in opt) (fun i => each_of (c3_kd opt) (fun kz => each_of (c3_kh opt) (fun ky => each_of (c3_kw opt) (fun kx =>
    [mul (X [b; i; tap (c3_sd opt) 0 1 z kz; tap (c3_sh opt) 0 1 y ky; tap (c3_sw opt) 0 1 x kx]) (W [c; i; kz; ky; kx])])))).
(** Two-dimensional convolution with zero padding, as in textbooks. *)
Definition conv2d_value {A} (zero : A) (add mul : A -> A -> A) (opt : conv2d_options) (H W : Z) (X Wt : list Z -> A) (b m oy ox : Z) : A :=
  total zero add (c2_in opt) (fun c => total zero add (c2_kh opt) (fun ky => total zero add (c2_kw opt) (fun kx =>
    mul (zero_padded zero H (fun y => zero_padded zero W (fun x => X [b; c; y; x]) (tap (c2_sw opt) (c2_pw opt) (c2_dw opt) ox kx))
           (tap (c2_sh opt) (c2_ph opt) (c2_dh opt) oy ky))
        (Wt [m; c; ky; kx])))).
