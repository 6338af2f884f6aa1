(** Specification vocabulary for normalisations and activation functions over the real numbers. *)
From Coq Require Import Reals.
From Verif Require Import Base DTypeModel ParamModel ParamSpec TensorModel TensorSpec OpsModel OpsSpec MatModel MatSpec AttnModel AttnSpec NumModel.
Local Open Scope Z_scope.

(** exp(f(i)) / (exp(f(0)) + ... + exp(f(n-1))) *)
Definition softmax (n : Z) (f : Z -> R) (i : Z) : R := (exp (f i) / total_over (range n) (fun j => exp (f j)))%R.
(** Average of f(0), ..., f(n-1). *)
Definition mean (n : Z) (f : Z -> R) : R := (total_over (range n) f / IZR n)%R.
Definition flat_variance (n : Z) (f : Z -> R) : R := mean n (fun j => ((f j - mean n f) * (f j - mean n f))%R).
Definition mean_square (n : Z) (f : Z -> R) : R := mean n (fun j => (f j * f j)%R).
(** f(i) / sqrt(mean of squares + eps) *)
Definition rms_norm (n : Z) (eps : R) (f : Z -> R) (i : Z) : R := (f i / sqrt (mean_square n f + eps))%R.
(** Apply a function of rows to the rows along the last axis: [op row i]. *)
Definition along_last (op : (Z -> R) -> Z -> R) (F : list Z -> R) (idx : list Z) : R :=
  op (fun j => F (removelast idx ++ [j])) (last idx 0).
(** Average over multi-indices. *)
Definition mean_over (qs : list (list Z)) (g : list Z -> R) : R := (fold_right Rplus 0 (map g qs) / INR (length qs))%R.
Definition variance_over (qs : list (list Z)) (g : list Z -> R) : R :=
  mean_over qs (fun q => ((g q - mean_over qs g) * (g q - mean_over qs g))%R).
(** (g(q) - mean) / sqrt(variance + eps), over a block of the given shape. *)
Definition layer_norm (shape : list Z) (eps : R) (g : list Z -> R) (q : list Z) : R :=
  ((g q - mean_over (indices shape) g) / sqrt (variance_over (indices shape) g + eps))%R.
(** 1 / (1 + exp(-x)) *)
Definition logistic (x : R) : R := (1 / (1 + exp (- x)))%R.
(** y approximates x up to a relative error eps and an absolute error 1e-38 * z. *)
Definition near (eps z y x : R) : Prop := (Rabs (y - x) <= eps * Rabs x + 1e-38 * z)%R.
(** What the activation functions mean. *)
Definition meant (k : activation) (x : R) : R :=
  match k with
  | SiLU => (x * logistic x)%R
  | Sigmoid => logistic x
  | ReLU => Rmax x 0
  | QuickGELU => (x * logistic (1.702 * x))%R
  end.
(** A reciprocal estimate of 8 bits (vrecpeq_f32). *)
Definition estimates (est : R -> R) : Prop := forall x : R, (0 < x -> Rabs (1 - x * est x) <= / 256)%R.
(** The result of an operator: a tensor of [shape] that owns its elements, with the elements F. *)
Definition returns {A} (r : res (tns A)) (shape : list Z) (F : list Z -> A) : Prop :=
  exists out, r = ROk out /\ x_shape out = shape /\ tensor_ok out /\ owns_storage out /\
    forall idx, in_shape shape idx -> elem out idx = Some (F idx).
(** The result of an operator that writes into its input [t]: the same view, the elements F, and all other
    cells of the storage as they were. *)
Definition rewrites {A} (r : res (tns A)) (t : tns A) (F : list Z -> A) : Prop :=
  exists out, r = ROk out /\ x_view out = x_view t /\ b_len (x_buf out) = b_len (x_buf t) /\
    (forall idx, in_shape (x_shape t) idx -> elem out idx = Some (F idx)) /\
    (forall d, (forall idx, in_shape (x_shape t) idx -> address (x_view t) idx <> d) -> b_at (x_buf out) d = b_at (x_buf t) d).
(** The relative error of the fast exponential. *)
Definition delta (a : arch) : R := match a with Arm => 2e-7%R | X86 _ => 0.029%R end.
(** Registers have at least one lane. *)
Definition has_lanes (a : arch) : Prop := match a with Arm => True | X86 L => 0 < L end.
(** Rows that can be read with the aligned loads of x86. *)
Definition aligned_rows (a : arch) (offset rows n : Z) : Prop :=
  match a with Arm => True | X86 L => 0 < L /\ (L <= n -> offset mod L = 0 /\ (rows <= 1 \/ n mod L = 0)) end.
(** An optional parameter tensor, and its effect. *)
Definition opt_holds (p : option (tns R)) (ns : list Z) (G : option (list Z -> R)) : Prop :=
  match p, G with None, None => True | Some g, Some G => holds g ns G | _, _ => False end.
Definition gained (g : option (list Z -> R)) (q : list Z) (v : R) : R := match g with None => v | Some g => (v * g q)%R end.
Definition offset_by (g : option (list Z -> R)) (q : list Z) (v : R) : R := match g with None => v | Some g => (v + g q)%R end.
(** The CPU computes this function: all of them on ARM, SiLU and sigmoid on x86. *)
Definition computes (a : arch) (k : activation) : Prop :=
  match a, k with X86 L, (SiLU | Sigmoid) => 0 < L | X86 _, _ => False | Arm, _ => True end.
(** Operators that honour the in-place option. *)
Definition reuses (k : activation) (inplace : bool) : bool := inplace && (match k with SiLU | Sigmoid => true | _ => false end).
(** A tensor of [shape] without a single number in it. *)
Definition returns_nothing (r : res (tns R)) (shape : list Z) : Prop :=
  exists out, r = ROk out /\ x_shape out = shape /\ forall idx, in_shape shape idx -> elem out idx = None.
