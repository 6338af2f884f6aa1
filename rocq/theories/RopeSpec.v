(** Specification vocabulary for rotary position embeddings. *)
From Coq Require Import Reals.
From Verif Require Import Base DTypeModel ParamModel ParamSpec TensorModel TensorSpec OpsModel OpsSpec MatModel MatSpec AttnModel AttnSpec NumModel NumSpec RopeModel.
Local Open Scope Z_scope.

(** A readable tensor with the elements F whose rows along the last axis are dense; the rows themselves may be
    anywhere. *)
Record dense_rows {A} (t : tns A) (shape : list Z) (F : list Z -> A) : Prop := {
  dr_shape : x_shape t = shape;
  dr_ok : tensor_ok t;
  dr_unit : last (x_stride t) 0 = 1;
  dr_elem : forall idx, in_shape shape idx -> elem t idx = Some (F idx);
}.
(** Distinct elements have distinct cells. *)
Definition no_aliasing {A} (t : tns A) : Prop :=
  forall i j, in_shape (x_shape t) i -> in_shape (x_shape t) j -> address (x_view t) i = address (x_view t) j -> i = j.
(** Rotating the pairs (x(d), x(d + half)) by the angles with the given sines and cosines; what lies beyond 2 half stays. *)
Definition rotated (half : Z) (s c x : Z -> R) (d : Z) : R :=
  if d <? half then (x d * c d - x (d + half)%Z * s d)%R
  else if d <? 2 * half then (x (d - half)%Z * s (d - half)%Z + x d * c (d - half)%Z)%R
  else x d.
(** The batch and token an element belongs to. *)
Definition token (lay : layout) (idx : list Z) : list Z :=
  match idx with
  | n :: i :: j :: _ => match lay with BHSD => [n; j] | BSHD => [n; i] end
  | _ => []
  end.
(** The shape of an activation with these sizes. *)
Definition activation_shape (lay : layout) (B H S D : Z) : list Z :=
  match lay with BHSD => [B; H; S; D] | BSHD => [B; S; H; D] end.
(** All elements of an activation, rotated by the tables. *)
Definition rope (lay : layout) (half : Z) (Sn Cs F : list Z -> R) (idx : list Z) : R :=
  rotated half (fun d => Sn (token lay idx ++ [d])) (fun d => Cs (token lay idx ++ [d])) (fun d => F (removelast idx ++ [d])) (last idx 0).
(** Row (b, h, s) of an activation. *)
Definition row (lay : layout) (F : list Z -> R) (b h s : Z) (d : Z) : R :=
  F (match lay with BHSD => [b; h; s; d] | BSHD => [b; s; h; d] end).
(** Number of rotated pairs: the option is -1 (the whole row) or the number of rotated channels. *)
Definition pairs (partial_dim D : Z) : Z := (if partial_dim =? -1 then D else partial_dim) / 2.
(** A row at position p, with the pair (d, d + half) turned by the angle p W(d). *)
Definition turned (half : Z) (W : Z -> R) (p : R) (x : Z -> R) : Z -> R :=
  rotated half (fun d => sin (p * W d)) (fun d => cos (p * W d)) x.
(** An activation whose tokens have the positions P(batch, token). *)
Definition positioned (lay : layout) (half : Z) (W : list Z -> R) (P : list Z -> Z) (F : list Z -> R) (idx : list Z) : R :=
  turned half (fun d => W [d]) (IZR (P (token lay idx))) (fun d => F (removelast idx ++ [d])) (last idx 0).
(** The angle in a table of 2 m columns (m frequencies, twice): position times frequency. *)
Definition turn (P : list Z -> Z) (W : list Z -> R) (m : Z) (idx : list Z) : R :=
  (IZR (P (removelast idx)) * W [(last idx 0 mod m)%Z])%R.
