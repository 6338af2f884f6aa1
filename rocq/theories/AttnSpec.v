(** Specification vocabulary for attention over the real numbers. *)
From Coq Require Import Reals.
From Verif Require Import Base DTypeModel ParamModel ParamSpec TensorModel TensorSpec OpsModel OpsSpec MatModel MatSpec.
Local Open Scope Z_scope.

(** Sum of f over the positions in [js]. *)
Definition total_over (js : list Z) (f : Z -> R) : R := fold_right Rplus 0%R (map f js).
(** q . k = q(0) k(0) + ... + q(D-1) k(D-1) *)
Definition inner (D : Z) (q k : Z -> R) : R := total_over (range D) (fun d => (q d * k d)%R).
(** exp(q . k / sqrt D): the unnormalised weight of a token with key k for the query q. *)
Definition weight (D : Z) (q k : Z -> R) : R := exp (inner D q k / sqrt (IZR D)).
(** Softmax attention of query q over the tokens in [js], with keys k(j) and values v(j) (one
    coordinate of the value); [extra] is the weight of an attention sink, which has no value, or 0. *)
Definition attend (D : Z) (q : Z -> R) (k : Z -> Z -> R) (v : Z -> R) (extra : R) (js : list Z) : R :=
  (total_over js (fun j => weight D q (k j) * v j) / (extra + total_over js (fun j => weight D q (k j))))%R.
(** from, from + 1, ..., upto - 1 *)
Definition between (from upto : Z) : list Z := map (fun i => from + i) (range (upto - from)).
(** Addresses of tokens: token s is a readable [B, H, W] block of numbers f(s, b, h, d). *)
Definition tokens_hold (ps : list (buf R * Z)) (B H W : Z) (f : Z -> Z -> Z -> Z -> R) : Prop :=
  forall s b h d p, 0 <= s -> nth_error ps (Z.to_nat s) = Some p -> 0 <= b < B -> 0 <= h < H -> 0 <= d < W ->
  let a := snd p + ((b * H + h) * W + d) in
  0 <= a < b_len (fst p) /\ b_at (fst p) a = Some (f s b h d).
