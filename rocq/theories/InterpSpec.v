(** Specification vocabulary for resampling. *)
From Coq Require Import Reals.
From Flocq Require Import Core.
From Verif Require Import Base DTypeModel ParamModel ParamSpec TensorModel TensorSpec OpsModel OpsSpec MatModel MatSpec AttnModel AttnSpec.
Local Open Scope Z_scope.

(** Where the centre of output element o lies between the inputs 0 .. inp - 1: with aligned corners the first and the last
    elements coincide, otherwise the edges of the two intervals of elements do. *)
Definition position (align : bool) (inp out o : Z) : R :=
  if align then (if out =? 1 then 0 else IZR o * IZR (inp - 1) / IZR (out - 1))%R
  else ((IZR o + 1 / 2) * IZR inp / IZR out - 1 / 2)%R.
(** i is an input element closest to p. *)
Definition closest (n : Z) (p : R) (i : Z) : Prop :=
  0 <= i < n /\ forall j, 0 <= j < n -> (Rabs (IZR i - p) <= Rabs (IZR j - p))%R.
(** The elements continued to both sides by the first and the last one. *)
Definition edge (n : Z) (f : Z -> R) (i : Z) : R := f (if i <? 0 then 0 else if n - 1 <? i then n - 1 else i).
(** The piecewise linear function through the elements. *)
Definition linear_at (n : Z) (f : Z -> R) (p : R) : R :=
  let k := Zfloor p in let u := (p - IZR k)%R in
  ((1 - u) * edge n f k + u * edge n f (k + 1))%R.
(** The cubic Hermite curve through the elements whose slope at an element is half the difference of its neighbours. *)
Definition slope (n : Z) (f : Z -> R) (k : Z) : R := ((edge n f (k + 1) - edge n f (k - 1)) / 2)%R.
Definition cubic_at (n : Z) (f : Z -> R) (p : R) : R :=
  let k := Zfloor p in let u := (p - IZR k)%R in
  ((2 * u ^ 3 - 3 * u ^ 2 + 1) * edge n f k + (u ^ 3 - 2 * u ^ 2 + u) * slope n f k
   + (-2 * u ^ 3 + 3 * u ^ 2) * edge n f (k + 1) + (u ^ 3 - u ^ 2) * slope n f (k + 1))%R.
(** The sizes of an axis for which the code's positions are right: a single output element needs aligned corners (or a
    single input). *)
Definition fair (align : bool) (inp out : Z) : Prop := 0 < inp /\ 0 <= out /\ (out = 1 -> align = true \/ inp = 1).
(** Weighted average of the neighbours -r .. r with the weights w, at element i. *)
Definition averaged (r : Z) (w : Z -> R) (n : Z) (f : Z -> R) (i : Z) : R :=
  (total_over (between (- r) (r + 1)) (fun k => w k * edge n f (i + k)) / total_over (between (- r) (r + 1)) w)%R.
Definition gauss (sigma : R) (k : Z) : R := exp (- (IZR k ^ 2) / (2 * sigma ^ 2)).
(** A plane smoothed along its rows, then along its columns. *)
Definition smoothed (H W : Z) (sigma : R) (f : Z -> Z -> R) (y x : Z) : R :=
  let r := Z.max 1 (Zceil (3 * sigma)) in
  averaged r (gauss sigma) H (fun y => averaged r (gauss sigma) W (f y) x) y.
(** What the caller asks for: sizes for the trailing axes, or factors for them; a scaled axis has the integer part of its
    size times the factor. *)
Definition asks (size : list Z) (factor : list R) (ins outs : list Z) : Prop :=
  outs <> [] /\ length outs = length ins /\
  (size = outs \/
   size = [] /\ length factor = length ins /\ Forall (fun f => 0 <= f)%R factor /\
   outs = map (fun p => Zfloor (IZR (fst p) * snd p)) (combine ins factor)).
(** Functions of the coordinates as functions of index lists. *)
Definition on3 (g : Z -> Z -> Z -> R) (idx : list Z) : R := match idx with [a; b; c] => g a b c | _ => 0%R end.
Definition on4 (g : Z -> Z -> Z -> Z -> R) (idx : list Z) : R := match idx with [a; b; c; d] => g a b c d | _ => 0%R end.
Definition on5 (g : Z -> Z -> Z -> Z -> Z -> R) (idx : list Z) : R := match idx with [a; b; c; d; e] => g a b c d e | _ => 0%R end.
(** By how much an axis shrinks. *)
Definition reduction (align : bool) (inp out : Z) : R := if align then (IZR (inp - 1) / IZR (out - 1))%R else (IZR inp / IZR out)%R.
(** No smoothing: not asked for, or nothing shrinks. *)
Definition unsmoothed (aa : bool) (H OH W OW : Z) : Prop := aa = false \/ (H <= OH /\ W <= OW).
