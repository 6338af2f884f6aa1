(** The fast exponential of the vector kernels.
    Sources: /repo/mllm/backends/cpu/kernels/x86/math.hpp:19-74 and kernels/arm/math.hpp:60-116.
    Simplifications: real numbers (no rounding); log2(e) exact; ln2 exact in the x86 version; the
    other constants are the decimals in the source. *)
From Coq Require Import Reals.
Local Open Scope R_scope.

(** c_exp_hi = - c_exp_lo *)
Definition exp_hi : R := 88.3762626647949.
(** c_cephes_exp_C2 *)
Definition cephes_C2 : R := - 2.12194440e-4.
(** Polynomial of degree 7: c_cephes_exp_p0 .. p5 (x86/math.hpp:47-55, arm/math.hpp:98-107). *)
Definition cephes_poly (x : R) : R :=
  let y := 1.9875691500e-4 in
  let y := y * x + 1.3981999507e-3 in
  let y := y * x + 8.3334519073e-3 in
  let y := y * x + 4.1665795894e-2 in
  let y := y * x + 1.6666665459e-1 in
  let y := y * x + 5.0000001201e-1 in
  y * (x * x) + x + 1.
(** vexpq_fast_f32, with the constant c_cephes_exp_C1 as a parameter.  [Int_part] is the floor, which
    the code obtains by truncation and correction. *)
Definition fast_exp (C1 : R) (x : R) : R :=
  let x := Rmin (Rmax x (- exp_hi)) exp_hi in
  let n := Int_part (x * / ln 2 + / 2) in
  let r := x - IZR n * C1 - IZR n * cephes_C2 in
  cephes_poly r * powerRZ 2 n.
(** x86/math.hpp:24: std::numbers::ln2_v<float>. *)
Definition fast_exp_x86 : R -> R := fast_exp (ln 2).
(** arm/math.hpp:64: 0.693359375. *)
Definition fast_exp_arm : R -> R := fast_exp 0.693359375.
