(** Specification vocabulary for quantization. *)
From Coq Require Import Reals.
From Verif Require Import Base DTypeModel ParamModel ParamSpec TensorModel TensorSpec OpsModel OpsSpec MatModel MatSpec AttnSpec QuantModel.
Local Open Scope R_scope.

(** a is the greatest absolute value in v. *)
Definition greatest (v : list R) (a : R) : Prop :=
  (forall x, In x v -> Rabs x <= a) /\ (v = [] /\ a = 0 \/ exists x, In x v /\ Rabs x = a).
(** The decoded numbers ys are numbers, and differ from xs by at most the bound for the number. *)
Definition decoded_within (bound : R -> R) (xs : list R) (ys : list (option R)) : Prop :=
  Forall2 (fun x y => exists r, y = Some r /\ Rabs (r - x) <= bound x) xs ys.
(** The signed bytes the product of two int8 blocks is exact for. *)
Definition in_bytes (lo hi : Z) (l : list Z) : Prop := Forall (fun z => (lo <= z <= hi)%Z) l.

(** A block as it is stored: 32 signed bytes (Q8_0) or 16 bytes (Q4_0), and a scale that is a binary16 number. *)
Definition stored (t : wtype) (b : qblock) : Prop :=
  (exists d, q_d b = Some d /\ f16 d = Some d) /\
  match t with
  | Q8_0 => length (q_qs b) = 32%nat /\ in_bytes (-128) 127 (q_qs b)
  | Q4_0 => length (q_qs b) = 16%nat /\ in_bytes 0 255 (q_qs b)
  end.
(** The numbers the dequantizer of the format returns for a block. *)
Definition dequant (t : wtype) : qblock -> list (option R) := match t with Q8_0 => dequant_q8_0 | Q4_0 => dequant_q4_0 end.
(** [n] blocks at position [o] hold the numbers X(0), ..., X(32 n - 1), as the dequantizer decodes them. *)
Definition row_holds (t : wtype) (b : buf qblock) (o n : Z) (X : Z -> R) : Prop :=
  forall l, (0 <= l < n)%Z -> (0 <= o + l < b_len b)%Z /\
  exists blk, b_at b (o + l)%Z = Some blk /\ stored t blk /\
    forall j, (0 <= j < 32)%Z -> nth_error (dequant t blk) (Z.to_nat j) = Some (Some (X (32 * l + j)%Z)).
(** No block of the row uses the byte -128 (unless its scale is 0). *)
Definition no_minus_128 (b : buf qblock) (o n : Z) : Prop :=
  forall l blk, (0 <= l < n)%Z -> b_at b (o + l)%Z = Some blk -> in_bytes (-127) 127 (q_qs blk) \/ q_d blk = Some 0.
(** a(0) b(0) + a(1) b(1) + ... *)
Definition inner_ints (a b : list Z) : Z := fold_right Z.add 0%Z (map (fun p => (fst p * snd p)%Z) (combine a b)).
