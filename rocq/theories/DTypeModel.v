(** Element types of mllm tensors: the enumeration, the number of elements per
    storage block ("lanes") and the size of a block in bytes.
    Models /repo/mllm/core/DataTypes.{hpp,cpp}. *)
From Verif Require Import Base.
Local Open Scope Z_scope.

(** lanesOfType, /repo/mllm/core/DataTypes.cpp:9-60, with the lane counts of
    MLLM_DEFINE_BASIC_TYPE_INFO / MLLM_DEFINE_QUANT_TYPE_INFO,
    /repo/mllm/core/DataTypes.hpp:471-663 (QK4_0 = QK8_0 = 32, QK_K = 256).
    Only the types with more than one element per block are listed: all other
    CASEs return 1, and so does the [default:] branch, because [NYI]
    (/repo/mllm/utils/Common.hpp:53-55) only prints a message.
    Types are identified by their enumerator value (DataTypes.hpp:346-426). *)
Definition lanesOfType (t : Z) : Z :=
  match t with
  | 2 => 32 | 8 => 32 | 10 => 32            (* Q4_0, Q8_0, Q8_Pertensor *)
  | 12 => 256 | 14 => 256 | 15 => 256       (* Q4_K, Q6_K, Q8_K *)
  | 19 => 128 | 20 => 256 | 22 => 128       (* Q4_0_4_4 (q4_0x4), Q4_0_4_8 (q4_0x8), Q8_0_4_4 (q8_0x4) *)
  | 23 => 256 | 24 => 256 | 26 => 256       (* Q3_K, Q2_K, IQ2_XXS *)
  | 135 => 32                               (* MXFP4 *)
  | _ => 1
  end.

(** bytesOfType, /repo/mllm/core/DataTypes.cpp:62-115, with the block layouts of
    /repo/mllm/core/DataTypes.hpp:100-338 (packed structs; mllm_fp16_t is 2
    bytes).  The [default:] branch prints and returns 1. *)
Definition bytesOfType (t : Z) : Z :=
  match t with
  | 0 => 4 | 1 => 2
  | 2 => 18 | 8 => 34 | 10 => 32
  | 12 => 144 | 14 => 210 | 15 => 292
  | 16 => 1 | 17 => 2 | 18 => 4
  | 19 => 72 | 20 => 144 | 22 => 136
  | 23 => 110 | 24 => 84 | 26 => 66
  | 129 => 1 | 156 => 1 | 130 => 2 | 131 => 4 | 132 => 8 | 133 => 8
  | 135 => 17 | 201 => 8 | 202 => 16
  | 144 => 2 | 146 => 2 | 154 => 2          (* Int16PerTensorSym, UInt16PerTensorSym, UInt16PerTensorAsy *)
  | 140 => 1 | 142 => 1                     (* Int8PerTensorSym, UInt8PerTensorSym *)
  | 136 => 1 | 137 => 1 | 134 => 1          (* Int4, UInt4, Byte *)
  | _ => 1                                  (* default: NYI, return 1 *)
  end.

(** The C++ type declared for each enumerator: its size and number of elements,
    MLLM_DEFINE_SELF_TYPE_INFO, /repo/mllm/core/DataTypes.hpp:683-732 (this is
    the type kernels use to address the elements, e.g. Tensor::ptr<T>).
    [None]: no type is declared for the enumerator. *)
Definition declaredBlock (t : Z) : option (Z * Z) :=   (* (elements, bytes) *)
  match t with
  | 0 => Some (1,4) | 1 => Some (1,2) | 16 => Some (1,1) | 129 => Some (1,1) | 156 => Some (1,1)
  | 17 => Some (1,2) | 130 => Some (1,2) | 18 => Some (1,4) | 131 => Some (1,4)
  | 132 => Some (1,8) | 133 => Some (1,8)
  | 140 => Some (1,1) | 141 => Some (1,1) | 142 => Some (1,1) | 143 => Some (1,1)
  | 144 => Some (1,2) | 145 => Some (1,2) | 146 => Some (1,2) | 147 => Some (1,2)
  | 148 => Some (1,1) | 149 => Some (1,1) | 150 => Some (1,1) | 151 => Some (1,1)
  | 152 => Some (1,2) | 153 => Some (1,2) | 154 => Some (1,2) | 155 => Some (1,2)
  | 136 => Some (1,1) | 137 => Some (1,1)
  | 2 => Some (32,18) | 12 => Some (256,144) | 14 => Some (256,210) | 8 => Some (32,34)
  | 10 => Some (32,32) | 15 => Some (256,292) | 19 => Some (128,72) | 20 => Some (256,144)
  | 22 => Some (128,136) | 24 => Some (256,84) | 23 => Some (256,110) | 26 => Some (256,66)
  | 135 => Some (32,17) | 202 => Some (1,16) | 201 => Some (1,8)
  | _ => None
  end.

(** Outcomes.  [RAbort]: the program stops with an error message
    (MLLM_ERROR_EXIT / MLLM_RT_ASSERT / an uncaught std exception).
    [RUB]: undefined behaviour (out-of-bounds access).
    [RDiverge]: the modelled loop did not finish within its fuel. *)
Inductive res (A : Type) :=
| ROk (a : A)
| RAbort
| RUB
| RDiverge.
Arguments ROk {A} a.
Arguments RAbort {A}.
Arguments RUB {A}.
Arguments RDiverge {A}.

Definition rbind {A B} (x : res A) (f : A -> res B) : res B :=
  match x with ROk a => f a | RAbort => RAbort | RUB => RUB | RDiverge => RDiverge end.
Notation "'do' x <- e ; k" := (rbind e (fun x => k)) (at level 200, x name, e at level 100, k at level 200).

(** Conversions of C++ integer types. *)
Definition to_u64 (x : Z) : Z := x mod 2 ^ 64.
Definition to_i32 (x : Z) : Z := let y := x mod 2 ^ 32 in if y <? 2 ^ 31 then y else y - 2 ^ 32.

(** TensorStorage::create, /repo/mllm/core/TensorStorage.cpp:37-57: size in bytes
    of a storage for [shape]; [size_t] arithmetic (mod 2^64), an extent is
    converted to size_t when multiplied.  The assert is line 48. *)
Definition storage_size (shape : list Z) (dt : Z) : res Z :=
  let cnt := fold_left (fun c i => to_u64 (c * i)) shape 1 in
  if cnt mod lanesOfType dt =? 0
  then ROk (to_u64 (cnt / lanesOfType dt * bytesOfType dt))
  else RAbort.

(** TensorViewImpl::create(shape, storage), /repo/mllm/core/TensorViewImpl.cpp:84-101:
    right-to-left loop, stride[n-1] = 1, [_acc] is the product of the extents
    already passed.  Returns the strides and [_acc].
    Simplified: [int] arithmetic without overflow. *)
Fixpoint strides_acc (shape : list Z) : list Z * Z :=
  match shape with
  | [] => ([], 1)
  | d :: ds => let '(st, acc) := strides_acc ds in (acc :: st, acc * d)
  end.
Definition default_strides (shape : list Z) : list Z := fst (strides_acc shape).
