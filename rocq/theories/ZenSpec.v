(** Specification vocabulary for the K/V cache file system. *)
From Verif Require Import Base ZenModel.
Local Open Scope Z_scope.

(** What the documentation (TLB.hpp:6) says an address is: [blob | page | lane]. *)
Definition compose (p l blob page lane : Z) : Z := blob * 2 ^ (p + l) + page * 2 ^ l + lane.
Definition in_range (p l blob page lane : Z) : Prop :=
  0 <= blob < 2 ^ (32 - p - l) /\ 0 <= page < 2 ^ p /\ 0 <= lane < 2 ^ l.

(** [zreach p l m ops z held]: after [ops] the file system is in state [z] and the client holds [held]. *)
Definition zreach (p l : Z) (m : mmap_type) (ops : list zop) (z : zenfs) (held : list Z) : Prop :=
  exists z0, zen_init p l m = Some z0 /\ zrun (z0, []) ops = Some (z, held).

(** All blobs together fit the 32-bit address space (with room for one more). *)
Definition fits (z : zenfs) : Prop := (Z.of_nat (length (z_blobs z)) + 1) * 2 ^ (z_p z + z_l z) < 2 ^ 32.

(** Only lanes of the first page of a blob are ever released. *)
Definition frees_first_page_only (p l : Z) (ops : list zop) : Prop :=
  forall a, In (ZFree a) ops -> getPageAddr a p l = 0.

(** The operations on address [a] since it was last removed (all of them if it never was). *)
Definition since_removed (a : Z) (ops seg : list tlb_op) : Prop :=
  exists pre, ops = pre ++ seg /\ (pre = [] \/ exists pre', pre = pre' ++ [TRemove a]) /\
  ~ In (TRemove a) seg.
Fixpoint first_insert (a : Z) (seg : list tlb_op) : option Z :=
  match seg with
  | [] => None
  | TInsert b d :: r => if b =? a then Some d else first_insert a r
  | TRemove _ :: r => first_insert a r
  end.

(** Client histories on the prefix-cache allocator. *)
Definition pstep (basep : Z -> Z) (tok : Z) (s : pca * list Z) (o : zop) : option (pca * list Z) :=
  let '(c, held) := s in
  match o with
  | ZMalloc o1 o2 => match pca_alloc basep tok c o1 o2 with
                     | Some (c', a) => Some (c', held ++ [a])
                     | None => None
                     end
  | ZFree a => if existsb (Z.eqb a) held then Some (pca_free c a, remove_first (Z.eqb a) held) else None
  end.
Fixpoint prun (basep : Z -> Z) (tok : Z) (s : pca * list Z) (ops : list zop) : option (pca * list Z) :=
  match ops with
  | [] => Some s
  | o :: r => match pstep basep tok s o with Some s' => prun basep tok s' r | None => None end
  end.
Definition preach basep tok p l m ops c held : Prop :=
  exists z0, zen_init p l m = Some z0 /\ prun basep tok (mkPca z0 [], []) ops = Some (c, held).

(** [n] allocations trying blobs 0,1,2,.. in order. *)
Definition alloc_n (blobs n : nat) : list zop :=
  repeat (ZMalloc (map Z.of_nat (seq 0 blobs)) (map Z.of_nat (seq 0 blobs))) n.
