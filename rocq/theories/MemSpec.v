(** Specification vocabulary for the memory manager: what a program sees of the tensors it holds. *)
From Verif Require Import Base BuddyModel BuddySpec MemModel.
Local Open Scope Z_scope.

(** A configuration the library can run with: a vector alignment of 16, 32 or 64 bytes and pool orders between them. *)
Definition sane (c : config) : Prop :=
  (c_align c = 16 \/ c_align c = 32 \/ c_align c = 64) /\ (6 <= c_min c <= 29)%nat /\ (c_min c <= c_max c)%nat /\ 0 <= c_threshold c.
(** The states a program reaches, whatever it does, with a malloc that never hands out memory in use. *)
Definition reached (c : config) (p1 : Z) (mem : memory) (ops : list mop) (m : manager) : Prop :=
  exists m0, mm_init c p1 mem = Ok m0 /\ mm_run c m0 ops = Ok m.

Definition allocated (m : manager) : list storage := filter (fun s => negb (s_ptr s =? 0)) (m_storages m).
(** The bytes of a storage. *)
Definition bytes_of (s : storage) : range := mkRange (s_ptr s) (s_size s).
(** Two ranges share no byte. *)
Definition no_common_byte (a b : range) : Prop := forall x, in_range x a = true -> in_range x b = false.
Definition large (c : config) (s : storage) : Prop := c_threshold c <= alloc_size (c_align c) (s_size s).
(** alloc is called at most once per storage: only on storages that have no memory yet. *)
Fixpoint alloc_once (c : config) (m : manager) (ops : list mop) : Prop :=
  match ops with
  | [] => True
  | o :: r =>
      match o with
      | Alloc uid _ => match find_storage m uid with Some s => s_ptr s = 0 | None => True end
      | _ => True
      end /\
      match mm_step c m o with Ok m' => alloc_once c m' r | _ => True end
  end.
