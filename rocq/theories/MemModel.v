(** The memory manager between tensors and the operating system.
    Sources, all under /repo/mllm: engine/MemoryManager.cpp, backends/cpu/CPUAllocator.cpp, core/TensorStorage.cpp,
    core/Storage.hpp, engine/BuddyMemPool.cpp (its model is BuddyModel.v).

    Simplifications: the CPU device only; addresses and sizes are integers without bound; one call at a time (the symbol table
    and expandBuddySegment are not protected by the mutex); malloc is the environment: an operation that may call it carries
    the list of the addresses it answers, 0 for out of memory.  Memory is a map from addresses to cells, a cell being
    a byte of data or one of the eight bytes of a stored pointer.  The pool's own bookkeeping (lists, tables, blocks) lives in
    objects of the C++ heap that are not modelled.  Storage of the memory types that the destructor does not
    release (TensorStorage.cpp:20-29) is left out, as is the warning printed for large storages. *)
From Verif Require Import Base BuddyModel BuddySpec.
Local Open Scope Z_scope.

Inductive cell := Data (b : Z) | Ptr (p i : Z).
Definition memory := Z -> cell.
Definition set_cell (m : memory) (a : Z) (c : cell) : memory := fun x => if x =? a then c else m x.
Definition idx8 : list Z := [0; 1; 2; 3; 4; 5; 6; 7].
(** A pointer is stored in and loaded from eight consecutive bytes. *)
Definition store_ptr (m : memory) (a p : Z) : memory := fold_left (fun m i => set_cell m (a + i) (Ptr p i)) idx8 m.
Definition load_ptr (m : memory) (a : Z) : option Z :=
  match m a with
  | Ptr p _ => if forallb (fun i => match m (a + i) with Ptr q j => (q =? p) && (j =? i) | Data _ => false end) idx8 then Some p else None
  | Data _ => None
  end.

(** What malloc has handed out and free has not taken back. *)
Definition heap := list range.
Definition apart (a b : range) : bool := (r_lo a + r_len a <=? r_lo b) || (r_lo b + r_len b <=? r_lo a).

(** align_alloc, CPUAllocator.cpp:10-29; [p1]: the answer of malloc.  [Ok None]: *ptr = nullptr.  [BackendOverlap]: malloc
    answered with memory in use. *)
Definition align_alloc (p1 required align : Z) (h : heap) (m : memory) : outcome (option (Z * heap * memory)) :=
  if (align =? 0) || negb (Z.land align (align - 1) =? 0) then Ok None
  else
    let offset := align - 1 + 8 in
    if p1 =? 0 then Ok None
    else
      let block := mkRange p1 (required + offset) in
      if negb ((0 <? p1) && forallb (apart block) h) then BackendOverlap
      else
        let p2 := Z.land (p1 + offset) (Z.lnot (align - 1)) in
        Ok (Some (p2, block :: h, store_ptr m (p2 - 8) p1)).
(** align_free, CPUAllocator.cpp:31-36: free of what is found below the pointer.  Anything but an address that malloc
    returned (or null) is undefined behaviour, as is reading below the null pointer. *)
Definition align_free (p : Z) (h : heap) (m : memory) : outcome heap :=
  if p =? 0 then UB
  else
    match load_ptr m (p - 8) with
    | None => UB
    | Some p1 =>
        if p1 =? 0 then Ok h
        else if existsb (fun r => r_lo r =? p1) h then Ok (remove_first (fun r => r_lo r =? p1) h) else UB
    end.
(** CPUAllocator::allocSize, CPUAllocator.cpp:68-74. *)
Definition alloc_size (align size : Z) : Z := Z.land (size + align - 1) (Z.lnot (align - 1)).

(** A tensor's storage, Storage.hpp:27-31; ptr 0: not allocated. *)
Record storage := mkStorage { s_uid : Z; s_size : Z; s_ptr : Z }.
(** MemoryManagerOptions, MemoryManager.hpp:16-21; [c_align]: CPUAllocator::alignSize, CPUAllocator.cpp:84-101. *)
Record config := mkConfig { c_align : Z; c_threshold : Z; c_min : nat; c_max : nat; c_cache : bool; c_set : list Z }.
Definition default_config (align : Z) : config := mkConfig align (128 * 1024 * 1024) 14 27 false [].
Record manager := mkManager { m_pool : pool; m_heap : heap; m_mem : memory; m_next : Z; m_storages : list storage }.

(** allocBuddy with expandBuddySegment, BuddyMemPool.cpp:110-182, 227-263, as in BuddyModel.alloc_buddy, but with
    generalAlloc being that of the CPU, CPUAllocator.cpp:57-60: the check on the result of line 240 never fails. *)
Fixpoint grow_alloc (answers : list Z) (mn : nat) (ss : list seg) (h : heap) (m : memory) (size : Z)
  : outcome (list seg * Z * blk * heap * memory) :=
  match try_segs ss size with
  | AGot ss' sg b => Ok (ss', sg, b, h, m)
  | ATooLarge => ErrTooLarge
  | ANone =>
      match answers with
      | [] => Waiting
      | p1 :: more =>
          let cap := new_cap ss in
          match align_alloc p1 cap 4096 h m with
          | Ok (Some (base, h, m)) => grow_alloc more mn (insert_seg (fresh_seg base cap mn (log2_ceil cap)) ss) h m size
          | Ok None => NullSegment
          | _ => BackendOverlap
          end
      end
  end.
(** BuddyMemPool::alloc, BuddyMemPool.cpp:53-66: the pool, the heap, memory and s->ptr_. *)
Definition buddy_alloc (p : pool) (h : heap) (m : memory) (uid size : Z) (answers : list Z) : outcome (pool * heap * memory * Z) :=
  if existsb (fun l => luid l =? uid) (lives p) then ErrSymbol else
  let hit := if use_cache p size then find (fun c => bsize (snd c) =? size) (cached p) else None in
  match hit with
  | Some (sg, b) =>
      Ok (mkPool (pmin p) (pcacheon p) (pcset p) (segs p) (lives p ++ [mkLive uid size sg b])
                 (remove_first (fun c => bsize (snd c) =? size) (cached p)), h, m, bptr b)
  | None =>
      match grow_alloc answers (pmin p) (segs p) h m size with
      | Ok (ss, sg, b, h, m) =>
          Ok (mkPool (pmin p) (pcacheon p) (pcset p) ss (lives p ++ [mkLive uid size sg b]) (cached p), h, m, bptr b)
      | ErrTooLarge => ErrTooLarge
      | ErrSymbol => ErrSymbol
      | NullSegment => NullSegment
      | BackendOverlap => BackendOverlap
      | Waiting => Waiting
      | UB => UB
      end
  end.

(** MemoryManager::registerAllocator with the pool's constructor, MemoryManager.cpp:16-27, BuddyMemPool.cpp:22-51. *)
Definition mm_init (c : config) (p1 : Z) (m : memory) : outcome manager :=
  match align_alloc p1 (2 ^ Z.of_nat (c_max c)) 4096 [] m with
  | Ok (Some (base, h, m)) =>
      match pool_init base (2 ^ Z.of_nat (c_max c)) (c_min c) (c_max c) (c_cache c) (c_set c) with
      | Some p => Ok (mkManager p h m 0 [])
      | None => ErrTooLarge
      end
  | Ok None => NullSegment
  | _ => BackendOverlap
  end.

Definition set_storage (m : manager) (p : pool) (h : heap) (mem : memory) (uid ptr : Z) : manager :=
  mkManager p h mem (m_next m)
    (map (fun s => if s_uid s =? uid then mkStorage (s_uid s) (s_size s) ptr else s) (m_storages m)).
Definition find_storage (m : manager) (uid : Z) : option storage := find (fun s => s_uid s =? uid) (m_storages m).

(** MemoryManager::alloc, MemoryManager.cpp:29-58; the result of CPUAllocator::alloc (CPUAllocator.cpp:38-44) is not looked at.
    Only the first answer of malloc matters for a large storage. *)
Definition mm_alloc (c : config) (m : manager) (s : storage) (answers : list Z) : outcome manager :=
  let size := alloc_size (c_align c) (s_size s) in
  if size >=? c_threshold c then
    match answers with
    | [] => Waiting
    | p1 :: _ =>
        match align_alloc p1 (s_size s) (c_align c) (m_heap m) (m_mem m) with
        | Ok (Some (p2, h, mem)) => Ok (set_storage m (m_pool m) h mem (s_uid s) p2)
        | Ok None => Ok m
        | _ => BackendOverlap
        end
    end
  else
    match buddy_alloc (m_pool m) (m_heap m) (m_mem m) (s_uid s) size answers with
    | Ok (p, h, mem, ptr) => Ok (set_storage m p h mem (s_uid s) ptr)
    | ErrTooLarge => ErrTooLarge
    | ErrSymbol => ErrSymbol
    | NullSegment => NullSegment
    | BackendOverlap => BackendOverlap
    | Waiting => Waiting
    | UB => UB
    end.
(** ~TensorStorage (TensorStorage.cpp:11-37) and MemoryManager::free, MemoryManager.cpp:62-83; the pool does nothing for a
    null pointer (BuddyMemPool.cpp:73). *)
Definition mm_destroy (c : config) (m : manager) (s : storage) : outcome manager :=
  let rest := filter (fun t => negb (s_uid t =? s_uid s)) (m_storages m) in
  if alloc_size (c_align c) (s_size s) >=? c_threshold c then
    match align_free (s_ptr s) (m_heap m) (m_mem m) with
    | Ok h => Ok (mkManager (m_pool m) h (m_mem m) (m_next m) rest)
    | _ => UB
    end
  else if s_ptr s =? 0 then Ok (mkManager (m_pool m) (m_heap m) (m_mem m) (m_next m) rest)
  else
    match pool_free (m_pool m) (s_uid s) with
    | Ok p => Ok (mkManager p (m_heap m) (m_mem m) (m_next m) rest)
    | ErrSymbol => ErrSymbol
    | _ => UB
    end.

(** What a program does.  [Create]: Tensor::empty, with a new uuid (TensorStorage.cpp:39-63, Context.cpp:99-103); [Alloc]:
    Tensor::alloc; [Destroy]: the last handle of the storage goes; [Write]: a byte of its own storage; [Other]: other code
    writes memory that malloc has not handed out to mllm.  An operation on a storage that does not exist, or a write elsewhere,
    is none of these and does nothing here. *)
Inductive mop :=
  | Create (size : Z)
  | Alloc (uid : Z) (answers : list Z)
  | Destroy (uid : Z)
  | Write (uid off b : Z)
  | Other (a : Z) (x : cell).
Definition in_range (a : Z) (r : range) : bool := (r_lo r <=? a) && (a <? r_lo r + r_len r).
Definition mm_step (c : config) (m : manager) (o : mop) : outcome manager :=
  match o with
  | Create size =>
      if size <? 0 then Ok m
      else Ok (mkManager (m_pool m) (m_heap m) (m_mem m) (m_next m + 1) (m_storages m ++ [mkStorage (m_next m) size 0]))
  | Alloc uid answers => match find_storage m uid with Some s => mm_alloc c m s answers | None => Ok m end
  | Destroy uid => match find_storage m uid with Some s => mm_destroy c m s | None => Ok m end
  | Write uid off b =>
      match find_storage m uid with
      | Some s =>
          if negb (s_ptr s =? 0) && (0 <=? off) && (off <? s_size s)
          then Ok (mkManager (m_pool m) (m_heap m) (set_cell (m_mem m) (s_ptr s + off) (Data b)) (m_next m) (m_storages m))
          else Ok m
      | None => Ok m
      end
  | Other a x =>
      if existsb (in_range a) (m_heap m) then Ok m
      else Ok (mkManager (m_pool m) (m_heap m) (set_cell (m_mem m) a x) (m_next m) (m_storages m))
  end.
Fixpoint mm_run (c : config) (m : manager) (ops : list mop) : outcome manager :=
  match ops with
  | [] => Ok m
  | o :: r => match mm_step c m o with Ok m' => mm_run c m' r | e => e end
  end.
(** MemoryManager::clearAll (MemoryManager.cpp:87-91): the pool's destructor returns every segment, BuddyMemPool.cpp:18-20,
    CPUAllocator.cpp:62-65. *)
Fixpoint free_segments (ss : list seg) (h : heap) (m : memory) : outcome heap :=
  match ss with
  | [] => Ok h
  | s :: r =>
      if sptr s =? 0 then free_segments r h m
      else match align_free (sptr s) h m with Ok h => free_segments r h m | e => e end
  end.
Definition mm_clear (m : manager) : outcome heap := free_segments (segs (m_pool m)) (m_heap m) (m_mem m).
