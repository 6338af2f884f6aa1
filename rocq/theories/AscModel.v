(** The memory pool of the Ascend backend: /repo/mllm/backends/ascend/memory/AscendMemoryPool.{hpp,cpp} and
    /repo/mllm/backends/ascend/AscendAllocator.cpp.

    Simplifications: one device; every call holds block_mutex_ throughout (the statistics printed without it on failure
    change nothing), so calls happen one after another; the statistics and log lines are left out.  The two unordered maps
    are lists of blocks; [order] is the order in which the loop of allocateBlock meets the free blocks: any order. *)
From Verif Require Import Base.
Local Open Scope Z_scope.

(** MemoryBlock.hpp:11-19, without the two counters of the statistics. *)
Record block := mkBlock { b_id : Z; b_size : Z; b_req : Z; b_addr : Z }.
(** AscendMemoryPool.hpp:33-41: id_, base_mem_ptr_, cur_mem_ptr_, remain_size_, used_blocks_, free_blocks_. *)
Record pool := mkPool { p_next : Z; p_base : Z; p_cur : Z; p_remain : Z; p_used : list block; p_free : list block }.

(** Conversions to uint32_t, uint64_t, int and int64_t. *)
Definition u32 (x : Z) : Z := x mod 2 ^ 32.
Definition u64 (x : Z) : Z := x mod 2 ^ 64.
Definition s32 (x : Z) : Z := let r := u32 x in if r <? 2 ^ 31 then r else r - 2 ^ 32.
Definition s64 (x : Z) : Z := let r := u64 x in if r <? 2 ^ 63 then r else r - 2 ^ 64.

(** The constructor, AscendMemoryPool.cpp:16-33: aclrtMalloc gives an address, or fails. *)
Definition new_pool (got : option Z) (pool_size : Z) : pool :=
  match got with
  | Some base => mkPool 0 base base (s64 pool_size) [] []
  | None => mkPool 0 0 0 0 [] []
  end.

(** Line 53: ((size + 31) & ~31) + 32, all in uint32_t. *)
Definition align_size (size : Z) : Z := u32 (u32 (size + 31) / 32 * 32 + 32).
(** Line 100: (p + 63) & ~63 in uint64_t. *)
Definition align_ptr (p : Z) : Z := u64 (p + 63) / 64 * 64.

(** Lines 70-80: the first of the smallest blocks that are large enough. *)
Definition best_fit (order : list block) (need : Z) : option block :=
  fst (fold_left (fun st b => if (need <=? b_size b) && (b_size b <? snd st) then (Some b, b_size b) else st)
                 order (None, 2 ^ 64 - 1)).
Definition drop_id (id : Z) (l : list block) : list block := filter (fun b => negb (b_id b =? id)) l.
Definition find_id (id : Z) (l : list block) : option block := find (fun b => b_id b =? id) l.

(** allocateBlock, lines 50-116: the block id written through the reference, if any.  [size] is what arrives as uint32_t. *)
Definition allocate_block (order : list block) (size : Z) (p : pool) : option Z * pool :=
  let need := align_size size in
  match best_fit order need with
  | Some b =>
      let b' := mkBlock (b_id b) (b_size b) size (b_addr b) in
      (Some (b_id b), mkPool (p_next p) (p_base p) (p_cur p) (p_remain p) (b' :: p_used p) (drop_id (b_id b) (p_free p)))
  | None =>
      if need <? u64 (p_remain p) then   (* remain_size_ > align_size: int64_t against size_t *)
        let id := s32 (p_next p) in
        let cur := align_ptr (p_cur p) in
        let remain := s64 (p_remain p - (cur - p_cur p)) in
        (Some id, mkPool (p_next p + 1) (p_base p) (u64 (cur + need)) (s64 (remain - need)) (mkBlock id need size cur :: p_used p) (p_free p))
      else (None, p)
  end.
(** freeBlock, lines 140-156. *)
Definition free_block (id : Z) (p : pool) : pool :=
  if id <? 0 then p
  else match find_id id (p_used p) with
       | Some b => mkPool (p_next p) (p_base p) (p_cur p) (p_remain p) (drop_id id (p_used p)) (b :: p_free p)
       | None => p
       end.
(** getBlockPtr, lines 158-172: the address written, if any. *)
Definition get_block_ptr (id : Z) (p : pool) : option Z :=
  if id <? 0 then None else option_map b_addr (find_id id (p_used p)).

(** A call of one of the three functions. *)
Inductive call := CAlloc (order : list block) (size : Z) | CFree (id : Z) | CGet (id : Z).
Definition do_call (c : call) (p : pool) : pool :=
  match c with
  | CAlloc order size => snd (allocate_block order (u32 size) p)
  | CFree id => free_block id p
  | CGet _ => p
  end.
(** The order is one of the free blocks there are. *)
Definition fair_order (c : call) (p : pool) : Prop :=
  match c with CAlloc order _ => Permutation order (p_free p) | _ => True end.
Inductive calls (p : pool) : list call -> pool -> Prop :=
| calls_nil : calls p [] p
| calls_snoc : forall l q c, calls p l q -> fair_order c q -> calls p (l ++ [c]) (do_call c q).

(** ** The allocator on top: AscendAllocator.cpp *)
(** storage_to_block_id_: an address and its block. *)
Record alloc_state := mkAlloc { a_pool : pool; a_map : list (Z * Z) }.
Definition map_find (a : Z) (m : list (Z * Z)) : option Z := option_map snd (find (fun e => fst e =? a) m).
Definition map_drop (a : Z) (m : list (Z * Z)) : list (Z * Z) := filter (fun e => negb (fst e =? a)) m.

(** alloc, lines 23-46: size_ is a size_t, allocateBlock takes a uint32_t; the storage's address, or false. *)
Definition storage_alloc (order : list block) (size : Z) (s : alloc_state) : option Z * alloc_state :=
  match allocate_block order (u32 size) (a_pool s) with
  | (None, p) => (None, mkAlloc p (a_map s))
  | (Some id, p) =>
      if id <? 0 then (None, mkAlloc p (a_map s))
      else match get_block_ptr id p with
           | Some a => if a =? 0 then (None, mkAlloc (free_block id p) (a_map s))
                       else (Some a, mkAlloc p ((a, id) :: map_drop a (a_map s)))
           | None => (None, mkAlloc (free_block id p) (a_map s))
           end
  end.
(** free, lines 56-80: [a] is storage->ptr_, which becomes null. *)
Definition storage_free (a : Z) (s : alloc_state) : alloc_state :=
  if a =? 0 then s
  else match map_find a (a_map s) with
       | Some id => mkAlloc (if 0 <=? id then free_block id (a_pool s) else a_pool s) (map_drop a (a_map s))
       | None => s
       end.
