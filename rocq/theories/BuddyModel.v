(** Model of mllm/engine/BuddyMemPool.{hpp,cpp}.

    Simplifications (all blocks are values; the C++ mutates heap objects through pointers):
    - addresses and sizes are unbounded [Z] (size_t/char* in the code);
    - [BuddyMemBlock::offset] is left out: it is only ever read to compute another [offset]
      (BuddyMemPool.cpp:158) and never influences an address;
    - [_log2_ceil] (BuddyMemPool.cpp:12-15) is computed exactly; the code uses the double
      [ceil(log2(size))], which agrees for sizes below 2^48;
    - the mutex is not modelled: one alloc/free at a time. *)
From Verif Require Import Base.
Local Open Scope Z_scope.

(** BuddyMemPool.hpp:24-31 *)
Record blk := mkBlk { bptr : Z; bsize : Z; border : nat; balloc : bool }.

(** BuddyMemPool.hpp:33-39, together with its entry of [BuddyContext::segment_blocks] (line 58). *)
Record seg := mkSeg { sptr : Z; scap : Z; sused : Z; smin : nat; smax : nat;
                      sfree : list (list blk) }.

(** A live storage: its uuid and the size the client asked for, with the [BuddyMemBlock*] that
    [st_] maps the uuid to (the block's [segment] pointer is kept as the segment base address).
    BuddyMemPool.cpp:53-66 *)
Record live := mkLive { luid : Z; lreq : Z; lseg : Z; lblk : blk }.

(** BuddyMemPool.hpp:41-55,96-112.  [cached] flattens [free_object_cache_st_], a map from block size
    to FIFO list, into one list: the list for size [k] is the sublist of blocks of size [k]. *)
Record pool := mkPool { pmin : nat; pcacheon : bool; pcset : list Z;
                        segs : list seg; lives : list live; cached : list (Z * blk) }.

Definition pow2 (o : nat) : Z := 2 ^ Z.of_nat o.

(** BuddyMemPool.cpp:12-15 *)
Definition log2_ceil (n : Z) : nat := if n =? 0 then O else Z.to_nat (Z.log2_up n).

(** Building a segment with a single free block: BuddyMemPool.cpp:28-50 and 241-260. *)
Definition fresh_seg (base cap : Z) (mn mx : nat) : seg :=
  let b := mkBlk base cap mx false in
  mkSeg base cap 0 mn mx
    (upd_nth (mx - mn) (fun q => q ++ [b]) (repeat [] (mx - mn + 1))).

(** BuddyMemPool.cpp:22-51; [None] is the failed assert of line 36 (or max_order < min_order, where
    line 39 asks for a vector of a wrapped-around size). *)
Definition pool_init (base cap : Z) (mn mx : nat) (cacheon : bool) (cset : list Z) : option pool :=
  if (log2_ceil cap =? mx)%nat && (mn <=? mx)%nat && (0 <? cap)
  then Some (mkPool mn cacheon cset [fresh_seg base cap mn mx] [] [])
  else None.

(** The search loop BuddyMemPool.cpp:137-143. *)
Fixpoint find_order (fuel : nat) (fl : list (list blk)) (mn mx cur : nat) : option nat :=
  match fuel with
  | O => None
  | S f => if (mx <? cur)%nat then None
           else match nth (cur - mn) fl [] with
                | [] => find_order f fl mn mx (S cur)
                | _ :: _ => Some cur
                end
  end.

(** The split loop BuddyMemPool.cpp:150-166; [k] = iterations = border b - order. *)
Fixpoint split_loop (k : nat) (mn : nat) (fl : list (list blk)) (b : blk) : list (list blk) * blk :=
  match k with
  | O => (fl, b)
  | S k' =>
      let new_size := bsize b / 2 in
      let o := pred (border b) in
      let b' := mkBlk (bptr b) new_size o (balloc b) in
      let buddy := mkBlk (bptr b + new_size) new_size o false in
      split_loop k' mn (upd_nth (o - mn) (fun q => q ++ [buddy]) fl) b'
  end.

Inductive tryres := TSkip | TTooLarge | TGot (s : seg) (b : blk).

(** One iteration of the segment loop BuddyMemPool.cpp:118-174. *)
Definition try_seg (s : seg) (size : Z) : tryres :=
  let required := Z.max size (pow2 (smin s)) in
  if scap s - sused s <? required then TSkip else
  let order := log2_ceil required in
  if (smax s <? order)%nat then TTooLarge else
  let order := Nat.max order (smin s) in
  match find_order (S (smax s)) (sfree s) (smin s) (smax s) order with
  | None => TSkip
  | Some cur =>
      match nth (cur - smin s) (sfree s) [] with
      | [] => TSkip
      | b :: rest =>
          let fl := upd_nth (cur - smin s) (fun _ => rest) (sfree s) in
          let '(fl', b') := split_loop (border b - order) (smin s) fl b in
          TGot (mkSeg (sptr s) (scap s) (sused s + bsize b') (smin s) (smax s) fl')
               (mkBlk (bptr b') (bsize b') (border b') true)
      end
  end.

(** The loop over segments, in address order (BuddyMemPool.cpp:118). *)
Inductive allocres := ANone | ATooLarge | AGot (ss : list seg) (sg : Z) (b : blk).

Fixpoint try_segs (ss : list seg) (size : Z) : allocres :=
  match ss with
  | [] => ANone
  | s :: r =>
      match try_seg s size with
      | TTooLarge => ATooLarge
      | TGot s' b => AGot (s' :: r) (sptr s) b
      | TSkip => match try_segs r size with
                 | AGot r' sg b => AGot (s :: r') sg b
                 | x => x
                 end
      end
  end.

(** std::map<char*, ...>::insert keeps the segments sorted by address (BuddyMemPool.hpp:57,
    BuddyMemPool.cpp:249). *)
Fixpoint insert_seg (s : seg) (ss : list seg) : list seg :=
  match ss with
  | [] => [s]
  | t :: r => if sptr s <? sptr t then s :: t :: r else t :: insert_seg s r
  end.

(** BuddyMemPool.cpp:231-236 *)
Definition new_cap (ss : list seg) : Z :=
  Z.min (fold_left (fun m s => Z.max m (pow2 (smax s))) ss 0 * 2) (2 ^ 29).

(** The backend's contract for [generalAlloc]: the range it returns does not overlap a segment that
    is still in use. *)
Definition range_free (base cap : Z) (ss : list seg) : bool :=
  forallb (fun s => (base + cap <=? sptr s) || (sptr s + scap s <=? base)) ss.

Inductive outcome (A : Type) :=
| Ok (a : A)
| ErrTooLarge          (* MLLM_ERROR_EXIT of BuddyMemPool.cpp:129 *)
| ErrSymbol            (* MLLM_ERROR_EXIT of SymbolTable.hpp:32,62: unknown or duplicate uuid *)
| NullSegment          (* the backend ran out of memory: CPUAllocator.cpp:57-60 reports success anyway
                          and the pool goes on with a null segment: undefined behaviour *)
| BackendOverlap       (* the backend broke its contract *)
| Waiting              (* the call is still running: it has used up all backend answers supplied *)
| UB.                  (* out-of-range list index in freeBuddy *)
Arguments Ok {A} _. Arguments ErrTooLarge {A}. Arguments ErrSymbol {A}. Arguments NullSegment {A}.
Arguments BackendOverlap {A}. Arguments Waiting {A}. Arguments UB {A}.

(** allocBuddy with expandBuddySegment (BuddyMemPool.cpp:110-182, 227-263).  [answers] lists what the
    backend's [generalAlloc] returns on the successive calls it gets during this request; address 0
    stands for a failed malloc. *)
Fixpoint alloc_buddy (answers : list Z) (mn : nat) (ss : list seg) (size : Z)
  : outcome (list seg * Z * blk) :=
  match try_segs ss size with
  | AGot ss' sg b => Ok (ss', sg, b)
  | ATooLarge => ErrTooLarge
  | ANone =>
      match answers with
      | [] => Waiting
      | base :: more =>
          let cap := new_cap ss in
          if base =? 0 then NullSegment
          else if range_free base cap ss
          then alloc_buddy more mn (insert_seg (fresh_seg base cap mn (log2_ceil cap)) ss) size
          else BackendOverlap
      end
  end.

(** The merge loop BuddyMemPool.cpp:196-223. [None] = index out of the list vector (UB). *)
Fixpoint merge_loop (fuel : nat) (base : Z) (mn : nat) (fl : list (list blk)) (b : blk)
  : option (list (list blk)) :=
  match fuel with
  | O => None
  | S f =>
      let o := border b in
      let buddy_addr := Z.lxor (bptr b - base) (pow2 o) in
      let idx := (o - mn)%nat in
      if (length fl <=? idx)%nat then None else
      let p := fun c => (bptr c - base =? buddy_addr) && (border c =? o)%nat && negb (balloc c) in
      match find p (nth idx fl []) with
      | None => Some (upd_nth idx (fun q => q ++ [b]) fl)
      | Some c =>
          let b' := if bptr b <? bptr c
                    then mkBlk (bptr b) (bsize b * 2) (S o) (balloc b)
                    else mkBlk (bptr c) (bsize b * 2) (S o) (balloc b) in
          merge_loop f base mn (upd_nth idx (remove_first p) fl) b'
      end
  end.

(** freeBuddy on one segment: BuddyMemPool.cpp:184-224. *)
Definition free_in_seg (s : seg) (b : blk) : option seg :=
  match merge_loop (S (smax s - border b)) (sptr s) (smin s) (sfree s)
                   (mkBlk (bptr b) (bsize b) (border b) false) with
  | None => None
  | Some fl => Some (mkSeg (sptr s) (scap s) (sused s - bsize b) (smin s) (smax s) fl)
  end.

(** Finding the segment through [omb->segment] (BuddyMemPool.cpp:186-187). *)
Fixpoint free_buddy (ss : list seg) (sg : Z) (b : blk) : option (list seg) :=
  match ss with
  | [] => None
  | s :: r => if sptr s =? sg
              then match free_in_seg s b with Some s' => Some (s' :: r) | None => None end
              else match free_buddy r sg b with Some r' => Some (s :: r') | None => None end
  end.

Definition zmem (x : Z) (l : list Z) : bool := existsb (Z.eqb x) l.

(** isInObjCache with the enable flag: BuddyMemPool.cpp:58,75,297-300 *)
Definition use_cache (p : pool) (size : Z) : bool := pcacheon p && zmem size (pcset p).

(** alloc: BuddyMemPool.cpp:53-66 with allocObjCache 276-288. *)
Definition pool_alloc (p : pool) (uid size : Z) (answers : list Z) : outcome pool :=
  if existsb (fun l => luid l =? uid) (lives p) then ErrSymbol else
  let hit := if use_cache p size then find (fun c => bsize (snd c) =? size) (cached p) else None in
  match hit with
  | Some (sg, b) =>
      Ok (mkPool (pmin p) (pcacheon p) (pcset p) (segs p)
                 (lives p ++ [mkLive uid size sg b])
                 (remove_first (fun c => bsize (snd c) =? size) (cached p)))
  | None =>
      match alloc_buddy answers (pmin p) (segs p) size with
      | Ok (ss, sg, b) =>
          Ok (mkPool (pmin p) (pcacheon p) (pcset p) ss
                     (lives p ++ [mkLive uid size sg b]) (cached p))
      | ErrTooLarge => ErrTooLarge
      | ErrSymbol => ErrSymbol
      | NullSegment => NullSegment
      | BackendOverlap => BackendOverlap
      | Waiting => Waiting
      | UB => UB
      end
  end.

(** free: BuddyMemPool.cpp:70-82 with freeObjCache 290-295. *)
Definition pool_free (p : pool) (uid : Z) : outcome pool :=
  match find (fun l => luid l =? uid) (lives p) with
  | None => ErrSymbol
  | Some l =>
      let rest := remove_first (fun l => luid l =? uid) (lives p) in
      if use_cache p (lreq l)
      then Ok (mkPool (pmin p) (pcacheon p) (pcset p) (segs p) rest
                      (cached p ++ [(lseg l, lblk l)]))
      else match free_buddy (segs p) (lseg l) (lblk l) with
           | None => UB
           | Some ss => Ok (mkPool (pmin p) (pcacheon p) (pcset p) ss rest (cached p))
           end
  end.

Fixpoint free_many (ss : list seg) (bs : list (Z * blk)) : option (list seg) :=
  match bs with
  | [] => Some ss
  | (sg, b) :: r => match free_buddy ss sg b with None => None | Some ss' => free_many ss' r end
  end.

(** updateCacheSizeList: BuddyMemPool.cpp:86-97.  (The unordered_set is given as the list of its
    elements in iteration order.) *)
Fixpoint drop_sizes (old : list Z) (sizes : list Z) (ss : list seg) (ca : list (Z * blk))
  : option (list seg * list (Z * blk)) :=
  match sizes with
  | [] => Some (ss, ca)
  | z :: r =>
      if zmem z old then drop_sizes old r ss ca
      else match free_many ss (filter (fun c => bsize (snd c) =? z) ca) with
           | None => None
           | Some ss' => drop_sizes old r ss' (filter (fun c => negb (bsize (snd c) =? z)) ca)
           end
  end.

Definition pool_update (p : pool) (newset : list Z) : outcome pool :=
  match drop_sizes (pcset p) newset (segs p) (cached p) with
  | None => UB
  | Some (ss, ca) => Ok (mkPool (pmin p) (pcacheon p) newset ss (lives p) ca)
  end.

(** Client operations. *)
Inductive op :=
| OAlloc (uid size : Z) (answers : list Z)
| OFree (uid : Z)
| OUpdate (newset : list Z).

Definition step (p : pool) (o : op) : outcome pool :=
  match o with
  | OAlloc u z a => pool_alloc p u z a
  | OFree u => pool_free p u
  | OUpdate n => pool_update p n
  end.

Fixpoint run (p : pool) (ops : list op) : outcome pool :=
  match ops with
  | [] => Ok p
  | o :: r => match step p o with Ok p' => run p' r | e => e end
  end.
