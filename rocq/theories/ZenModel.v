(** Model of mllm/engine/prefix_cache/{TLB,ZenFS,Allocator}.cpp (allocation logic only; mmap, json and file
    contents are not modelled).

    Simplifications: [uint32_t] values are [Z] with the wrap written where the code can overflow;
    [std::unordered_map] iteration order is an explicit argument of [malloc]. *)
From Verif Require Import Base.
Local Open Scope Z_scope.

(** TLB.cpp:7-10 *)
Definition getBlobAddr (addr p l : Z) : Z := Z.shiftr addr (p + l).
(** TLB.cpp:12-15 *)
Definition getPageAddr (addr p l : Z) : Z := Z.land (Z.shiftr addr l) (2 ^ p - 1).
(** TLB.cpp:17-20 *)
Definition getLaneAddr (addr p l : Z) : Z := Z.land addr (2 ^ l - 1).

(** The address expression of ZenFS.cpp:712, truncated to uint32_t. *)
Definition mkAddr (blob idx p l : Z) : Z :=
  Z.lor (Z.shiftl blob (l + p) mod 2 ^ 32) idx mod 2 ^ 32.

(** A blob: its id and the free bitmap words (ZenFS.hpp:112-117). *)
Record blob := mkBlob { bl_id : Z; bl_words : list Z }.

Inductive mmap_type := MAnonymous | MFile.      (* ZenFS.hpp:100-103 *)

Record zenfs := mkZen { z_p : Z; z_l : Z; z_mmap : mmap_type; z_blobs : list blob }.

Definition ones64 : Z := 2 ^ 64 - 1.

(** [__builtin_ctzll] on a non-zero word: index of the lowest set bit. *)
Fixpoint ctz_from (fuel : nat) (i w : Z) : option Z :=
  match fuel with
  | O => None
  | S f => if Z.testbit w i then Some i else ctz_from f (i + 1) w
  end.
Definition ctz (w : Z) : option Z := ctz_from 64 0 w.

(** Scan of ZenFS.cpp:707-715: index of the first non-zero word, its lowest bit, and the updated words. *)
Fixpoint take_bit (i : Z) (ws : list Z) : option (Z * list Z) :=
  match ws with
  | [] => None
  | w :: r =>
      match ctz w with
      | Some b => Some (i * 64 + b, Z.clearbit w b :: r)
      | None => match take_bit (i + 1) r with
                | Some (k, r') => Some (k, w :: r')
                | None => None
                end
      end
  end.

Fixpoint upd_blob (id : Z) (ws : list Z) (bs : list blob) : list blob :=
  match bs with
  | [] => []
  | b :: r => if bl_id b =? id then mkBlob id ws :: r else b :: upd_blob id ws r
  end.

Definition find_blob (id : Z) (bs : list blob) : option blob := find (fun b => bl_id b =? id) bs.

(** _findFreeAddrInBlob: ZenFS.cpp:705-717 (the result -1 is the value 2^32-1). *)
Definition find_free (z : zenfs) (id : Z) : zenfs * Z :=
  match find_blob id (z_blobs z) with
  | None => (z, 2 ^ 32 - 1)
  | Some b =>
      match take_bit 0 (bl_words b) with
      | None => (z, 2 ^ 32 - 1)
      | Some (idx, ws) =>
          (mkZen (z_p z) (z_l z) (z_mmap z) (upd_blob id ws (z_blobs z)), mkAddr id idx (z_p z) (z_l z))
      end
  end.

(** The two search loops of malloc: ZenFS.cpp:564-568 and 585-589, over blob ids in iteration order. *)
Fixpoint search (z : zenfs) (order : list Z) : zenfs * option Z :=
  match order with
  | [] => (z, None)
  | id :: r => let '(z', a) := find_free z id in
               if a =? 2 ^ 32 - 1 then search z' r else (z', Some a)
  end.

(** Number of bitmap words of a new blob: ZenFS.cpp:327-328 and 674-675 (anonymous: bits/64), 640-641
    (file: divides by sizeof(uint64_t) = 8, not 64). *)
Definition word_count (m : mmap_type) (p l : Z) : Z :=
  match m with
  | MAnonymous => (2 ^ (p + l) + 64 - 1) / 64
  | MFile => (2 ^ (p + l) + 8 - 1) / 8
  end.

Definition new_blob (m : mmap_type) (id p l : Z) : blob :=
  mkBlob id (repeat ones64 (Z.to_nat (word_count m p l))).

(** initialize: ZenFS.cpp:323-337 ([None]: the assert fails).  The first blob is in memory. *)
Definition zen_init (p l : Z) (m : mmap_type) : option zenfs :=
  if (0 <=? p) && (0 <=? l) && (p + l <? 32)
  then Some (mkZen p l m [new_blob MAnonymous 0 p l]) else None.

(** _createBlobOnDisk / _createBlobOnAnonymousFile: ZenFS.cpp:638-703; the new id is [blob_.size()]. *)
Definition create_blob (z : zenfs) : zenfs :=
  mkZen (z_p z) (z_l z) (z_mmap z)
        (z_blobs z ++ [new_blob (z_mmap z) (Z.of_nat (length (z_blobs z))) (z_p z) (z_l z)]).

(** malloc: ZenFS.cpp:563-593.  [o1], [o2]: iteration orders of the two loops.  [None] = error exit. *)
Definition zen_malloc (z : zenfs) (o1 o2 : list Z) : zenfs * option Z :=
  match search z o1 with
  | (z1, Some a) => (z1, Some a)
  | (z1, None) =>
      if (1 <=? length (z_blobs z1))%nat then search (create_blob z1) o2 else search z1 o2
  end.

Definition set_word_bit (words : list Z) (w b : Z) : list Z :=
  if w <? Z.of_nat (length words) then upd_nth (Z.to_nat w) (fun x => Z.setbit x b) words else words.

(** free: ZenFS.cpp:595-614.  Only the lane field selects the bit. *)
Definition zen_free (z : zenfs) (addr : Z) : zenfs :=
  let id := getBlobAddr addr (z_p z) (z_l z) in
  let lane := getLaneAddr addr (z_p z) (z_l z) in
  match find_blob id (z_blobs z) with
  | None => z
  | Some b => mkZen (z_p z) (z_l z) (z_mmap z)
                    (upd_blob id (set_word_bit (bl_words b) (lane / 64) (lane mod 64)) (z_blobs z))
  end.

(** access: ZenFS.cpp:616-636: blob id and byte offset inside its data, [None] = nullptr. *)
Definition zen_access (z : zenfs) (tok : Z) (addr : Z) : option (Z * Z) :=
  let id := getBlobAddr addr (z_p z) (z_l z) in
  match find_blob id (z_blobs z) with
  | None => None
  | Some _ => Some (id, (getPageAddr addr (z_p z) (z_l z) * 2 ^ z_l z + getLaneAddr addr (z_p z) (z_l z)) * tok)
  end.

(** Byte offset used by hintsPrefetch / hintsPurge: ZenFS.cpp:530-538, 551-559. *)
Definition hint_offset (p l tok addr : Z) : Z :=
  getPageAddr addr p l * tok + getLaneAddr addr p l * tok.

(** Size in bytes of a lane and of a blob's data (ZenFS.cpp:297, 646-647, 680-681). *)
Definition lane_bytes (ele bytes lanes : Z) : Z := bytes * ele / lanes.
Definition blob_bytes (p l ele bytes lanes : Z) : Z := 2 ^ (p + l) * ele * bytes / lanes.

(** recover: ZenFS.cpp:484-490: every bitmap is rebuilt as all-free. *)
Definition zen_recover (z : zenfs) : zenfs :=
  mkZen (z_p z) (z_l z) (z_mmap z)
        (map (fun b => new_blob MAnonymous (bl_id b) (z_p z) (z_l z)) (z_blobs z)).

(** Histories: the client's view is the list of addresses it holds. *)
Inductive zop := ZMalloc (o1 o2 : list Z) | ZFree (addr : Z).

Definition zstep (s : zenfs * list Z) (o : zop) : option (zenfs * list Z) :=
  let '(z, held) := s in
  match o with
  | ZMalloc o1 o2 => match zen_malloc z o1 o2 with
                     | (z', Some a) => Some (z', held ++ [a])
                     | (_, None) => None
                     end
  | ZFree a => if existsb (Z.eqb a) held                    (* clients free what they hold *)
               then Some (zen_free z a, remove_first (Z.eqb a) held) else None
  end.

Fixpoint zrun (s : zenfs * list Z) (ops : list zop) : option (zenfs * list Z) :=
  match ops with
  | [] => Some s
  | o :: r => match zstep s o with Some s' => zrun s' r | None => None end
  end.

(** ** TLB (TLB.cpp:22-33): [emplace] does not overwrite, [erase] removes. *)
Definition tlb := list (Z * Z).
Definition tlb_lookup (t : tlb) (a : Z) : option Z :=
  match find (fun e => fst e =? a) t with Some e => Some (snd e) | None => None end.
Definition tlb_insert (t : tlb) (a d : Z) : tlb :=
  match tlb_lookup t a with Some _ => t | None => t ++ [(a, d)] end.
Definition tlb_remove (t : tlb) (a : Z) : tlb := filter (fun e => negb (fst e =? a)) t.

Inductive tlb_op := TInsert (a d : Z) | TRemove (a : Z).
Definition tlb_step (t : tlb) (o : tlb_op) : tlb :=
  match o with TInsert a d => tlb_insert t a d | TRemove a => tlb_remove t a end.

(** ** PrefixCacheAllocator on the CPU (Allocator.cpp:12-22, 50-61).  [basep] gives each blob's data pointer. *)
Record pca := mkPca { pc_zen : zenfs; pc_tlb : tlb }.
Definition phys (basep : Z -> Z) (z : zenfs) (tok a : Z) : Z :=
  match zen_access z tok a with Some (id, off) => basep id + off | None => 0 end.
Definition pca_alloc (basep : Z -> Z) (tok : Z) (s : pca) (o1 o2 : list Z) : option (pca * Z) :=
  match zen_malloc (pc_zen s) o1 o2 with
  | (z', Some a) => Some (mkPca z' (tlb_insert (pc_tlb s) a (phys basep z' tok a)), a)
  | (_, None) => None
  end.
Definition pca_free (s : pca) (a : Z) : pca := mkPca (zen_free (pc_zen s) a) (tlb_remove (pc_tlb s) a).
Definition pca_physical (s : pca) (a : Z) : option Z := tlb_lookup (pc_tlb s) a.
