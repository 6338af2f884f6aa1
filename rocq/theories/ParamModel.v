(** Model files: the byte-level writers and readers of
    /repo/mllm/core/ParameterFile.cpp, schemas /repo/mllm/core/schema/ModelFileV{1,2}.hpp.
    A file is a list of bytes (values 0..255 as Z); integers are little-endian. *)
From Verif Require Import Base DTypeModel.
Local Open Scope Z_scope.

Definition zlen {A} (l : list A) : Z := Z.of_nat (length l).

(** An integer written as [n] little-endian bytes (reinterpret_cast of the
    variable); implicitly modulo 256^n. *)
Fixpoint le_bytes (n : nat) (x : Z) : list Z :=
  match n with
  | O => []
  | S k => x mod 256 :: le_bytes k (x / 256)
  end.
Fixpoint le_val (l : list Z) : Z :=
  match l with
  | [] => 0
  | b :: r => b + 256 * le_val r
  end.

(** [len] bytes at position [off]; [None] when not all of them exist. *)
Definition bytes_at (file : list Z) (off len : Z) : option (list Z) :=
  if (0 <=? off) && (0 <=? len) && (off + len <=? zlen file)
  then Some (firstn (Z.to_nat len) (skipn (Z.to_nat off) file))
  else None.

(** A read through a mapped pointer or a buffer: outside of it is undefined. *)
Definition read_bytes (file : list Z) (off len : Z) : res (list Z) :=
  match bytes_at file off len with Some b => ROk b | None => RUB end.
Definition read_uint (file : list Z) (off : Z) (n : nat) : res Z :=
  do b <- read_bytes file off (Z.of_nat n); ROk (le_val b).

(** A tensor as seen by the file code: element type, shape, strides and element
    offset of the view, and its storage (name and content; [size_] is the length
    of the content).  /repo/mllm/core/TensorViewImpl.hpp:91-103,
    /repo/mllm/core/TensorStorage.hpp:41-50. *)
Record tensor := mkT {
  t_dtype : Z;
  t_shape : list Z;
  t_stride : list Z;
  t_offset : Z;
  t_sname : list Z;      (* storage()->name_ *)
  t_mem : list Z;        (* the storage's bytes *)
}.

(** Tensor::bytes, /repo/mllm/core/Tensor.cpp:669 -> TensorViewImpl::size (storage size). *)
Definition t_bytes (t : tensor) : Z := zlen (t_mem t).

(** [bytes()] bytes read at [ptr<uint8_t>()] (TensorViewImpl.hpp:75-79). *)
Definition t_data (t : tensor) : res (list Z) :=
  read_bytes (t_mem t) (t_offset t / lanesOfType (t_dtype t) * bytesOfType (t_dtype t)) (t_bytes t).

(** TensorStorage::create + TensorViewImpl::create for a loaded parameter.
    A shape of rank 0 makes TensorViewImpl::create write stride_[-1]
    (TensorViewImpl.cpp:93), a rank above 16 writes past shape_[16]. *)
Definition new_tensor (name : list Z) (shape : list Z) (dt : Z) (mem : list Z) : tensor :=
  mkT dt shape (default_strides shape) 0 name mem.
Definition rank_ok (shape : list Z) : bool := (1 <=? zlen shape) && (zlen shape <=? 16).

(** The parameter store: names to tensors, in the iteration order of the
    unordered_map (unspecified, so arbitrary here). *)
Definition store := list (list Z * tensor).

Definition eqb_name (a b : list Z) : bool := if list_eq_dec Z.eq_dec a b then true else false.

(** ParameterFile::has / pull / push, ParameterFile.cpp:28-52. *)
Definition lookup (name : list Z) (s : store) : option tensor :=
  option_map snd (find (fun p => eqb_name (fst p) name) s).
Definition has (name : list Z) (s : store) : bool := existsb (fun p => eqb_name (fst p) name) s.
Definition pull (name : list Z) (s : store) : res tensor :=
  match lookup name s with Some t => ROk t | None => RAbort end.
Definition push (name : list Z) (t : tensor) (s : store) : res store :=
  if has name s then RAbort else ROk (s ++ [(name, t)]).
(** ParameterFile::remove, ParameterFile.cpp:56. *)
Definition remove (name : list Z) (s : store) : store := filter (fun p => negb (eqb_name (fst p) name)) s.

(* ------------------------------------------------------------------ *)
(** ** Version 1 *)

Definition v1_magic : Z := 20012.

(** Size of the descriptor section, ParameterFile.cpp:213-222; the name length
    added is the one of the *storage* name (line 217). *)
Definition v1_desc_total (s : store) : Z :=
  fold_left (fun a p => to_u64 (a + 4 + zlen (t_sname (snd p)) + 8 + 8 + 4)) s 0.

(** One descriptor, ParameterFile.cpp:233-252. *)
Definition v1_desc (name : list Z) (t : tensor) (off : Z) : list Z :=
  let name_len := zlen name mod 2 ^ 32 in
  le_bytes 4 name_len ++ firstn (Z.to_nat name_len) name ++
  le_bytes 8 (t_bytes t) ++ le_bytes 8 off ++ le_bytes 4 (t_dtype t).
Fixpoint v1_descs (s : store) (off : Z) : list Z :=
  match s with
  | [] => []
  | (name, t) :: r => v1_desc name t off ++ v1_descs r (to_u64 (off + t_bytes t))
  end.

(** Tensor data, ParameterFile.cpp:256-260 (V1) and 431-435 (V2). *)
Fixpoint all_data (s : store) : res (list Z) :=
  match s with
  | [] => ROk []
  | (_, t) :: r => do d <- t_data t; do ds <- all_data r; ROk (d ++ ds)
  end.

(** ParameterFileIOImpl<kCPU,kV1>::write, ParameterFile.cpp:206-263. *)
Definition v1_write (s : store) : res (list Z) :=
  let total := v1_desc_total s in
  do data <- all_data s;
  ROk (le_bytes 4 v1_magic ++ le_bytes 8 total ++ v1_descs s (to_u64 (12 + total)) ++ data).

Record v1_meta := mkMeta { m_name : list Z; m_len : Z; m_off : Z; m_dtype : Z }.

(** Descriptor loop, ParameterFile.cpp:88-113 (mmap) and 149-176 (stream).
    [file] is the readable memory: the mapped file, or the descriptor buffer (in
    which case positions are shifted so that the buffer starts where it does in
    the file: the buffer is the first [limit] bytes of the file).
    [name_len] is an int32: a negative length makes std::string throw. *)
Fixpoint v1_parse (fuel : nat) (file : list Z) (cur end_ : Z) (acc : list v1_meta) : res (list v1_meta) :=
  match fuel with
  | O => RDiverge
  | S k =>
      if cur <? end_ then
        do nl0 <- read_uint file cur 4;
        let nl := to_i32 nl0 in
        if nl <? 0 then RAbort else
        do name <- read_bytes file (cur + 4) nl;
        let c1 := cur + 4 + nl in
        do len <- read_uint file c1 8;
        do off <- read_uint file (c1 + 8) 8;
        do dt0 <- read_uint file (c1 + 16) 4;
        v1_parse k file (c1 + 20) end_ (acc ++ [mkMeta name len off (to_i32 dt0)])
      else ROk acc
  end.

(** Building the tensors, ParameterFile.cpp:115-130 (mmap) and 181-197 (stream).
    The shape is one-dimensional.  The content of a mapped tensor is what its
    pointer range shows; a range that leaves the file is undefined (the read
    happens when the tensor is used, we make it part of loading).
    In stream mode [data_len] bytes are read into a buffer of [storage size]
    bytes: more than fits is undefined; a stream read past the end of the file
    leaves the rest of the buffer uninitialised, which we also call undefined. *)
Definition v1_load1 (mmap : bool) (file : list Z) (m : v1_meta) (s : store) : res store :=
  let dt := m_dtype m in
  let shape := [to_i32 (m_len m / bytesOfType dt * lanesOfType dt)] in
  do size <- storage_size shape dt;
  if mmap then
    do mem <- read_bytes file (m_off m) size;
    push (m_name m) (new_tensor (m_name m) shape dt mem) s
  else
    if size <? m_len m then RUB else
    do mem <- read_bytes file (m_off m) (m_len m);
    if m_len m <? size then RUB else
    push (m_name m) (new_tensor (m_name m) shape dt mem) s.

Fixpoint v1_load (mmap : bool) (file : list Z) (ms : list v1_meta) (s : store) : res store :=
  match ms with
  | [] => ROk s
  | m :: r => do s' <- v1_load1 mmap file m s; v1_load mmap file r s'
  end.

(** ParameterFileIOImpl<kCPU,kV1>::read, ParameterFile.cpp:68-204. *)
Definition v1_read (mmap : bool) (file : list Z) : res store :=
  do magic <- read_uint file 0 4;
  if negb (to_i32 magic =? v1_magic) then RAbort else
  do total <- read_uint file 4 8;
  (* end_pos: pointer arithmetic, no overflow assumed; the buffer of the stream
     reader has exactly [total] bytes and is filled from position 12 *)
  let end_ := 12 + total in
  do mem <- (if mmap then ROk file else read_bytes file 0 end_);
  do ms <- v1_parse (S (length file)) mem 12 end_ [];
  v1_load mmap file ms [].

(* ------------------------------------------------------------------ *)
(** ** Version 2 *)

Definition v2_magic : Z := 0x519A.
Definition v2_header_size : Z := 532.
Definition v2_desc_size : Z := 352.

(** Header, ParameterFile.cpp:382-391: model_name stays zero. *)
Definition v2_header (n : Z) : list Z :=
  le_bytes 4 v2_magic ++ le_bytes 4 2 ++ repeat 0 512 ++ le_bytes 4 n ++ le_bytes 8 v2_header_size.

(** C string: the characters before the first NUL. *)
Fixpoint until_nul (l : list Z) : list Z :=
  match l with
  | [] => []
  | b :: r => if b =? 0 then [] else b :: until_nul r
  end.

(** [l] cut or zero-padded to [n] entries. *)
Definition padded (n : nat) (l : list Z) : list Z := firstn n l ++ repeat 0 (n - length l).

(** strncpy of at most 255 characters, byte 255 set to NUL, ParameterFile.cpp:421-422. *)
Definition v2_name_field (name : list Z) : list Z := padded 255 (until_nul name) ++ [0].

(** One descriptor, ParameterFile.cpp:402-425.  [id] is the value computed at
    line 406 (a pointer difference between elements of a vector of pairs); it is
    arbitrary here, the readers never look at it. *)
Definition v2_desc (id : Z) (name : list Z) (t : tensor) (off : Z) : list Z :=
  le_bytes 4 id ++ le_bytes 4 (t_dtype t) ++ le_bytes 8 (t_bytes t) ++ le_bytes 8 off ++
  le_bytes 8 (zlen (t_shape t)) ++
  flat_map (le_bytes 4) (padded 16 (t_shape t)) ++
  v2_name_field name.
Fixpoint v2_descs (pid : nat -> Z) (i : nat) (s : store) (off : Z) : list Z :=
  match s with
  | [] => []
  | (name, t) :: r => v2_desc (pid i) name t off ++ v2_descs pid (S i) r (to_u64 (off + t_bytes t))
  end.

(** ParameterFileIOImpl<kCPU,kV2>::write, ParameterFile.cpp:377-438. *)
Definition v2_write (pid : nat -> Z) (s : store) : res (list Z) :=
  do data <- all_data s;
  ROk (v2_header (zlen s) ++
       v2_descs pid 0 s (to_u64 (v2_header_size + zlen s * v2_desc_size)) ++ data).

(** The 16 shape entries of a descriptor. *)
Fixpoint split4 (l : list Z) : list Z :=
  match l with
  | a :: b :: c :: d :: r => to_i32 (le_val [a; b; c; d]) :: split4 r
  | _ => []
  end.

(** One parameter, ParameterFile.cpp:300-333 (mmap) and 350-372 (stream).
    Simplified: the whole 352-byte descriptor must be readable (the code reads
    its fields one by one). *)
Definition v2_load1 (mmap : bool) (file : list Z) (pos : Z) (s : store) : res store :=
  do d <- read_bytes file pos v2_desc_size;
  do dt0 <- read_uint d 4 4;
  do psize <- read_uint d 8 8;
  do poff <- read_uint d 16 8;
  do slen <- read_uint d 24 8;
  do shp <- read_bytes d 32 64;
  do nm <- read_bytes d 96 256;
  let name := until_nul nm in
  if 16 <? slen then RAbort else
  let shape := firstn (Z.to_nat slen) (split4 shp) in
  let dt := to_i32 dt0 in
  do size <- storage_size shape dt;
  if negb (rank_ok shape) then RUB else
  if mmap then
    (* assert at line 330, then push *)
    if negb (size <=? psize) then RAbort else
    do mem <- read_bytes file poff size;
    push name (new_tensor name shape dt mem) s
  else
    (* alloc + file.read of parameter_size bytes (lines 366-368) happen before
       the assert at line 370 *)
    if size <? psize then RUB else
    if psize <? size then RAbort else
    do mem <- read_bytes file poff psize;
    push name (new_tensor name shape dt mem) s.

Fixpoint v2_load (mmap : bool) (file : list Z) (n : nat) (pos : Z) (s : store) : res store :=
  match n with
  | O => ROk s
  | S k => do s' <- v2_load1 mmap file pos s; v2_load mmap file k (pos + v2_desc_size) s'
  end.

(** ParameterFileIOImpl<kCPU,kV2>::read, ParameterFile.cpp:269-375. *)
Definition v2_read (mmap : bool) (file : list Z) : res store :=
  do magic <- read_uint file 0 4;
  if negb (to_i32 magic =? v2_magic) then RAbort else
  do version <- read_uint file 4 4;
  if negb (to_i32 version =? 2) then RAbort else
  do n <- read_uint file 520 4;
  do base <- read_uint file 524 8;
  v2_load mmap file (Z.to_nat n) base [].
