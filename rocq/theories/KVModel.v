(** Key/value caches: StaticCache, SubStaticCache and DynamicCache.
    Sources: /repo/mllm/nn/lmcache/{StaticCache,DynamicCache}.{hpp,cpp}.

    Simplifications: CPU device; element-level memory as in TensorModel (element
    types with one element per block); exact integers; the copies of keys and values,
    interleaved in one loop in the source, are done one after the other (they touch
    different buffers); a tensor argument is a value, so a later in-place change of a
    tensor stored by reference in a DynamicCache is not modelled. *)
From Verif Require Import Base DTypeModel ParamModel TensorModel.
Local Open Scope Z_scope.

(* ------------------------------------------------------------------ *)
(** ** StaticCache, eager mode (use_fa2 = false) *)

(** StaticCache.hpp:75-90. *)
Record layer (A : Type) := mkLayer { l_k : buf A; l_v : buf A; l_cnt : Z }.
Arguments mkLayer {A}.
Arguments l_k {A}.
Arguments l_v {A}.
Arguments l_cnt {A}.
Record scache (A : Type) := mkSC { sc_max : Z; sc_q : Z; sc_kv : Z; sc_dim : Z; sc_layers : list (layer A) }.
Arguments mkSC {A}.
Arguments sc_max {A}.
Arguments sc_q {A}.
Arguments sc_kv {A}.
Arguments sc_dim {A}.
Arguments sc_layers {A}.

(** The view of every cache tensor, StaticCache.cpp:46-66: [1, q_heads, max, dim]. *)
Definition eager_shape {A} (c : scache A) : list Z := [1; sc_q c; sc_max c; sc_dim c].
Definition eager_view {A} (c : scache A) : view := mkV (eager_shape c) (default_strides (eager_shape c)) 0.

(** Constructor, StaticCache.cpp:12-67 (Tensor::zeros; [z] is the zero element). *)
Definition static_init {A} (z : A) (max layers q kv dim : Z) : scache A :=
  let b := mkBuf (numel [1; q; max; dim]) (fun _ => Some z) in
  mkSC max q kv dim (repeat (mkLayer b b 0) (Z.to_nat layers)).

(** The copy loop, StaticCache.cpp:98-112 (and 199-214): [cv] is the view of the
    destination tensor, [cnt] the first free row. *)
Definition copy_heads {A} (cv : view) (kv rep dim cnt s : Z) (src : tns A) (dst : buf A) : res (buf A) :=
  zloop kv (fun h b =>
    zloop rep (fun r b =>
      do d <- offsetted cv [0; h * rep + r; cnt; 0];
      do s0 <- offsetted (x_view src) [0; h; 0; 0];
      memcpy (x_buf src) s0 d (s * dim) b) b) dst.

(** updateKVCache, eager branch, StaticCache.cpp:87-134. *)
Definition upto (cnt : Z) : list slice_pair := [mkSl kAll kAll 1; mkSl kAll kAll 1; mkSl kAll cnt 1; mkSl kAll kAll 1].
Definition static_update {A} (c : scache A) (idx : Z) (k v : tns A) : res (scache A * (tns A * tns A)) :=
  do kh <- vget (x_shape k) 1;
  if negb (kh =? sc_kv c) then RAbort else
  do vh <- vget (x_shape v) 1;
  if negb (vh =? sc_kv c) then RAbort else
  do s <- vget (x_shape k) 2;
  if sc_kv c =? 0 then RUB else
  let rep := Z.quot (sc_q c) (sc_kv c) in
  do l <- vget (sc_layers c) idx;
  do kb <- copy_heads (eager_view c) (sc_kv c) rep (sc_dim c) (l_cnt l) s k (l_k l);
  do vb <- copy_heads (eager_view c) (sc_kv c) rep (sc_dim c) (l_cnt l) s v (l_v l);
  let cnt := l_cnt l + s in
  do layers <- vset (sc_layers c) idx (mkLayer kb vb cnt);
  do ks <- slice (mkTns (eager_view c) kb) (upto cnt);
  do vs <- slice (mkTns (eager_view c) vb) (upto cnt);
  ROk (mkSC (sc_max c) (sc_q c) (sc_kv c) (sc_dim c) layers, (ks, vs)).

(** getKVCache, eager branch, StaticCache.cpp:148-154. *)
Definition static_get {A} (c : scache A) (idx : Z) : res (tns A * tns A) :=
  do l <- vget (sc_layers c) idx;
  do ks <- slice (mkTns (eager_view c) (l_k l)) (upto (l_cnt l));
  do vs <- slice (mkTns (eager_view c) (l_v l)) (upto (l_cnt l));
  ROk (ks, vs).

(** setCurrentSeqCnt / clearCache, StaticCache.hpp:45-51; getCurrentSeqCnt,
    StaticCache.cpp:69. *)
Definition static_set_cnt {A} (c : scache A) (n : Z) : scache A :=
  mkSC (sc_max c) (sc_q c) (sc_kv c) (sc_dim c) (map (fun l => mkLayer (l_k l) (l_v l) n) (sc_layers c)).
Definition static_clear {A} (c : scache A) : scache A := static_set_cnt c 0.
Definition static_cnt {A} (c : scache A) (idx : Z) : res Z := do l <- vget (sc_layers c) idx; ROk (l_cnt l).

(** The calls a user makes. *)
Inductive kv_op (A : Type) :=
| KvUpdate (idx : Z) (k v : tns A)
| KvSetCnt (n : Z)
| KvClear.
Arguments KvUpdate {A}.
Arguments KvSetCnt {A}.
Arguments KvClear {A}.
Definition static_step {A} (c : scache A) (o : kv_op A) : res (scache A) :=
  match o with
  | KvUpdate idx k v => do r <- static_update c idx k v; ROk (fst r)
  | KvSetCnt n => ROk (static_set_cnt c n)
  | KvClear => ROk (static_clear c)
  end.
Fixpoint static_run {A} (c : scache A) (ops : list (kv_op A)) : res (scache A) :=
  match ops with
  | [] => ROk c
  | o :: r => do c' <- static_step c o; static_run c' r
  end.

(* ------------------------------------------------------------------ *)
(** ** SubStaticCache: StaticCache.hpp:87-127, StaticCache.cpp:182-238.  The buffers
    are those of the parent; the state is the parent plus one counter per layer. *)
Record subcache (A : Type) := mkSub { sb_parent : scache A; sb_start : Z; sb_len : Z; sb_cnts : list Z }.
Arguments mkSub {A}.
Arguments sb_parent {A}.
Arguments sb_start {A}.
Arguments sb_len {A}.
Arguments sb_cnts {A}.

Definition from_row (start : Z) : list slice_pair := [mkSl kAll kAll 1; mkSl kAll kAll 1; mkSl start kAll 1; mkSl kAll kAll 1].
Definition sub_init {A} (c : scache A) (start len : Z) : subcache A :=
  mkSub c start len (map (fun _ => len) (sc_layers c)).
Definition sub_view {A} (s : subcache A) : res view := slice_view (eager_view (sb_parent s)) (from_row (sb_start s)).
(** A thrown exception is modelled as RAbort: the state is unchanged. *)
Definition sub_update {A} (s : subcache A) (idx : Z) (k v : tns A) : res (subcache A * (tns A * tns A)) :=
  let c := sb_parent s in
  do n <- vget (x_shape k) 2;
  do cnt <- vget (sb_cnts s) idx;
  if sc_max c - sb_start s <? cnt + n then RAbort else
  do kh <- vget (x_shape k) 1;
  if negb (kh =? sc_kv c) then RAbort else
  do vh <- vget (x_shape v) 1;
  if negb (vh =? sc_kv c) then RAbort else
  if sc_kv c =? 0 then RUB else
  let rep := Z.quot (sc_q c) (sc_kv c) in
  do sv <- sub_view s;
  do l <- vget (sc_layers c) idx;
  do kb <- copy_heads sv (sc_kv c) rep (sc_dim c) cnt n k (l_k l);
  do vb <- copy_heads sv (sc_kv c) rep (sc_dim c) cnt n v (l_v l);
  do layers <- vset (sc_layers c) idx (mkLayer kb vb (l_cnt l));
  do cnts <- vset (sb_cnts s) idx (cnt + n);
  do ks <- slice (mkTns sv kb) (upto (cnt + n));
  do vs <- slice (mkTns sv vb) (upto (cnt + n));
  ROk (mkSub (mkSC (sc_max c) (sc_q c) (sc_kv c) (sc_dim c) layers) (sb_start s) (sb_len s) cnts, (ks, vs)).
Definition sub_clear {A} (s : subcache A) : subcache A :=
  mkSub (sb_parent s) (sb_start s) (sb_len s) (map (fun _ => sb_len s) (sb_cnts s)).

(** The calls made on a sub-cache; it does not override setCurrentSeqCnt, and the
    inherited one does nothing (StaticCache.hpp:19). *)
Definition sub_step {A} (s : subcache A) (o : kv_op A) : res (subcache A) :=
  match o with
  | KvUpdate idx k v => do r <- sub_update s idx k v; ROk (fst r)
  | KvSetCnt _ => ROk s
  | KvClear => ROk (sub_clear s)
  end.
Fixpoint sub_run {A} (s : subcache A) (ops : list (kv_op A)) : res (subcache A) :=
  match ops with
  | [] => ROk s
  | o :: r => do s' <- sub_step s o; sub_run s' r
  end.
(** getCurrentSeqCnt, StaticCache.cpp:182. *)
Definition sub_cnt {A} (s : subcache A) (idx : Z) : res Z := vget (sb_cnts s) idx.

(* ------------------------------------------------------------------ *)
(** ** StaticCache with use_fa2 = true: [1, max, kv_heads, dim] *)
Definition fa2_shape {A} (c : scache A) : list Z := [1; sc_max c; sc_kv c; sc_dim c].
Definition fa2_view {A} (c : scache A) : view := mkV (fa2_shape c) (default_strides (fa2_shape c)) 0.
Definition fa2_rows (a b : Z) : list slice_pair := [mkSl kAll kAll 1; mkSl a b 1; mkSl kAll kAll 1; mkSl kAll kAll 1].
(** preGetKVWriteLocation, StaticCache.cpp:157-180, for one of the two buffers: the
    returned tensor [1, s, kv_heads * dim] is a separate storage object whose memory
    is the cache's memory at the slice's first element; modelled as a view of the
    cache's buffer with that offset. *)
Definition fa2_write_location {A} (c : scache A) (b : buf A) (cnt s : Z) : res (tns A) :=
  do w <- slice_view (fa2_view c) (fa2_rows cnt (cnt + s));
  do v <- create_view [1; s; sc_kv c * sc_dim c];
  ROk (mkTns (mkV (v_shape v) (v_stride v) (v_offset w)) b).
Definition fa2_preget {A} (c : scache A) (idx s : Z) : res (scache A * (tns A * tns A)) :=
  do l <- vget (sc_layers c) idx;
  do k <- fa2_write_location c (l_k l) (l_cnt l) s;
  do v <- fa2_write_location c (l_v l) (l_cnt l) s;
  do layers <- vset (sc_layers c) idx (mkLayer (l_k l) (l_v l) (l_cnt l + s));
  ROk (mkSC (sc_max c) (sc_q c) (sc_kv c) (sc_dim c) layers, (k, v)).
(** getKVCache, fa2 branch, StaticCache.cpp:141-146. *)
Definition fa2_get {A} (c : scache A) (idx : Z) : res (tns A * tns A) :=
  do l <- vget (sc_layers c) idx;
  do ks <- slice (mkTns (fa2_view c) (l_k l)) (fa2_rows kAll (l_cnt l));
  do vs <- slice (mkTns (fa2_view c) (l_v l)) (fa2_rows kAll (l_cnt l));
  ROk (ks, vs).

(* ------------------------------------------------------------------ *)
(** ** DynamicCache: DynamicCache.cpp:9-42.  A layer is nil or holds (keys, values). *)
Record dcache (A : Type) := mkDC { dc_q : Z; dc_kv : Z; dc_fa2 : bool; dc_layers : list (option (tns A * tns A)) }.
Arguments mkDC {A}.
Arguments dc_q {A}.
Arguments dc_kv {A}.
Arguments dc_fa2 {A}.
Arguments dc_layers {A}.
Definition dynamic_init {A} (layers q kv : Z) (fa2 : bool) : dcache A :=
  mkDC q kv fa2 (repeat None (Z.to_nat layers)).
Definition dynamic_update {A} (dt : Z) (c : dcache A) (idx : Z) (k v : tns A) : res (dcache A * (tns A * tns A)) :=
  do kh <- vget (x_shape k) 1;
  if negb (kh =? dc_kv c) then RAbort else
  do vh <- vget (x_shape v) 1;
  if negb (vh =? dc_kv c) then RAbort else
  if negb (dc_fa2 c) && (dc_kv c =? 0) then RUB else
  let rep := Z.quot (dc_q c) (dc_kv c) in
  do k <- (if dc_fa2 c then ROk k else repeat_op dt k rep 1);
  do v <- (if dc_fa2 c then ROk v else repeat_op dt v rep 1);
  do l <- vget (dc_layers c) idx;
  do kv <- (match l with
            | None => ROk (k, v)
            | Some (ck, cv) =>
                do k' <- concat_op dt [ck; k] 2;
                do v' <- concat_op dt [cv; v] 2;
                ROk (k', v')
            end);
  do layers <- vset (dc_layers c) idx (Some kv);
  ROk (mkDC (dc_q c) (dc_kv c) (dc_fa2 c) layers, kv).
Fixpoint dynamic_run {A} (dt : Z) (c : dcache A) (ops : list (Z * tns A * tns A)) : res (dcache A) :=
  match ops with
  | [] => ROk c
  | (idx, k, v) :: r => do x <- dynamic_update dt c idx k v; dynamic_run dt (fst x) r
  end.
(** getCurrentSeqCnt, DynamicCache.cpp:37-40. *)
Definition dynamic_cnt {A} (c : dcache A) : res Z :=
  match dc_layers c with
  | Some (k, _) :: _ => vget (x_shape k) 2
  | _ => ROk 0
  end.
