(** Reference-counted handles: /repo/mllm/utils/IntrusivePtr.hpp.

    Any number of threads work on a table of handle locations.  One transition is one
    action of one thread that other threads can observe: storing a handle's pointer, one
    fetch_add or fetch_sub on a counter, one delete.  Simplifications: the counter is a
    sequentially consistent atomic and an exact integer (int64_t in the code; 2^63 handles
    would be needed to wrap it); the constructor and destructor of the object itself do
    nothing with handles; std::swap of two handles nobody else uses is one action.  The
    language's rule on data races is part of the model: an operation starts only when no
    operation in flight writes a handle it reads, and none reads or writes a handle it
    writes. *)
From Verif Require Import Base.
Local Open Scope Z_scope.

(** A handle location: no handle constructed there, a null handle, or a handle to an
    object (the member ptr, line 125). *)
Inductive hcell := HDead | HNull | HPtr (o : nat).
(** A T* : line 40-44. *)
Definition of_ptr (p : option nat) : hcell :=
  match p with None => HNull | Some o => HPtr o end.

(** What a freshly built handle is for: it is the handle at location h (constructors), or
    it is the temporary of [IntrusivePtr(...).swap( *this)] with *this at h (lines 66-95). *)
Inductive goal := GCtor (h : nat) | GAssign (h : nat).
Definition target (k : goal) : nat := match k with GCtor h => h | GAssign h => h end.

(** Where a thread is inside an operation. *)
Inductive tstate :=
| TIdle
| TAdding (o : nat) (src : option nat) (k : goal) (* ptr(p) done, intrusive_ptr_add_ref to come; read from handle src, or from new *)
| THolding (p : option nat) (k : goal)            (* the new handle is complete *)
| TReleasing (o : nat)                            (* ~IntrusivePtr, lines 62-64: fetch_sub to come *)
| TDeleting (o : nat).                            (* line 26: fetch_sub returned 1, delete this to come *)

(** Handles an operation in flight still reads, and writes. *)
Definition treads (x : tstate) : list nat :=
  match x with TAdding _ (Some g) _ => [g] | _ => [] end.
Definition twrites (x : tstate) : list nat :=
  match x with TAdding _ _ k => [target k] | THolding _ k => [target k] | _ => [] end.

Record pst := mkP {
  p_cell : list hcell;
  p_cnt : nat -> Z;        (* ref_count of every object, line 32 *)
  p_live : nat -> bool;    (* allocated and not deleted *)
  p_dels : nat -> nat;     (* how often the object was deleted *)
  p_next : nat;            (* objects below this one have been allocated *)
  p_thr : list tstate;
  p_bad : bool             (* a deleted object was touched or deleted again *)
}.

Fixpoint lset {A} (n : nat) (x : A) (l : list A) : list A :=
  match l, n with
  | [], _ => []
  | _ :: r, O => x :: r
  | y :: r, Datatypes.S m => y :: lset m x r
  end.
Definition fset {A} (f : nat -> A) (o : nat) (x : A) : nat -> A :=
  fun i => if (i =? o)%nat then x else f i.

Definition set_thr (t : nat) (x : tstate) (s : pst) : pst :=
  mkP (p_cell s) (p_cnt s) (p_live s) (p_dels s) (p_next s) (lset t x (p_thr s)) (p_bad s).
Definition set_cell (h : nat) (c : hcell) (s : pst) : pst :=
  mkP (lset h c (p_cell s)) (p_cnt s) (p_live s) (p_dels s) (p_next s) (p_thr s) (p_bad s).
(** Lines 23 and 26: the counter of o changes by d; touching a deleted object is an error. *)
Definition fetch (o : nat) (d : Z) (s : pst) : pst :=
  mkP (p_cell s) (fset (p_cnt s) o (p_cnt s o + d)) (p_live s) (p_dels s) (p_next s) (p_thr s)
      (p_bad s || negb (p_live s o)).
(** Line 26: delete this. *)
Definition delete (o : nat) (s : pst) : pst :=
  mkP (p_cell s) (p_cnt s) (fset (p_live s) o false) (fset (p_dels s) o (Datatypes.S (p_dels s o))) (p_next s)
      (p_thr s) (p_bad s || negb (p_live s o)).
(** new T(...), line 150 and 17: a new object with counter 0. *)
Definition alloc (s : pst) : pst :=
  mkP (p_cell s) (fset (p_cnt s) (p_next s) 0) (fset (p_live s) (p_next s) true) (p_dels s)
      (Datatypes.S (p_next s)) (p_thr s) (p_bad s).

Definition cell_of (s : pst) (h : nat) : option hcell := nth_error (p_cell s) h.
(** get(), line 99, of a constructed handle. *)
Definition get (s : pst) (h : nat) : option (option nat) :=
  match cell_of s h with
  | Some HNull => Some None
  | Some (HPtr o) => Some (Some o)
  | _ => None
  end.

(** The data race rule. *)
Definition unused (s : pst) (h : nat) : Prop :=
  forall t x, nth_error (p_thr s) t = Some x -> ~ In h (treads x) /\ ~ In h (twrites x).
Definition readable (s : pst) (g : nat) : Prop :=
  forall t x, nth_error (p_thr s) t = Some x -> ~ In g (twrites x).

(** The state of a thread that builds a handle from the pointer p read from handle g:
    lines 42-48, 52-55: [if (ptr) add_ref]. *)
Definition building (p : option nat) (g : nat) (k : goal) : tstate :=
  match p with None => THolding None k | Some o => TAdding o (Some g) k end.
(** ~IntrusivePtr of a handle with pointer p, lines 62-64. *)
Definition dropping (p : option nat) : tstate :=
  match p with None => TIdle | Some o => TReleasing o end.

(** One transition of thread t.  [conv] permits the converting move constructor. *)
Inductive pstep (conv : bool) (t : nat) (s : pst) : pst -> Prop :=
(* IntrusivePtr(), line 40 *)
| p_default : forall h, nth_error (p_thr s) t = Some TIdle -> unused s h -> cell_of s h = Some HDead ->
    pstep conv t s (set_cell h HNull s)
(* make_intrusive, lines 148-151, and reset(new T), p = new T, lines 88-95 *)
| p_make : forall h, nth_error (p_thr s) t = Some TIdle -> unused s h -> cell_of s h = Some HDead ->
    pstep conv t s (set_thr t (TAdding (p_next s) None (GCtor h)) (alloc s))
| p_renew : forall h p, nth_error (p_thr s) t = Some TIdle -> unused s h -> get s h = Some p ->
    pstep conv t s (set_thr t (TAdding (p_next s) None (GAssign h)) (alloc s))
(* IntrusivePtr(const IntrusivePtr&), IntrusivePtr(const IntrusivePtr<U>&), IntrusivePtr(g.get()): lines 42-48, 52-55 *)
| p_copy : forall h g p, nth_error (p_thr s) t = Some TIdle -> unused s h -> cell_of s h = Some HDead ->
    readable s g -> get s g = Some p ->
    pstep conv t s (set_thr t (building p g (GCtor h)) s)
(* operator=(const IntrusivePtr&), (const IntrusivePtr<U>&), (g.get()): lines 66-69, 76-80, 88-91; h = g allowed *)
| p_copy_assign : forall h q g p, nth_error (p_thr s) t = Some TIdle -> unused s h -> get s h = Some q ->
    readable s g -> get s g = Some p ->
    pstep conv t s (set_thr t (building p g (GAssign h)) s)
(* IntrusivePtr(IntrusivePtr&&), line 50 *)
| p_move : forall h g p, nth_error (p_thr s) t = Some TIdle -> unused s h -> cell_of s h = Some HDead ->
    unused s g -> get s g = Some p ->
    pstep conv t s (set_cell g HNull (set_cell h (of_ptr p) s))
(* operator=(IntrusivePtr&&), lines 71-74: the temporary takes g's pointer; h = g allowed *)
| p_move_assign : forall h q g p, nth_error (p_thr s) t = Some TIdle -> unused s h -> get s h = Some q ->
    unused s g -> get s g = Some p ->
    pstep conv t s (set_thr t (THolding p (GAssign h)) (set_cell g HNull s))
(* reset(), line 93 *)
| p_reset : forall h q, nth_error (p_thr s) t = Some TIdle -> unused s h -> get s h = Some q ->
    pstep conv t s (set_thr t (THolding None (GAssign h)) s)
(* swap, lines 97, 128-131 *)
| p_swap : forall h q g p, nth_error (p_thr s) t = Some TIdle -> unused s h -> get s h = Some q ->
    unused s g -> get s g = Some p ->
    pstep conv t s (set_cell g (of_ptr q) (set_cell h (of_ptr p) s))
(* ~IntrusivePtr, lines 62-64 *)
| p_destroy : forall h q, nth_error (p_thr s) t = Some TIdle -> unused s h -> get s h = Some q ->
    pstep conv t s (set_thr t (dropping q) (set_cell h HDead s))
(* IntrusivePtr(IntrusivePtr<U>&&), lines 57-60: ptr(other.get()), no add_ref, then other.reset() *)
| p_conv_move : forall h g p, conv = true ->
    nth_error (p_thr s) t = Some TIdle -> unused s h -> cell_of s h = Some HDead ->
    unused s g -> get s g = Some p ->
    pstep conv t s (set_thr t (dropping p) (set_cell g HNull (set_cell h (of_ptr p) s)))
(* intrusive_ptr_add_ref, line 23 *)
| p_add : forall o src k, nth_error (p_thr s) t = Some (TAdding o src k) ->
    pstep conv t s (set_thr t (THolding (Some o) k) (fetch o 1 s))
(* a constructor is done: the handle exists *)
| p_done : forall p h, nth_error (p_thr s) t = Some (THolding p (GCtor h)) ->
    pstep conv t s (set_thr t TIdle (set_cell h (of_ptr p) s))
(* swap( *this), then the temporary, with the old pointer of *this, is destroyed: lines 66-95, 62-64 *)
| p_swapped : forall p h q, nth_error (p_thr s) t = Some (THolding p (GAssign h)) -> get s h = Some q ->
    pstep conv t s (set_thr t (dropping q) (set_cell h (of_ptr p) s))
(* intrusive_ptr_release, lines 25-27 *)
| p_sub : forall o, nth_error (p_thr s) t = Some (TReleasing o) ->
    pstep conv t s (set_thr t (if p_cnt s o =? 1 then TDeleting o else TIdle) (fetch o (-1) s))
| p_delete : forall o, nth_error (p_thr s) t = Some (TDeleting o) ->
    pstep conv t s (set_thr t TIdle (delete o s)).

(** n handle locations, m threads, nothing constructed. *)
Definition pinit (n m : nat) : pst :=
  mkP (repeat HDead n) (fun _ => 0) (fun _ => false) (fun _ => O) O (repeat TIdle m) false.
Inductive prun (conv : bool) (n m : nat) : pst -> Prop :=
| pr_init : prun conv n m (pinit n m)
| pr_step : forall s t s', prun conv n m s -> pstep conv t s s' -> prun conv n m s'.

(** use_count(), lines 29, 113. *)
Definition use_count (s : pst) (h : nat) : option Z :=
  match get s h with
  | None => None
  | Some None => Some 0
  | Some (Some o) => Some (p_cnt s o)
  end.
