(** The thread pool of the CPU kernels: /repo/mllm/engine/HpcThreadPool.{hpp,cpp}.

    The pool is a transition system; one transition is one action of one thread that
    other threads can observe (one flag written or read, one call of the loop body).
    Flags and counters are sequentially consistent atomics.  Simplifications: int
    arithmetic is exact; the caller that uses slot s is one thread per slot (the second
    caller of the same slot is [st_intrude]); destruction of the pool and thread binding
    are left out; deactivate, idle, wakeup and activate appear as "the number of
    available slots becomes any number, at any time". *)
From Verif Require Import Base DTypeModel.
Local Open Scope Z_scope.

(** HpcThreadPool.hpp:21-30. *)
Record task := mkTask { t_start : Z; t_end : Z; t_step : Z }.

(** for (int i = start; i < end; i += step): the values of i. *)
Fixpoint serial_loop (fuel : nat) (i e st : Z) : list Z :=
  match fuel with
  | O => []
  | S f => if i <? e then i :: serial_loop f (i + st) e st else []
  end.
Definition serial (tk : task) : list Z :=
  serial_loop (Z.to_nat (t_end tk - t_start tk)) (t_start tk) (t_end tk) (t_step tk).
(** for (int v = thread_idx; v < tiles_num; v += thread_cnt_). *)
Fixpoint stride (fuel v n tc : nat) : list nat :=
  match fuel with
  | O => []
  | S f => if (v <? n)%nat then v :: stride f (v + tc) n tc else []
  end.
(** The function object put into the slot, lines 96-113: number of tiles, true_idx,
    strided or direct. *)
Record job := mkJob { j_tiles : nat; j_idx : list Z; j_strided : bool }.
Definition calls (tc : nat) (j : job) (thread : nat) : list Z :=
  if j_strided j then map (fun v => nth v (j_idx j) 0) (stride (j_tiles j) thread (j_tiles j) tc)
  else [nth thread (j_idx j) 0].
Inductive plan := Serial (l : list Z) | Parallel (j : job) (width : nat).
Definition TASK_LIMITS : Z := 2.
(** push, lines 8-19, and the first part of splitTask, lines 78-115. *)
Definition serial_plan (tk : task) : res plan :=
  if (t_step tk <? 0) && (t_start tk <? t_end tk) then RUB (* i decreases until it overflows *)
  else ROk (Serial (serial tk)).
Definition push_plan (tc : nat) (avail slot : Z) (tk : task) : res plan :=
  if t_step tk =? 0 then RUB
  else
    let tiles := Z.quot (t_end tk - t_start tk) (t_step tk) in
    if (tiles <=? 1) || (slot <? 0) then serial_plan tk
    else if avail =? 0 then serial_plan tk
    else if TASK_LIMITS <=? slot then RUB
    else
      let idx := if t_step tk <? 0 then [] else serial tk in
      if tiles <? Z.of_nat (length idx) then RUB (* true_idx[_cnt++] beyond the vector *)
      else
        let v := idx ++ repeat 0 (Z.to_nat tiles - length idx) in
        if Z.of_nat tc <? tiles then
          if (tc =? 0)%nat then RDiverge (* v += 0 *)
          else ROk (Parallel (mkJob (Z.to_nat tiles) v true) tc)
        else ROk (Parallel (mkJob (Z.to_nat tiles) v false) (Z.to_nat tiles)).

(** ** The threads *)
(** The caller: before and after a push; setting the flags (lines 116-118); calling
    func(0) (line 123); waiting (lines 126-136). *)
Inductive ppc := PIdle | PSet (i w : nat) | PRun (rest : list Z) (w : nat) | PWait (i w : nat).
(** A worker (lines 154-167): at the test of available_task_slots_; at the test of the
    flag of slot s; inside func; about to clear the flag. *)
Inductive wpc := WGate | WPoll (s : nat) | WRun (s : nat) (rest : list Z) | WClear (s : nat).
Inductive event := EvBegin (s : nat) (tk : task) | EvCall (s : nat) (i : Z) | EvEnd (s : nat).
Record st := mkSt {
  s_avail : Z;
  s_job : nat -> job;
  s_flag : nat -> nat -> bool;
  s_pc : nat -> ppc;
  s_wk : nat -> wpc;
  s_trace : list event;
  s_raced : bool }.
Definition upd {A} (f : nat -> A) (k : nat) (v : A) : nat -> A := fun x => if (x =? k)%nat then v else f x.
Definition upd2 {A} (f : nat -> nat -> A) (k l : nat) (v : A) : nat -> nat -> A :=
  fun x y => if (x =? k)%nat && (y =? l)%nat then v else f x y.
Definition next_slot (s : nat) : wpc := if (S s <? Z.to_nat TASK_LIMITS)%nat then WPoll (S s) else WGate.
Definition set_pc (x : st) (s : nat) (p : ppc) : st :=
  mkSt (s_avail x) (s_job x) (s_flag x) (upd (s_pc x) s p) (s_wk x) (s_trace x) (s_raced x).
Definition set_wk (x : st) (t : nat) (p : wpc) : st :=
  mkSt (s_avail x) (s_job x) (s_flag x) (s_pc x) (upd (s_wk x) t p) (s_trace x) (s_raced x).
Definition set_flag (x : st) (s t : nat) (b : bool) : st :=
  mkSt (s_avail x) (s_job x) (upd2 (s_flag x) s t b) (s_pc x) (s_wk x) (s_trace x) (s_raced x).
Definition set_job (x : st) (s : nat) (j : job) : st :=
  mkSt (s_avail x) (upd (s_job x) s j) (s_flag x) (s_pc x) (s_wk x) (s_trace x) (s_raced x).
Definition set_avail (x : st) (a : Z) : st :=
  mkSt a (s_job x) (s_flag x) (s_pc x) (s_wk x) (s_trace x) (s_raced x).
Definition emit (x : st) (e : event) : st :=
  mkSt (s_avail x) (s_job x) (s_flag x) (s_pc x) (s_wk x) (s_trace x ++ [e]) (s_raced x).
(** The constructor, lines 138-169. *)
Definition init : st := mkSt 0 (fun _ => mkJob 0 [] false) (fun _ _ => false) (fun _ => PIdle) (fun _ => WGate) [] false.

Section Pool.
Variable tc : nat.            (* thread_cnt_ *)
(** Only one caller uses a slot at a time. *)
Variable exclusive : bool.

(** What the threads do by themselves. *)
Inductive act : st -> st -> Prop :=
| st_set : forall x s i w, s_pc x s = PSet i w -> (i < w)%nat ->
    act x (set_pc (set_flag x s i true) s (PSet (S i) w))
| st_set_done : forall x s i w, s_pc x s = PSet i w -> (w <= i)%nat ->
    act x (set_pc x s (PRun (calls tc (s_job x s) 0) w))
| st_run : forall x s i r w, s_pc x s = PRun (i :: r) w ->
    act x (emit (set_pc x s (PRun r w)) (EvCall s i))
| st_run_done : forall x s w, s_pc x s = PRun [] w -> act x (set_pc x s (PWait 1 w))
| st_wait_busy : forall x s i w, s_pc x s = PWait i w -> (i < w)%nat -> s_flag x s i = true ->
    act x (set_pc x s (PWait 1 w))
| st_wait_next : forall x s i w, s_pc x s = PWait i w -> (i < w)%nat -> s_flag x s i = false ->
    act x (set_pc x s (PWait (S i) w))
| st_end : forall x s i w, s_pc x s = PWait i w -> (w <= i)%nat ->
    act x (emit (set_pc x s PIdle) (EvEnd s))
| st_gate : forall x t, (1 <= t < tc)%nat -> s_wk x t = WGate -> 0 < s_avail x -> act x (set_wk x t (WPoll 0))
| st_poll_yes : forall x t s, (1 <= t < tc)%nat -> s_wk x t = WPoll s -> s_flag x s t = true ->
    act x (set_wk x t (WRun s (calls tc (s_job x s) t)))
| st_poll_no : forall x t s, (1 <= t < tc)%nat -> s_wk x t = WPoll s -> s_flag x s t = false ->
    act x (set_wk x t (next_slot s))
| st_work : forall x t s i r, (1 <= t < tc)%nat -> s_wk x t = WRun s (i :: r) ->
    act x (emit (set_wk x t (WRun s r)) (EvCall s i))
| st_work_done : forall x t s, (1 <= t < tc)%nat -> s_wk x t = WRun s [] -> act x (set_wk x t (WClear s))
| st_clear : forall x t s, (1 <= t < tc)%nat -> s_wk x t = WClear s ->
    act x (set_flag (set_wk x t (next_slot s)) s t false).
(** What the users of the pool do. *)
Inductive use : st -> st -> Prop :=
| st_begin_serial : forall x s tk l, s_pc x s = PIdle -> 0 < t_step tk ->
    push_plan tc (s_avail x) (Z.of_nat s) tk = ROk (Serial l) ->
    use x (emit (set_pc x s (PRun l 1)) (EvBegin s tk))
| st_begin : forall x s tk j w, s_pc x s = PIdle -> 0 < t_step tk ->
    push_plan tc (s_avail x) (Z.of_nat s) tk = ROk (Parallel j w) ->
    use x (emit (set_pc (set_job x s j) s (PSet 1 w)) (EvBegin s tk))
| st_avail : forall x a, use x (set_avail x a)
(** A second caller of slot s assigns the function object while a worker is inside it. *)
| st_intrude : forall x s t r, exclusive = false -> s_wk x t = WRun s r -> s_pc x s <> PIdle ->
    use x (mkSt (s_avail x) (s_job x) (s_flag x) (s_pc x) (s_wk x) (s_trace x) true).
Definition step (x y : st) : Prop := act x y \/ use x y.
Inductive reach : st -> Prop :=
| r_init : reach init
| r_step : forall x y, reach x -> step x y -> reach y.
(** A finite run without any action of the users. *)
Inductive acts : st -> st -> Prop :=
| as_nil : forall x, acts x x
| as_cons : forall x y z, act x y -> acts y z -> acts x z.
End Pool.

(** ** Slots: acquireTaskSlot and releaseTaskSlot, lines 51-66 *)
Fixpoint first_free (l : list bool) (i : Z) : Z * list bool :=
  match l with
  | [] => (-1, [])
  | true :: r => (i, false :: r)
  | false :: r => let '(k, r') := first_free r (i + 1) in (k, false :: r')
  end.
Definition acquire (l : list bool) : Z * list bool := first_free l 0.
Definition release (l : list bool) (s : Z) : list bool :=
  if (s <? 0) || (TASK_LIMITS <=? s) then l else upd_nth (Z.to_nat s) (fun _ => true) l.
Definition slots0 : list bool := repeat true (Z.to_nat TASK_LIMITS).
