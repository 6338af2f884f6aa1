(** The request/response service: /repo/mllm/engine/service/Service.{hpp,cpp}, Session.cpp.

    The two pools are monitors: one transition is one critical section (everything between
    locking and unlocking the mutex, where cv.wait counts as unlocking) or one
    notification.  Threads are numbered; [Sleep] is a thread blocked in cv.wait, [Awake]
    one that has been woken and still has to take the mutex.  Spurious wake-ups are
    included.  Simplifications: the payload of a request is an opaque item in the pools;
    in the worker it is reduced to what the code looks at (the members "id" and "model");
    the time stamps are left out. *)
From Verif Require Import Base DTypeModel.
Local Open Scope nat_scope.

Section Pools.
Context {A : Type}.

Definition setl {B} (l : list B) (t : nat) (b : B) : list B := upd_nth t (fun _ => b) l.

(** ** RequestPool, Service.cpp:16-42 *)
Inductive rpc := Out | Notify | NotifyAll | Sleep | Awake.
(** What the callers see: completed pushes, pops with their results, shutdowns. *)
Inductive rev := EvPush (t : nat) (x : A) | EvPop (t : nat) (r : option A) | EvStop (t : nat).
Record rst := mkR { r_q : list A; r_stop : bool; r_pc : list rpc; r_tr : list rev }.
Definition rpc_at (x : rst) (t : nat) (p : rpc) : Prop := nth_error (r_pc x) t = Some p.

(** The critical section of push, lines 17-20 (line 21 is [rs_notify]). *)
Definition r_push (x : rst) (t : nat) (i : A) : rst :=
  mkR (r_q x ++ [i]) (r_stop x) (setl (r_pc x) t Notify) (r_tr x ++ [EvPush t i]).
(** pop, lines 25-32, from taking the mutex to leaving it or to falling asleep. *)
Definition r_check (x : rst) (t : nat) : rst :=
  if (negb (match r_q x with [] => true | _ => false end) || r_stop x)%bool then
    match r_q x with
    | [] => mkR [] (r_stop x) (setl (r_pc x) t Out) (r_tr x ++ [EvPop t None])
    | i :: q => mkR q (r_stop x) (setl (r_pc x) t Out) (r_tr x ++ [EvPop t (Some i)])
    end
  else mkR (r_q x) (r_stop x) (setl (r_pc x) t Sleep) (r_tr x).
(** The critical section of shutdown, lines 36-39. *)
Definition r_shut (x : rst) (t : nat) : rst :=
  mkR (r_q x) true (setl (r_pc x) t NotifyAll) (r_tr x ++ [EvStop t]).
Definition r_set (x : rst) (t : nat) (p : rpc) : rst := mkR (r_q x) (r_stop x) (setl (r_pc x) t p) (r_tr x).
Definition wake (p : rpc) : rpc := match p with Sleep => Awake | _ => p end.
Definition r_wake_all (x : rst) (t : nat) : rst :=
  mkR (r_q x) (r_stop x) (map wake (setl (r_pc x) t Out)) (r_tr x).

(** Threads inside a call go on. *)
Inductive ract : rst -> nat -> rst -> Prop :=
| rs_notify : forall x t u, rpc_at x t Notify -> rpc_at x u Sleep -> ract x t (r_set (r_set x t Out) u Awake)
| rs_notify_none : forall x t, rpc_at x t Notify -> (forall u, ~ rpc_at x u Sleep) -> ract x t (r_set x t Out)
| rs_recheck : forall x t, rpc_at x t Awake -> ract x t (r_check x t)
| rs_notify_all : forall x t, rpc_at x t NotifyAll -> ract x t (r_wake_all x t).
(** Calls begin; a blocked thread may wake up without reason. *)
Inductive ruse : rst -> nat -> rst -> Prop :=
| rs_push : forall x t i, rpc_at x t Out -> ruse x t (r_push x t i)
| rs_pop : forall x t, rpc_at x t Out -> ruse x t (r_check x t)
| rs_shutdown : forall x t, rpc_at x t Out -> ruse x t (r_shut x t)
| rs_spurious : forall x t, rpc_at x t Sleep -> ruse x t (r_set x t Awake).
Definition r_init (n : nat) : rst := mkR [] false (repeat Out n) [].
Inductive rreach (n : nat) : rst -> Prop :=
| rr_init : rreach n (r_init n)
| rr_act : forall x t y, rreach n x -> ract x t y -> rreach n y
| rr_use : forall x t y, rreach n x -> ruse x t y -> rreach n y.

(** ** ResponsePool, Service.cpp:47-72 *)
Variable K : Type.                       (* request ids *)
Variable keq : K -> K -> bool.
Inductive ppc := POut | PSleep (k : K) | PAwake (k : K).
Inductive pev := PvPush (t : nat) (k : K) (x : A) | PvPop (t : nat) (k : K) (r : option A) | PvStop (t : nat).
(** queues_: the ids present, each with its queue. *)
Record pst := mkP { p_map : list (K * list A); p_stop : bool; p_pc : list ppc; p_tr : list pev }.
Definition ppc_at (x : pst) (t : nat) (p : ppc) : Prop := nth_error (p_pc x) t = Some p.
Fixpoint lookup (m : list (K * list A)) (k : K) : option (list A) :=
  match m with [] => None | (k', q) :: r => if keq k' k then Some q else lookup r k end.
(** queues_[k].push(x). *)
Fixpoint map_push (m : list (K * list A)) (k : K) (x : A) : list (K * list A) :=
  match m with [] => [(k, [x])] | (k', q) :: r => if keq k' k then (k', q ++ [x]) :: r else (k', q) :: map_push r k x end.
(** q.pop(); if (q.empty()) erase. *)
Fixpoint map_pop (m : list (K * list A)) (k : K) : list (K * list A) :=
  match m with
  | [] => []
  | (k', q) :: r => if keq k' k then (match tl q with [] => r | q' => (k', q') :: r end) else (k', q) :: map_pop r k
  end.
(** push, lines 47-52: the notification happens with the mutex held. *)
Definition p_set (x : pst) (t : nat) (p : ppc) : pst := mkP (p_map x) (p_stop x) (setl (p_pc x) t p) (p_tr x).
Definition p_push (x : pst) (t : nat) (k : K) (i : A) : pst :=
  mkP (map_push (p_map x) k i) (p_stop x) (p_pc x) (p_tr x ++ [PvPush t k i]).
(** pop, lines 54-66, from taking the mutex on. *)
Definition p_check (x : pst) (t : nat) (k : K) : pst :=
  if p_stop x then mkP (p_map x) true (setl (p_pc x) t POut) (p_tr x ++ [PvPop t k None])
  else match lookup (p_map x) k with
       | Some (i :: _) => mkP (map_pop (p_map x) k) false (setl (p_pc x) t POut) (p_tr x ++ [PvPop t k (Some i)])
       | _ => mkP (p_map x) false (setl (p_pc x) t (PSleep k)) (p_tr x)
       end.
Definition pwake (p : ppc) : ppc := match p with PSleep k => PAwake k | _ => p end.
Definition p_shut (x : pst) (t : nat) : pst :=
  mkP (p_map x) true (map pwake (p_pc x)) (p_tr x ++ [PvStop t]).
Inductive pact : pst -> nat -> pst -> Prop :=
| ps_recheck : forall x t k, ppc_at x t (PAwake k) -> pact x t (p_check x t k).
(** [one]: readers that are inside pop at the same time ask for the same id. *)
Variable one : bool.
Definition polite (x : pst) (k : K) : Prop :=
  one = true -> forall u k', (ppc_at x u (PSleep k') \/ ppc_at x u (PAwake k')) -> k' = k.
Inductive puse : pst -> nat -> pst -> Prop :=
| ps_push : forall x t u k k' i, ppc_at x t POut -> ppc_at x u (PSleep k') ->
    puse x t (p_set (p_push x t k i) u (PAwake k'))
| ps_push_none : forall x t k i, ppc_at x t POut -> (forall u k', ~ ppc_at x u (PSleep k')) ->
    puse x t (p_push x t k i)
| ps_pop : forall x t k, ppc_at x t POut -> polite x k -> puse x t (p_check x t k)
| ps_shutdown : forall x t, ppc_at x t POut -> puse x t (p_shut x t)
| ps_spurious : forall x t k, ppc_at x t (PSleep k) -> puse x t (p_set x t (PAwake k)).
Definition p_init (n : nat) : pst := mkP [] false (repeat POut n) [].
Inductive preach (n : nat) : pst -> Prop :=
| pr_init : preach n (p_init n)
| pr_act : forall x t y, preach n x -> pact x t y -> preach n y
| pr_use : forall x t y, preach n x -> puse x t y -> preach n y.

(** ** Service: start, stop and workerLoop, Service.cpp:96-152 *)
(** A worker: at while (running_); inside pop; with a request; returned. *)
Inductive wpc := WTop | WIn | WGot (x : A) | WExit.
Record sst := mkS { v_pool : rst; v_running : bool; v_w : list wpc; v_done : list (nat * A) }.
Definition w_at (x : sst) (t : nat) (p : wpc) : Prop := nth_error (v_w x) t = Some p.
(** What worker t does next, given what its pop has done. *)
Definition after_pop (x y : rst) (t : nat) : wpc :=
  match skipn (length (r_tr x)) (r_tr y) with
  | [EvPop _ (Some i)] => WGot i
  | [EvPop _ None] => WExit
  | _ => WIn
  end.
Definition v_pop (x : sst) (t : nat) : sst :=
  let y := r_check (v_pool x) t in mkS y (v_running x) (setl (v_w x) t (after_pop (v_pool x) y t)) (v_done x).
Inductive sact : sst -> sst -> Prop :=
| ss_top : forall x t, w_at x t WTop -> v_running x = true -> sact x (v_pop x t)
| ss_top_exit : forall x t, w_at x t WTop -> v_running x = false ->
    sact x (mkS (v_pool x) (v_running x) (setl (v_w x) t WExit) (v_done x))
| ss_recheck : forall x t, w_at x t WIn -> rpc_at (v_pool x) t Awake -> sact x (v_pop x t)
| ss_handle : forall x t i, w_at x t (WGot i) ->
    sact x (mkS (v_pool x) (v_running x) (setl (v_w x) t WTop) (v_done x ++ [(t, i)]))
| ss_client : forall x t y, length (v_w x) <= t -> ract (v_pool x) t y ->
    sact x (mkS y (v_running x) (v_w x) (v_done x)).
Inductive suse : sst -> sst -> Prop :=
| ss_push : forall x t i, length (v_w x) <= t -> rpc_at (v_pool x) t Out ->
    suse x (mkS (r_push (v_pool x) t i) (v_running x) (v_w x) (v_done x))
| ss_shutdown : forall x t, length (v_w x) <= t -> rpc_at (v_pool x) t Out ->
    suse x (mkS (r_shut (v_pool x) t) (v_running x) (v_w x) (v_done x))
(** stop, line 104, after the shutdown of the request pool. *)
| ss_unset : forall x, r_stop (v_pool x) = true -> suse x (mkS (v_pool x) false (v_w x) (v_done x))
| ss_spurious : forall x t, rpc_at (v_pool x) t Sleep -> suse x (mkS (r_set (v_pool x) t Awake) (v_running x) (v_w x) (v_done x)).
(** [w] workers, [n] threads altogether. *)
Definition s_init (w n : nat) : sst := mkS (r_init n) true (repeat WTop w) [].
Inductive sreach (w n : nat) : sst -> Prop :=
| sr_init : sreach w n (s_init w n)
| sr_act : forall x y, sreach w n x -> sact x y -> sreach w n y
| sr_use : forall x y, sreach w n x -> suse x y -> sreach w n y.
End Pools.
Arguments rev : clear implicits.
Arguments rst : clear implicits.
Arguments sst : clear implicits.
Arguments wpc : clear implicits.

(** ** What a worker does with a request, Service.cpp:116-152, 162-205 *)
Definition str := list Z.
(** A member of the request: not there, a string, or another JSON value. *)
Inductive member := Absent | Str (s : str) | Other.
(** What the code looks at: is the JSON text an object; its "id"; its "model". *)
Record payload := mkPay { y_object : bool; y_id : member; y_model : member }.
(** nlohmann::json::value(key, default string): throws ([None]) on a non-object and on a
    member that is not a string. *)
Definition value_str (p : payload) (m : member) (d : str) : option str :=
  if y_object p then match m with Absent => Some d | Str s => Some s | Other => None end else None.
(** sendRequest, lines 162-175: the text is empty, does not parse, or is a payload.  The
    result: the code returned and the request pushed. *)
Inductive text := Empty | Garbage | Json (p : payload).
Definition send_request (t : text) : Z * option (str * payload) :=
  match t with
  | Empty => (-1, None)%Z
  | Garbage => (-1, None)%Z
  | Json p => match value_str p (y_id p) [] with Some i => (0, Some (i, p))%Z | None => (-1, None)%Z end
  end.
(** A session: the callbacks it makes (token, finished), and whether it throws after them. *)
Definition session := payload -> list (str * bool) * bool.
Definition none_name : str := [60; 110; 111; 110; 101; 62]%Z. (* <none> *)
(** Session.cpp:16-25. *)
Definition none_session : session := fun _ =>
  (map (fun i => ([48 + Z.of_nat i]%Z, false)) (seq 0 10) ++ [([], true)], false).
(** SessionPool, Service.cpp:77-88. *)
Definition streq (a b : str) : bool := if list_eq_dec Z.eq_dec a b then true else false.
Fixpoint sess_get (l : list (str * session)) (n : str) : option session :=
  match l with [] => None | (m, s) :: r => if streq m n then Some s else sess_get r n end.
Definition sess_register (l : list (str * session)) (n : str) (s : session) : list (str * session) :=
  match sess_get l n with Some _ => l | None => l ++ [(n, s)] end.
(** A response: token, finished. *)
(** The outcome: the responses pushed under the request's id, and how it ended. *)
Inductive ended := Normally | Threw | Undefined.
Definition handle (l : list (str * session)) (p : payload) : list (str * bool) * ended :=
  match value_str p (y_model p) none_name with
  | None => ([], Threw)
  | Some m =>
    match sess_get l m with
    | None => ([], Undefined)                       (* session->... on a null pointer *)
    | Some s =>
      let '(cb, throws) := s p in
      match cb, y_model p with
      | _ :: _, Absent => ([], Undefined)           (* const req_payload["model"] *)
      | _, _ => (cb, if throws then Threw else Normally)
      end
    end
  end.
(** getResponse, lines 177-204: error flag, finished flag, token. *)
Record reply := mkReply { z_error : bool; z_finished : bool; z_token : option str }.
Definition reply_empty_id : reply := mkReply true true None.
Definition reply_of (r : option (str * bool)) : reply :=
  match r with
  | None => mkReply false false None
  | Some (t, f) => mkReply false f (Some t)
  end.
