(** Vocabulary for C69-C72: what a traced module computes when it is simply executed. *)
From Coq Require Import String.
From Verif Require Import Base DTypeModel JitModel.
Local Open Scope Z_scope.

(** One operator: what it is (type and options, layer name), the tensors it reads and the tensors it makes. *)
Record kernel_call := mkCall { c_kernel : Z; c_name : string; c_ins : list Z; c_outs : list Z }.
(** The operators of a forward pass, in the order of their execution, whatever module they belong to. *)
Fixpoint kernels (s : step) : list kernel_call :=
  match s with
  | Kernel k name _ ins outs => [mkCall k name ins outs]
  | Note => []
  | Call _ _ body _ => flat_map kernels body
  end.
(** Every call of a module instance (the first one is the module itself). *)
Fixpoint instances (s : step) : list Z :=
  match s with Call inst _ body _ => inst :: flat_map instances body | _ => [] end.

Section Direct.
Context {T S : Type} (exec : Z * string -> list T -> S -> res (list T * S)).
(** tensor outs[i] becomes results[i] *)
Fixpoint bound (outs : list Z) (results : list T) (env : Z -> T) : Z -> T :=
  match outs, results with
  | v :: outs, t :: results => bound outs results (fun x => if x =? v then t else env x)
  | _, _ => env
  end.
(** Executing the operators one after the other; an operator makes as many tensors as when it was traced. *)
Fixpoint perform (l : list kernel_call) (env : Z -> T) (heap : S) : res ((Z -> T) * S) :=
  match l with
  | [] => ROk (env, heap)
  | c :: r =>
      match exec (c_kernel c, c_name c) (map env (c_ins c)) heap with
      | ROk (results, heap) =>
          if Nat.eqb (List.length results) (List.length (c_outs c)) then perform r (bound (c_outs c) results env) heap else RAbort
      | RAbort => RAbort | RUB => RUB | RDiverge => RDiverge
      end
  end.
(** A forward pass: [before] holds the tensors that exist already (buffers, constants, parameters). *)
Definition forward (before : Z -> T) (ins : list Z) (l : list kernel_call) (outs : list Z) (inputs : list T) (heap : S) : res (list T * S) :=
  match perform l (bound ins inputs before) heap with
  | ROk (env, heap) => ROk (map env outs, heap)
  | RAbort => RAbort | RUB => RUB | RDiverge => RDiverge
  end.
(** several forward passes, one after the other *)
Fixpoint forwards (before : Z -> T) (ins : list Z) (l : list kernel_call) (outs : list Z) (history : list (list T)) (heap : S)
  : res (list (list T) * S) :=
  match history with
  | [] => ROk ([], heap)
  | inputs :: more =>
      match forward before ins l outs inputs heap with
      | ROk (r, heap) =>
          match forwards before ins l outs more heap with
          | ROk (rs, heap) => ROk (r :: rs, heap)
          | e => e
          end
      | RAbort => RAbort | RUB => RUB | RDiverge => RDiverge
      end
  end.
(** several runs of the compiled program, one after the other *)
Fixpoint run_all (nil : T) (fuel : nat) (history : list (list T)) (x : interp) (heap : S) : res (list (list T) * interp * S) :=
  match history with
  | [] => ROk ([], x, heap)
  | inputs :: more =>
      match run nil exec fuel inputs x heap with
      | ROk (r, x, heap) =>
          match run_all nil fuel more x heap with
          | ROk (rs, x, heap) => ROk (r :: rs, x, heap)
          | e => e
          end
      | RAbort => RAbort | RUB => RUB | RDiverge => RDiverge
      end
  end.
End Direct.

(** v is the last tensor of the list on its storage. *)
Definition last_on (storage : Z -> Z) (v : Z) (l : list Z) : Prop :=
  exists l1 l2, l = l1 ++ v :: l2 /\ ~ In (storage v) (map storage l2).
(** Every tensor is read (by an operator, or as a result) before another tensor on the same storage is made.  [held]: the tensors
    which are the newest ones on their storage. *)
Fixpoint reads_newest (storage : Z -> Z) (held : Z -> Prop) (l : list kernel_call) (outs : list Z) : Prop :=
  match l with
  | [] => forall v, In v outs -> held v
  | c :: r =>
      (forall v, In v (c_ins c) -> held v) /\
      reads_newest storage (fun v => last_on storage v (c_outs c) \/ (held v /\ ~ In (storage v) (map storage (c_outs c)))) r outs
  end.
(** before the first operator: the inputs, and the constants *)
Definition at_start {T} (storage : Z -> Z) (value : Z -> option T) (ins : list Z) (v : Z) : Prop :=
  last_on storage v ins \/ (value (storage v) <> None /\ ~ In (storage v) (map storage ins)).
(** A layer name stands for one operator. *)
Definition names_consistent (l : list kernel_call) : Prop :=
  forall c d, In c l -> In d l -> c_name c = c_name d -> c_name c <> ""%string -> c_kernel c = c_kernel d.
(** Module instances have different names, none of them reserved, and each is called once. *)
Definition well_named (names : Z -> string) (main : step) : Prop :=
  NoDup (map names (instances main)) /\
  forall n, In n (map names (instances main)) -> n <> "init"%string /\ n <> "deinit"%string /\ n <> "op_symbol_table"%string.
(** some operator reads from storage u; some operator makes a tensor on it *)
Definition reads (storage : Z -> Z) (l : list kernel_call) (u : Z) : Prop := exists c v, In c l /\ In v (c_ins c) /\ storage v = u.
Definition makes (storage : Z -> Z) (l : list kernel_call) (u : Z) : Prop := exists c v, In c l /\ In v (c_outs c) /\ storage v = u.
(** a storage is registered as constant when its data is known *)
Definition is_constant {T} (value : Z -> option T) (u : Z) : bool := match value u with Some _ => true | None => false end.
(** the subgraphs of a module, in order *)
Fixpoint subgraph_names (m : list top) : list string :=
  match m with [] => [] | SubGraph n _ :: r => n :: subgraph_names r | _ :: r => subgraph_names r end.
(** Instances that share a name: the first keeps it, the k-th after it gets _k. *)
Definition numbered_name (n : string) (c : Z) : string := if c =? 0 then n else (n ++ "_" ++ decimal c)%string.
Definition carrying (names : Z -> string) (n : string) (earlier : list Z) : Z :=
  Z.of_nat (List.length (filter (fun i => String.eqb (names i) n) earlier)).
Fixpoint expected_names (names : Z -> string) (earlier l : list Z) : list string :=
  match l with
  | [] => []
  | i :: r => numbered_name (names i) (carrying names (names i) earlier) :: expected_names names (earlier ++ [i]) r
  end.
(** Each instance is called once, no name is reserved and none is a numbered version of another. *)
Definition separable_names (names : Z -> string) (main : step) : Prop :=
  NoDup (instances main) /\
  forall i, In i (instances main) ->
    names i <> "init"%string /\ names i <> "deinit"%string /\
    forall j k, In j (instances main) -> 0 < k -> names i <> numbered_name (names j) k.
