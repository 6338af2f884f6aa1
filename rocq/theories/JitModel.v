(** Tracing a module, the compiler passes and the interpreter of compiled programs.
    Sources, all under /repo/mllm: nn/Module.cpp, compile/ir/{Node.hpp,Node.cpp,Trace.cpp}, compile/ir/tensor/Value.hpp,
    compile/passes/*.cpp, compile/jit/binary/IRSerialization.cpp, compile/jit/interpreter/IRInterpreter.cpp.

    Simplifications: a tensor in the hands of the interpreter is an abstract handle of type T, [nil] being the default-constructed
    Tensor; kernels are arbitrary functions on handles and a heap of type S (so in-place kernels and caches are covered; the
    release of storage when the last handle disappears is not).  A node occurs once in a region, so that std::find finds the node
    under the iterator.  The symbol table is a search in the module's region; the order in which ExtractConstantTensorPass
    registers constants (by address) is the order of first use; program counters and offsets are integers without bound.
    The static and the eager mode of the interpreter run the same code (IRInterpreter.cpp:340-440), the mode is left out. *)
From Coq Require Import String DecimalString.
From Verif Require Import Base DTypeModel.
Local Open Scope Z_scope.

(* ---------------- a forward pass, as the tracer sees it ---------------- *)
(** [Kernel]: an operator [k] (type and options) with its layer name ("" if none) on a device, input and output tensors;
    [Note]: lowlevel::traceComment; [Call]: another module instance is called. *)
Inductive step :=
  | Kernel (k : Z) (name : string) (dev : Z) (ins outs : list Z)
  | Note
  | Call (inst : Z) (ins : list Z) (body : list step) (outs : list Z).

(* ---------------- IR ---------------- *)
(** Tensors of the IR are named by the uuid of their storage (core/TensorViewImpl.cpp:18, IRSerialization.cpp:164, 197-202). *)
Inductive op :=
  | Linalg (k : Z) (name : string) (dev : Z) (ins outs : list Z)
  | LinalgRegister (name : string)
  | TensorRegister (u : Z)
  | TensorFree (u : Z)
  | Return
  | CallGraph (callee : string) (ins outs : list Z)
  | Comment
  (* program dialect *)
  | Launch (k : Z) (sym : option string) (dev : option Z) (ins outs : list Z)
  | Free (u : Z)
  | Label (name : string)
  | Jump (label : string) (offset : option Z)
  | Ret
  | Exit
  | Bind (pos u : Z) (input : bool)
  | ModeConfig
  | KernelSymbol (name : string) (k : Z)
  | ValueSymbol (u : Z).
Definition is_program (o : op) : bool :=
  match o with
  | Launch _ _ _ _ _ | Free _ | Label _ | Jump _ _ | Ret | Exit | Bind _ _ _ | ModeConfig | KernelSymbol _ _ | ValueSymbol _ => true
  | _ => false
  end.
(** The module's region: operators, subgraphs and fragments with their regions (Module.cpp:157-160 puts every subgraph there). *)
Inductive top := Leaf (o : op) | SubGraph (name : string) (body : list op) | Fragment (name : string) (body : list op).

(* ---------------- tracing ---------------- *)
(** IRContext::module_name_counters_ and the absolute names of the module instances. *)
Record naming := mkNaming { n_counter : string -> Z; n_name : Z -> string }.
Definition sset {A} (f : string -> A) (k : string) (v : A) : string -> A := fun x => if String.eqb x k then v else f x.
Definition zset {A} (f : Z -> A) (k : Z) (v : A) : Z -> A := fun x => if x =? k then v else f x.
Definition decimal (n : Z) : string := NilEmpty.string_of_uint (N.to_uint (Z.to_N n)).
(** IRContext::getUniqueModuleName, Node.cpp:223-231, and the renaming of the instance, Module.cpp:150-152. *)
Definition unique_name (inst : Z) (st : naming) : string * naming :=
  let base := n_name st inst in
  let c := n_counter st base in
  if c =? 0 then (base, mkNaming (sset (n_counter st) base 1) (zset (n_name st) inst base))
  else
    let unique := (base ++ "_" ++ decimal c)%string in
    (unique, mkNaming (sset (n_counter st) base (c + 1)) (zset (n_name st) inst unique)).
Section Trace.
(** uuid of the storage of a tensor *)
Variable uuid : Z -> Z.
(** Tensors in IR form: wrapTensors2TensorIR, tensor/Value.hpp:43-56 (one value per storage). *)
Definition ir (l : list Z) : list Z := map uuid l.
(** The operators a step puts into the current region, and the subgraphs it appends to the module's region: BaseOp::trace
    and Module::__trace, Module.cpp:146-203. *)
Fixpoint trace_step (s : step) (st : naming) : list op * list (string * list op) * naming :=
  match s with
  | Kernel k name dev ins outs => ([Linalg k name dev (ir ins) (ir outs)], [], st)
  | Note => ([Comment], [], st)
  | Call inst ins body outs =>
      let '(name, st) := unique_name inst st in
      let '(ops, graphs, st) :=
        (fix trace_steps (l : list step) (st : naming) : list op * list (string * list op) * naming :=
           match l with
           | [] => ([], [], st)
           | s :: r =>
               let '(o1, g1, st) := trace_step s st in
               let '(o2, g2, st) := trace_steps r st in
               (o1 ++ o2, g1 ++ g2, st)
           end) body st in
      ([CallGraph name (ir ins) (ir outs)], (name, ops ++ [Return]) :: graphs, st)
  end.
End Trace.
(** trace_, Trace.cpp:15-50: the graphs init and deinit, then the call of the module and its subgraphs; [params]: the parameter
    tensors that the operators register in init while they are traced (e.g. aops/LinearOp.cpp:66-80). *)
Definition trace (uuid : Z -> Z) (names : Z -> string) (params : list Z) (main : step) : list top :=
  let '(ops, graphs, _) := trace_step uuid main (mkNaming (fun _ => 0) names) in
  SubGraph "init" (map TensorRegister params) :: SubGraph "deinit" [] :: map Leaf ops ++ map (fun g => SubGraph (fst g) (snd g)) graphs.

(* ---------------- passes ---------------- *)
Definition reserved (name : string) : bool :=
  (String.eqb name "init" || String.eqb name "deinit" || String.eqb name "op_symbol_table")%bool.
(** walk over the operators of one region that replaces operators in place *)
Definition in_graphs (f : op -> op) (m : list top) : list top :=
  map (fun t => match t with SubGraph n b => SubGraph n (map f b) | _ => t end) m.
Definition in_module (f : op -> op) (m : list top) : list top :=
  map (fun t => match t with Leaf o => Leaf (f o) | _ => t end) m.
(** ExtractSymbolsPass, ExtractSymbolsPass.cpp:14-76: a table of the names of the linalg operators, each once; subgraphs first, then the module's region. *)
Definition linalg_name (o : op) : list string :=
  match o with Linalg _ name _ _ _ => if String.eqb name "" then [] else [name] | _ => [] end.
Definition add_name (acc : list string) (n : string) : list string := if existsb (String.eqb n) acc then acc else acc ++ [n].
Definition extract_symbols (m : list top) : list top :=
  let in_sub := flat_map (fun t => match t with SubGraph n b => if reserved n then [] else flat_map linalg_name b | _ => [] end) m in
  let in_mod := flat_map (fun t => match t with Leaf o => linalg_name o | _ => [] end) m in
  m ++ [SubGraph "op_symbol_table" (map LinalgRegister (fold_left add_name (in_sub ++ in_mod) []))].
(** EliminateDbgInfoPass, EliminateDbgInfoPass.cpp:13-45. *)
Definition is_comment (o : op) : bool := match o with Comment => true | _ => false end.
Definition eliminate_dbg (m : list top) : list top :=
  filter (fun t => match t with Leaf Comment => false | _ => true end)
    (map (fun t => match t with SubGraph n b => SubGraph n (filter (fun o => negb (is_comment o)) b) | _ => t end) m).

(** IRContext::lookupSymbolTable: the subgraph added last under a name. *)
Definition lookup_graph (m : list top) (name : string) : option (list op) :=
  fold_left (fun acc t => match t with SubGraph n b => if String.eqb n name then Some b else acc | _ => acc end) m None.
(** that subgraph gets a new body *)
Fixpoint set_last (m : list top) (name : string) (body : list op) : list top * bool :=
  match m with
  | [] => ([], false)
  | t :: r =>
      let '(r', found) := set_last r name body in
      if found then (t :: r', true)
      else match t with
           | SubGraph n b => if String.eqb n name then (SubGraph n body :: r, true) else (t :: r, false)
           | _ => (t :: r, false)
           end
  end.
Definition set_graph (m : list top) (name : string) (body : list op) : list top := fst (set_last m name body).
(** std::unordered_map<uint32_t, int32_t> *)
Definition counts := Z -> option Z.
Definition bump (c : counts) (u : Z) : counts :=
  match c u with Some n => zset c u (Some (n + 1)) | None => zset c u (Some 1) end.
(** recursiveIndexTensorOp, EagerMemorySolverPass.cpp:18-39 ([fuel] bounds the recursion over calls). *)
Fixpoint index_tensors (fuel : nat) (m : list top) (body : list op) (c : counts) : res counts :=
  match fuel with
  | O => RDiverge
  | S fuel =>
      fold_left (fun acc o =>
        do c <- acc;
        match o with
        | CallGraph callee _ _ =>
            match lookup_graph m callee with Some b => index_tensors fuel m b c | None => RUB end
        | Linalg _ _ _ ins _ => ROk (fold_left bump ins c)
        | _ => ROk c
        end) body (ROk c)
  end.
(** The inputs of one operator, EagerMemorySolverPass.cpp:52-63: each free is inserted directly behind the operator, in front of
    the earlier ones. *)
Definition count_down (st : counts * list op) (u : Z) : counts * list op :=
  let '(c, frees) := st in
  match c u with
  | Some n => (zset c u (Some (n - 1)), if n - 1 =? 0 then TensorFree u :: frees else frees)
  | None => st
  end.
(** recursiveInsertFreeTensorOp, EagerMemorySolverPass.cpp:41-68: the walk goes on behind the inserted operators. *)
Fixpoint insert_frees (fuel : nat) (m : list top) (name : string) (c : counts) : res (list top * counts) :=
  match fuel with
  | O => RDiverge
  | S fuel =>
      match lookup_graph m name with
      | None => RUB
      | Some body =>
          do st <- fold_left (fun acc o =>
            do st <- acc;
            let '(m, c, done) := st in
            match o with
            | CallGraph callee _ _ =>
                do mc <- insert_frees fuel m callee c;
                ROk (fst mc, snd mc, done ++ [o])
            | Linalg _ _ _ ins _ =>
                let '(c, frees) := fold_left count_down ins (c, []) in
                ROk (m, c, done ++ [o] ++ frees)
            | _ => ROk (m, c, done ++ [o])
            end) body (ROk (m, c, []));
          let '(m, c, done) := st in
          ROk (set_graph m name done, c)
      end
  end.
(** EagerMemorySolverPass::run, 72-94: starts at the last call in the module's region. *)
Definition eager_memory (fuel : nat) (m : list top) : res (list top) :=
  match fold_left (fun acc t => match t with Leaf (CallGraph callee _ _) => Some callee | _ => acc end) m None with
  | None => RUB
  | Some callee =>
      match lookup_graph m callee with
      | None => RUB
      | Some b =>
          do c <- index_tensors fuel m b (fun _ => None);
          do mc <- insert_frees fuel m callee c;
          ROk (fst mc)
      end
  end.

(** ExtractConstantTensorPass, ExtractConstantTensorPass.cpp:18-78; [constant]: storages with the attribute "constant". *)
Definition linalg_tensors (o : op) : list Z := match o with Linalg _ _ _ ins outs => ins ++ outs | _ => [] end.
Definition add_uuid (acc : list Z) (u : Z) : list Z := if existsb (Z.eqb u) acc then acc else acc ++ [u].
Definition extract_constants (constant : Z -> bool) (m : list top) : list top :=
  let used := flat_map (fun t => match t with Leaf o => linalg_tensors o | _ => [] end) m
           ++ flat_map (fun t => match t with
                                 | SubGraph n b => if (String.eqb n "init" || String.eqb n "deinit")%bool then [] else flat_map linalg_tensors b
                                 | _ => [] end) m in
  let set := fold_left add_uuid (filter constant used) [] in
  map (fun t => match t with
                | SubGraph n b => if String.eqb n "init" then SubGraph n (b ++ map TensorRegister set) else t
                | _ => t end) m.
(** LinalgIR2ProgramPattern::rewrite, ProgramLoweringPipeline.cpp:32-57: the new operator gets no device. *)
Definition lower_linalg (o : op) : op :=
  match o with
  | Linalg k name _ ins outs => Launch k (if String.eqb name "" then None else Some name) None ins outs
  | _ => o
  end.
(** Linalg2ProgramPass::run, 62-95. *)
Definition linalg2program (m : list top) : list top := in_graphs lower_linalg (in_module lower_linalg m).
(** Tensor2ProgramPass, 286-337. *)
Definition lower_free (o : op) : op := match o with TensorFree u => Free u | _ => o end.
Definition tensor2program (m : list top) : list top := in_graphs lower_free (in_module lower_free m).
(** CF2ProgramPass, 241-284: subgraphs only. *)
Definition lower_return (o : op) : op := match o with Return => Ret | _ => o end.
Definition cf2program (m : list top) : list top := in_graphs lower_return m.
Definition entry (name : string) : string := (name ++ ".__entry")%string.
(** GraphSubGraph2ProgramPattern::rewrite, 101-128: a label in front.  ops().front() of an empty region is undefined
    behaviour; with [strict] that is RUB, without it (what libstdc++ does) the label becomes the only operator. *)
Definition fragment_of (strict : bool) (name : string) (body : list op) : res top :=
  match body with
  | [] => if strict then RUB else ROk (Fragment name [Label (entry name)])
  | _ => ROk (Fragment name (Label (entry name) :: body))
  end.
Definition lower_call (o : op) : op := match o with CallGraph callee _ _ => Jump (entry callee) None | _ => o end.
Fixpoint numbered {A} (i : Z) (l : list A) : list (Z * A) := match l with [] => [] | x :: r => (i, x) :: numbered (i + 1) r end.
Fixpoint lower_top (strict : bool) (m : list top) : res (list top) :=
  match m with
  | [] => ROk []
  | SubGraph n b :: r => do t <- fragment_of strict n b; do r <- lower_top strict r; ROk (t :: r)
  | Leaf o :: r => do r <- lower_top strict r; ROk (Leaf (lower_call o) :: r)
  | t :: r => do r <- lower_top strict r; ROk (t :: r)
  end.
(** Input binds in front of the call, in order; behind it, each in front of the earlier ones, exit and the output binds; 156-183. *)
Definition add_binds (m : list top) : list top :=
  flat_map (fun t => match t with
    | Leaf (CallGraph callee ins outs) =>
        map (fun p => Leaf (Bind (fst p) (snd p) true)) (numbered 0 ins)
        ++ [t] ++ rev (map (fun p => Leaf (Bind (fst p) (snd p) false)) (numbered 0 outs)) ++ [Leaf Exit]
    | _ => [t]
    end) m.
Definition calls (m : list top) : nat := List.length (filter (fun t => match t with Leaf (CallGraph _ _ _) => true | _ => false end) m).
(** Flattening, 206-234: the program operators of the module's region and the fragments, except the reserved ones, become the code segment. *)
Definition flatten_code (m : list top) : list op :=
  flat_map (fun t => match t with
    | Leaf o => if is_program o then [o] else []
    | Fragment n b => if reserved n then [] else b
    | SubGraph _ _ => []
    end) m.
Definition fragment_named (m : list top) (name : string) : option (list op) :=
  fold_left (fun acc t => match t with Fragment n b => if String.eqb n name then Some b else acc | _ => acc end) m None.
(** Graph2ProgramPass::run, 148-236: the code segment and the module that is left. *)
Definition graph2program (strict : bool) (m : list top) : res (list op * list top) :=
  if negb (Nat.eqb (calls m) 1) then RAbort
  else
    do m1 <- lower_top strict (add_binds m);
    let m2 := map (fun t => match t with Fragment n b => Fragment n (map lower_call b) | _ => t end) m1 in
    ROk (flatten_code m2, m2).
(** FlattenTensorAndLinalgSymbol2ProgramSymbolPass::run, lines 14-74: the payload of a kernel symbol is that of the last
    launch with this name. *)
Definition last_launch (code : list op) (name : string) : Z :=
  fold_left (fun acc o => match o with Launch k (Some n) _ _ _ => if String.eqb n name then k else acc | _ => acc end) code 0.
Definition flatten_symbols (code : list op) (m : list top) : res (list op) :=
  match fragment_named m "init" with
  | None => RAbort
  | Some init =>
      ROk (flat_map (fun o => match o with TensorRegister u => [ValueSymbol u] | _ => [] end) init
           ++ match fragment_named m "op_symbol_table" with
              | None => []
              | Some t => flat_map (fun o => match o with LinalgRegister n => [KernelSymbol n (last_launch code n)] | _ => [] end) t
              end)
  end.
(** ProgramIntrinsicIdIndexPass::run, lines 14-56: program operators are numbered; labels must differ, jumps get the distance. *)
Fixpoint number_ops (i : Z) (code : list op) : list (Z * op) :=
  match code with
  | [] => []
  | o :: r => if is_program o then (i, o) :: number_ops (i + 1) r else number_ops i r
  end.
Fixpoint label_ids (l : list (Z * op)) (acc : list (string * Z)) : res (list (string * Z)) :=
  match l with
  | [] => ROk acc
  | (i, Label n) :: r => if existsb (fun p => String.eqb (fst p) n) acc then RAbort else label_ids r (acc ++ [(n, i)])
  | _ :: r => label_ids r acc
  end.
Definition label_id (t : list (string * Z)) (n : string) : option Z :=
  match find (fun p => String.eqb (fst p) n) t with Some p => Some (snd p) | None => None end.
Fixpoint resolve (t : list (string * Z)) (l : list (Z * op)) : res (list (Z * op)) :=
  match l with
  | [] => ROk []
  | (i, Jump n _) :: r =>
      match label_id t n with
      | None => RAbort
      | Some j => do r <- resolve t r; ROk ((i, Jump n (Some (j - i))) :: r)
      end
  | x :: r => do r <- resolve t r; ROk (x :: r)
  end.
Definition index_program (code : list op) : res (list (Z * op)) :=
  let l := number_ops 0 code in
  do t <- label_ids l [];
  resolve t l.
Record program := mkProgram { p_code : list (Z * op); p_table : list op }.
Record options := mkOptions { o_dbg_info : bool; o_memory_solver : bool; o_eager : bool; o_strict : bool }.
(** createLLMCanonicalizationPipeline (LLMCanonicalizationPipeline.cpp:11-20), then createProgramLoweringPipeline
    (ProgramLoweringPipeline.cpp:339-358); PassManager::run (PassManager.cpp:28-44) runs each pass once. *)
Definition compile (o : options) (fuel : nat) (constant : Z -> bool) (m : list top) : res program :=
  let m := extract_symbols m in
  let m := if o_dbg_info o then m else eliminate_dbg m in
  do m <- (if o_memory_solver o then eager_memory fuel m else ROk m);
  let m := extract_constants constant m in
  let m := cf2program (tensor2program (linalg2program m)) in
  do cm <- graph2program (o_strict o) m;
  let '(code, m) := cm in
  do table <- flatten_symbols code m;
  do code <- index_program (if o_eager o then ModeConfig :: code else code);
  ROk (mkProgram code table).

(* ---------------- interpreter ---------------- *)
Inductive instr :=
  | ILaunch (f : Z * string) (ins outs : list Z)
  | IFree (us : list Z)
  | IJump (offset : Z)
  | IRet
  | IExit
  | ISkip   (* label, mode_config *)
  | IBind (pos u : Z) (input : bool).
(** IRSerializer::visit (IRSerialization.cpp:104-296) and IRInterpreter::loadAndLinkPrograms, IRInterpreter.cpp:47-213: a launch with a
    symbol uses the operator of the symbol table; an unknown name gives entry 0 (std::get throws unless that is a kernel). *)
Definition link (table : list op) (sym : string) : res (Z * string) :=
  match find (fun o => match o with KernelSymbol n _ => String.eqb n sym | _ => false end) (rev table) with
  | Some (KernelSymbol n k) => ROk (k, n)
  | _ => match table with KernelSymbol n k :: _ => ROk (k, n) | _ => RAbort end
  end.
Definition load_instr (table : list op) (o : op) : res instr :=
  match o with
  | Launch k (Some s) _ ins outs => do f <- link table s; ROk (ILaunch f ins outs)
  | Launch k None _ ins outs => ROk (ILaunch (k, ""%string) ins outs)
  | Free u => ROk (IFree [u])
  | Jump _ (Some d) => ROk (IJump d)
  | Ret => ROk IRet
  | Exit => ROk IExit
  | Bind p u i => ROk (IBind p u i)
  | _ => ROk ISkip
  end.
Fixpoint load_code (table : list op) (l : list (Z * op)) : res (list (Z * instr)) :=
  match l with
  | [] => ROk []
  | (i, o) :: r => do x <- load_instr table o; do r <- load_code table r; ROk ((i, x) :: r)
  end.
Section Interpreter.
Context {T S : Type} (nil : T) (exec : Z * string -> list T -> S -> res (list T * S)).
Record interp := mkInterp {
  i_prog : list (Z * instr);
  i_pc : Z;
  i_stack : list Z;
  i_env : Z -> T;              (* uuid_2_tensor_; a missing entry is created as nil when read *)
  i_outs : list T }.
(** [value]: the data of a constant. *)
Definition load (value : Z -> option T) (p : program) : res interp :=
  do code <- load_code (p_table p) (p_code p);
  ROk (mkInterp code 0 []
         (fold_left (fun e o => match o with
            | ValueSymbol u => match value u with Some t => zset e u t | None => e end
            | _ => e end) (p_table p) (fun _ => nil)) []).
(** program_[pc]: a missing entry is created as exit *)
Definition fetch (p : list (Z * instr)) (pc : Z) : instr :=
  match find (fun x => fst x =? pc) p with Some x => snd x | None => IExit end.
(** uuid_2_tensor_[outputs_uuid[i]] = outputs[i], IRInterpreter.cpp:284-289: an output without uuid is read past the end. *)
Fixpoint assign (e : Z -> T) (us : list Z) (ts : list T) : res (Z -> T) :=
  match us, ts with
  | _, [] => ROk e
  | u :: us, t :: ts => assign (zset e u t) us ts
  | [], _ => RUB
  end.
(** global_outputs_.resize and assignment, 263-266 *)
Definition set_out (l : list T) (pos : Z) (t : T) : list T :=
  let l := l ++ repeat nil (Z.to_nat (pos + 1) - List.length l) in
  firstn (Z.to_nat pos) l ++ t :: skipn (Datatypes.S (Z.to_nat pos)) l.
(** eager() and static_(), 249-441: one instruction; true: exit. *)
Definition exec_instr (inputs : list T) (x : interp) (h : S) : res (interp * S * bool) :=
  let next e o := mkInterp (i_prog x) (i_pc x + 1) (i_stack x) e o in
  match fetch (i_prog x) (i_pc x) with
  | IBind pos u true =>
      match nth_error inputs (Z.to_nat pos) with
      | Some t => ROk (next (zset (i_env x) u t) (i_outs x), h, false)
      | None => RUB
      end
  | IBind pos u false => ROk (next (i_env x) (set_out (i_outs x) pos (i_env x u)), h, false)
  | ILaunch f ins outs =>
      do r <- exec f (map (i_env x) ins) h;
      do e <- assign (i_env x) outs (fst r);
      ROk (next e (i_outs x), snd r, false)
  | IJump d => ROk (mkInterp (i_prog x) (i_pc x + d) (i_pc x :: i_stack x) (i_env x) (i_outs x), h, false)
  | IFree us => ROk (next (fold_left (fun e u => zset e u nil) us (i_env x)) (i_outs x), h, false)
  | IExit => ROk (x, h, true)
  | ISkip => ROk (next (i_env x) (i_outs x), h, false)
  | IRet =>
      match i_stack x with
      | [] => RUB
      | pc :: st => ROk (mkInterp (i_prog x) (pc + 1) st (i_env x) (i_outs x), h, false)
      end
  end.
Fixpoint run_loop (fuel : nat) (inputs : list T) (x : interp) (h : S) : res (interp * S) :=
  match fuel with
  | O => RDiverge
  | Datatypes.S fuel =>
      do r <- exec_instr inputs x h;
      let '(x, h, stop) := r in
      if stop then ROk (x, h)
      else if i_pc x <? Z.of_nat (List.length (i_prog x)) then run_loop fuel inputs x h
      else ROk (x, h)
  end.
(** IRInterpreter::run, 215-247. *)
Definition run (fuel : nat) (inputs : list T) (x : interp) (h : S) : res (list T * interp * S) :=
  do r <- run_loop fuel inputs (mkInterp (i_prog x) 0 (i_stack x) (i_env x) (i_outs x)) h;
  ROk (i_outs (fst r), fst r, snd r).
End Interpreter.
