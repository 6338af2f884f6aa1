(** C69-C72: a traced module, compiled and run by the interpreter. *)
From Coq Require Import String.
From Verif Require Import Base DTypeModel JitModel JitSpec JitProofs JitCode JitMachine JitLink JitRun JitNames.
Local Open Scope Z_scope.

(** C69: without the memory solver, a compiled module gives, run after run, what the module itself gives on the same inputs (and
    leaves the same heap), whatever the kernels do - provided every tensor is read before a newer one on its storage is made. *)
Theorem C69_compiled_run_partial : forall {T S : Type} (nil : T) (exec : Z * string -> list T -> S -> res (list T * S))
    (value : Z -> option T) (storage : Z -> Z) o fuel names params inst ins body outs,
  let main := Call inst ins body outs in let l := kernels main in
  o_memory_solver o = false -> o_strict o = false -> (List.length (instances main) <= fuel)%nat ->
  well_named names main -> names_consistent l ->
  reads_newest storage (at_start storage value ins) l outs ->
  (forall v, In v outs -> value (storage v) <> None -> reads storage l (storage v)) ->
  exists p x,
    compile o fuel (is_constant value) (trace storage names params main) = ROk p /\ load nil value p = ROk x /\
    forall before history h rs h',
      (forall v t, value (storage v) = Some t -> before v = t) ->
      Forall (fun inputs => List.length inputs = List.length ins) history ->
      ((List.length history <= 1)%nat \/ forall u, value u <> None -> ~ makes storage l u) ->
      forwards exec before ins l outs history h = ROk (rs, h') ->
      exists n x', forall steps, (n <= steps)%nat -> run_all exec nil steps history x h = ROk (rs, x', h').
Proof.
  intros T S nil exec value storage o fuel names params inst ins body outs main l HM HS Hf WN NC HR HC.
  destruct (compiled_runs nil exec value storage o fuel names params inst ins body outs WN NC HS Hf HR HC) as (p & x & E1 & E2 & H).
  { rewrite HM; discriminate. }
  exists p, x. split; [exact E1|]. split; [exact E2|]. intros before history h rs h' HB HL HH HF.
  destruct (H before history h rs h' HB HL) as (n & x' & Hn & _); [|exact HF|exists n, x'; exact Hn].
  destruct HH as [HH|HH]; [left; exact HH|right]. intros u Hu. split; [exact (HH u Hu)|]. rewrite HM; discriminate.
Qed.

(* numbers as tensors, 0 for the empty one; k = 1: negation, 2: addition, 3: the two halves, k >= 10: adds k *)
Definition toy (f : Z * string) (args : list Z) (h : Z) : res (list Z * Z) :=
  match fst f, args with
  | 1, [x] => ROk ([- x], h + 1)
  | 2, [x; y] => ROk ([x + y], h + 1)
  | 3, [x] => ROk ([x / 2; x - x / 2], h + 1)
  | k, [x] => ROk ([x + k], h + 1)
  | _, _ => RAbort
  end.
Definition nm (i : Z) : string := if i =? 1 then "model"%string else if i =? 2 then "model.a"%string else "model.b"%string.
Definition plain : options := mkOptions false false true false.
Definition solving : options := mkOptions false true true false.
Definition compile_and_run (o : options) (value : Z -> option Z) (storage : Z -> Z) (main : step) (history : list (list Z)) : res (list (list Z) * Z) :=
  do p <- compile o 10 (is_constant value) (trace storage nm [] main);
  do x <- load 0 value p;
  do r <- run_all toy 0 1000 history x 0;
  ROk (fst (fst r), snd r).
Definition run_direct (value : Z -> option Z) (storage : Z -> Z) (main : step) (history : list (list Z)) : res (list (list Z) * Z) :=
  match main with
  | Call _ ins _ outs => forwards toy (fun v => match value (storage v) with Some t => t | None => 0 end) ins (kernels main) outs history 0
  | _ => RAbort
  end.
Definition no_values (u : Z) : option Z := None.
(** two nested modules, a named layer, a view that is read before its source is read again, a constant *)
Definition nested : step :=
  Call 1 [100; 101]
    [Kernel 10 "model.l1" 0 [100] [102]; Note;
     Call 2 [102] [Kernel 3 "" 0 [102] [103; 104]; Kernel 1 "" 0 [103] [105]] [104; 105];
     Call 3 [104; 105; 101] [Kernel 2 "" 0 [104; 105] [106]; Kernel 2 "" 0 [106; 900] [107]; Kernel 2 "" 0 [107; 101] [108]] [108]]
    [108; 106].
Definition one_constant (u : Z) : option Z := if u =? 900 then Some 1000 else None.
Definition same (v : Z) : Z := v.
Example C69_used : compile_and_run plain one_constant same nested [[1; 2]; [30; 4]] = run_direct one_constant same nested [[1; 2]; [30; 4]] /\
  run_direct one_constant same nested [[1; 2]; [30; 4]] = ROk ([[1003; 1]; [1004; 0]], 12).
Proof. split; vm_compute; reflexivity. Qed.
(** the hypotheses of C69, for this module *)
Lemma last_on_single : forall storage v l, NoDup (map storage l) -> In v l -> last_on storage v l.
Proof.
  intros storage v l ND Hi. apply in_split in Hi as (l1 & l2 & ->). exists l1, l2. split; [reflexivity|].
  rewrite map_app in ND. cbn in ND. apply NoDup_remove_2 in ND. intros H; apply ND; apply in_or_app; auto.
Qed.
Example C69_nonvacuous : well_named nm nested /\ names_consistent (kernels nested) /\
  reads_newest same (at_start same one_constant [100; 101]) (kernels nested) [108; 106] /\
  (forall v, In v [108; 106] -> one_constant (same v) <> None -> reads same (kernels nested) (same v)) /\
  (forall u, one_constant u <> None -> ~ makes same (kernels nested) u).
Proof.
  assert (L : forall v l, NoDup l -> In v l -> last_on same v l).
  { intros. apply last_on_single; [|assumption]. unfold same. rewrite map_id. assumption. }
  split; [|split; [|split; [|split]]].
  - split; [cbn; repeat constructor; cbn; intuition congruence|].
    cbn. intuition (subst; congruence).
  - intros c d Hc Hd E N. cbn in Hc, Hd.
    repeat (destruct Hc as [<-|Hc]; [|]); try contradiction; cbn in N; try congruence;
    repeat (destruct Hd as [<-|Hd]; [|]); try contradiction; cbn in E; try congruence; reflexivity.
  - cbn.
    assert (S1 : forall v, at_start same one_constant [100; 101] v <-> v = 100 \/ v = 101 \/ v = 900).
    { intros v. unfold at_start, same. split.
      - intros [(l1 & l2 & E & _)|[H _]].
        + assert (In v [100; 101]) by (rewrite E; apply in_or_app; right; left; reflexivity). cbn in H. intuition.
        + unfold one_constant in H. destruct (Z.eqb_spec v 900); [auto|congruence].
      - intros [->|[->| ->]]; [left; apply L; [repeat constructor; cbn; intuition congruence|cbn; auto]..|].
        right. split; [cbn; congruence|cbn; intuition congruence]. }
    repeat match goal with
    | |- _ /\ _ => split
    | |- forall v, In v _ -> _ => cbn; intros v Hv; repeat (destruct Hv as [<-|Hv]; [|]); try contradiction
    end; idtac.
    all: repeat match goal with
      | |- at_start _ _ _ _ => apply S1; auto
      | |- forall v, _ => intros v Hv; repeat (destruct Hv as [<-|Hv]; [|]); try contradiction
      | |- (last_on same ?v ?l \/ _) =>
          first [ left; apply L; [repeat constructor; cbn; intuition congruence|cbn; tauto]
                | right; split; [|cbn; unfold same; intuition congruence] ]
      end.
  - cbn. intros v [<-|[<-|[]]]; cbn; congruence.
  - intros u Hu (c & v & Hc & Hv & E). unfold same in E. rewrite E in Hv. clear E. assert (E9 : u = 900) by (unfold one_constant in Hu; destruct (Z.eqb_spec u 900); [assumption|congruence]). rewrite E9 in Hv. clear E9 Hu.
    cbn in Hc. repeat (destruct Hc as [<-|Hc]; [cbn in Hv; intuition congruence|]). contradiction.
Qed.

(** Reading the source of a view after the view was made: storage 100 is entered twice, the source is lost. *)
Definition on_100 (v : Z) : Z := if v =? 101 then 100 else v.
Theorem C69_view_refuted :
  let main := Call 1 [100] [Kernel 1 "" 0 [100] [101]; Kernel 2 "" 0 [100; 101] [102]] [102] in
  run_direct no_values on_100 main [[5]] = ROk ([[0]], 2) /\ compile_and_run plain no_values on_100 main [[5]] = ROk ([[-10]], 2).
Proof. split; vm_compute; reflexivity. Qed.
(** The parts of a split share a storage: every part reads as the last one. *)
Definition halves_on_200 (v : Z) : Z := if (v =? 101) || (v =? 102) then 200 else v.
Theorem C69_split_refuted :
  let main := Call 1 [100] [Kernel 3 "" 0 [100] [101; 102]; Kernel 2 "" 0 [101; 102] [103]] [103] in
  run_direct no_values halves_on_200 main [[5]] = ROk ([[5]], 2) /\ compile_and_run plain no_values halves_on_200 main [[5]] = ROk ([[6]], 2).
Proof. split; vm_compute; reflexivity. Qed.
(** Two layers with one name but different options: the last options are used for both. *)
Theorem C69_same_layer_name_refuted :
  let main := Call 1 [100] [Kernel 10 "l" 0 [100] [101]; Kernel 20 "l" 0 [101] [102]] [102] in
  run_direct no_values same main [[0]] = ROk ([[30]], 2) /\ compile_and_run plain no_values same main [[0]] = ROk ([[40]], 2).
Proof. split; vm_compute; reflexivity. Qed.
(** A tensor that exists before the call and is not marked constant (a buffer, a parameter that an operator takes as input) is
    empty in the compiled program. *)
Theorem C69_captured_buffer_refuted : forall x,
  let main := Call 1 [100] [Kernel 2 "" 0 [100; 500] [101]] [101] in
  forwards toy (fun v => if v =? 500 then 7 else 0) [100] (kernels main) [101] [[x]] 0 = ROk ([[x + 7]], 1) /\
  compile_and_run plain no_values same main [[x]] = ROk ([[x + 0]], 1).
Proof. intros x main. split; [reflexivity|]. vm_compute. destruct x; reflexivity. Qed.
(** A result that is a constant which no operator reads is empty as well. *)
Theorem C69_constant_result_refuted :
  let main := Call 1 [100] [Kernel 1 "" 0 [100] [101]] [101; 900] in
  run_direct one_constant same main [[5]] = ROk ([[-5; 1000]], 1) /\ compile_and_run plain one_constant same main [[5]] = ROk ([[-5; 0]], 1).
Proof. split; vm_compute; reflexivity. Qed.

(** C70: with the memory solver the same holds if no operator reads a result; and every tensor is dropped after its last use. *)
Theorem C70_memory_solver_partial : forall {T S : Type} (nil : T) (exec : Z * string -> list T -> S -> res (list T * S))
    (value : Z -> option T) (storage : Z -> Z) o fuel names params inst ins body outs,
  let main := Call inst ins body outs in let l := kernels main in
  o_memory_solver o = true -> o_strict o = false -> (List.length (instances main) <= fuel)%nat ->
  well_named names main -> names_consistent l ->
  reads_newest storage (at_start storage value ins) l outs ->
  (forall v, In v outs -> value (storage v) = None /\ ~ reads storage l (storage v)) ->
  exists p x,
    compile o fuel (is_constant value) (trace storage names params main) = ROk p /\ load nil value p = ROk x /\
    forall before history h rs h',
      (forall v t, value (storage v) = Some t -> before v = t) ->
      Forall (fun inputs => List.length inputs = List.length ins) history ->
      ((List.length history <= 1)%nat \/ forall u, value u <> None -> ~ makes storage l u /\ ~ reads storage l u) ->
      forwards exec before ins l outs history h = ROk (rs, h') ->
      exists n x', (forall steps, (n <= steps)%nat -> run_all exec nil steps history x h = ROk (rs, x', h')) /\
        (history <> [] -> forall l1 c l2 v, l = l1 ++ c :: l2 -> In v (c_ins c) ->
           ~ reads storage l2 (storage v) -> ~ makes storage l2 (storage v) -> i_env x' (storage v) = nil).
Proof.
  intros T S nil exec value storage o fuel names params inst ins body outs main l HM HS Hf WN NC HR HC.
  destruct (compiled_runs nil exec value storage o fuel names params inst ins body outs WN NC HS Hf HR) as (p & x & E1 & E2 & H).
  { intros v Hv N. destruct (HC v Hv); congruence. }
  { intros _ v Hv. exact (proj2 (HC v Hv)). }
  exists p, x. split; [exact E1|]. split; [exact E2|]. intros before history h rs h' HB HL HH HF.
  destruct (H before history h rs h' HB HL) as (n & x' & Hn & HD); [|exact HF|exists n, x'; split; [exact Hn|apply HD; exact HM]].
  destruct HH as [HH|HH]; [left; exact HH|right]. intros u Hu. destruct (HH u Hu). auto.
Qed.
Definition nested_1 : step :=
  Call 1 [100; 101]
    [Kernel 10 "model.l1" 0 [100] [102]; Note;
     Call 2 [102] [Kernel 3 "" 0 [102] [103; 104]; Kernel 1 "" 0 [103] [105]] [104; 105];
     Call 3 [104; 105; 101] [Kernel 2 "" 0 [104; 105] [106]; Kernel 2 "" 0 [106; 101] [108]] [108]]
    [108].
Example C70_used : compile_and_run solving no_values same nested_1 [[1; 2]; [30; 4]] = run_direct no_values same nested_1 [[1; 2]; [30; 4]] /\
  run_direct no_values same nested_1 [[1; 2]; [30; 4]] = ROk ([[3]; [4]], 10).
Proof. split; vm_compute; reflexivity. Qed.
(** A result that another operator reads is dropped before it is returned. *)
Theorem C70_result_read_refuted :
  let main := Call 1 [100] [Kernel 10 "" 0 [100] [101]; Kernel 1 "" 0 [101] [102]] [101; 102] in
  run_direct no_values same main [[5]] = ROk ([[15; -15]], 2) /\ compile_and_run solving no_values same main [[5]] = ROk ([[0; -15]], 2).
Proof. split; vm_compute; reflexivity. Qed.
(** So is the result of a last operator that makes a view: it is on the storage which that operator read. *)
Theorem C70_view_result_refuted :
  let main := Call 1 [102] [Kernel 10 "" 0 [102] [100]; Kernel 1 "" 0 [100] [101]] [101] in
  run_direct no_values on_100 main [[5]] = ROk ([[-15]], 2) /\ compile_and_run plain no_values on_100 main [[5]] = ROk ([[-15]], 2) /\
  compile_and_run solving no_values on_100 main [[5]] = ROk ([[0]], 2).
Proof. repeat split; vm_compute; reflexivity. Qed.
(** Constants are dropped too: the second run reads nothing. *)
Theorem C70_second_run_refuted :
  let main := Call 1 [100] [Kernel 2 "" 0 [100; 900] [101]] [101] in
  run_direct one_constant same main [[1]; [1]] = ROk ([[1001]; [1001]], 2) /\
  compile_and_run solving one_constant same main [[1]; [1]] = ROk ([[1001]; [1]], 2).
Proof. split; vm_compute; reflexivity. Qed.

(** C71: every call of a module gets its own graph: with different names for the instances, each called once, the graphs are
    init, deinit and then one per call, in the order of the calls, under the name of the instance. *)
Theorem C71_graph_names_partial : forall storage names params inst ins body outs,
  let main := Call inst ins body outs in well_named names main ->
  subgraph_names (trace storage names params main) = "init"%string :: "deinit"%string :: map names (instances main) /\
  NoDup (subgraph_names (trace storage names params main)).
Proof.
  intros storage names params inst ins body outs main [ND R].
  assert (E : subgraph_names (trace storage names params main) = "init"%string :: "deinit"%string :: map names (instances main)).
  { destruct (trace_step_ok storage names main (mkNaming (fun _ => 0) names)) as (ops & gs & st & E & F & _ & _ & _); auto.
    unfold trace. rewrite E. cbn [subgraph_names]. f_equal. f_equal. rewrite <- F. clear.
    induction ops as [|o ops IH]; cbn; [|exact IH]. induction gs as [|[n b] gs IH]; cbn; [reflexivity|]. f_equal. exact IH. }
  rewrite E. split; [reflexivity|]. constructor; [|constructor; [|exact ND]].
  - intros [H|H]; [discriminate|]. destruct (R _ H) as (N & _). congruence.
  - intros H. destruct (R _ H) as (_ & N & _). congruence.
Qed.
Example C71_used : subgraph_names (trace same nm [] nested) = ["init"; "deinit"; "model"; "model.a"; "model.b"]%string.
Proof. vm_compute; reflexivity. Qed.
(** Instances that share a name: the first keeps it, the later ones get _1, _2, ... behind it; all names differ, unless a name is
    itself such a numbered version of another. *)
Theorem C71_shared_names_partial : forall storage names params inst ins body outs,
  let main := Call inst ins body outs in separable_names names main ->
  subgraph_names (trace storage names params main) = "init"%string :: "deinit"%string :: expected_names names [] (instances main) /\
  NoDup (subgraph_names (trace storage names params main)).
Proof.
  intros storage names params inst ins body outs main [ND R]. unfold main. rewrite trace_graph_names by exact ND. fold main.
  split; [reflexivity|].
  assert (Z : forall n, In n (expected_names names [] (instances main)) -> n <> "init"%string /\ n <> "deinit"%string).
  { intros n Hn. destruct (expected_in _ _ _ _ Hn) as (i & l1 & Hi & _ & ->). destruct (R i Hi) as (H & H1 & _).
    apply numbered_reserved; assumption. }
  constructor; [|constructor].
  - intros [H|H]; [discriminate|]. destruct (Z _ H). congruence.
  - intros H. destruct (Z _ H). congruence.
  - apply expected_nodup. intros i j k Hi Hj Hk. apply (R i Hi); assumption.
Qed.
Definition layers : step := Call 1 [100] [Call 2 [100] [] [100]; Call 3 [100] [] [100]; Call 4 [100] [] [100]] [100].
Definition layer_names (i : Z) : string := if i =? 1 then "model"%string else "block"%string.
Example C71_shared_used : subgraph_names (trace same layer_names [] layers) = ["init"; "deinit"; "model"; "block"; "block_1"; "block_2"]%string.
Proof. vm_compute; reflexivity. Qed.
(** A name that is such a version: the third instance gets the name of the second one, and compiling aborts. *)
Theorem C71_numbered_name_refuted :
  let names := fun i => (if (i =? 1)%Z then "model" else if (i =? 4)%Z then "block_1" else "block")%string in
  subgraph_names (trace same names [] layers) = ["init"; "deinit"; "model"; "block"; "block_1"; "block_1"]%string /\
  compile plain 10 (fun _ => false) (trace same names [] layers) = RAbort.
Proof. split; vm_compute; reflexivity. Qed.
(** An instance that is called twice gets a second name, and its program runs; called three times, the third call gets the name
    of the second, and compiling aborts. *)
Definition calls_of_a (n : nat) : step := Call 1 [100] (repeat (Call 2 [100] [Kernel 1 "" 0 [100] [100]] [100]) n) [100].
Theorem C71_third_call_refuted :
  subgraph_names (trace same nm [] (calls_of_a 2)) = ["init"; "deinit"; "model"; "model.a"; "model.a_1"]%string /\
  compile_and_run plain no_values same (calls_of_a 2) [[5]] = ROk ([[5]], 2) /\
  subgraph_names (trace same nm [] (calls_of_a 3)) = ["init"; "deinit"; "model"; "model.a"; "model.a_1"; "model.a_1"]%string /\
  compile_and_run plain no_values same (calls_of_a 3) [[5]] = RAbort.
Proof. repeat split; vm_compute; reflexivity. Qed.

(** C72: compiling is defined for every traced module - refuted: the region of deinit is always empty, and Graph2ProgramPass reads its
    first operator. *)
Definition is_call (t : top) : bool := match t with Leaf (CallGraph _ _ _) => true | _ => false end.
Lemma calls_map : forall g m, (forall t, is_call (g t) = is_call t) -> calls (map g m) = calls m.
Proof.
  intros g m H. unfold calls. change (fun t => match t with Leaf (CallGraph _ _ _) => true | _ => false end) with is_call.
  induction m as [|t m IH]; cbn; [reflexivity|]. rewrite H. destruct (is_call t); cbn; rewrite IH; reflexivity.
Qed.
Lemma calls_filter : forall f m, (forall t, is_call t = true -> f t = true) -> calls (filter f m) = calls m.
Proof.
  intros f m H. unfold calls. change (fun t => match t with Leaf (CallGraph _ _ _) => true | _ => false end) with is_call.
  induction m as [|t m IH]; cbn; [reflexivity|]. specialize (H t). destruct (f t); cbn; destruct (is_call t); cbn; rewrite ?IH; auto.
  specialize (H eq_refl); discriminate.
Qed.
Definition with_deinit (m : list top) : Prop := calls m = 1%nat /\ exists i r, m = SubGraph "init" i :: SubGraph "deinit" [] :: r.
Lemma strict_deinit : forall m, with_deinit m -> graph2program true m = RUB.
Proof.
  intros m [C (i & r & ->)]. unfold graph2program. rewrite C. cbn [Nat.eqb negb]. unfold add_binds. cbn [flat_map app lower_top].
  destruct i; reflexivity.
Qed.
Lemma traced_deinit : forall storage names params inst ins body outs, with_deinit (trace storage names params (Call inst ins body outs)).
Proof.
  intros. unfold trace. rewrite trace_step_call. destruct (unique_name inst _) as [name st]. destruct (trace_steps storage body st) as [[ops gs] st'].
  split; [|eexists _, _; reflexivity]. cbn. f_equal. induction gs as [|[n b] gs IH]; cbn; [reflexivity|exact IH].
Qed.
Theorem C72_compile_defined_refuted : forall o storage names params constant fuel inst ins body outs,
  o_strict o = true -> o_memory_solver o = false ->
  compile o fuel constant (trace storage names params (Call inst ins body outs)) = RUB.
Proof.
  intros o storage names params constant fuel inst ins body outs HS HM. unfold compile. rewrite HM, HS. cbn [rbind].
  pose proof (traced_deinit storage names params inst ins body outs) as D. set (m := trace _ _ _ _) in *. clearbody m.
  assert (D1 : with_deinit (extract_symbols m)).
  { destruct D as [C (i & r & ->)]. unfold extract_symbols. set (x := map LinalgRegister _). clearbody x. split.
    - unfold calls in *. rewrite filter_app, app_length. cbn [filter Datatypes.length] in *. lia.
    - eexists _, _. reflexivity. }
  set (m1 := extract_symbols m) in *. clearbody m1.
  assert (D2 : with_deinit (if o_dbg_info o then m1 else eliminate_dbg m1)).
  { destruct (o_dbg_info o); [exact D1|]. destruct D1 as [C (i & r & ->)]. unfold eliminate_dbg. split; [|eexists _, _; reflexivity].
    rewrite calls_filter, calls_map; [exact C| |].
    - intros [y|n b|n b]; reflexivity.
    - intros [y|n b|n b]; try discriminate. destruct y; discriminate || reflexivity. }
  set (m2 := if o_dbg_info o then m1 else eliminate_dbg m1) in *. clearbody m2.
  assert (D3 : with_deinit (extract_constants constant m2)).
  { destruct D2 as [C (i & r & ->)]. unfold extract_constants. set (x := map TensorRegister _). clearbody x. split; [|eexists _, _; reflexivity].
    rewrite calls_map; [exact C|]. intros [y|n b|n b]; try reflexivity. destruct (String.eqb n "init"); reflexivity. }
  set (m3 := extract_constants constant m2) in *. clearbody m3.
  assert (D4 : with_deinit (cf2program (tensor2program (linalg2program m3)))).
  { destruct D3 as [C (i & r & ->)]. unfold cf2program, tensor2program, linalg2program, in_graphs, in_module. split; [|eexists _, _; reflexivity].
    rewrite !calls_map; [exact C|..]; intros [y|n b|n b]; try reflexivity; destruct y; reflexivity. }
  rewrite (strict_deinit _ D4). reflexivity.
Qed.
(** Without the empty region every module compiles (see C69 for the conditions); this is what happens in practice, where the first
    operator of the empty list is never used. *)
Example C72_used : compile (mkOptions false false true true) 10 (fun _ => false) (trace same nm [] nested) = RUB /\
  exists p, compile plain 10 (fun _ => false) (trace same nm [] nested) = ROk p.
Proof. split; [vm_compute; reflexivity|]. eexists. vm_compute. reflexivity. Qed.
Print Assumptions C69_compiled_run_partial.
Print Assumptions C69_view_refuted.
Print Assumptions C69_split_refuted.
Print Assumptions C69_same_layer_name_refuted.
Print Assumptions C69_captured_buffer_refuted.
Print Assumptions C69_constant_result_refuted.
Print Assumptions C70_memory_solver_partial.
Print Assumptions C70_result_read_refuted.
Print Assumptions C70_view_result_refuted.
Print Assumptions C70_second_run_refuted.
Print Assumptions C71_graph_names_partial.
Print Assumptions C71_shared_names_partial.
Print Assumptions C71_numbered_name_refuted.
Print Assumptions C71_third_call_refuted.
Print Assumptions C72_compile_defined_refuted.
