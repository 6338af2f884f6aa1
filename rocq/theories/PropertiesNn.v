(** Property theorems C80 - C84 (modules, layers and their parameters). *)
From Verif Require Import Base DTypeModel SymModel SymSpec SymPrint NnModel NnSpec NnProofs NnLoad NnMain.
Local Open Scope Z_scope.

(* ------------------------------------------------------------------ *)
(** ** C80: names *)

(** The operators of a module are its layers, in order of registration, each called by the
    names leading to it. *)
Theorem C80_names : forall (T : Type) root d, is_layer d = false ->
  map (fun o => (o_name o, o_kind o)) (ops (@make T root d)) =
  map (fun pk => (dotted (root :: fst pk), snd pk (dotted (root :: removelast (fst pk))))) (layers d).
Proof. intros T root d H. exact (@names_ok T root d H). Qed.
(** No two parameters share a name, if siblings have names of which none continues another. *)
Theorem C80_unique : forall (T : Type) root d v, well_named d -> (forall o, In o (ops (@make T root d)) -> conventional o) ->
  NoDup (map fst (all_parameters v (ops (@make T root d)))).
Proof. intros T root d v W C. exact (proj1 (unique_names v d W [] root C)). Qed.
(** Different names without dots do. *)
Theorem C80_plain_names : forall a b, ~ In 46 a -> ~ In 46 b -> a <> b -> apart a b.
Proof. exact dot_free_apart. Qed.
(** The entries of a ModuleList too. *)
Theorem C80_module_list : forall n d, well_named d -> well_named (module_list n d).
Proof.
  intros n d W. unfold module_list. constructor.
  - apply Forall_forall. intros e He. apply in_map_iff in He as (i & <- & _). apply show_int_ne. lia.
  - generalize 0%nat. induction n as [|n IH]; intro k; [constructor|]. cbn [seq map]. constructor; [|apply IH].
    apply Forall_forall. intros e He. apply in_map_iff in He as (i & <- & Hi). apply in_seq in Hi. cbn [fst].
    apply digits_apart; [apply show_int_ok; lia|apply show_int_ok; lia|]. intro E. apply show_int_inj in E; lia.
  - apply Forall_forall. intros e He. apply in_map_iff in He as (i & <- & _). exact W.
Qed.
(** "layers", "mlp", "norm", "up" *)
Definition s_layers : str := [108; 97; 121; 101; 114; 115].
Definition s_mlp : str := [109; 108; 112].
Definition s_norm : str := [110; 111; 114; 109].
Definition s_up : str := [117; 112].
Definition s_model : str := [109; 111; 100; 101; 108].
(** layers: a list of two blocks { mlp: Sequential(Linear, ReLU), norm: LayerNorm }; up: Linear. *)
Definition small_decl : decl :=
  DModule [(s_layers, module_list 2 (DModule [(s_mlp, DSequential [DLayer (fun _ => KLinear 2 2 true LDefault); DLayer (fun _ => KNone)]);
                                              (s_norm, DLayer (fun _ => KLayerNorm [2] true true))]));
           (s_up, DLayer (fun _ => KLinear 2 3 false LDefault))].
Example C80_example :
  map fst (all_parameters V2 (ops (@make Z s_model small_decl))) =
  [s_model ++ [46] ++ s_layers ++ [46; 48; 46] ++ s_mlp ++ [46; 48] ++ s_weight; s_model ++ [46] ++ s_layers ++ [46; 48; 46] ++ s_mlp ++ [46; 48] ++ s_bias;
   s_model ++ [46] ++ s_layers ++ [46; 48; 46] ++ s_norm ++ s_weight; s_model ++ [46] ++ s_layers ++ [46; 48; 46] ++ s_norm ++ s_bias;
   s_model ++ [46] ++ s_layers ++ [46; 49; 46] ++ s_mlp ++ [46; 48] ++ s_weight; s_model ++ [46] ++ s_layers ++ [46; 49; 46] ++ s_mlp ++ [46; 48] ++ s_bias;
   s_model ++ [46] ++ s_layers ++ [46; 49; 46] ++ s_norm ++ s_weight; s_model ++ [46] ++ s_layers ++ [46; 49; 46] ++ s_norm ++ s_bias;
   s_model ++ [46] ++ s_up ++ s_weight].
Proof. vm_compute. reflexivity. Qed.
Lemma C80_hypotheses : is_layer small_decl = false /\ well_named small_decl /\ forall o, In o (ops (@make Z s_model small_decl)) -> conventional o.
Proof.
  split; [reflexivity|]. split.
  - repeat constructor; try discriminate; try (apply C80_plain_names; cbn; intuition discriminate).
  - intros o Ho. assert (K : forallb (fun o : @op Z => match o_kind o with KParam _ _ => false | _ => true end) (ops (@make Z s_model small_decl)) = true) by (vm_compute; reflexivity).
    rewrite forallb_forall in K. specialize (K o Ho). unfold conventional. destruct (o_kind o); try exact I. discriminate.
Qed.

(* ------------------------------------------------------------------ *)
(** ** C81: loading and params() *)

(** Loading succeeds exactly if the file has every parameter, in a shape that fits; afterwards
    params() gives exactly these parameters, under their names, if the names differ. *)
Theorem C81_load_partial : forall (T : Type) (view : list Z -> T -> res T) pack_conv pack_linear arm iter device_load f (m : @node T),
  (forall s, Permutation (iter s) s) -> known_version (f_version f) ->
  (forall o, In o (ops m) -> o_device o = 0 /\ ordinary arm (o_kind o) = true) ->
  (forall e, In e (all_parameters (f_version f) (ops m)) -> exists t, taken view (f_data f) e t) ->
  exists m', load view pack_conv pack_linear arm device_load f m = ROk m' /\
    (NoDup (map fst (all_parameters (f_version f) (ops m))) ->
     exists g, params iter m' = ROk g /\ NoDup (map fst g) /\
       forall name x, In (name, x) g <-> exists e t, In e (all_parameters (f_version f) (ops m)) /\ fst e = name /\ x = Some t /\ taken view (f_data f) e t) /\
    (~ NoDup (map fst (all_parameters (f_version f) (ops m))) -> params iter m' = RAbort).
Proof.
  intros T view pack_conv pack_linear arm iter device_load f m HI KV LD AV.
  destruct (load_params view pack_conv pack_linear arm device_load f m KV LD AV) as (m' & E & _ & NM & IN).
  exists m'. split; [exact E|]. destruct (params_spec view iter HI m') as [P1 P2]. rewrite NM in P1, P2. split; [|exact P2].
  intro N. destruct (P1 N) as (g & Eg & Pg). exists g. split; [exact Eg|]. split.
  - apply (Permutation_NoDup (Permutation_sym (Permutation_map fst Pg))). rewrite NM. exact N.
  - intros name x. rewrite <- IN. split; intro H; [exact (Permutation_in _ Pg H)|exact (Permutation_in _ (Permutation_sym Pg) H)].
Qed.
(** A missing or unfitting parameter is never passed over. *)
Theorem C81_missing : forall (T : Type) (view : list Z -> T -> res T) pack_conv pack_linear arm device_load f (m : @node T) e,
  known_version (f_version f) -> (forall o, In o (ops m) -> o_device o = 0 /\ ordinary arm (o_kind o) = true) ->
  In e (all_parameters (f_version f) (ops m)) -> (forall t, ~ taken view (f_data f) e t) ->
  forall m', load view pack_conv pack_linear arm device_load f m <> ROk m'.
Proof.
  intros T view pack_conv pack_linear arm device_load f m e KV LD He N m' H.
  destruct (load_needs view pack_conv pack_linear arm device_load f m m' KV LD H e He) as (t & TK). exact (N t TK).
Qed.
(** What params() gives can be loaded again, and gives the same. *)
Theorem C81_reload : forall (T : Type) (view : list Z -> T -> res T) pack_conv pack_linear arm iter device_load f (m m' : @node T) g,
  (forall s, Permutation (iter s) s) -> (forall sh t u, view sh t = ROk u -> view sh u = ROk u) -> known_version (f_version f) ->
  (forall o, In o (ops m) -> o_device o = 0 /\ ordinary arm (o_kind o) = true) ->
  load view pack_conv pack_linear arm device_load f m = ROk m' -> params iter m' = ROk g ->
  exists m2 g2, load view pack_conv pack_linear arm device_load (mkFile VTemporary (tensors g)) m = ROk m2 /\ params iter m2 = ROk g2 /\ forall e, In e g2 <-> In e g.
Proof. intros T view pack_conv pack_linear arm iter device_load f m m' g HI HV KV LD HL HP. exact (reload view pack_conv pack_linear arm iter device_load HI HV f m m' g KV LD HL HP). Qed.

(** A tensor as shape and data; view. *)
Definition st := (list Z * list Z)%type.
Definition st_view (sh : list Z) (t : st) : res st := if fold_right Z.mul 1 sh =? Z.of_nat (length (snd t)) then ROk (sh, snd t) else RAbort.
Definition st_load := load st_view (fun t => t) (fun t _ => t) false (fun _ _ o => ROk o).
Definition st_file : pfile :=
  mkFile V1 (map (fun n => (n, ([6], [1; 2; 3; 4; 5; 6]))) [s_model ++ [46] ++ s_up ++ s_weight] ++
             flat_map (fun i => [(s_model ++ [46] ++ s_layers ++ [46; i; 46] ++ s_mlp ++ [46; 48] ++ s_weight, ([4], [1; 2; 3; i]));
                                 (s_model ++ [46] ++ s_layers ++ [46; i; 46] ++ s_mlp ++ [46; 48] ++ s_bias, ([2], [1; i]));
                                 (s_model ++ [46] ++ s_layers ++ [46; i; 46] ++ s_norm ++ s_weight, ([2], [2; i]));
                                 (s_model ++ [46] ++ s_layers ++ [46; i; 46] ++ s_norm ++ s_bias, ([2], [3; i]))]) [48; 49]).
Lemma C81_hypotheses :
  known_version (f_version st_file) /\
  (forall o, In o (ops (@make st s_model small_decl)) -> o_device o = 0 /\ ordinary false (o_kind o) = true) /\
  (forall e, In e (all_parameters (f_version st_file) (ops (@make st s_model small_decl))) -> exists t, taken st_view (f_data st_file) e t) /\
  (forall sh t u, st_view sh t = ROk u -> st_view sh u = ROk u).
Proof.
  split; [discriminate|]. split; [|split].
  - intros o Ho. assert (K : forallb (fun o : @op st => (o_device o =? 0) && ordinary false (o_kind o)) (ops (@make st s_model small_decl)) = true) by (vm_compute; reflexivity).
    rewrite forallb_forall in K. specialize (K o Ho). apply andb_prop in K as [K1 K2]. split; [lia|exact K2].
  - intros e He. assert (K : forallb (fun e : str * option (list Z) => match find (fst e) (f_data st_file) with
                                 | Some raw => match snd e with None => true | Some sh => match st_view sh raw with ROk _ => true | _ => false end end
                                 | None => false end) (all_parameters (f_version st_file) (ops (@make st s_model small_decl))) = true) by (vm_compute; reflexivity).
    rewrite forallb_forall in K. specialize (K e He). unfold taken. destruct (find (fst e) (f_data st_file)) as [raw|] eqn:F; [|discriminate].
    destruct (snd e) as [sh|]; [|exists raw, raw; split; [exact F|reflexivity]]. destruct (st_view sh raw) as [u| | |] eqn:V; try discriminate. exists u, raw. split; [exact F|exact V].
  - intros sh t u. unfold st_view. destruct (_ =? _) eqn:E; [|discriminate]. intro H. injection H as <-. cbn [snd]. rewrite E. reflexivity.
Qed.
Example C81_example :
  exists m', st_load st_file (make s_model small_decl) = ROk m' /\
    exists g, params (@rev _) m' = ROk g /\ length g = 9%nat /\ find (s_model ++ [46] ++ s_up ++ s_weight) g = Some (Some ([3; 2], [1; 2; 3; 4; 5; 6])).
Proof. eexists. split; [vm_compute; reflexivity|]. eexists. split; [vm_compute; reflexivity|]. split; vm_compute; reflexivity. Qed.
(** A LayerNorm without affine parameters loads nothing, yet params() lists a weight: a nil tensor. *)
Theorem C81_layernorm_refuted : forall (T : Type) (view : list Z -> T -> res T) pack_conv pack_linear arm iter device_load v s root name sh,
  (forall s, Permutation (iter s) s) ->
  let m := @make T root (DModule [(name, DLayer (fun _ => KLayerNorm sh false false))]) in
  all_parameters v (ops m) = [] /\
  exists m', load view pack_conv pack_linear arm device_load (mkFile v s) m = ROk m' /\ params iter m' = ROk [(join root name ++ s_weight, None)].
Proof.
  intros T view pack_conv pack_linear arm iter device_load v s root name sh HI. cbv zeta. split; [reflexivity|]. eexists. split; [reflexivity|].
  cbn [params op_params o_kind o_name o_weight push_all push find List.find option_map rbind app]. 
  assert (E : forall x : str * option T, iter [x] = [x]) by (intro x; apply Permutation_length_1_inv, Permutation_sym, HI).
  rewrite E. reflexivity.
Qed.
(** A Linear with one of the quantised implementations never loads its bias, though the file has it. *)
Example C81_linear_bias_refuted :
  let m := @make st [] (DModule [(s_up, DLayer (fun _ => KLinear 1 1 true LOther))]) in
  let f := mkFile V2 [(s_up ++ s_weight, ([1; 1], [5])); (s_up ++ s_bias, ([1], [7]))] in
  exists m', st_load f m = ROk m' /\ params (@rev _) m' = ROk [(s_up ++ s_bias, None); (s_up ++ s_weight, Some ([1; 1], [5]))].
Proof. eexists. split; [vm_compute; reflexivity|]. vm_compute. reflexivity. Qed.
(** Siblings with different names may still collide; then params() stops the program. *)
Example C81_collision_refuted :
  let d := DModule [([97], DModule [([98; 46; 99], DLayer (fun _ => KRMSNorm))]); ([97; 46; 98], DModule [([99], DLayer (fun _ => KRMSNorm))])] in
  let f := mkFile V2 [([97; 46; 98; 46; 99] ++ s_weight, ([1], [5]))] in
  exists m', st_load f (make [] d) = ROk m' /\ params (@rev _) m' = RAbort.
Proof. eexists. split; [vm_compute; reflexivity|]. vm_compute. reflexivity. Qed.

(* ------------------------------------------------------------------ *)
(** ** C82: the depth shown when a module is printed *)
Theorem C82_depth_partial : forall (T : Type) root d, sequentials_in_modules d ->
  forall k x, below (@make T root d) k x -> n_depth x = Z.of_nat k.
Proof. intros T root d S k x B. exact (depths d S [] root k x B). Qed.
Lemma C82_hypotheses : sequentials_in_modules small_decl /\ exists x, below (@make Z s_model small_decl) 4 x /\ n_name x = show_int 1.
Proof.
  assert (P : sequentials_in_modules (DModule [(s_mlp, DSequential [DLayer (fun _ => KLinear 2 2 true LDefault); DLayer (fun _ => KNone)]); (s_norm, DLayer (fun _ => KLayerNorm [2] true true))])).
  { constructor. constructor; [right; eexists; split; [reflexivity|repeat constructor]|]. constructor; [left; constructor|constructor]. }
  split.
  - unfold small_decl. constructor. constructor; [left|repeat constructor]. constructor. apply Forall_forall. intros e He. apply in_map_iff in He as (i & <- & _). left. exact P.
  - eexists. split.
    + eapply below_child; [left; reflexivity|]. eapply below_child; [left; reflexivity|]. eapply below_child; [left; reflexivity|]. eapply below_child; [right; left; reflexivity|]. constructor.
    + reflexivity.
Qed.
(** A Sequential that is filled on its own counts its items one level too deep. *)
Theorem C82_sequential_refuted : forall (T : Type) root k,
  exists x, below (@make T root (DSequential [DLayer k])) 1 x /\ n_depth x = 2.
Proof. intros T root k. eexists. split; [eapply below_child; [left; reflexivity|constructor]|reflexivity]. Qed.
(** A layer registered in a module that already has a parent is placed at depth 1. *)
Theorem C82_late_refuted : forall (T : Type) a b d v bf fs cs (x : @node T), n_depth x = 0 -> d <> 0 ->
  exists y, In y (n_children (reg_child (NModule a b d v bf fs cs) x)) /\ y = bump x /\ n_depth y <> d + 1.
Proof.
  intros T a b d v bf fs cs x D0 Hd. exists (bump x). split; [cbn; apply in_app_iff; right; left; reflexivity|]. split; [reflexivity|]. rewrite depth_bump. lia.
Qed.

(* ------------------------------------------------------------------ *)
(** ** C83: to(device) *)

(** Towards the CPU, or a device that leaves the weights on the host: every node is on that
    device and no parameter changes. *)
Theorem C83_host_partial : forall (T : Type) (view : list Z -> T -> res T) pack_conv pack_linear arm iter device_load on_device move dev (m : @node T),
  dev = 0 \/ on_device dev = false ->
  exists m', to_device view pack_conv pack_linear arm iter device_load on_device move dev m = ROk m' /\
    params iter m' = params iter m /\ forall k x, below m' k x -> n_device x = dev.
Proof.
  intros T view pack_conv pack_linear arm iter device_load on_device move dev m H.
  destruct (to_host view pack_conv pack_linear arm iter device_load on_device move dev m H) as (m' & E & O & D). exists m'. split; [exact E|]. split; [|exact D].
  clear D H. revert m' E O. induction m as [a b d v o|a b d v bf fs cs IH] using node_all; intros m' E O.
  - cbn [to_device] in E. apply rbind_ok in E as (o' & _ & E). injection E as <-. cbn [ops] in O. injection O as ->. reflexivity.
  - change (to_device view pack_conv pack_linear arm iter device_load on_device move dev (NModule a b d v bf fs cs))
      with (do cs <- to_all view pack_conv pack_linear arm iter device_load on_device move dev cs; ROk (NModule a b d dev (map (fun e => (fst e, move dev (snd e))) bf) fs cs)) in E.
    apply rbind_ok in E as (cs' & E & X). injection X as <-. cbn [ops] in O. change (params_all iter cs' [] = params_all iter cs []). generalize (@nil (str * option T)).
    revert cs' E O. induction IH as [|c cs H _ IHl]; intros cs' E O acc.
    + injection E as <-. reflexivity.
    + cbn [to_all] in E. apply rbind_ok in E as (c' & E1 & E). apply rbind_ok in E as (l' & E2 & E). injection E as <-. cbn [flat_map] in O.
      assert (LEN : length (ops c') = length (ops c)).
      { assert (G : forall dv (n n' : @node T), to_device view pack_conv pack_linear arm iter device_load on_device move dv n = ROk n' -> length (ops n') = length (ops n)).
        { clear. intro dv. induction n as [a b d v o|a b d v bf fs cs IH] using node_all; intros n' E.
          - cbn [to_device] in E. apply rbind_ok in E as (o' & _ & E). injection E as <-. reflexivity.
          - change (to_device view pack_conv pack_linear arm iter device_load on_device move dv (NModule a b d v bf fs cs))
              with (do cs <- to_all view pack_conv pack_linear arm iter device_load on_device move dv cs; ROk (NModule a b d dv (map (fun e => (fst e, move dv (snd e))) bf) fs cs)) in E.
            apply rbind_ok in E as (cs' & E & X). injection X as <-. cbn [ops]. revert cs' E. induction IH as [|c cs H _ IHl]; intros cs' E.
            + injection E as <-. reflexivity.
            + cbn [to_all] in E. apply rbind_ok in E as (c' & E1 & E). apply rbind_ok in E as (l' & E2 & E). injection E as <-. cbn [flat_map]. rewrite !app_length, (H _ E1), (IHl _ E2). reflexivity. }
        exact (G dev c c' E1). }
      apply app_eq_app in O as (l & [[O1 O2]|[O1 O2]]).
      * assert (l = []) by (destruct l; [reflexivity|]; rewrite O1, app_length in LEN; cbn in LEN; lia). subst l. rewrite app_nil_r in O1. cbn [app] in O2. symmetry in O2.
        cbn [params_all]. rewrite (H c' E1 O1). destruct (params iter c); [|reflexivity..]. cbn [rbind]. destruct (push_all _ acc); [|reflexivity..]. cbn [rbind]. exact (IHl l' E2 O2 _).
      * assert (l = []) by (destruct l; [reflexivity|]; rewrite O1, app_length in LEN; cbn in LEN; lia). subst l. rewrite app_nil_r in O1. cbn [app] in O2.
        cbn [params_all]. rewrite (H c' E1 (eq_sym O1)). destruct (params iter c); [|reflexivity..]. cbn [rbind]. destruct (push_all _ acc); [|reflexivity..]. cbn [rbind]. exact (IHl l' E2 O2 _).
Qed.
(** Coming back from a device that holds the weights leaves them, and the operators, there. *)
Definition tagged_load (v : version) (s : table (Z * Z)) (o : @op (Z * Z)) : res (@op (Z * Z)) :=
  cpu_load (fun _ t => ROk t) (fun t => t) (fun t _ => t) false v s o.
Definition tagged_to := to_device (fun _ t => ROk t) (fun t : Z * Z => t) (fun t _ => t) false (@rev _) tagged_load (fun _ => true) (fun dev t => (dev, snd t)).
Example C83_back_refuted :
  let m := @make (Z * Z) [] (DModule [(s_up, DLayer (fun _ => KLinear 1 1 false LDefault))]) in
  exists m0 m1 m2, load (fun _ t => ROk t) (fun t => t) (fun t _ => t) false tagged_load (mkFile V2 [(s_up ++ s_weight, (0, 5))]) m = ROk m0 /\
    tagged_to 3 m0 = ROk m1 /\ tagged_to 0 m1 = ROk m2 /\ n_device m2 = 0 /\
    params (@rev _) m2 = ROk [(s_up ++ s_weight, Some (3, 5))] /\ map o_device (ops m2) = [3].
Proof. do 3 eexists. split; [vm_compute; reflexivity|]. split; [vm_compute; reflexivity|]. split; [vm_compute; reflexivity|]. repeat split; vm_compute; reflexivity. Qed.
Lemma C83_hypotheses : exists m', tagged_to 0 (make s_model (DModule [(s_up, DLayer (fun _ => KLinear 1 1 false LDefault))])) = ROk m' /\ n_name m' = s_model.
Proof. eexists. split; vm_compute; reflexivity. Qed.

(* ------------------------------------------------------------------ *)
(** ** C84: a Sequential runs its items in the order of add *)
Theorem C84_sequential : forall (I : Type) (run : Z -> I -> res I) (items : list Z) (x : I),
  seq_forward I run (fold_left (fun q a => seq_add a q) items seq_empty) x =
  fold_left (fun r a => do y <- r; run a y) items (ROk x).
Proof.
  intros I run items x. change (fold_left (fun q a => seq_add a q) items seq_empty) with (built items). rewrite seq_order.
  assert (E : forall l (r : res I), fold_left (fun r a => do y <- r; run a y) l r = (do y <- r; run_all I run l y)).
  { induction l as [|a l IH]; intro r; cbn [fold_left run_all]; [destruct r; reflexivity|]. rewrite IH. destruct r as [y| | |]; reflexivity. }
  rewrite E. reflexivity.
Qed.
Example C84_example : seq_forward Z (fun a x => ROk (x * 10 + a)) (fold_left (fun q a => seq_add a q) [4; 2; 4; 7; 1; 1; 1; 1; 1; 1; 1; 9] seq_empty) 0 = ROk 424711111119.
Proof. vm_compute. reflexivity. Qed.

Print Assumptions C80_names.
Print Assumptions C80_unique.
Print Assumptions C80_plain_names.
Print Assumptions C80_module_list.
Print Assumptions C81_load_partial.
Print Assumptions C81_missing.
Print Assumptions C81_reload.
Print Assumptions C81_layernorm_refuted.
Print Assumptions C82_depth_partial.
Print Assumptions C82_sequential_refuted.
Print Assumptions C82_late_refuted.
Print Assumptions C83_host_partial.
Print Assumptions C84_sequential.
