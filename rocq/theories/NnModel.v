(** Modules and layers: registration and naming, loading and collecting parameters, devices.
    Sources: /repo/mllm/nn/{AbstractNnNode,Layer,Module}.{hpp,cpp}, mllm/core/ParameterFile.cpp, the load and
    getParams functions of mllm/core/aops and mllm/backends/cpu/ops.

    Simplifications: a name is its list of bytes; a tensor is an abstract value ([T]), a nil
    tensor is None; [view] is Tensor::view, which returns or exits; the nodes of a module form
    a tree (reg always makes a new object).  Iterating over an unordered_map visits the entries
    in an arbitrary order, [iter]. *)
From Verif Require Import Base DTypeModel SymModel.
Local Open Scope Z_scope.

Definition str := list Z.
Definition dot : str := [46].
(** ".weight", ".bias" *)
Definition s_weight : str := [46; 119; 101; 105; 103; 104; 116].
Definition s_bias : str := [46; 98; 105; 97; 115].
Definition eqb_str (a b : str) : bool := if list_eq_dec Z.eq_dec a b then true else false.

(** SymbolTable / ParameterFile as an association list: utils/SymbolTable.hpp:28-73, core/ParameterFile.cpp:28-51. *)
Definition table (V : Type) := list (str * V).
Definition find {V} (name : str) (s : table V) : option V :=
  option_map snd (List.find (fun p => eqb_str (fst p) name) s).
Definition push {V} (name : str) (v : V) (s : table V) : res (table V) :=
  match find name s with Some _ => RAbort | None => ROk (s ++ [(name, v)]) end.
Definition pull {V} (name : str) (s : table V) : res V :=
  match find name s with Some v => ROk v | None => RAbort end.
Fixpoint push_all {V} (l : table V) (s : table V) : res (table V) :=
  match l with
  | [] => ROk s
  | (n, v) :: l => do s <- push n v s; push_all l s
  end.

(** enum ModelFileVersion, core/ParameterFile.hpp:18-22. *)
Inductive version := VTemporary | V1 | V2 | VOther.
(** enum LinearImplTypes, core/aops/LinearOp.hpp:11-56; LOther: any of the others. *)
Inductive linear_impl := LDefault | LBlas | LGguf | LMllmBlas | LKaiNeon | LKaiSme | LOther.
(** The layers with parameters, and KNone for the layers without, with the options that
    load and getParams look at. *)
Inductive kind :=
| KConv1D (in_channels out_channels kernel groups : Z) (bias : bool)
| KConv2D (in_channels out_channels kh kw : Z) (bias : bool) (packs : bool)
| KConv3D (in_channels out_channels kd kh kw : Z) (bias : bool)
| KEmbedding (vocab hidden : Z)
| KLayerNorm2D (channels : Z)
| KLayerNorm (shape : list Z) (affine bias : bool)
| KLinear (in_channels out_channels : Z) (bias : bool) (impl : linear_impl)
| KParam (name : str) (shape : list Z)
| KRMSNorm
| KNone.

Section Nn.
Context {T : Type}.
Variable view : list Z -> T -> res T.
(** Weight packing of CPUConv2DOp and CPULinearOp on ARM. *)
Variable pack_conv : T -> T.
Variable pack_linear : T -> option T -> T.
Variable arm : bool.
Variable iter : table (option T) -> table (option T).

(** The parameter tensors of an operator and what they hang on; device 0 is the CPU. *)
Record op := mkOp { o_name : str; o_kind : kind; o_device : Z; o_weight : option T; o_bias : option T }.
Definition set_weight (o : op) (t : T) : op := mkOp (o_name o) (o_kind o) (o_device o) (Some t) (o_bias o).
Definition set_bias (o : op) (t : T) : op := mkOp (o_name o) (o_kind o) (o_device o) (o_weight o) (Some t).

(** weight_ = ploader->pull(name + ".weight"), bias_ likewise. *)
Definition pull_weight (s : table T) (o : op) : res op := do t <- pull (o_name o ++ s_weight) s; ROk (set_weight o t).
Definition pull_bias (s : table T) (o : op) : res op := do t <- pull (o_name o ++ s_bias) s; ROk (set_bias o t).
(** weight_ = weight_.view(shape); a nil tensor has no data to view (not reached). *)
Definition view_weight (shape : list Z) (o : op) : res op :=
  match o_weight o with Some t => do t <- view shape t; ROk (set_weight o t) | None => RUB end.
Definition view_bias (shape : list Z) (o : op) : res op :=
  match o_bias o with Some t => do t <- view shape t; ROk (set_bias o t) | None => RUB end.

(** The convolutions: core/aops/Conv1DOp.cpp:16-34, Conv2DOp.cpp:16-39, Conv3DOp.cpp:16-40; backends/cpu/ops/Conv2DOp.cpp:13-35. *)
Definition conv_load (v : version) (s : table T) (bias : bool) (wshape : list Z) (oc : Z) (o : op) : res op :=
  match v with
  | V1 =>
      do o <- pull_weight s o;
      do o <- (if bias then pull_bias s o else ROk o);
      do o <- view_weight wshape o;
      if bias then view_bias [oc] o else ROk o
  | V2 | VTemporary => do o <- pull_weight s o; if bias then pull_bias s o else ROk o
  | VOther => ROk o   (* NYI: prints *)
  end.
(** backends/cpu/ops/Conv2DOp.cpp:37-72. *)
Definition conv2d_pack (packs : bool) (o : op) : res op :=
  if packs then
    match o_weight o with
    | Some t => if arm then ROk (set_weight o (pack_conv t)) else RAbort
    | None => RUB
    end
  else ROk o.
(** The implementations whose bias CPULinearOp loads. *)
Definition cpu_linear_bias (i : linear_impl) : bool := match i with LOther => false | _ => true end.
(** CPULinearOp::load, backends/cpu/ops/LinearOp.cpp:13-97. *)
Definition linear_load (v : version) (s : table T) (ic oc : Z) (bias : bool) (i : linear_impl) (o : op) : res op :=
  do o <- match v with
          | V1 =>
              do o <- pull_weight s o;
              if cpu_linear_bias i then
                do o <- view_weight [oc; ic] o;
                if bias then do o <- pull_bias s o; view_bias [oc] o else ROk o
              else ROk o
          | V2 | VTemporary =>
              do o <- pull_weight s o;
              if cpu_linear_bias i then if bias then do o <- pull_bias s o; view_bias [oc] o else ROk o
              else ROk o
          | VOther => ROk o
          end;
  match i with
  | LKaiNeon =>
      if arm then
        do o <- view_weight [oc; ic] o;
        match o_weight o with Some t => ROk (set_weight o (pack_linear t (o_bias o))) | None => RUB end
      else ROk o
  | _ => ROk o
  end.
(** load of an operator of the CPU backend: the functions above; core/aops/EmbeddingOp.cpp:18-32, LayerNorm2DOp.cpp:16-21,
    LayerNormOp.cpp:16-25, ParamOp.cpp:16-33, RMSNormOp.cpp:16-30; BaseOp.hpp load does nothing. *)
Definition cpu_load (v : version) (s : table T) (o : op) : res op :=
  match o_kind o with
  | KConv1D ic oc k g b => if g =? 0 then (match v with V1 => RUB | _ => conv_load v s b [] oc o end) else conv_load v s b [oc; Z.quot ic g; k] oc o
  | KConv2D ic oc kh kw b p => do o <- conv_load v s b [oc; ic; kh; kw] oc o; conv2d_pack p o
  | KConv3D ic oc kd kh kw b => conv_load v s b [oc; ic; kd; kh; kw] oc o
  | KEmbedding n h =>
      match v with
      | V1 => do o <- pull_weight s o; view_weight [n; h] o
      | V2 | VTemporary => pull_weight s o
      | VOther => ROk o
      end
  | KLayerNorm2D c =>
      do o <- pull_weight s o; do o <- view_weight [c] o;
      do o <- pull_bias s o; view_bias [c] o
  | KLayerNorm sh affine b =>
      do o <- (if affine then do o <- pull_weight s o; view_weight sh o else ROk o);
      if b then do o <- pull_bias s o; view_bias sh o else ROk o
  | KLinear ic oc b i => linear_load v s ic oc b i o
  | KParam n sh =>
      do o <- match v with VOther => ROk o | _ => do t <- pull n s; ROk (set_weight o t) end;
      match sh with [] => ROk o | _ => view_weight sh o end
  | KRMSNorm => match v with VOther => ROk o | _ => pull_weight s o end
  | KNone => ROk o
  end.

(** getParams: core/aops/Conv1DOp.cpp:97-102, Conv2DOp.cpp:126-131, Conv3DOp.cpp:105-110, EmbeddingOp.cpp:82-86, LayerNorm2DOp.cpp:53-58,
    LayerNormOp.cpp:53-58, LinearOp.cpp:112-117, ParamOp.cpp:49-53, RMSNormOp.cpp:63-67, BaseOp.hpp:172. *)
Definition op_params (o : op) : res (table (option T)) :=
  let w := (o_name o ++ s_weight, o_weight o) in
  let b := (o_name o ++ s_bias, o_bias o) in
  match o_kind o with
  | KConv1D _ _ _ _ bias | KConv2D _ _ _ _ bias _ | KConv3D _ _ _ _ _ bias | KLayerNorm _ _ bias | KLinear _ _ bias _ =>
      push_all (w :: (if bias then [b] else [])) []
  | KLayerNorm2D _ => push_all [w; b] []
  | KEmbedding _ _ | KRMSNorm => push_all [w] []
  | KParam n _ => push_all [(n, o_weight o)] []
  | KNone => ROk []
  end.

(** A parameter file: its version and its tensors. *)
Record pfile := mkFile { f_version : version; f_data : table T }.

(** AbstractNnNode with LayerImpl and ModuleImpl: nn/AbstractNnNode.hpp:53-70, Layer.hpp:43-46, Module.hpp:42-45. *)
Inductive node :=
| NLayer (name abs : str) (depth device : Z) (o : op)
| NModule (name abs : str) (depth device : Z) (buffers : table T) (files : list pfile) (children : list node).

(** depthIncrease, nn/AbstractNnNode.cpp:27-30. *)
Fixpoint bump (n : node) : node :=
  match n with
  | NLayer a b d v o => NLayer a b (d + 1) v o
  | NModule a b d v bf fs cs => NModule a b (d + 1) v bf fs (map bump cs)
  end.
Definition set_name (s : str) (n : node) : node :=
  match n with
  | NLayer _ b d v o => NLayer s b d v o
  | NModule _ b d v bf fs cs => NModule s b d v bf fs cs
  end.
Definition n_name (n : node) : str := match n with NLayer a _ _ _ _ | NModule a _ _ _ _ _ _ => a end.
Definition n_abs (n : node) : str := match n with NLayer _ b _ _ _ | NModule _ b _ _ _ _ _ => b end.
Definition n_depth (n : node) : Z := match n with NLayer _ _ d _ _ | NModule _ _ d _ _ _ _ => d end.
Definition n_device (n : node) : Z := match n with NLayer _ _ _ v _ | NModule _ _ _ v _ _ _ => v end.
Definition n_children (n : node) : list node := match n with NLayer _ _ _ _ _ => [] | NModule _ _ _ _ _ _ cs => cs end.
(** regChildNode, nn/AbstractNnNode.cpp:10-15. *)
Definition reg_child (m child : node) : node :=
  match m with
  | NModule a b d v bf fs cs => NModule a b d v bf fs (cs ++ [bump child])
  | NLayer _ _ _ _ _ => m
  end.

(** A child whose depth was already increased, and which changed since. *)
Definition attach (m child : node) : node :=
  match m with
  | NModule a b d v bf fs cs => NModule a b d v bf fs (cs ++ [child])
  | NLayer _ _ _ _ _ => m
  end.

(** The name reg gives a child, nn/Module.hpp:83-86, 96-99. *)
Definition join (abs name : str) : str :=
  match abs with
  | [] => name
  | _ => abs ++ (match name with [] => [] | _ => dot end) ++ name
  end.
(** The name __reg_as_pointer gives, nn/Module.hpp:116, 127. *)
Definition join_ptr (abs name : str) : str := match abs with [] => name | _ => abs ++ dot ++ name end.

(** What the constructor of a module does: it registers children under names, in order.  A
    layer's options may depend on the module's own name (getModuleName()).  A Sequential is registered
    first and filled with add afterwards, as in "reg<Sequential>(name).add<T>(...)"; one that
    is itself the object under construction is filled by its constructor. *)
Inductive decl :=
| DLayer (options : str -> kind)
| DModule (body : list (str * decl))
| DSequential (items : list decl).

(** Module(name), nn/Module.cpp:93-97. *)
Definition new_module (name : str) : node := NModule name name 0 0 [] [] [].
(** A layer as reg makes it, nn/Module.hpp:93-110. *)
Definition new_layer (abs : str) (k : kind) : node := NLayer [] abs 0 0 (mkOp abs k 0 None None).

(** [construct owner abs d]: the object T(...) made by a module called owner, with absolute
    name abs; reg: nn/Module.hpp:80-111; __reg_as_pointer: 114-138; Sequential::add: 261-277, which increases
    the depth a second time.  std::to_string of the number of earlier items is [show_int]. *)
Fixpoint construct (owner abs : str) (d : decl) {struct d} : node :=
  let add_items := fix add_items (abs : str) (i : Z) (l : list decl) (m : node) {struct l} : node :=
    match l with
    | [] => m
    | c :: l =>
        let name := show_int i in
        add_items abs (i + 1) l (reg_child m (bump (set_name name (construct abs (join_ptr abs name) c))))
    end in
  match d with
  | DLayer k => new_layer abs (k owner)
  | DModule body =>
      (fix regs (l : list (str * decl)) (m : node) {struct l} : node :=
         match l with
         | [] => m
         | (name, c) :: l =>
             regs l (match c with
                     | DSequential items => attach m (add_items (join abs name) 0 items (set_name name (bump (new_module (join abs name)))))
                     | _ => reg_child m (set_name name (construct abs (join abs name) c))
                     end)
         end) body (new_module abs)
  | DSequential items => add_items abs 0 items (new_module abs)
  end.
(** A module as the user makes it, with all of its descendants. *)
Definition make (root : str) (d : decl) : node := construct [] root d.
(** ModuleList(name, nums, ...): nn/Module.hpp:205-209. *)
Definition module_list (n : nat) (d : decl) : decl := DModule (map (fun i => (show_int (Z.of_nat i), d)) (seq 0 n)).

(** The operators of a module, in the order in which load and params visit them. *)
Fixpoint ops (n : node) : list op :=
  match n with NLayer _ _ _ _ o => [o] | NModule _ _ _ _ _ _ cs => flat_map ops cs end.

(** load of an operator of another backend. *)
Variable device_load : version -> table T -> op -> res op.
(** LayerImpl::load: nn/Layer.cpp:11. *)
Definition op_load (v : version) (s : table T) (o : op) : res op :=
  if o_device o =? 0 then cpu_load v s o else device_load v s o.
(** ModuleImpl::load: nn/Module.cpp:17-26. *)
Fixpoint load (f : pfile) (n : node) : res node :=
  match n with
  | NLayer a b d v o => do o <- op_load (f_version f) (f_data f) o; ROk (NLayer a b d v o)
  | NModule a b d v bf fs cs =>
      do cs <- (fix each (l : list node) : res (list node) :=
                  match l with
                  | [] => ROk []
                  | c :: l => do c <- load f c; do l <- each l; ROk (c :: l)
                  end) cs;
      ROk (NModule a b d v bf (fs ++ [f]) cs)
  end.
(** ModuleImpl::params: nn/Module.cpp:28-46; the parameters of a module alone. *)
Fixpoint params (n : node) : res (table (option T)) :=
  match n with
  | NLayer _ _ _ _ o => op_params o
  | NModule _ _ _ _ _ _ cs =>
      (fix each (l : list node) (acc : table (option T)) : res (table (option T)) :=
         match l with
         | [] => ROk acc
         | c :: l => do p <- params c; do acc <- push_all (iter p) acc; each l acc
         end) cs []
  end.

(** Devices other than the CPU that keep the weights themselves; Tensor::to(device). *)
Variable on_device : Z -> bool.
Variable move : Z -> T -> T.
(** LayerImpl::to: nn/Layer.cpp:13-34. *)
Definition layer_to (dev : Z) (abs : str) (o : op) : res op :=
  if negb (dev =? 0) && on_device dev then
    do p <- op_params o;
    do s <- push_all (flat_map (fun e => match snd e with Some t => [(fst e, move dev t)] | None => [] end) (iter p)) [];
    op_load VTemporary s (mkOp abs (o_kind o) dev None None)
  else ROk o.
(** ModuleImpl::to: nn/Module.cpp:48-60. *)
Fixpoint to_device (dev : Z) (n : node) : res node :=
  match n with
  | NLayer a b d v o => do o <- layer_to dev b o; ROk (NLayer a b d dev o)
  | NModule a b d v bf fs cs =>
      do cs <- (fix each (l : list node) : res (list node) :=
                  match l with
                  | [] => ROk []
                  | c :: l => do c <- to_device dev c; do l <- each l; ROk (c :: l)
                  end) cs;
      ROk (NModule a b d dev (map (fun e => (fst e, move dev (snd e))) bf) fs cs)
  end.

(** registerBuffer, getBuffer, updateBuffer: nn/Module.cpp:74-78; utils/SymbolTable.hpp:28-36, 57-63. *)
Definition register_buffer (name : str) (t : T) (n : node) : res node :=
  match n with
  | NModule a b d v bf fs cs => do bf <- push name t bf; ROk (NModule a b d v bf fs cs)
  | NLayer _ _ _ _ _ => RUB
  end.
Definition get_buffer (name : str) (n : node) : res T :=
  match n with NModule _ _ _ _ bf _ _ => pull name bf | NLayer _ _ _ _ _ => RUB end.
Definition update_buffer (name : str) (t : T) (n : node) : res node :=
  match n with
  | NModule a b d v bf fs cs =>
      do _ <- pull name bf;
      ROk (NModule a b d v (map (fun e => if eqb_str (fst e) name then (fst e, t) else e) bf) fs cs)
  | NLayer _ _ _ _ _ => RUB
  end.

(** Sequential: nn/Module.hpp:252-306; what its items do is [run], the objects are numbers.
    op_mapping_[name] of an absent name makes a null entry, which is then called. *)
Record sequential := mkSeq { q_count : Z; q_names : list str; q_map : table Z }.
Definition seq_empty : sequential := mkSeq 0 [] [].
Definition map_set (name : str) (v : Z) (s : table Z) : table Z :=
  (name, v) :: filter (fun e => negb (eqb_str (fst e) name)) s.
Definition seq_add (object : Z) (q : sequential) : sequential :=
  mkSeq (q_count q + 1) (q_names q ++ [show_int (q_count q)]) (map_set (show_int (q_count q)) object (q_map q)).
Variable I : Type.
Variable run : Z -> I -> res I.
Fixpoint seq_run (names : list str) (mapping : table Z) (x : I) : res I :=
  match names with
  | [] => ROk x
  | n :: names =>
      match find n mapping with
      | Some object => do y <- run object x; seq_run names mapping y
      | None => RUB
      end
  end.
Definition seq_forward (q : sequential) (x : I) : res I := seq_run (q_names q) (q_map q) x.
End Nn.
