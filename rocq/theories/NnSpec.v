(** Specification vocabulary for modules: paths, dotted names, what a layer's parameters are. *)
From Verif Require Import Base DTypeModel SymModel NnModel.
Local Open Scope Z_scope.

(** a.b.c *)
Fixpoint join_dots (l : list str) : str :=
  match l with
  | [] => []
  | [a] => a
  | a :: r => a ++ [46] ++ join_dots r
  end.
(** The non-empty names of a path, joined by dots. *)
Definition dotted (path : list str) : str := join_dots (filter (fun s => match s with [] => false | _ => true end) path).

(** The layers a declaration contains, with the names leading to them, in order; the items of a
    Sequential are called 0, 1, 2, ... *)
Fixpoint layers (d : decl) : list (list str * (str -> kind)) :=
  match d with
  | DLayer k => [([], k)]
  | DModule body => flat_map (fun e => map (fun pk => (fst e :: fst pk, snd pk)) (layers (snd e))) body
  | DSequential items =>
      (fix number (i : Z) (l : list decl) :=
         match l with
         | [] => []
         | c :: l => map (fun pk => (show_int i :: fst pk, snd pk)) (layers c) ++ number (i + 1) l
         end) 0 items
  end.
Definition is_layer (d : decl) : bool := match d with DLayer _ => true | _ => false end.

(** Sibling names that cannot lead to equal dotted names: neither continues the other. *)
Definition prefix (a b : str) : Prop := exists r, b = a ++ r.
Definition apart (a b : str) : Prop := ~ prefix (a ++ [46]) (b ++ [46]) /\ ~ prefix (b ++ [46]) (a ++ [46]).
(** Every module registers its children under names that are not empty and pairwise apart. *)
Inductive well_named : decl -> Prop :=
| wn_layer k : well_named (DLayer k)
| wn_module body : Forall (fun e => fst e <> []) body -> ForallOrdPairs (fun e f => apart (fst e) (fst f)) body ->
    Forall (fun e => well_named (snd e)) body -> well_named (DModule body)
| wn_sequential items : Forall well_named items -> well_named (DSequential items).

(** The parameters of a layer of this kind called nm, as a file of version v holds them: name, and
    the shape they are given if the file's own is not used. *)
Definition parameters (v : version) (k : kind) (nm : str) : list (str * option (list Z)) :=
  let w s := (nm ++ s_weight, s) in
  let b s := (nm ++ s_bias, s) in
  let old (s : list Z) := match v with V1 => Some s | _ => None end in
  match k with
  | KConv1D ic oc kk g bias => w (old [oc; Z.quot ic g; kk]) :: (if bias then [b (old [oc])] else [])
  | KConv2D ic oc kh kw bias _ => w (old [oc; ic; kh; kw]) :: (if bias then [b (old [oc])] else [])
  | KConv3D ic oc kd kh kw bias => w (old [oc; ic; kd; kh; kw]) :: (if bias then [b (old [oc])] else [])
  | KEmbedding n h => [w (old [n; h])]
  | KLayerNorm2D c => [w (Some [c]); b (Some [c])]
  | KLayerNorm s affine bias => (if affine then [w (Some s)] else []) ++ (if bias then [b (Some s)] else [])
  | KLinear ic oc bias i => w (match i with LOther => None | _ => old [oc; ic] end) :: (if bias then [b (Some [oc])] else [])
  | KParam n s => [(n, match s with [] => None | _ => Some s end)]
  | KRMSNorm => [w None]
  | KNone => []
  end.
(** The layers that keep the parameters as they are loaded: not those that pack them, nor the
    two cases refuted in C81. *)
Definition ordinary (arm : bool) (k : kind) : bool :=
  match k with
  | KConv1D _ _ _ g _ => negb (g =? 0)
  | KConv2D _ _ _ _ _ packs => negb packs
  | KLayerNorm _ affine _ => affine
  | KLinear _ _ bias LOther => negb bias
  | KLinear _ _ _ LKaiNeon => negb arm
  | _ => true
  end.
Definition known_version (v : version) : Prop := v <> VOther.
(** The file holds parameter e, and taken in the required shape it is t. *)
Definition taken {T} (view : list Z -> T -> res T) (s : table T) (e : str * option (list Z)) (t : T) : Prop :=
  exists raw, find (fst e) s = Some raw /\ match snd e with None => t = raw | Some shape => view shape raw = ROk t end.
(** All parameters of a module's operators. *)
Definition all_parameters {T} (v : version) (l : list (@op T)) : list (str * option (list Z)) :=
  flat_map (fun o => parameters v (o_kind o) (o_name o)) l.
(** Param layers are given the name their registration would give. *)
Definition conventional {T} (o : @op T) : Prop := match o_kind o with KParam n _ => n = o_name o | _ => True end.

(** x is a descendant of n, k generations down. *)
Inductive below {T} : @node T -> nat -> @node T -> Prop :=
| below_self n : below n 0 n
| below_child n c k x : In c (n_children n) -> below c k x -> below n (S k) x.
(** Sequentials occur only as direct children of modules. *)
Inductive sequentials_in_modules : decl -> Prop :=
| sm_layer k : sequentials_in_modules (DLayer k)
| sm_module body :
    Forall (fun e => sequentials_in_modules (snd e) \/
                     exists items, snd e = DSequential items /\ Forall sequentials_in_modules items) body ->
    sequentials_in_modules (DModule body).
