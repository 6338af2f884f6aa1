(** Vocabulary for the properties of the service. *)
From Verif Require Import Base DTypeModel ServiceModel.
Local Open Scope nat_scope.

Section Spec.
Context {A : Type}.
(** The items pushed, and the items handed out, in this order. *)
Definition pushed (tr : list (rev A)) : list A := flat_map (fun e => match e with EvPush _ x => [x] | _ => [] end) tr.
Definition popped (tr : list (rev A)) : list A := flat_map (fun e => match e with EvPop _ (Some x) => [x] | _ => [] end) tr.
Definition stopped (tr : list (rev A)) : Prop := exists t, In (EvStop t) tr.
Definition prefix {B} (l m : list B) : Prop := exists r, m = l ++ r.
(** The same for the responses of one id. *)
Variable K : Type.
Variable keq : K -> K -> bool.
Definition ppushed (k : K) (tr : list (@pev A K)) : list A :=
  flat_map (fun e => match e with PvPush _ _ k' x => if keq k' k then [x] else [] | _ => [] end) tr.
Definition ppopped (k : K) (tr : list (@pev A K)) : list A :=
  flat_map (fun e => match e with PvPop _ _ k' (Some x) => if keq k' k then [x] else [] | _ => [] end) tr.
Definition pstopped (tr : list (@pev A K)) : Prop := exists t, In (PvStop _ t) tr.
End Spec.
