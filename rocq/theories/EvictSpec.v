(** Client histories on the prefix cache with sliding-window layers. *)
From Verif Require Import Base RadixModel RadixSpec.
Local Open Scope Z_scope.

(** promote a sequence with its addresses / evict on a sequence (PrefixCache.cpp:75-127). *)
Inductive pc_op := PPromote (e : Z) (toks : list Z) (vals : list col) | PEvict (toks : list Z).

(** Log of releases, oldest first: (layer, key addresses, value addresses). *)
Definition rlog := list (nat * list Z * list Z).
Definition pc_step (w : nat) (slide : list bool) (s : node * rlog) (o : pc_op) : option (node * rlog) :=
  match o with
  | PPromote e k v => match insert (fst s) e k v with Some t => Some (t, snd s) | None => None end
  | PEvict q => let '(t, fs) := evict (fst s) q w slide in Some (t, snd s ++ fs)
  end.
Fixpoint pc_run (w : nat) (slide : list bool) (s : node * rlog) (ops : list pc_op) : option (node * rlog) :=
  match ops with
  | [] => Some s
  | o :: r => match pc_step w slide s o with Some s' => pc_run w slide s' r | None => None end
  end.

(** Addresses of layer [j] released so far. *)
Definition freedk (j : nat) (log : rlog) : list Z := flat_map (fun f => if (fst (fst f) =? j)%nat then snd (fst f) else []) log.
Definition freedv (j : nat) (log : rlog) : list Z := flat_map (fun f => if (fst (fst f) =? j)%nat then snd f else []) log.

(** Valid addresses of layer [j] handed over by promotions. *)
Definition valid (a : Z) : list Z := if a =? invalid then [] else [a].
Definition givenk (j : nat) (ops : list pc_op) : list Z :=
  flat_map (fun o => match o with PPromote _ _ v => flat_map (fun c => valid (nth j (ck c) invalid)) v | PEvict _ => [] end) ops.
Definition givenv (j : nat) (ops : list pc_op) : list Z :=
  flat_map (fun o => match o with PPromote _ _ v => flat_map (fun c => valid (nth j (cv c) invalid)) v | PEvict _ => [] end) ops.
