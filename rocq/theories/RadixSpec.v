(** Specification vocabulary for the prefix (radix) tree: histories of stored sequences, no tree in sight. *)
From Verif Require Import Base RadixModel.
Local Open Scope Z_scope.

(** One stored sequence: extra key (LoRA id, salt), tokens, per-token cache addresses. *)
Record entry := mkEntry { e_extra : Z; e_toks : list Z; e_vals : list col }.

(** [tree_after h t]: [t] is the tree after inserting the entries of [h], oldest first. *)
Fixpoint run_inserts (t : node) (h : list entry) : option node :=
  match h with
  | [] => Some t
  | x :: r => match insert t (e_extra x) (e_toks x) (e_vals x) with
              | Some t' => run_inserts t' r
              | None => None
              end
  end.
Definition tree_after (h : list entry) (t : node) : Prop := run_inserts empty_tree h = Some t.

Definition prefix {A} (a b : list A) : Prop := exists c, b = a ++ c.

(** [w] is the beginning of a sequence stored under [e]. *)
Definition stored_prefix (h : list entry) (e : Z) (w : list Z) : Prop :=
  exists x, In x h /\ e_extra x = e /\ prefix w (e_toks x).

(** [x] is the entry that introduced the prefix [w]: the oldest one beginning with it. *)
Definition introduced_by (h : list entry) (e : Z) (w : list Z) (x : entry) : Prop :=
  exists h1 h2, h = h1 ++ x :: h2 /\ e_extra x = e /\ prefix w (e_toks x) /\ ~ stored_prefix h1 e w.

(** After [a] and [b] part, the token where [a] leaves [b] does not come back later in [b]. *)
Definition parts_cleanly (a b : list Z) : Prop :=
  forall p x ra y rb, a = p ++ x :: ra -> b = p ++ y :: rb -> x <> y -> ~ In x rb.

(** [q] parts cleanly from everything stored under [e]. *)
Definition clean_query (h : list entry) (e : Z) (q : list Z) : Prop :=
  forall x, In x h -> e_extra x = e -> parts_cleanly q (e_toks x).

(** Every sequence parted cleanly from the ones stored before it. *)
Definition clean_history (h : list entry) : Prop :=
  forall h1 x h2, h = h1 ++ x :: h2 -> clean_query h1 (e_extra x) (e_toks x).

(** Nodes of a tree. *)
Inductive within (t : node) : node -> Prop :=
| wi_root : within t t
| wi_kid n c : within t n -> In c (nkids n) -> within t c.
