(** Specification vocabulary for the key/value caches: the log of appended rows. *)
From Verif Require Import Base DTypeModel ParamModel ParamSpec TensorModel TensorSpec KVModel.
Local Open Scope Z_scope.

(** One cached row: row number [i] of an appended tensor. *)
Definition row (A : Type) := (tns A * Z)%type.
(** The rows of a tensor [B, heads, S, dim], in order. *)
Definition rows_of {A} (k : tns A) : list (row A) :=
  map (fun i => (k, Z.of_nat i)) (seq 0 (Z.to_nat (nth 2 (x_shape k) 0))).

(** A tensor [B, heads, len, dim] shows exactly the rows of a log, head number h
    being head number h / rep of the appended tensors. *)
Definition shows {A} (t : tns A) (B heads rep dim : Z) (log : list (row A)) : Prop :=
  x_shape t = [B; heads; Z.of_nat (length log); dim] /\ tensor_ok t /\
  forall b h p d k i, 0 <= b < B -> 0 <= h < heads -> 0 <= d < dim ->
    nth_error log p = Some (k, i) ->
    elem t [b; h; Z.of_nat p; d] = elem k [b; h / rep; i; d].

(** An acceptable argument of an update: [1, kv, s, dim], the rows of each head
    packed one after the other. *)
Record kv_input {A} (kv dim s : Z) (k : tns A) : Prop := {
  ki_ok : tensor_ok k;
  ki_shape : x_shape k = [1; kv; s; dim];
  ki_rows : forall h i d, 0 <= h < kv -> 0 <= i < s -> 0 <= d < dim ->
    address (x_view k) [0; h; i; d] = address (x_view k) [0; h; 0; 0] + i * dim + d;
}.

(** The log of keys and values of every layer, and how the calls change it. *)
Definition logs (A : Type) := list (list (row A) * list (row A)).
Definition logs_step {A} (ls : logs A) (o : kv_op A) : logs A :=
  match o with
  | KvUpdate idx k v => upd_nth (Z.to_nat idx) (fun l => (fst l ++ rows_of k, snd l ++ rows_of v)) ls
  | KvSetCnt n => map (fun l => (firstn (Z.to_nat n) (fst l), firstn (Z.to_nat n) (snd l))) ls
  | KvClear => map (fun _ => ([], [])) ls
  end.
(** Calls within the rules: existing layer, acceptable arguments of equal length,
    enough room; the counter is only set back. *)
Definition op_allowed {A} (max kv dim : Z) (ls : logs A) (o : kv_op A) : Prop :=
  match o with
  | KvUpdate idx k v => 0 <= idx < Z.of_nat (length ls) /\
      exists s, 0 <= s /\ kv_input kv dim s k /\ kv_input kv dim s v /\
        Z.of_nat (length (fst (nth (Z.to_nat idx) ls ([], [])))) + s <= max
  | KvSetCnt n => 0 <= n /\ Forall (fun l => n <= Z.of_nat (length (fst l))) ls
  | KvClear => True
  end.
Fixpoint ops_allowed {A} (max kv dim : Z) (ls : logs A) (ops : list (kv_op A)) : Prop :=
  match ops with
  | [] => True
  | o :: r => op_allowed max kv dim ls o /\ ops_allowed max kv dim (logs_step ls o) r
  end.
Definition logs_after {A} (ls : logs A) (ops : list (kv_op A)) : logs A := fold_left logs_step ops ls.

(** ** The sub-cache *)
(** Replace the elements from position [at_] on by [new], within the length of the
    list. *)
Definition overwrite {X} (at_ : nat) (new log : list X) : list X :=
  firstn at_ log ++ firstn (length log - at_) new ++ skipn (at_ + length new) log.
(** The sub-cache starts with rows [start .. start + len) of its parent. *)
Definition sub_logs_init {A} (start len : Z) (ls : logs A) : logs A :=
  map (fun l => (firstn (Z.to_nat len) (skipn (Z.to_nat start) (fst l)), firstn (Z.to_nat len) (skipn (Z.to_nat start) (snd l)))) ls.
(** An update appends to the log of the sub-cache, a clear cuts it back to [len];
    setting the counter has no effect on a sub-cache. *)
Definition sub_logs_step {A} (len : Z) (slogs : logs A) (o : kv_op A) : logs A :=
  match o with
  | KvUpdate idx k v => upd_nth (Z.to_nat idx) (fun l => (fst l ++ rows_of k, snd l ++ rows_of v)) slogs
  | KvSetCnt _ => slogs
  | KvClear => map (fun l => (firstn (Z.to_nat len) (fst l), firstn (Z.to_nat len) (snd l))) slogs
  end.
(** For the parent, an update through the sub-cache replaces the rows at the place
    where the sub-cache appends, as far as the parent shows them. *)
Definition sub_parent_step {A} (start : Z) (ls slogs : logs A) (o : kv_op A) : logs A :=
  match o with
  | KvUpdate idx k v =>
      let at_ := (Z.to_nat start + length (fst (nth (Z.to_nat idx) slogs ([], []))))%nat in
      upd_nth (Z.to_nat idx) (fun l => (overwrite at_ (rows_of k) (fst l), overwrite at_ (rows_of v) (snd l))) ls
  | _ => ls
  end.
Fixpoint sub_after {A} (start len : Z) (ls slogs : logs A) (ops : list (kv_op A)) : logs A * logs A :=
  match ops with
  | [] => (ls, slogs)
  | o :: r => sub_after start len (sub_parent_step start ls slogs o) (sub_logs_step len slogs o) r
  end.
Fixpoint sub_allowed {A} (max kv dim start len : Z) (slogs : logs A) (ops : list (kv_op A)) : Prop :=
  match ops with
  | [] => True
  | o :: r => (match o with
               | KvUpdate idx k v => 0 <= idx < Z.of_nat (length slogs) /\
                   exists s, 0 <= s /\ kv_input kv dim s k /\ kv_input kv dim s v /\
                     start + Z.of_nat (length (fst (nth (Z.to_nat idx) slogs ([], [])))) + s <= max
               | _ => True
               end) /\ sub_allowed max kv dim start len (sub_logs_step len slogs o) r
  end.

(** ** The dynamic cache *)
(** An acceptable argument: [B, kv, s, dim]; contiguous, if its heads are to be
    repeated. *)
Record dyn_input {A} (B kv dim s rep : Z) (k : tns A) : Prop := {
  di_ok : tensor_ok k;
  di_shape : x_shape k = [B; kv; s; dim];
  di_packed : rep = 1 \/ contiguous k;
}.
Definition dyn_op {A} (o : Z * tns A * tns A) : kv_op A := KvUpdate (fst (fst o)) (snd (fst o)) (snd o).
Definition dyn_allowed {A} (layers : nat) (B kv dk dv rep : Z) (ops : list (Z * tns A * tns A)) : Prop :=
  Forall (fun o => 0 <= fst (fst o) < Z.of_nat layers /\
    exists s s', 0 <= s /\ 0 <= s' /\ dyn_input B kv dk s rep (snd (fst o)) /\ dyn_input B kv dv s' rep (snd o)) ops.
