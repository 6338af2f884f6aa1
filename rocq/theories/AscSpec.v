(** Vocabulary of the Ascend pool: who holds what, read off the history of calls. *)
From Verif Require Import Base AscModel.
Local Open Scope Z_scope.

(** A pool as the library makes it: huge pages start on a multiple of 64, the size is a multiple of 32, at most 64 GiB. *)
Definition usual_pool (base P : Z) : Prop := (64 | base) /\ 0 < base /\ (32 | P) /\ 0 <= P <= 2 ^ 36 /\ base + P <= 2 ^ 63.
(** Requests of at most 4 GiB less 64 bytes. *)
Definition small (c : call) : Prop := match c with CAlloc _ size => 0 <= size <= 2 ^ 32 - 64 | _ => True end.
(** The id a call wrote. *)
Definition answer (c : call) (q : pool) : option Z :=
  match c with CAlloc order size => fst (allocate_block order (u32 size) q) | _ => None end.

(** After the calls [l], which lead to the pool [q], [id] is held for [size]: some call for [size] was answered with [id],
    and nobody freed [id] since. *)
Inductive holds (p0 : pool) : list call -> pool -> Z -> Z -> Prop :=
| holds_new : forall l q order size id, calls p0 l q -> fair_order (CAlloc order size) q -> answer (CAlloc order size) q = Some id ->
    holds p0 (l ++ [CAlloc order size]) (do_call (CAlloc order size) q) id size
| holds_on : forall l q id size c, holds p0 l q id size -> fair_order c q -> c <> CFree id -> holds p0 (l ++ [c]) (do_call c q) id size.

(** Taking and giving back, one request after the other; the answers. *)
Inductive take_and_give : pool -> list Z -> list (option Z) -> pool -> Prop :=
| tg_nil : forall p, take_and_give p [] [] p
| tg_cons : forall p order size sizes id q ids r, Permutation order (p_free p) -> allocate_block order (u32 size) p = (id, q) ->
    take_and_give (match id with Some i => free_block i q | None => q end) sizes ids r -> take_and_give p (size :: sizes) (id :: ids) r.

(** ** Storages on top *)
(** Allocating a storage, freeing one by its address, or a call of another user of the pool. *)
Inductive event := SAlloc (order : list block) (size : Z) | SFree (a : Z) | SOther (c : call).
Definition do_event (e : event) (s : alloc_state) : alloc_state :=
  match e with
  | SAlloc order size => snd (storage_alloc order size s)
  | SFree a => storage_free a s
  | SOther c => mkAlloc (do_call c (a_pool s)) (a_map s)
  end.
(** Other users do not free what they do not hold. *)
Definition fair_event (e : event) (s : alloc_state) : Prop :=
  match e with
  | SAlloc order _ => Permutation order (p_free (a_pool s))
  | SFree _ => True
  | SOther c => fair_order c (a_pool s) /\ forall id, c = CFree id -> ~ In id (map snd (a_map s))
  end.
Definition small_event (e : event) : Prop :=
  match e with SAlloc _ size => 0 <= size <= 2 ^ 32 - 64 | SOther c => small c | _ => True end.
Inductive events (s0 : alloc_state) : list event -> alloc_state -> Prop :=
| events_nil : events s0 [] s0
| events_snoc : forall l s e, events s0 l s -> fair_event e s -> events s0 (l ++ [e]) (do_event e s).
(** The storage at [a] is alive and has [size] bytes. *)
Inductive alive (s0 : alloc_state) : list event -> alloc_state -> Z -> Z -> Prop :=
| alive_new : forall l s order size a, events s0 l s -> fair_event (SAlloc order size) s -> fst (storage_alloc order size s) = Some a ->
    alive s0 (l ++ [SAlloc order size]) (do_event (SAlloc order size) s) a size
| alive_on : forall l s a size e, alive s0 l s a size -> fair_event e s -> e <> SFree a -> alive s0 (l ++ [e]) (do_event e s) a size.
