(** What a session should answer: generation without any cache.  A token's hidden state in a causal network depends only
    on the tokens up to it. *)
From Verif Require Import Base RadixSpec SessModel.
Local Open Scope Z_scope.

Section Reference.
Context {H G : Type}.
Variable L : nat.
Variable embed : Z -> H.
Variable kproj vproj : nat -> H -> Z -> list Z.
Variable mix : nat -> H -> Z -> list (list Z) -> list (list Z) -> H.
Variable logits : H -> G.

(** Input of layer [l] at position [i] of the sequence [ts]; token [i] is at position [i], and sees tokens 0..i. *)
Fixpoint hidden (l : nat) (ts : list Z) (i : nat) : H :=
  match l with
  | O => embed (nth i ts 0)
  | S n => mix n (hidden n ts i) (Z.of_nat i)
             (map (fun j => kproj n (hidden n ts j) (Z.of_nat j)) (seq 0 (S i)))
             (map (fun j => vproj n (hidden n ts j) (Z.of_nat j)) (seq 0 (S i)))
  end.
(** The K and V bytes of position [i] in layer [l]. *)
Definition key_of (l : nat) (ts : list Z) (i : nat) : list Z := kproj l (hidden l ts i) (Z.of_nat i).
Definition value_of (l : nat) (ts : list Z) (i : nat) : list Z := vproj l (hidden l ts i) (Z.of_nat i).
(** The logits after the sequence. *)
Definition next (ts : list Z) : G := logits (hidden L ts (length ts - 1)).

Variable eos think : Z.
(** The tokens sampled after [ts]: at most [n], ending with [eos] if it comes up. *)
Fixpoint sampled (pick : nat -> G -> Z) (n i : nat) (ts : list Z) : list Z :=
  match n with
  | O => []
  | S m => let t := pick i (next ts) in if t =? eos then [t] else t :: sampled pick m (S i) (ts ++ [t])
  end.
Definition answer (rq : request G) : list Z := sampled (rq_sample rq) (Z.to_nat (rq_max rq)) 0 (rq_ids rq).
(** The client is sent every sampled token but the last, which only ends the stream. *)
Definition reply (rq : request G) : list chunk :=
  map (fun t => (Some t, false)) (removelast (answer rq)) ++ [(None, true)].
(** What a request leaves in the cache: prompt and answer up to the first thinking token. *)
Definition kept (rq : request G) : list Z :=
  let s := rq_ids rq ++ removelast (answer rq) in firstn (find_token think s) s.

(** Each request can be served: it asks for a token; it has two tokens that are not cached yet; neither its prompt nor what
    it leaves in the cache parts from a cached sequence in the way C05 shows the tree cannot handle. *)
Definition servable (rs : list (request G)) : Prop :=
  forall before rq after, rs = before ++ rq :: after ->
    1 <= rq_max rq /\ (2 <= length (rq_ids rq))%nat /\
    forall s, In s (map kept before) ->
      ~ prefix (removelast (rq_ids rq)) s /\ parts_cleanly (rq_ids rq) s /\ parts_cleanly (kept rq) s.
(** Lanes the requests may take (two per layer and token). *)
Definition lanes_needed (rs : list (request G)) : Z :=
  fold_right (fun rq n => 2 * Z.of_nat L * (Z.of_nat (length (rq_ids rq)) + rq_max rq) + n) 0 rs.
End Reference.

(** The data areas of the blobs, [size] bytes each, do not overlap. *)
Definition apart (basep : Z -> Z) (size : Z) : Prop :=
  forall b d, 0 <= b -> 0 <= d -> b <> d -> basep b + size <= basep d \/ basep d + size <= basep b.
(** Every walk over the blob table meets every blob (in whatever order). *)
Definition walks_all (order : nat -> ZenModel.zenfs -> list Z) : Prop :=
  forall n z, Permutation (order n z) (map ZenModel.bl_id (ZenModel.z_blobs z)).
(** [n] lanes are mapped. *)
Definition lanes_mapped (c : cache) (n : nat) : Prop :=
  exists held, NoDup held /\ length held = n /\ forall a, In a held <-> ZenModel.pca_physical (c_alloc c) a <> None.
(** The longest beginning of [q] that begins one of [ss] has [m] tokens. *)
Definition longest_known (ss : list (list Z)) (q : list Z) (m : nat) : Prop :=
  (m <= length q)%nat /\ (m = O \/ exists s, In s ss /\ prefix (firstn m q) s) /\
  forall s u, In s ss -> prefix u q -> prefix u s -> (length u <= m)%nat.
(** Some cached sequence refers to lane [a]. *)
Definition referred (t : RadixModel.node) (a : Z) : Prop :=
  exists n, within t n /\ exists c, In c (RadixModel.nvals n) /\ (In a (RadixModel.ck c) \/ In a (RadixModel.cv c)).
