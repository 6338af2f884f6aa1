(** C01-C04: the buddy memory pool.  Statements only; vocabulary in BuddySpec.v. *)
From Verif Require Import Base BuddyModel BuddyProofs BuddySpec BuddyMore.
Local Open Scope Z_scope.

(** C01.  For every history of requests: allocated storages do not overlap, each lies in a segment, is as
    long as requested, is a power of two long and aligned to its length; segments do not overlap. *)
Theorem C01_no_overlap : forall base mn mx cacheon cset ops p,
  (mn <= 29)%nat -> reachable base mn mx cacheon cset ops p ->
  no_overlap (map live_range (lives p)) /\
  no_overlap (map seg_range (segs p)) /\
  (forall l, In l (lives p) -> exists s o, In s (segs p) /\
      range_inside (live_range l) (seg_range s) /\
      lreq l <= r_len (live_range l) /\ r_len (live_range l) = 2 ^ Z.of_nat o /\
      (r_lo (live_range l) - sptr s) mod (2 ^ Z.of_nat o) = 0).
Proof.
  intros base mn mx con cs ops p H29 H. apply reach_inv in H; [|exact H29].
  exact (conj (no_overlap_app_l _ _ (inv_no_overlap p H))
        (conj (inv_segs_disjoint p H) (fun l => inv_live_in_seg p l H))).
Qed.
Print Assumptions C01_no_overlap.

(** C01, second half: no history makes the pool index outside its free-list table. *)
Theorem C01_no_undefined_behaviour : forall base mn mx cacheon cset ops p0,
  (mn <= 29)%nat -> pool_init base (2 ^ Z.of_nat mx) mn mx cacheon cset = Some p0 -> run p0 ops <> UB.
Proof.
  intros base mn mx con cs ops p0 H29 H. exact (run_no_UB ops p0 (init_inv _ _ _ _ _ _ H29 H)).
Qed.
Print Assumptions C01_no_undefined_behaviour.

(** C01 is false for first-segment sizes that are not a power of two: the constructor accepts 96 MB with
    max_order 27 (its assert only compares ceil(log2)), and a 50 MB request then gets a 48 MB block. *)
Theorem C01_non_power_of_two_segment_refuted :
  exists base cap mn mx ops p0 p l,
    pool_init base cap mn mx false [] = Some p0 /\ run p0 ops = Ok p /\ In l (lives p) /\
    bsize (lblk l) < lreq l.
Proof.
  exists 4096, (96 * 2 ^ 20), 14%nat, 27%nat, [OAlloc 1 (50 * 2 ^ 20) []].
  eexists. eexists. eexists. split; [vm_compute; reflexivity|].
  split; [vm_compute; reflexivity|]. split; [left; reflexivity|]. vm_compute. reflexivity.
Qed.
Print Assumptions C01_non_power_of_two_segment_refuted.

(** Non-vacuity: a history with splits, a merge and a second segment. *)
Example C01_example : exists p,
  reachable 4096 14 15 false []
    [OAlloc 1 1 []; OAlloc 2 20000 [2 ^ 20]; OAlloc 3 16384 []; OFree 1; OAlloc 4 5 []] p /\
  ((length (lives p) =? 3) && (length (segs p) =? 2))%nat = true.
Proof. apply history_check. vm_compute. reflexivity. Qed.

(** C02.  Conservation at every moment; complete coalescing once everything is released. *)
Theorem C02_conservation : forall base mn mx cacheon cset ops p s,
  (mn <= 29)%nat -> reachable base mn mx cacheon cset ops p -> In s (segs p) ->
  total (map r_len (free_blocks s)) + total (map r_len (taken_of p s)) = scap s /\
  sused s = total (map r_len (taken_of p s)).
Proof.
  intros base mn mx con cs ops p s H29 H. exact (inv_conservation p s (reach_inv _ _ _ _ _ _ _ H29 H)).
Qed.
Print Assumptions C02_conservation.

Theorem C02_full_coalescing : forall base mn mx cacheon cset ops p s,
  (mn <= 29)%nat -> reachable base mn mx cacheon cset ops p ->
  lives p = [] -> cached p = [] -> In s (segs p) ->
  free_blocks s = [seg_range s] /\ sused s = 0.
Proof.
  intros base mn mx con cs ops p s H29 H. exact (inv_all_free p s (reach_inv _ _ _ _ _ _ _ H29 H)).
Qed.
Print Assumptions C02_full_coalescing.

Example C02_example : exists p,
  reachable 4096 14 16 false []
    [OAlloc 1 1 []; OAlloc 2 20000 []; OAlloc 3 16384 []; OFree 2; OFree 1; OFree 3] p /\
  ((length (lives p) =? 0) && (length (cached p) =? 0) && (length (segs p) =? 1))%nat = true.
Proof. apply history_check. vm_compute. reflexivity. Qed.

(** C03.  Requests up to 512 MB are answered after at most 30 segment requests to the backend, unless the
    backend fails (null segment) or breaks its contract. *)
Theorem C03_alloc_terminates : forall base mn mx cacheon cset ops p uid size answers,
  (mn <= 29)%nat -> reachable base mn mx cacheon cset ops p ->
  0 <= size <= 2 ^ 29 -> ~ In uid (map luid (lives p)) -> (30 <= length answers)%nat ->
  (exists p' l, pool_alloc p uid size answers = Ok p' /\ lives p' = lives p ++ [l] /\ luid l = uid /\ lreq l = size)
  \/ pool_alloc p uid size answers = NullSegment \/ pool_alloc p uid size answers = BackendOverlap.
Proof.
  intros base mn mx con cs ops p uid size answers H29 H.
  exact (pool_alloc_answers p uid size answers (reach_inv _ _ _ _ _ _ _ H29 H)).
Qed.
Print Assumptions C03_alloc_terminates.

(** C03 is false above 512 MB: in the default configuration a request for 512 MB + 1 byte is still running
    after the backend has supplied [n] further segments, for every [n]: it is neither answered nor refused. *)
Theorem C03_oversized_request_refuted :
  exists base mn mx p size, reachable base mn mx false [] [] p /\ (mn <= 29)%nat /\
    forall n, pool_alloc p 1 size (windows (2 ^ 40) n) = Waiting.
Proof.
  exists 4096, 14%nat, 27%nat. eexists. exists (2 ^ 29 + 1).
  split; [eexists; split; [vm_compute; reflexivity|reflexivity]|]. split; [lia|]. intro n.
  unfold pool_alloc. cbn [lives existsb use_cache pcacheon andb]. cbn [segs pmin].
  rewrite big_waits; [reflexivity|lia|lia|discriminate|].
  intros s [<-|[]]. cbn [sused scap sptr]. lia.
Qed.
Print Assumptions C03_oversized_request_refuted.

(** The general form: whatever finite list of answers the backend gives, no such request is ever served. *)
Theorem C03_oversized_never_served : forall p uid size answers,
  2 ^ 29 < size -> (forall s, In s (segs p) -> 0 <= sused s /\ scap s < size) -> pcacheon p = false ->
  forall p', pool_alloc p uid size answers <> Ok p'.
Proof.
  intros p uid size answers Hs Hall Hc p' H. unfold pool_alloc in H.
  destruct (existsb _ _); [discriminate|]. unfold use_cache in H. rewrite Hc in H. cbn [andb] in H.
  destruct (big_never (pmin p) size answers (segs p) Hs Hall) as [E|[E|E]]; rewrite E in H; discriminate.
Qed.
Print Assumptions C03_oversized_never_served.

Example C03_example : exists p, reachable 4096 14 27 false [] [OAlloc 1 (2 ^ 27) []] p /\
  (match pool_alloc p 2 (2 ^ 29) (windows (2 ^ 40) 30) with Ok p' => (length (segs p') =? 3)%nat | _ => false end) = true.
Proof.
  apply (history_check _ _ _ _ _ _ (fun p => match pool_alloc p 2 (2 ^ 29) (windows (2 ^ 40) 30) with Ok p' => (length (segs p') =? 3)%nat | _ => false end)).
  vm_compute. reflexivity.
Qed.

(** C04.  Cached blocks are idle: they overlap neither each other nor any storage in use. *)
Theorem C04_cached_blocks_idle : forall base mn mx cacheon cset ops p,
  (mn <= 29)%nat -> reachable base mn mx cacheon cset ops p ->
  no_overlap (map live_range (lives p) ++ map cached_range (cached p)).
Proof.
  intros base mn mx con cs ops p H29 H. exact (inv_no_overlap p (reach_inv _ _ _ _ _ _ _ H29 H)).
Qed.
Print Assumptions C04_cached_blocks_idle.

(** C04: a released power-of-two size is served from the cache without taking new memory. *)
Theorem C04_reuse_power_of_two : forall base mn mx cset ops p u1 u2 o a1 a2 p1 p2,
  (mn <= 29)%nat -> reachable base mn mx true cset ops p -> (pmin p <= o)%nat ->
  pcacheon p = true -> In (2 ^ Z.of_nat o) (pcset p) ->
  pool_alloc p u1 (2 ^ Z.of_nat o) a1 = Ok p1 -> pool_free p1 u1 = Ok p2 -> ~ In u2 (map luid (lives p2)) ->
  exists p3, pool_alloc p2 u2 (2 ^ Z.of_nat o) a2 = Ok p3 /\ segs p3 = segs p2 /\
             length (cached p3) = pred (length (cached p2)).
Proof.
  intros base mn mx cs ops p u1 u2 o a1 a2 p1 p2 H29 H Ho.
  exact (cache_reuse p u1 u2 _ a1 a2 p1 p2 o (reach_inv _ _ _ _ _ _ _ H29 H) eq_refl Ho).
Qed.
Print Assumptions C04_reuse_power_of_two.

Example C04_example : exists p, reachable 4096 14 20 true [32768] [OAlloc 9 32768 []] p /\
  (match pool_alloc p 1 (2 ^ Z.of_nat 15) [] with
   | Ok p1 => match pool_free p1 1 with Ok p2 => (length (cached p2) =? 1)%nat && pcacheon p | _ => false end
   | _ => false end) = true.
Proof.
  apply (history_check _ _ _ _ _ _ (fun p => match pool_alloc p 1 (2 ^ Z.of_nat 15) [] with
   | Ok p1 => match pool_free p1 1 with Ok p2 => (length (cached p2) =? 1)%nat && pcacheon p | _ => false end
   | _ => false end)).
  vm_compute. reflexivity.
Qed.

(** C04 is false for cached sizes that are not a power of two: the released block is filed under its rounded
    size and looked up under the requested one, so every allocate/release cycle takes a further block although
    no storage is in use. *)
Theorem C04_reuse_refuted :
  exists size p0 p1 p2,
    pool_init 4096 (2 ^ 27) 14 27 true [size] = Some p0 /\
    run p0 [OAlloc 1 size []; OFree 1] = Ok p1 /\ run p1 [OAlloc 2 size []; OFree 2] = Ok p2 /\
    lives p1 = [] /\ lives p2 = [] /\ length (cached p1) = 1%nat /\ length (cached p2) = 2%nat /\
    map sused (segs p1) = [32768] /\ map sused (segs p2) = [65536].
Proof.
  exists 20000. eexists. eexists. eexists. split; [vm_compute; reflexivity|].
  split; [vm_compute; reflexivity|]. split; [vm_compute; reflexivity|]. vm_compute. repeat split; reflexivity.
Qed.
Print Assumptions C04_reuse_refuted.
