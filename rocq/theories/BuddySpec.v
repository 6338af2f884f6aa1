(** Specification vocabulary for the buddy pool: what a client can observe of the storages it holds. *)
From Verif Require Import Base BuddyModel.
Local Open Scope Z_scope.

(** The half-open byte range [lo, lo+len). *)
Record range := mkRange { r_lo : Z; r_len : Z }.
Definition ranges_disjoint (a b : range) : Prop :=
  r_lo a + r_len a <= r_lo b \/ r_lo b + r_len b <= r_lo a.
Definition range_inside (a b : range) : Prop :=
  r_lo b <= r_lo a /\ r_lo a + r_len a <= r_lo b + r_len b.

(** No two entries (at different positions) overlap. *)
Definition no_overlap (l : list range) : Prop :=
  forall i j a b, i <> j -> nth_error l i = Some a -> nth_error l j = Some b -> ranges_disjoint a b.

(** The memory a storage owns: the whole block that backs it. *)
Definition live_range (l : live) : range := mkRange (bptr (lblk l)) (bsize (lblk l)).
Definition seg_range (s : seg) : range := mkRange (sptr s) (scap s).
Definition cached_range (c : Z * blk) : range := mkRange (bptr (snd c)) (bsize (snd c)).

Definition total (l : list Z) : Z := fold_right Z.add 0 l.

(** Free bytes and blocks of a segment. *)
Definition free_blocks (s : seg) : list range := map (fun b => mkRange (bptr b) (bsize b)) (concat (sfree s)).

(** Blocks currently outside the free lists that belong to segment [s] (in use or in the object cache). *)
Definition taken_of (p : pool) (s : seg) : list range :=
  map live_range (filter (fun l => lseg l =? sptr s) (lives p)) ++
  map cached_range (filter (fun c => fst c =? sptr s) (cached p)).

(** A pool configuration a caller may pass: the first segment is exactly [2^mx] bytes. *)
Definition reachable (base : Z) (mn mx : nat) (cacheon : bool) (cset : list Z) (ops : list op) (p : pool) : Prop :=
  exists p0, pool_init base (2 ^ Z.of_nat mx) mn mx cacheon cset = Some p0 /\ run p0 ops = Ok p.

(** A backend that never fails and returns consecutive 512 MB windows starting at [base]. *)
Fixpoint windows (base : Z) (n : nat) : list Z :=
  match n with O => [] | S m => base :: windows (base + 2 ^ 29) m end.
