(** Properties of rotary position embeddings: C65. *)
From Coq Require Import Reals Lra Psatz.
From Verif Require Import Base DTypeModel ParamModel ParamSpec ParamProofs TensorModel TensorSpec TensorProofs TensorSplit
  OpsModel OpsSpec OpsProofs OpsIndex OpsSum MatModel MatSpec MatProofs MatKernel MatOps ExpModel ExpProofs
  AttnModel AttnSpec AttnProofs AttnOps NumModel NumSpec NumProofs NumNorm PropertiesAttn PropertiesNum
  RopeModel RopeSpec RopeProofs RopeOps RopeTables RopeMath.
Local Open Scope Z_scope.

(* ================= C65 rotary position embedding ================= *)
(** Each pair (d, d + half) of each row is turned by the angle whose sine and cosine the tables give for the row's
    batch and token; the channels beyond 2 half are copied.  Both layouts, both architectures; the rows of the
    input may be anywhere (transposed views). *)
Theorem C65_rope : forall a lay partial t sn cs B H S D TB TS TD F Sn Cs,
  dense_rows t (activation_shape lay B H S D) F -> dense_rows sn [TB; TS; TD] Sn -> dense_rows cs [TB; TS; TD] Cs ->
  (partial = -1 \/ 0 <= partial <= D) -> B <= TB /\ S <= TS /\ pairs partial D <= TD ->
  returns (rope_op a lay partial false t sn cs) (activation_shape lay B H S D) (rope lay (pairs partial D) Sn Cs F).
Proof. intros. eapply rope_fresh; eauto. Qed.
(** In place: the same numbers, in the storage of the input, and nothing else there changes. *)
Theorem C65_rope_inplace : forall a lay partial t sn cs B H S D TB TS TD F Sn Cs,
  dense_rows t (activation_shape lay B H S D) F -> dense_rows sn [TB; TS; TD] Sn -> dense_rows cs [TB; TS; TD] Cs ->
  (partial = -1 \/ 0 <= partial <= D) -> B <= TB /\ S <= TS /\ pairs partial D <= TD -> no_aliasing t ->
  rewrites (rope_op a lay partial true t sn cs) t (rope lay (pairs partial D) Sn Cs F).
Proof. intros. eapply rope_inplace; eauto. Qed.

(** The frequencies: theta^(-2i/dim). *)
Theorem C65_frequencies : forall dim theta, 0 <= dim ->
  returns (inv_freq dim theta) [dim / 2] (fun idx => Rpower theta (- (2 * IZR (last idx 0%Z) / IZR dim)))%R.
Proof.
  intros dim theta H. destruct (inv_freq_ok dim theta H) as (t & E & O & h). exists t. split; [exact E|]. split; [apply h|]. split; [apply h|]. split; [exact O|].
  intros idx Hi. rewrite (h_elem _ _ _ h idx Hi). f_equal. rewrite Rpower_Ropp. unfold Rdiv at 1. ring.
Qed.

(** The tables: sines and cosines of position times frequency, scaled; the frequencies appear twice in a row. *)
Theorem C65_tables : forall pos freq scaling B S m P W, holds pos [B; S] P -> holds freq [m] W ->
  exists sn cs, rope_tables pos freq scaling = ROk (sn, cs) /\
    holds sn [B; S; 2 * m] (fun idx => sin (turn P W m idx) * scaling)%R /\
    holds cs [B; S; 2 * m] (fun idx => cos (turn P W m idx) * scaling)%R.
Proof. exact tables_ok. Qed.
(** End to end: tables made from positions and frequencies, applied to an activation, give the activation turned
    by position times frequency. *)
Theorem C65_positions : forall a lay partial t pos freq B H S D TB TS m F P W,
  dense_rows t (activation_shape lay B H S D) F -> holds pos [TB; TS] P -> holds freq [m] W ->
  (partial = -1 \/ 0 <= partial <= D) -> B <= TB /\ S <= TS /\ pairs partial D <= m ->
  exists sn cs, rope_tables pos freq 1 = ROk (sn, cs) /\
    returns (rope_op a lay partial false t sn cs) (activation_shape lay B H S D) (positioned lay (pairs partial D) W P F) /\
    (no_aliasing t -> rewrites (rope_op a lay partial true t sn cs) t (positioned lay (pairs partial D) W P F)).
Proof.
  intros a lay partial t pos freq B H S D TB TS m F P W HT HPo HW HP HTab.
  destruct (tables_ok pos freq 1 TB TS m P W HPo HW) as (sn & cs & E & h1 & h2). exists sn, cs. split; [exact E|].
  apply contiguous_dense in h1. apply contiguous_dense in h2.
  assert (HM : 0 <= m). { assert (D2 := ok_dims _ (h_ok _ _ _ HW)). rewrite (h_shape _ _ _ HW) in D2. inversion D2; auto. }
  assert (Ex : forall idx, in_shape (activation_shape lay B H S D) idx ->
     rope lay (pairs partial D) (fun idx => sin (turn P W m idx) * 1)%R (fun idx => cos (turn P W m idx) * 1)%R F idx = positioned lay (pairs partial D) W P F idx).
  { intros idx Hi. unfold rope, positioned, turned. 
    assert (Hd : exists i j k d, idx = [i; j; k; d] /\ 0 <= d).
    { unfold activation_shape in Hi. destruct idx as [|i [|j [|k [|d [|? ?]]]]]; try (apply in_shape_length in Hi; destruct lay; discriminate Hi).
      exists i, j, k, d. split; auto. destruct lay; do 3 (apply in_shape_cons in Hi; destruct Hi as [_ Hi]); apply in_shape_cons in Hi; destruct Hi as [Hi _]; lia. }
    destruct Hd as (i & j & k & d & -> & Hd). apply rotated_ext; auto.
    intros e He. unfold turn. rewrite !removelast_last, !last_last. rewrite Z.mod_small by lia. rewrite !Rmult_1_r. auto. }
  split.
  - refine (returns_ext _ _ _ _ (C65_rope a lay partial t sn cs B H S D TB TS (2 * m) F _ _ HT h1 h2 HP ltac:(lia)) Ex).
  - intro NA. refine (rewrites_ext _ _ _ _ (C65_rope_inplace a lay partial t sn cs B H S D TB TS (2 * m) F _ _ HT h1 h2 HP ltac:(lia) NA) _).
    intros idx Hi. rewrite (dr_shape _ _ _ HT) in Hi. apply Ex. auto.
Qed.

(** The inner product of two rows depends on their positions through the difference only. *)
Theorem C65_relative : forall half W D p p' r x y, 0 <= half -> 2 * half <= D ->
  inner D (turned half W (p + r) x) (turned half W (p' + r) y) = inner D (turned half W p x) (turned half W p' y).
Proof.
  intros half W D p p' r x y H1 H2. rewrite !turned_inner by auto. replace (p + r - (p' + r))%R with (p - p')%R by ring. reflexivity.
Qed.
(** Lengths are preserved, and position 0 leaves a row as it is. *)
Theorem C65_isometry : forall half W D p x y, 0 <= half -> 2 * half <= D ->
  inner D (turned half W p x) (turned half W p y) = inner D x y.
Proof.
  intros half W D p x y H1 H2. rewrite turned_inner by auto. apply total_ext. intros d _. rewrite Rminus_diag_eq by reflexivity. rewrite turned_zero. reflexivity.
Qed.
Theorem C65_origin : forall half W x d, turned half W 0 x d = x d.
Proof. exact turned_zero. Qed.

(** So attention scores do not change when all positions of a batch are shifted by the same amount, whatever
    the cached history: the rows of queries and keys that the operator returns have the same inner products. *)
Theorem C65_shift : forall a lay partial tq tk pos pos' freq B Hq Hk S D m r Q K P W,
  dense_rows tq (activation_shape lay B Hq S D) Q -> dense_rows tk (activation_shape lay B Hk S D) K ->
  holds pos [B; S] P -> holds pos' [B; S] (fun i => P i + r) -> holds freq [m] W ->
  (partial = -1 \/ 0 <= partial <= D) -> pairs partial D <= m ->
  exists sn cs sn' cs' Q1 K1 Q2 K2,
    rope_tables pos freq 1 = ROk (sn, cs) /\ rope_tables pos' freq 1 = ROk (sn', cs') /\
    returns (rope_op a lay partial false tq sn cs) (activation_shape lay B Hq S D) Q1 /\
    returns (rope_op a lay partial false tk sn cs) (activation_shape lay B Hk S D) K1 /\
    returns (rope_op a lay partial false tq sn' cs') (activation_shape lay B Hq S D) Q2 /\
    returns (rope_op a lay partial false tk sn' cs') (activation_shape lay B Hk S D) K2 /\
    forall b h h' s s', 0 <= b < B -> 0 <= h < Hq -> 0 <= h' < Hk -> 0 <= s < S -> 0 <= s' < S ->
      inner D (row lay Q2 b h s) (row lay K2 b h' s') = inner D (row lay Q1 b h s) (row lay K1 b h' s').
Proof.
  intros a lay partial tq tk pos pos' freq B Hq Hk S D m r Q K P W HQ HK HPo HPo' HW HP Hm.
  destruct (C65_positions a lay partial tq pos freq B Hq S D B S m Q P W HQ HPo HW HP ltac:(lia)) as (sn & cs & E1 & R1 & _).
  destruct (C65_positions a lay partial tk pos freq B Hk S D B S m K P W HK HPo HW HP ltac:(lia)) as (sn1 & cs1 & E1' & R2 & _).
  rewrite E1 in E1'. injection E1' as <- <-.
  destruct (C65_positions a lay partial tq pos' freq B Hq S D B S m Q _ W HQ HPo' HW HP ltac:(lia)) as (sn' & cs' & E2 & R3 & _).
  destruct (C65_positions a lay partial tk pos' freq B Hk S D B S m K _ W HK HPo' HW HP ltac:(lia)) as (sn1 & cs1 & E2' & R4 & _).
  rewrite E2 in E2'. injection E2' as <- <-.
  exists sn, cs, sn', cs'. do 4 eexists. split; [exact E1|]. split; [exact E2|]. split; [exact R1|]. split; [exact R2|]. split; [exact R3|]. split; [exact R4|].
  intros b h h' s s' Hb Hh Hh' Hs Hs'. destruct (half_ok partial tq B Hq S D Q lay HQ HP) as (_ & N1 & N2) || destruct (half_ok lay partial tq B Hq S D Q HQ HP) as (_ & N1 & N2).
  assert (Rw : forall F (P' : list Z -> Z) h s d, row lay (positioned lay (pairs partial D) W P' F) b h s d = turned (pairs partial D) (fun d => W [d]) (IZR (P' [b; s])) (row lay F b h s) d).
  { intros F P' g u d. unfold row, positioned, token. destruct lay; reflexivity. }
  transitivity (inner D (turned (pairs partial D) (fun d => W [d]) (IZR (P [b; s]) + IZR r) (row lay Q b h s)) (turned (pairs partial D) (fun d => W [d]) (IZR (P [b; s']) + IZR r) (row lay K b h' s'))).
  - apply total_ext. intros d _. rewrite !Rw, !plus_IZR. reflexivity.
  - rewrite C65_relative by auto. apply total_ext. intros d _. rewrite !Rw. reflexivity.
Qed.

(** A case that meets the hypotheses: one token at position 5 with two channels. *)
Definition position (p : Z) : tns Z := mkTns (mkV [1; 1] (default_strides [1; 1]) 0) (mkBuf 1 (fun _ => Some p)).
Lemma position_holds p : holds (position p) [1; 1] (fun _ => p).
Proof.
  destruct (owner_ok (A := Z) [1; 1] (x_buf (position p))) as [O1 O2]; [cbn; lia|repeat constructor; lia|reflexivity|].
  constructor; [reflexivity|exact O1|apply default_strides_row_major|]. intros idx Hi. reflexivity.
Qed.
Example C65_example : exists freq sn cs out, inv_freq 2 10000 = ROk freq /\ rope_tables (position 5) freq 1 = ROk (sn, cs) /\
  rope_op (X86 8) BSHD (-1) false (reals [1; 1; 1; 2] [1%R; 0%R]) sn cs = ROk out /\
  elem out [0; 0; 0; 0] = Some (cos 5) /\ elem out [0; 0; 0; 1] = Some (sin 5).
Proof.
  destruct (inv_freq_ok 2 10000 ltac:(lia)) as (freq & E & _ & HF). change (2 / 2) with 1 in HF.
  assert (HT : holds (reals [1; 1; 1; 2] [1%R; 0%R]) [1; 1; 1; 2] (reals_at [1; 1; 1; 2] [1%R; 0%R])) by holds_reals. apply contiguous_dense in HT.
  destruct (C65_positions (X86 8) BSHD (-1) _ (position 5) freq 1 1 1 2 1 1 1 _ _ _ HT (position_holds 5) HF ltac:(auto) ltac:(cbn; lia)) as (sn & cs & E1 & (out & E2 & _ & _ & _ & V) & _).
  exists freq, sn, cs, out. split; [exact E|]. split; [exact E1|]. split; [exact E2|].
  assert (W0 : (5 * (1 / Rpower 10000 (2 * 0 / 2)) = 5)%R). { replace (2 * 0 / 2)%R with 0%R by field. rewrite Rpower_O by lra. field. }
  split; rewrite V by (repeat constructor; lia); f_equal; unfold positioned, turned, rotated; change (pairs (-1) 2) with 1; cbn [last removelast app token Z.ltb Z.compare Z.sub Z.add Z.mul Z.opp Pos.compare Pos.compare_cont Pos.sub Pos.mul Z.pos_sub].
  - change (reals_at [1; 1; 1; 2] [1%R; 0%R] [0; 0; 0; 0]) with 1%R. change (reals_at [1; 1; 1; 2] [1%R; 0%R] [0; 0; 0; 1]) with 0%R. rewrite W0. ring.
  - change (reals_at [1; 1; 1; 2] [1%R; 0%R] [0; 0; 0; 0]) with 1%R. change (reals_at [1; 1; 1; 2] [1%R; 0%R] [0; 0; 0; 1]) with 0%R. rewrite W0. ring.
Qed.

(** Tables are not broadcast over the batch: with a table of one batch, accepted without a check, the second sequence
    reads beyond the table. *)
Theorem C65_shared_tables_refuted :
  rope_op (X86 8) BSHD (-1) false (reals [2; 1; 1; 2] [1%R; 0%R; 1%R; 0%R]) (reals [1; 1; 2] [0%R; 0%R]) (reals [1; 1; 2] [1%R; 1%R]) = RUB.
Proof. lazy. reflexivity. Qed.
(** More rotated channels than there are: accepted, and the rotation runs beyond the row. *)
Theorem C65_partial_too_large_refuted :
  rope_op (X86 8) BSHD 4 false (reals [1; 1; 1; 2] [1%R; 0%R]) (reals [1; 1; 4] [0%R; 0%R; 0%R; 0%R]) (reals [1; 1; 4] [1%R; 1%R; 1%R; 1%R]) = RUB.
Proof. lazy. reflexivity. Qed.
(** Two-dimensional tables abort. *)
Theorem C65_flat_tables_refuted :
  rope_op (X86 8) BSHD (-1) false (reals [1; 1; 1; 2] [1%R; 0%R]) (reals [1; 2] [0%R; 0%R]) (reals [1; 2] [1%R; 1%R]) = RAbort.
Proof. lazy. reflexivity. Qed.
Print Assumptions C65_rope.
Print Assumptions C65_rope_inplace.
Print Assumptions C65_frequencies.
Print Assumptions C65_tables.
Print Assumptions C65_positions.
Print Assumptions C65_relative.
Print Assumptions C65_isometry.
Print Assumptions C65_origin.
Print Assumptions C65_shift.
Print Assumptions C65_shared_tables_refuted.
Print Assumptions C65_partial_too_large_refuted.
Print Assumptions C65_flat_tables_refuted.
