(** Proofs about filling tensors. *)
From Verif Require Import Base DTypeModel ParamModel TensorModel TensorProofs FillModel FillSpec.
From Coq Require Import Reals Lra.
From Flocq Require Import Core.
Local Open Scope Z_scope.

(** Elements lo..hi-1 are written. *)
Definition wrote (b b' : buf R) (lo hi : Z) (v : Z -> R) : Prop :=
  b_len b' = b_len b /\ forall i, b_at b' i = if (lo <=? i) && (i <? hi) then Some (v i) else b_at b i.
Lemma wrote_nil : forall b lo v, wrote b b lo lo v.
Proof. intros b lo v. split; [reflexivity|]. intros i. replace ((lo <=? i) && (i <? lo)) with false by lia. reflexivity. Qed.
Lemma wrote_cat : forall b b1 b2 lo mid hi v, lo <= mid <= hi -> wrote b b1 lo mid v -> wrote b1 b2 mid hi v -> wrote b b2 lo hi v.
Proof.
  intros b b1 b2 lo mid hi v H [L1 A1] [L2 A2]. split; [congruence|]. intros i. rewrite A2, A1.
  destruct ((mid <=? i) && (i <? hi)) eqn:E1; destruct ((lo <=? i) && (i <? mid)) eqn:E2; destruct ((lo <=? i) && (i <? hi)) eqn:E3; try reflexivity; exfalso; lia.
Qed.
Lemma store_wrote : forall b i x v, 0 <= i < b_len b -> x = v i -> exists b', store b i (Some x) = ROk b' /\ wrote b b' i (i + 1) v.
Proof.
  intros b i x v H ->. unfold store. replace ((0 <=? i) && (i <? b_len b)) with true by lia.
  eexists. split; [reflexivity|]. split; [reflexivity|]. intros j. cbn [b_at]. destruct (j =? i) eqn:E.
  - replace ((i <=? j) && (j <? i + 1)) with true by lia. f_equal. f_equal. lia.
  - replace ((i <=? j) && (j <? i + 1)) with false by lia. reflexivity.
Qed.
Lemma wrote_ext : forall b b' lo hi v w, wrote b b' lo hi v -> (forall i, lo <= i < hi -> v i = w i) -> wrote b b' lo hi w.
Proof.
  intros b b' lo hi v w [L A] H. split; [exact L|]. intros i. rewrite A. destruct ((lo <=? i) && (i <? hi)) eqn:E; [|reflexivity].
  rewrite H by lia. reflexivity.
Qed.

(** Single elements. *)
Lemma singles_wrote : forall b base n f v, 0 <= base -> 0 <= n -> base + n <= b_len b ->
  (forall k, 0 <= k < n -> f k = v (base + k)) ->
  exists b', zloop n (fun k b => store b (base + k) (Some (f k))) b = ROk b' /\ wrote b b' base (base + n) v.
Proof.
  intros b base n f v Hb Hn Hl Hf.
  destruct (zloop_inv (fun k s => wrote b s base (base + k) v) n (fun k b => store b (base + k) (Some (f k))) b) as [b' [E W]].
  - exact Hn.
  - rewrite Z.add_0_r. apply wrote_nil.
  - intros k s Hk W. destruct (store_wrote s (base + k) (f k) v) as [s' [E W']]; [destruct W as [L _]; lia|apply Hf; exact Hk|].
    exists s'. split; [exact E|]. replace (base + (k + 1)) with (base + k + 1) by lia. apply (wrote_cat b s s' base (base + k)); [lia|exact W|exact W'].
  - exists b'. split; assumption.
Qed.
Lemma lanes_wrote : forall b idx n f v, 0 <= idx -> 0 <= n -> idx + n <= b_len b ->
  (forall k, 0 <= k < n -> f k = v (idx + k)) -> exists b', store_lanes b idx n f = ROk b' /\ wrote b b' idx (idx + n) v.
Proof. intros b idx n f v. apply singles_wrote. Qed.

(** The vector loop. *)
Lemma vec_loop_inv : forall (S : Type) (P : Z -> S -> Prop) N count body fuel idx s,
  1 <= N -> 0 <= idx <= Z.max 0 count -> (Z.to_nat (count - idx) <= fuel)%nat -> P idx s ->
  (forall i x, 0 <= i -> i + N <= count -> P i x -> exists y, body i x = ROk y /\ P (i + N) y) ->
  exists i y, vec_loop fuel N count idx body s = ROk (i, y) /\ P i y /\ 0 <= i <= Z.max 0 count /\ count < i + N.
Proof.
  intros S P N count body fuel. induction fuel as [|f IH]; intros idx s HN Hi Hf HP Hs.
  - cbn. replace (idx + N <=? count) with false by lia. exists idx, s. split; [reflexivity|]. split; [exact HP|]. lia.
  - cbn [vec_loop]. destruct (idx + N <=? count) eqn:E.
    + destruct (Hs idx s ltac:(lia) ltac:(lia) HP) as [y [Ey Py]]. rewrite Ey. cbn [rbind].
      apply (IH (idx + N) y HN); [lia|lia|exact Py|exact Hs].
    + exists idx, s. split; [reflexivity|]. split; [exact HP|]. lia.
Qed.

Lemma fill_value_ok : forall N dst count value, 1 <= N -> 0 <= count <= b_len dst ->
  exists b, fill_value_impl N dst count value = ROk b /\ wrote dst b 0 count (fun _ => value).
Proof.
  intros N dst count value HN Hc. unfold fill_value_impl.
  destruct (vec_loop_inv (buf R) (fun i b => wrote dst b 0 i (fun _ => value)) N count
              (fun idx b => store_lanes b idx N (fun _ => value)) (Z.to_nat count) 0 dst) as [i [y [E [W [B1 B2]]]]].
  - exact HN.
  - lia.
  - lia.
  - apply wrote_nil.
  - intros i x H0 H1 W. destruct (lanes_wrote x i N (fun _ => value) (fun _ => value)) as [x' [E W']]; [lia|lia|destruct W as [L _]; lia|reflexivity|].
    exists x'. split; [exact E|]. apply (wrote_cat dst x x' 0 i); [lia|exact W|exact W'].
  - rewrite E. cbn [rbind fst snd]. destruct (i <? count) eqn:C.
    + destruct (lanes_wrote y i (count - i) (fun _ => value) (fun _ => value)) as [x' [E' W']]; [lia|lia|destruct W as [L _]; lia|reflexivity|].
      exists x'. split; [exact E'|]. replace (i + (count - i)) with count in W' by lia. apply (wrote_cat dst y x' 0 i); [lia|exact W|exact W'].
    + exists y. split; [reflexivity|]. replace count with i by lia. exact W.
Qed.
Lemma wrote_fills : forall dst b n v, wrote dst b 0 n v -> fills_with dst b n v.
Proof. intros dst b n v H. exact H. Qed.

(** ** Arange with exact arithmetic *)
Definition exact (x : R) : R := x.
Lemma arange_at_exact : forall start step i, arange_at exact start step i = (start + IZR i * step)%R.
Proof. reflexivity. Qed.
Lemma gtb_spec : forall x y, gtb x y = true <-> (y < x)%R.
Proof. intros x y. unfold gtb. destruct (Rlt_dec y x); split; intros; try assumption; try discriminate; try reflexivity; contradiction. Qed.
Lemma gtb_false : forall x y, gtb x y = false <-> (x <= y)%R.
Proof. intros x y. unfold gtb. destruct (Rlt_dec y x); split; intros; try discriminate; try reflexivity; lra. Qed.

Lemma div_sign : forall a b, b <> 0%R -> (0 < a / b)%R <-> (0 < b /\ 0 < a \/ b < 0 /\ a < 0)%R.
Proof.
  intros a b H. assert (E : (a = a / b * b)%R) by (field; exact H). split.
  - intros Q. destruct (Rtotal_order b 0) as [B|[B|B]]; [right|contradiction|left]; (split; [exact B|]); rewrite E; nra.
  - intros [[B A]|[B A]].
    + apply Rdiv_lt_0_compat; assumption.
    + replace (a / b)%R with ((- a) / (- b))%R by (field; exact H). apply Rdiv_lt_0_compat; lra.
Qed.
(** The number of elements is the smallest whole number not below (end - start) / step. *)
Lemma arange_count_exact : forall count start fin step, step <> 0%R -> 0 <= count ->
  arange_count exact count start fin step = Z.max 0 (Z.min (Zceil ((fin - start) / step)) count).
Proof.
  intros count start fin step H Hc. unfold arange_count, exact. fold exact.
  set (q := ((fin - start) / step)%R).
  assert (S1 : (gtb step 0 && gtb fin start) || (gtb 0 step && gtb start fin) = true <-> (0 < q)%R).
  { unfold q. rewrite div_sign by exact H. rewrite orb_true_iff, !andb_true_iff, !gtb_spec. split; intros [[A B]|[A B]]; [left|right|left|right]; split; lra. }
  destruct ((gtb step 0 && gtb fin start) || (gtb 0 step && gtb start fin)) eqn:E.
  - assert (Q : (0 < q)%R) by (apply S1; reflexivity). replace (gtb q 0) with true by (symmetry; apply gtb_spec; exact Q).
    assert (C0 : (IZR (Zceil q - 1) < q)%R).
    { rewrite minus_IZR. assert (W := Zceil_lb q). lra. }
    assert (C1 : 0 < Zceil q) by (apply lt_IZR; assert (W := Zceil_ub q); lra).
    assert (L : (fin = start + q * step)%R) by (unfold q; field; exact H).
    destruct (gtb step 0) eqn:Sg.
    + apply gtb_spec in Sg. replace (gtb fin (arange_at exact start step (Zceil q - 1))) with true.
      * cbn [negb]. lia.
      * symmetry. apply gtb_spec. rewrite arange_at_exact, L. apply Rplus_lt_compat_l. apply Rmult_lt_compat_r; assumption.
    + apply gtb_false in Sg. assert (Sn : (step < 0)%R) by lra. replace (gtb (arange_at exact start step (Zceil q - 1)) fin) with true.
      * cbn [negb]. lia.
      * symmetry. apply gtb_spec. rewrite arange_at_exact, L. apply Rplus_lt_compat_l.
        clear - C0 Sn. nra.
  - assert (Q : (q <= 0)%R). { apply Rnot_lt_le. intros W. apply S1 in W. discriminate. }
    assert (C1 : Zceil q <= 0) by (apply Zceil_glb; exact Q). lia.
Qed.

Lemma arange_float_exact : forall N dst n start step, 1 <= N -> 0 <= n <= b_len dst ->
  exists b, arange_float exact N dst n start step = ROk b /\ wrote dst b 0 n (fun i => (start + IZR i * step)%R).
Proof.
  intros N dst n start step HN Hn. unfold arange_float.
  set (v := fun i => (start + IZR i * step)%R).
  match goal with |- context [vec_loop _ _ _ _ ?B ?S0] => set (body := B); set (s0 := S0) end.
  destruct (vec_loop_inv (buf R * (Z -> R)) (fun i s => wrote dst (fst s) 0 i v /\ forall j, snd s j = v (i + j)) N n body (Z.to_nat n) 0 s0)
    as [i [y [E [[W _] [B1 B2]]]]].
  - exact HN.
  - lia.
  - lia.
  - split; [apply wrote_nil|]. intros j. reflexivity.
  - intros i x H0 H1 [W A]. unfold body. destruct (lanes_wrote (fst x) i N (snd x) v) as [x' [E W']]; [lia|lia|destruct W as [L _]; lia| |].
    + intros k _. apply A.
    + rewrite E. cbn [rbind]. eexists. split; [reflexivity|]. cbn [fst snd]. split.
      * apply (wrote_cat dst (fst x) x' 0 i); [lia|exact W|exact W'].
      * intros j. rewrite A. unfold v, exact. rewrite !plus_IZR. ring.
  - rewrite E. cbn [rbind fst snd].
    destruct (singles_wrote (fst y) i (n - i) (fun k => arange_at exact start step (i + k)) v) as [b [Eb Wb]]; [lia|lia|destruct W as [L _]; lia|reflexivity|].
    exists b. split; [exact Eb|]. replace (i + (n - i)) with n in Wb by lia. apply (wrote_cat dst (fst y) b 0 i); [lia|exact W|exact Wb].
Qed.
Lemma arange_int_exact : forall lo hi dst n start step, 0 <= n <= b_len dst ->
  (forall i, 0 <= i < n -> lo <= Ztrunc (start + IZR i * step) <= hi) ->
  exists b, arange_int exact (EInt lo hi) dst n start step = ROk b /\ wrote dst b 0 n (fun i => IZR (Ztrunc (start + IZR i * step))).
Proof.
  intros lo hi dst n start step Hn HR. unfold arange_int. set (v := fun i => IZR (Ztrunc (start + IZR i * step))).
  destruct (zloop_inv (fun k s => wrote dst s 0 k v) n (fun i b => do x <- cast (EInt lo hi) (arange_at exact start step i); store b i (Some x)) dst) as [b [E W]].
  - lia.
  - apply wrote_nil.
  - intros k s Hk W. unfold cast. rewrite arange_at_exact. specialize (HR k Hk).
    replace ((lo <=? Ztrunc (start + IZR k * step)) && (Ztrunc (start + IZR k * step) <=? hi)) with true by lia. cbn [rbind].
    destruct (store_wrote s k (v k) v) as [s' [E W']]; [destruct W as [L _]; lia|reflexivity|].
    exists s'. split; [exact E|]. apply (wrote_cat dst s s' 0 k); [lia|exact W|exact W'].
  - exists b. split; assumption.
Qed.

(** ** Random *)
Lemma lcg_wrap : forall x, lcg x = (1103515245 * x + 12345) mod 2 ^ 31.
Proof.
  intros x. unfold lcg. rewrite <- Znumtheory.Zmod_div_mod; [reflexivity|reflexivity|reflexivity|]. exists (2 ^ 33). reflexivity.
Qed.
Lemma lcg_seq_range : forall s k, 0 <= lcg_seq s (Datatypes.S k) < 2 ^ 31.
Proof. intros s k. cbn [lcg_seq]. apply Z.mod_pos_bound. reflexivity. Qed.
Lemma lcg_seq_step : forall s k, lcg (lcg_seq s k) = lcg_seq s (Datatypes.S k).
Proof. intros s k. rewrite lcg_wrap. reflexivity. Qed.

Lemma random_ok : forall rnd t N dst count start fin seed v, 1 <= N -> 0 <= count <= b_len dst ->
  rnd (fin - start)%R <> 0%R ->
  (forall i, 0 <= i < count -> cast t (random_at rnd start (rnd (fin - start)%R) (lcg_seq seed (Z.to_nat i + 2))) = ROk (v i)) ->
  exists b, fill_random_impl rnd t N dst count start fin seed = ROk b /\ wrote dst b 0 count v.
Proof.
  intros rnd t N dst count start fin seed v HN Hc NZ HV. unfold fill_random_impl, eqb0. destruct (Req_EM_T _ 0) as [E|_]; [contradiction|].
  set (range := rnd (fin - start)%R) in *.
  match goal with |- context [zloop count ?B ?S0] => set (body := B); set (s0 := S0) end.
  destruct (zloop_inv (fun k s => wrote dst (snd s) 0 k v /\ fst s = lcg_seq seed (Z.to_nat k + 1)) count body s0) as [s' [E [W _]]].
  - lia.
  - split; [apply wrote_nil|]. unfold s0. cbn [fst]. exact (lcg_seq_step seed 0).
  - intros k s Hk [W A]. unfold body. rewrite A. rewrite lcg_seq_step.
    replace (Datatypes.S (Z.to_nat k + 1)) with (Z.to_nat k + 2)%nat by lia. rewrite (HV k Hk). cbn [rbind].
    destruct (store_wrote (snd s) k (v k) v) as [b [E W']]; [destruct W as [L _]; lia|reflexivity|].
    rewrite E. cbn [rbind]. eexists. split; [reflexivity|]. cbn [fst snd]. split.
    + apply (wrote_cat dst (snd s) b 0 k); [lia|exact W|exact W'].
    + f_equal. lia.
  - rewrite E. cbn [rbind]. exists (snd s'). split; [reflexivity|exact W].
Qed.
