(** Proofs about matrix products, part 2: kernels. *)
From Verif Require Import Base DTypeModel ParamModel ParamSpec ParamProofs TensorModel TensorSpec TensorProofs TensorSplit
  OpsModel OpsSpec OpsProofs OpsSum MatModel MatSpec MatProofs.
Local Open Scope Z_scope.

Lemma loadv_at {A} (c : buf A) d v : 0 <= d < b_len c -> b_at c d = Some v -> loadv c d = ROk v.
Proof. intros H E. unfold loadv, load. replace ((0 <=? d) && (d <? b_len c)) with true by lia. cbn [rbind]. rewrite E. reflexivity. Qed.
Lemma store_changes {A} (G : Z -> option A) (c : buf A) d v : 0 <= d < b_len c -> G d = Some v ->
  exists b', store c d (Some v) = ROk b' /\ changes G (eq d) c b'.
Proof. intros H E. apply changes_store; auto. Qed.

Definition segment (co n d : Z) : Prop := co <= d < co + n.
Definition cells (co ldc rm rn d : Z) : Prop := exists i, 0 <= i < rm /\ segment (co + i * ldc) rn d.
Lemma cells_at co ldc rm rn i j : 0 <= i < rm -> 0 <= j < rn -> cells co ldc rm rn (co + (i * ldc + j)).
Proof. intros Hi Hj. exists i. split; auto. unfold segment. lia. Qed.
Lemma cells_dec co ldc rm rn d : rn <= ldc -> cells co ldc rm rn d \/ ~ cells co ldc rm rn d.
Proof.
  intro H. destruct (Z_lt_le_dec 0 rn) as [Hr|Hr].
  2:{ right. intros (i & _ & Hs). unfold segment in Hs. lia. }
  set (q := (d - co) / ldc). assert (D := Z.div_mod (d - co) ldc ltac:(lia)). fold q in D.
  assert (B := Z.mod_pos_bound (d - co) ldc ltac:(lia)).
  destruct (Z_lt_le_dec ((d - co) mod ldc) rn) as [L|L].
  - destruct (Z_le_gt_dec 0 q) as [H0|H0].
    + destruct (Z_lt_le_dec q rm) as [H1|H1].
      * left. exists q. split; [lia|]. unfold segment. lia.
      * right. intros (i & Hi & Hs). unfold segment in Hs.
        assert (q = i) by (unfold q; symmetry; apply (Z.div_unique (d - co) ldc i (d - co - i * ldc)); lia). lia.
    + right. intros (i & Hi & Hs). unfold segment in Hs. nia.
  - right. intros (i & Hi & Hs). unfold segment in Hs.
    assert (d - co - i * ldc = (d - co) mod ldc) by (apply (Z.mod_unique (d - co) ldc i (d - co - i * ldc)); lia). lia.
Qed.

Lemma row_loop {A} (G : Z -> option A) n co body (b : buf A) :
  (forall j b1, 0 <= j < n -> b_len b1 = b_len b -> b_at b1 (co + j) = b_at b (co + j) ->
     exists b2, body j b1 = ROk b2 /\ changes G (eq (co + j)) b1 b2) ->
  exists b', zloop n body b = ROk b' /\ changes G (segment co n) b b'.
Proof.
  intro H. destruct (changes_loop G n (fun j d => co + j = d) body b) as (b' & E & C).
  - intros; lia.
  - intros j b1 Hj L E. apply H; auto.
  - exists b'. split; auto. eapply changes_iff; [|exact C]. intro d. unfold segment. split.
    + intros (j & Hj & <-). lia.
    + intro Hd. exists (d - co). lia.
Qed.
Lemma tile_loop {A} (G : Z -> option A) rm rn co ldc body (b : buf A) : rn <= ldc ->
  (forall i j b1, 0 <= i < rm -> 0 <= j < rn -> b_len b1 = b_len b -> b_at b1 (co + (i * ldc + j)) = b_at b (co + (i * ldc + j)) ->
     exists b2, body i j b1 = ROk b2 /\ changes G (eq (co + (i * ldc + j))) b1 b2) ->
  exists b', zloop rm (fun i c => zloop rn (fun j c => body i j c) c) b = ROk b' /\ changes G (cells co ldc rm rn) b b'.
Proof.
  intros Hl H. apply changes_loop with (P := fun i => segment (co + i * ldc) rn).
  - unfold segment. intros i j d Hi Hj H1 H2. destruct (Z_lt_le_dec i j); [nia|]. destruct (Z_lt_le_dec j i); [nia|lia].
  - intros i b1 Hi L E. apply row_loop. intros j b2 Hj L2 E2. rewrite <- Z.add_assoc in *. apply H; auto; [congruence|].
    rewrite E2. apply E. unfold segment. lia.
Qed.

Section Kernels.
Context {A : Type}.
Variable zero : A.
Variable add : A -> A -> A.
Variable mul : A -> A -> A.
Hypothesis M0 : comm_monoid zero add.
Notation psum := (psum zero add).
(** An optional vector added to every row. *)
Definition plus_bias (bv : option (Z -> A)) (n : Z) (s : A) : A := match bv with None => s | Some f => add (f n) s end.
Definition bias_ok (bias : option (buf A * Z)) (bv : option (Z -> A)) (N : Z) : Prop :=
  match bias, bv with
  | None, None => True
  | Some (p, o), Some f => forall n, 0 <= n < N -> loadv p (o + n) = ROk (f n)
  | _, _ => False
  end.
Lemma plus_vec_spec bias bv N n s : bias_ok bias bv N -> 0 <= n < N -> plus_vec add bias n s = ROk (plus_bias bv n s).
Proof using M0.
  intros HB Hn. unfold plus_vec. destruct bias as [[p o]|], bv as [f|]; cbn in HB |- *; try contradiction; auto.
  rewrite HB by auto. cbn [rbind]. f_equal. apply (cm_comm _ _ M0).
Qed.
Lemma bias_shift bias bv N jj n : bias_ok bias bv N -> 0 <= jj -> jj + n <= N ->
  bias_ok (option_map (fun q => (fst q, snd q + jj)) bias) (option_map (fun f j => f (jj + j)) bv) n.
Proof using.
  clear M0 mul add zero. intros HB H1 H2. destruct bias as [[p o]|], bv as [f|]; cbn in HB |- *; try contradiction; auto.
  intros j Hj. rewrite <- Z.add_assoc. apply HB. lia.
Qed.
(** The product of row m of X with row n of Y. *)
Notation prod X Y K m n := (psum (fun k => mul (X m k) (Y n k)) (Z.to_nat K)).

Section Gemv.
Variables (K N : Z) (a : buf A) (ao : Z) (b : buf A) (bo co : Z) (X : Z -> A) (Y : Z -> Z -> A) (bias : option (buf A * Z)) (bv : option (Z -> A)) (G : Z -> option A) (c : buf A).
Hypothesis HK : 0 <= K.
Hypothesis HN : 0 <= N.
Hypothesis HX : forall k, 0 <= k < K -> loadv a (ao + k) = ROk (X k).
Hypothesis HC : forall n, 0 <= n < N -> 0 <= co + n < b_len c.
Hypothesis HG : forall n, 0 <= n < N -> G (co + n) = Some (plus_bias bv n (psum (fun k => mul (X k) (Y n k)) (Z.to_nat K))).
Lemma gemv_nt_t_spec : bias_ok bias bv N ->
  (forall n k, 0 <= n < N -> 0 <= k < K -> loadv b (bo + (n * K + k)) = ROk (Y n k)) ->
  exists c', gemv_nt_t zero add mul K N a ao b bo co bias c = ROk c' /\ changes G (segment co N) c c'.
Proof using M0 HK HX HC HG.
  intros HB HY. unfold gemv_nt_t. apply row_loop. intros n c1 Hn L _.
  rewrite (dot_kernel_spec zero add mul M0 32 a ao b (bo + n * K) K X (Y n)); [|lia|exact HK|exact HX|].
  2:{ intros k Hk. rewrite <- Z.add_assoc. apply HY; auto. }
  cbn [rbind]. rewrite (plus_vec_spec bias bv N) by auto. cbn [rbind]. apply store_changes; [rewrite L; auto|apply HG; auto].
Qed.
Let Gl (l : Z) (d : Z) : option A := Some (psum (fun k => mul (X k) (Y (d - co) k)) (Z.to_nat l)).
Lemma gemv_nt_nt_spec w0 w : 0 < w0 -> 0 < w -> bv = None ->
  (forall n k, 0 <= n < N -> 0 <= k < K -> loadv b (bo + (k * N + n)) = ROk (Y n k)) ->
  exists c', gemv_nt_nt zero add mul w0 w K N a ao b bo co c = ROk c' /\ changes G (segment co N) c c'.
Proof using M0 HK HN HX HC HG.
  intros Hw0 Hw Ebv HY. rewrite Ebv in HG. cbn [plus_bias] in HG. unfold gemv_nt_nt. rewrite vec_for_eq by lia.
  assert (GL : forall l n, 0 <= n < N -> Gl l (co + n) = Some (psum (fun k => mul (X k) (Y n k)) (Z.to_nat l))).
  { intros l n Hn. unfold Gl. replace (co + n - co) with n by lia. reflexivity. }
  destruct (row_loop (Gl 0) N co (fun n c => store c (co + n) (Some zero)) c) as (c0 & E0 & C0).
  { intros n c1 Hn L _. apply store_changes; [rewrite L; auto|reflexivity]. }
  rewrite E0. cbn [rbind]. cbv zeta. set (q := K / 4).
  assert (Hq : 0 <= q) by (apply Z.div_pos; lia).
  assert (Hq2 : 4 * q <= K) by (unfold q; apply Z.mul_div_le; lia).
  assert (Load : forall l c1 c2 n, 0 <= n < N -> changes (Gl l) (segment co N) c c1 -> b_len c2 = b_len c1 -> b_at c2 (co + n) = b_at c1 (co + n) ->
     loadv c2 (co + n) = ROk (psum (fun k => mul (X k) (Y n k)) (Z.to_nat l))).
  { intros l c1 c2 n Hn [C1 C2 C3] L2 E2. apply loadv_at; [rewrite L2, C1; auto|]. rewrite E2, C2, GL; auto. unfold segment. lia. }
  match goal with |- exists _, (do _ <- zloop q ?body c0; _) = _ /\ _ =>
    destruct (zloop_inv (fun u c' => changes (Gl (4 * u)) (segment co N) c c') q body c0 Hq) as (c1 & E1 & C1) end.
  { exact C0. }
  { intros u c1 Hu C1. rewrite !HX by lia. cbn [rbind]. rewrite vec_for_eq by lia.
    edestruct (row_loop (Gl (4 * (u + 1))) N co) as (c2 & E2 & C2); [|exists c2; split; [exact E2|eapply changes_again; [exact C1|exact C2]]].
    intros n c2 Hn L2 A2. cbn beta. rewrite (Load (4 * u) c1 c2 n Hn C1 L2 A2). rewrite !HY by lia. cbn [rbind].
    apply store_changes; [rewrite L2, (c_len _ _ _ _ C1); auto|]. rewrite GL by auto.
    replace (4 * (u + 1)) with (4 * u + 1 + 1 + 1 + 1) by lia. rewrite !psum_succ by lia.
    replace (4 * u + 1 + 1 + 1) with (4 * u + 3) by lia. replace (4 * u + 1 + 1) with (4 * u + 2) by lia. reflexivity. }
  rewrite E1. cbn [rbind].
  match goal with |- exists _, zloop _ ?body c1 = _ /\ _ =>
    destruct (zloop_inv (fun r c' => changes (Gl (4 * q + r)) (segment co N) c c') (K - 4 * q) body c1 ltac:(lia)) as (c3 & E3 & C3) end.
  { rewrite Z.add_0_r. exact C1. }
  { intros r c2 Hr C2. rewrite !HX by lia. cbn [rbind]. rewrite vec_for_eq by lia.
    edestruct (row_loop (Gl (4 * q + (r + 1))) N co) as (c4 & E4 & C4); [|exists c4; split; [exact E4|eapply changes_again; [exact C2|exact C4]]].
    intros n c4 Hn L4 A4. cbn beta. rewrite (Load (4 * q + r) c2 c4 n Hn C2 L4 A4). rewrite !HY by lia. cbn [rbind].
    apply store_changes; [rewrite L4, (c_len _ _ _ _ C2); auto|]. rewrite GL by auto.
    rewrite Z.add_assoc. rewrite psum_succ by lia. reflexivity. }
  exists c3. split; [exact E3|]. eapply changes_ext; [|exact C3]. intros d Hd. unfold segment in Hd.
  replace d with (co + (d - co)) by lia. rewrite HG by lia. rewrite GL by lia. do 3 f_equal. lia.
Qed.
End Gemv.

Section Tile.
Variables (rm rn : Z) (a : buf A) (ao lda : Z) (b : buf A) (bo ldb co ldc k : Z) (X Y : Z -> Z -> A) (G : Z -> option A) (c : buf A).
Hypothesis Hrn : rn <= ldc.
Hypothesis Hk : 0 <= k.
Hypothesis HX : forall i l, 0 <= i < rm -> 0 <= l < k -> loadv a (ao + (i * lda + l)) = ROk (X i l).
Hypothesis HC : forall i j, 0 <= i < rm -> 0 <= j < rn -> 0 <= co + (i * ldc + j) < b_len c.
Hypothesis HG : forall i j, 0 <= i < rm -> 0 <= j < rn -> G (co + (i * ldc + j)) = Some (prod X Y k i j).
Let Gl (l : Z) (d : Z) : option A := Some (prod X Y l ((d - co) / ldc) ((d - co) mod ldc)).
Lemma tile_generic_spec :
  (forall j l, 0 <= j < rn -> 0 <= l < k -> loadv b (bo + (l * ldb + j)) = ROk (Y j l)) ->
  exists c', tile_generic zero add mul rm rn a ao lda b bo ldb co ldc k c = ROk c' /\ changes G (cells co ldc rm rn) c c'.
Proof using Hrn Hk HX HC HG.
  intro HY. unfold tile_generic.
  assert (GL : forall l i j, 0 <= j < rn -> Gl l (co + (i * ldc + j)) = Some (prod X Y l i j)).
  { intros l i j Hj. unfold Gl. replace (co + (i * ldc + j) - co) with (i * ldc + j) by lia.
    rewrite Z.div_add_l, Z.div_small, Z.add_0_r by lia. rewrite Z.add_comm, Z.mod_add, Z.mod_small by lia. reflexivity. }
  destruct (tile_loop (Gl 0) rm rn co ldc (fun i j c => store c (co + (i * ldc + j)) (Some zero)) c Hrn) as (c0 & E0 & C0).
  { intros i j c1 Hi Hj L _. apply store_changes; [rewrite L; auto|reflexivity]. }
  rewrite E0. cbn [rbind].
  match goal with |- exists _, zloop k ?body c0 = _ /\ _ =>
    destruct (zloop_inv (fun l c' => changes (Gl l) (cells co ldc rm rn) c c') k body c0 Hk) as (c1 & E1 & C1) end.
  - exact C0.
  - intros l c1 Hl C1.
    rewrite (zloop_ext rm _ (fun i c => zloop rn (fun j c =>
        do s <- loadv c (co + (i * ldc + j)); do bj <- loadv b (bo + (l * ldb + j)); store c (co + (i * ldc + j)) (Some (add s (mul (X i l) bj)))) c)).
    2:{ intros i s Hi. rewrite HX by auto. reflexivity. }
    edestruct (tile_loop (Gl (l + 1)) rm rn co ldc (fun i j c => do s <- loadv c (co + (i * ldc + j)); do bj <- loadv b (bo + (l * ldb + j)); store c (co + (i * ldc + j)) (Some (add s (mul (X i l) bj)))) c1 Hrn) as (c2 & E2 & C2);
      [|exists c2; split; [exact E2|eapply changes_again; [exact C1|exact C2]]].
    intros i j c2 Hi Hj L2 A2. rewrite (loadv_at c2 _ (prod X Y l i j)).
    2:{ rewrite L2, (c_len _ _ _ _ C1). auto. }
    2:{ rewrite A2, (c_set _ _ _ _ C1) by (apply cells_at; auto). apply GL; auto. }
    rewrite HY by auto. cbn [rbind]. apply store_changes; [rewrite L2, (c_len _ _ _ _ C1); auto|].
    rewrite GL by auto. rewrite psum_succ by lia. reflexivity.
  - exists c1. split; [exact E1|]. eapply changes_ext; [|exact C1]. intros d (i & Hi & Hd). unfold segment in Hd.
    replace d with (co + (i * ldc + (d - co - i * ldc))) by lia. rewrite HG, GL by lia. reflexivity.
Qed.
Lemma tile_nt_t_spec cpu bias bv (G' : Z -> option A) : 0 <= rm <= 8 -> 0 <= rn <= tile_cols cpu -> bias_ok bias bv rn ->
  (forall i j, 0 <= i < rm -> 0 <= j < rn -> G' (co + (i * ldc + j)) = Some (plus_bias bv j (prod X Y k i j))) ->
  (forall j l, 0 <= j < rn -> 0 <= l < k -> loadv b (bo + (j * ldb + l)) = ROk (Y j l)) ->
  exists c', dispatch_tile_nt_t zero add mul cpu rm rn a ao lda b bo ldb co ldc k bias c = ROk c' /\ changes G' (cells co ldc rm rn) c c'.
Proof using M0 Hrn Hk HX HC HG.
  intros Hm Hn HB HG' HY. unfold dispatch_tile_nt_t. rewrite !Z.min_l by lia. cbv zeta.
  assert (S1 : exists c1, zloop rm (fun i c => zloop rn (fun j c =>
    do s <- zloop k (fun l s => do x <- loadv a (ao + (i * lda + l)); do y <- loadv b (bo + (j * ldb + l)); ROk (add s (mul x y))) zero;
    store c (co + (i * ldc + j)) (Some s)) c) c = ROk c1 /\ changes G (cells co ldc rm rn) c c1).
  { apply (tile_loop G rm rn co ldc (fun i j c => 
    do s <- zloop k (fun l s => do x <- loadv a (ao + (i * lda + l)); do y <- loadv b (bo + (j * ldb + l)); ROk (add s (mul x y))) zero;
    store c (co + (i * ldc + j)) (Some s)) c Hrn).
  intros i j c1 Hi Hj L _.
  destruct (zloop_inv (fun l s => s = prod X Y l i j) k (fun l s => do x <- loadv a (ao + (i * lda + l)); do y <- loadv b (bo + (j * ldb + l)); ROk (add s (mul x y))) zero Hk) as (s & E & ->).
  - reflexivity.
  - intros l s Hl ->. rewrite HX, HY by auto. cbn [rbind]. eexists. split; [reflexivity|]. rewrite psum_succ by lia. reflexivity.
  - rewrite E. cbn [rbind]. apply store_changes; [rewrite L; auto|apply HG; auto]. }
  destruct S1 as (c1 & E1 & C1). rewrite E1. cbn [rbind]. destruct bias as [q|] eqn:QB.
  2:{ exists c1. split; [reflexivity|]. eapply changes_ext; [|exact C1]. intros d (i & Hi & Hd). unfold segment in Hd.
      replace d with (co + (i * ldc + (d - co - i * ldc))) by lia. rewrite HG, HG' by lia. destruct bv; [contradiction HB|reflexivity]. }
  rewrite <- QB in *.
  edestruct (tile_loop G' rm rn co ldc (fun i j c => do s <- loadv c (co + (i * ldc + j)); do s <- plus_vec add bias j s; store c (co + (i * ldc + j)) (Some s)) c1 Hrn) as (c2 & E2 & C2);
    [|exists c2; split; [exact E2|eapply changes_again; [exact C1|exact C2]]].
  intros i j c2 Hi Hj L2 A2. rewrite (loadv_at c2 _ (prod X Y k i j)).
  2:{ rewrite L2, (c_len _ _ _ _ C1). auto. }
  2:{ rewrite A2, (c_set _ _ _ _ C1) by (apply cells_at; auto). apply HG; auto. }
  cbn [rbind]. rewrite (plus_vec_spec bias bv rn) by auto. cbn [rbind].
  apply store_changes; [rewrite L2, (c_len _ _ _ _ C1); auto|apply HG'; auto].
Qed.
Lemma tile_vec_spec : 0 <= rn ->
  (forall j l, 0 <= j < rn -> 0 <= l < k -> loadv b (bo + (l * ldb + j)) = ROk (Y j l)) ->
  exists c', tile_vec zero add mul rm rn a ao lda b bo ldb co ldc k c = ROk c' /\ changes G (cells co ldc rm rn) c c'.
Proof using Hrn Hk HX HC HG.
  intros E8 HY. unfold tile_vec.
  rewrite (zloop_ext rm _ (fun i c => zloop rn (fun j c => store c (co + (i * ldc + j)) (nth_error (map (fun j => prod X Y k i j) (range rn)) (Z.to_nat j))) c)).
  2:{ intros i s Hi.
      destruct (zloop_inv (fun l acc => acc = map (fun j => prod X Y l i j) (range rn)) k
        (fun l acc => do bv <- load_vec b (bo + l * ldb) rn; do ai <- loadv a (ao + (i * lda + l)); ROk (vadd add acc (map (mul ai) bv))) (repeat zero (Z.to_nat rn)) Hk) as (acc & E & ->).
      - cbn [psum]. unfold range. rewrite map_map. generalize 0%nat. induction (Z.to_nat rn) as [|w IH]; intro o; [reflexivity|]. cbn [repeat seq map]. f_equal. apply IH.
      - intros l acc Hl ->. rewrite (load_vec_map b (bo + l * ldb) rn (fun j => Y j l)).
        2:{ intros j Hj. rewrite <- Z.add_assoc. apply HY; auto; lia. }
        rewrite HX by auto. cbn [rbind]. rewrite map_map, vadd_map. eexists. split; [reflexivity|].
        apply map_ext. intro j. rewrite psum_succ by lia. reflexivity.
      - rewrite E. reflexivity. }
  apply (tile_loop G rm rn co ldc (fun i j c => store c (co + (i * ldc + j)) (nth_error (map (fun j => prod X Y k i j) (range rn)) (Z.to_nat j))) c Hrn).
  intros i j c1 Hi Hj L _. apply changes_store; [rewrite L; auto|]. rewrite HG by auto.
  rewrite nth_error_map. unfold range. rewrite nth_error_map.
  replace (nth_error (seq 0 (Z.to_nat rn)) (Z.to_nat j)) with (Some (Z.to_nat j)).
  - cbn [option_map]. rewrite Z2Nat.id by lia. reflexivity.
  - symmetry. rewrite nth_error_nth' with (d := 0%nat) by (rewrite seq_length; lia). rewrite seq_nth by lia. reflexivity.
Qed.
Lemma tile_spec cpu : 0 <= rm <= 8 -> 0 <= rn <= tile_cols cpu ->
  (forall j l, 0 <= j < rn -> 0 <= l < k -> loadv b (bo + (l * ldb + j)) = ROk (Y j l)) ->
  exists c', dispatch_tile zero add mul cpu rm rn a ao lda b bo ldb co ldc k c = ROk c' /\ changes G (cells co ldc rm rn) c c'.
Proof using Hrn Hk HX HC HG.
  intros Hm Hn HY. unfold dispatch_tile. rewrite !Z.min_l by lia. cbv zeta.
  match goal with |- context [if ?t then _ else _] => destruct t eqn:Q end; [apply tile_vec_spec; auto; lia|apply tile_generic_spec; auto].
Qed.
End Tile.
End Kernels.
