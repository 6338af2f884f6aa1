(** Proofs about matrix products, part 3: tiling and packing. *)
From Verif Require Import Base DTypeModel ParamModel ParamSpec ParamProofs TensorModel TensorSpec TensorProofs TensorSplit
  OpsModel OpsSpec OpsProofs OpsSum MatModel MatSpec MatProofs MatKernel.
Local Open Scope Z_scope.

Lemma tile_size_bounds w m : 4 <= w -> 1 <= tile_size w m <= w.
Proof. intro H. unfold tile_size. destruct (m <? 4), (m <? w); lia. Qed.
Lemma tile_cols_bounds cpu : 4 <= tile_cols cpu.
Proof. destruct cpu; cbn; lia. Qed.
Lemma div_up m c : 0 < c -> m <= (m + c - 1) / c * c.
Proof. intro H. assert (D := Z.mul_succ_div_gt (m + c - 1) c H). lia. Qed.
Lemma job_split job x y : 0 <= job < y * x -> 0 < x -> 0 <= job / x < y /\ 0 <= job mod x < x.
Proof.
  intros H Hx. split; [|apply Z.mod_pos_bound; auto]. split; [apply Z.div_pos; lia|]. apply Z.div_lt_upper_bound; lia.
Qed.
(** Number of tiles needed: the last tile still starts inside. *)
Lemma div_up_lt m c q : 0 < c -> 0 <= q < (m + c - 1) / c -> q * c < m.
Proof. intros H Hq. assert (D := Z.mul_div_le (m + c - 1) c H). nia. Qed.

Lemma quot_lt i c y : 0 < c -> i < y * c -> i / c < y.
Proof. intros Hc H. apply Z.div_lt_upper_bound; lia. Qed.
Lemma job_bound qi qj x y : 0 <= qi < y -> 0 <= qj < x -> 0 <= qi * x + qj < y * x.
Proof. nia. Qed.
Lemma job_bound' qi qj x y : 0 <= qi < y -> 0 <= qj < x -> 0 <= qi * x + qj < x * y.
Proof. nia. Qed.

Section Blas.
Context {A : Type}.
Variable zero : A.
Variable add : A -> A -> A.
Variable mul : A -> A -> A.
Hypothesis M0 : comm_monoid zero add.
Notation psum := (psum zero add).
Notation prod X Y K m n := (psum (fun k => mul (X m k) (Y n k)) (Z.to_nat K)).

Section One.
Variables (cpu : isa) (tb : bool) (M N K : Z) (a : buf A) (ao : Z) (b : buf A) (bo co threads : Z) (X Y : Z -> Z -> A)
  (bias : option (buf A * Z)) (bv : option (Z -> A)) (G : Z -> option A) (c : buf A).
Hypothesis HM : 0 <= M.
Hypothesis HN : 0 <= N.
Hypothesis HK : 1 <= K.
Hypothesis HT : 1 <= threads.
Hypothesis HX : forall i l, 0 <= i < M -> 0 <= l < K -> loadv a (ao + (i * K + l)) = ROk (X i l).
Hypothesis HY : forall j l, 0 <= j < N -> 0 <= l < K -> loadv b (bo + (if tb then j * K + l else l * N + j)) = ROk (Y j l).
Hypothesis HC : forall i j, 0 <= i < M -> 0 <= j < N -> 0 <= co + (i * N + j) < b_len c.
Hypothesis HG : forall i j, 0 <= i < M -> 0 <= j < N -> G (co + (i * N + j)) = Some (plus_bias add bv j (prod X Y K i j)).
Hypothesis HB : bias_ok bias bv N.
Hypothesis HB0 : tb = false -> bias = None.
Lemma sgemm_spec :
  exists c', sgemm zero add mul cpu tb M N K a ao K b bo (if tb then K else N) co N threads bias c = ROk c' /\ good G (cells co N M N) c c'.
Proof using M0 HM HN HK HT HX HY HC HG HB HB0.
  unfold sgemm. destruct ((M <=? 0) || (N <=? 0) || (K <=? 0)) eqn:Q0.
  { exists c. split; auto. constructor; auto. intros d (i & Hi & Hd). unfold segment in Hd. lia. }
  replace ((K <? K) || ((if tb then K else N) <? (if tb then K else N)) || (N <? N)) with false by (destruct tb; lia).
  replace (threads <=? 0) with false by lia. cbv zeta.
  assert (TM := tile_size_bounds 8 M ltac:(lia)). assert (TN := tile_size_bounds (tile_cols cpu) N (tile_cols_bounds cpu)).
  set (mc := tile_size 8 M) in *. set (nc := tile_size (tile_cols cpu) N) in *.
  assert (UM := div_up M mc ltac:(lia)). assert (UN := div_up N nc ltac:(lia)).
  assert (LM := fun q => div_up_lt M mc q ltac:(lia)). assert (LN := fun q => div_up_lt N nc q ltac:(lia)).
  set (yt := (M + mc - 1) / mc) in *. set (xt := (N + nc - 1) / nc) in *.
  assert (Hx : 0 < xt) by (apply Z.div_str_pos; lia).
  clearbody yt xt mc nc.
  match goal with |- exists _, zloop _ ?body c = _ /\ _ =>
   destruct (good_loop G (yt * xt) (fun job => cells (co + (job / xt * mc * N + job mod xt * nc)) N (Z.min mc (M - job / xt * mc)) (Z.min nc (N - job mod xt * nc))) body c (b_len c) eq_refl) as (c' & E & C) end.
  - intros job c1 Hj L. destruct (job_split job xt yt Hj Hx) as [B1 B2]. apply LM in B1 as B3. apply LN in B2 as B4.
    set (ii := job / xt * mc) in *. set (jj := job mod xt * nc) in *.
    assert (0 <= ii) by (unfold ii; nia). assert (0 <= jj) by (unfold jj; nia).
    assert (R : forall r, (exists c2, r = ROk c2 /\ changes G (cells (co + (ii * N + jj)) N (Z.min mc (M - ii)) (Z.min nc (N - jj))) c1 c2) ->
      exists c2, r = ROk c2 /\ good G (cells (co + (ii * N + jj)) N (Z.min mc (M - ii)) (Z.min nc (N - jj))) c1 c2).
    { intros r (c2 & E2 & C2). exists c2. split; auto. apply changes_good; auto. intro d. apply cells_dec. lia. }
    apply R. destruct tb.
    + apply (tile_nt_t_spec zero add mul M0 _ _ _ _ _ _ _ _ _ _ _ (fun i => X (ii + i)) (fun j => Y (jj + j))
        (fun d => Some (prod X Y K (ii + (d - (co + (ii * N + jj))) / N) (jj + (d - (co + (ii * N + jj))) mod N)))
        c1) with (bv := option_map (fun f j => f (jj + j)) bv); try lia.
      * intros i l Hi Hl. replace (ao + ii * K + (i * K + l)) with (ao + ((ii + i) * K + l)) by ring. apply HX; lia.
      * intros i j Hi Hj'. rewrite L. replace (co + (ii * N + jj) + (i * N + j)) with (co + ((ii + i) * N + (jj + j))) by ring. apply HC; lia.
      * intros i j Hi Hj'. cbn beta. replace (co + (ii * N + jj) + (i * N + j) - (co + (ii * N + jj))) with (i * N + j) by ring.
        rewrite Z.div_add_l, (Z.div_small j), Z.add_0_r by lia. rewrite (Z.add_comm (i * N) j), Z.mod_add, Z.mod_small by lia. reflexivity.
      * apply bias_shift with (N := N); auto; lia.
      * intros i j Hi Hj'. replace (co + (ii * N + jj) + (i * N + j)) with (co + ((ii + i) * N + (jj + j))) by ring. rewrite HG by lia. destruct bv; reflexivity.
      * intros j l Hj' Hl. replace (bo + jj * K + (j * K + l)) with (bo + ((jj + j) * K + l)) by ring. apply (HY (jj + j) l); lia.
    + apply (tile_spec zero add mul _ _ _ _ _ _ _ _ _ _ _ (fun i => X (ii + i)) (fun j => Y (jj + j))); try lia.
      * intros i l Hi Hl. replace (ao + ii * K + (i * K + l)) with (ao + ((ii + i) * K + l)) by ring. apply HX; lia.
      * intros i j Hi Hj'. rewrite L. replace (co + (ii * N + jj) + (i * N + j)) with (co + ((ii + i) * N + (jj + j))) by ring. apply HC; lia.
      * intros i j Hi Hj'. replace (co + (ii * N + jj) + (i * N + j)) with (co + ((ii + i) * N + (jj + j))) by ring. rewrite HG by lia.
        rewrite (HB0 eq_refl) in HB. destruct bv; [contradiction|reflexivity].
      * intros j l Hj' Hl. replace (bo + jj + (l * N + j)) with (bo + (l * N + (jj + j))) by ring. apply (HY (jj + j) l); lia.
  - exists c'. split; [exact E|]. eapply good_weaken; [|exact C]. intros d (i & Hi & Hd). unfold segment in Hd.
    set (j := d - co - i * N) in *. assert (Hj : 0 <= j < N) by (unfold j; lia).
    assert (DI := Z.div_mod i mc ltac:(lia)). assert (BI := Z.mod_pos_bound i mc ltac:(lia)).
    assert (DJ := Z.div_mod j nc ltac:(lia)). assert (BJ := Z.mod_pos_bound j nc ltac:(lia)).
    set (qi := i / mc) in *. set (qj := j / nc) in *. set (ri := i mod mc) in *. set (rj := j mod nc) in *.
    assert (0 <= qi) by (unfold qi; apply Z.div_pos; lia). assert (0 <= qj) by (unfold qj; apply Z.div_pos; lia).
    assert (qi < yt) by (apply quot_lt; lia). assert (qj < xt) by (apply quot_lt; lia).
    clearbody qi qj ri rj. assert (Ed : d = co + (i * N + j)) by (unfold j; ring). clearbody j.
    exists (qi * xt + qj). rewrite Z.div_add_l, (Z.div_small qj xt), Z.add_0_r by lia.
    replace ((qi * xt + qj) mod xt) with qj by (rewrite Z.add_comm, Z.mod_add, Z.mod_small; lia).
    assert (HJ : 0 <= qi * xt + qj < yt * xt) by (apply job_bound; split; assumption).
    split; [exact HJ|]. exists ri. split; [lia|]. unfold segment. rewrite Ed.
    replace (i * N) with (qi * mc * N + ri * N) by (rewrite DI; ring). lia.
Qed.
Lemma blas_matmul_spec :
  exists c', blas_matmul zero add mul cpu tb M K N a ao b bo co threads bias c = ROk c' /\ good G (cells co N M N) c c'.
Proof using M0 HM HN HK HT HX HY HC HG HB HB0.
  unfold blas_matmul. assert (SG := sgemm_spec).
  assert (R : M = 1 -> forall r, (exists c2, r = ROk c2 /\ changes G (segment co N) c c2) -> exists c2, r = ROk c2 /\ good G (cells co N M N) c c2).
  { intros EM r (c2 & E2 & C2). exists c2. split; auto. eapply good_weaken; [|apply changes_good; [|exact C2]].
    - intros d (i & Hi & Hd). replace (co + i * N) with co in Hd by nia. exact Hd.
    - intro d. unfold segment. lia. }
  destruct tb; cbn [negb].
  - destruct ((M =? 1) && _) eqn:Q; [|exact SG]. assert (EM : M = 1) by lia. apply (R EM).
    apply (gemv_nt_t_spec zero add mul M0 K N a ao b bo co (X 0) Y bias bv); try lia; try assumption.
    + intros k Hk. apply (HX 0 k); lia.
    + intros n Hn. apply (HC 0 n); lia.
    + intros n Hn. apply (HG 0 n); lia.
  - specialize (HB0 eq_refl). rewrite HB0 in HB. assert (Ebv : bv = None) by (destruct bv; [contradiction|reflexivity]).
    destruct (M =? 1) eqn:Q; [|rewrite HB0 in SG; exact SG]. assert (EM : M = 1) by lia. apply (R EM).
    apply (gemv_nt_nt_spec zero add mul M0 K N a ao b bo co (X 0) Y bv); try lia; try assumption; try (destruct cpu; lia).
    + intros k Hk. apply (HX 0 k); lia.
    + intros n Hn. apply (HC 0 n); lia.
    + intros n Hn. apply (HG 0 n); lia.
Qed.
End One.
End Blas.

(* ---------------- llamafile: packing ---------------- *)
Definition tile_ok (tile : Z -> Z -> option (Z * Z)) : Prop := forall dm dn,
  match tile dm dn with
  | None => dm <= 0 \/ dn <= 0
  | Some (mc, nc) => 1 <= mc <= dm /\ 1 <= nc <= dn
  end.
Lemma pack_tile_spec wide dm dn : 
  match pack_tile wide dm dn with
  | None => dm <= 0 \/ dn <= 0
  | Some (mc, nc) => 1 <= mc <= dm /\ 1 <= nc <= dn
  end.
Proof.
  unfold pack_tile. destruct ((Z.min dm 5 <=? 0) || (Z.min dn 5 <=? 0)) eqn:Q; [lia|]. destruct wide; [lia|].
  destruct ((4 <=? Z.min dm 5) && (3 <=? Z.min dn 5)) eqn:Q1; [lia|].
  destruct ((Z.min dm 5 =? 3) && (4 <=? Z.min dn 5)) eqn:Q2; lia.
Qed.

Definition duty (nth tiles : Z) : Z := (tiles + nth - 1) / nth.
(** The thread that computes a job. *)
Definition owner_of (nth tiles job : Z) : Z := job / duty nth tiles.
Lemma owner_bounds nth tiles job : 1 <= nth -> 0 <= job < tiles -> 0 <= owner_of nth tiles job < nth.
Proof.
  intros Hnth H. unfold owner_of. assert (U := div_up tiles nth ltac:(lia)). fold (duty nth tiles) in U.
  assert (D : 0 < duty nth tiles) by (apply Z.div_str_pos; lia). split; [apply Z.div_pos; lia|]. apply Z.div_lt_upper_bound; nia.
Qed.

Lemma zloop_keeps {A} n (body : Z -> buf A -> res (buf A)) d : forall (c c' : buf A),
  (forall i b b', 0 <= i < n -> body i b = ROk b' -> b_at b' d = b_at b d) ->
  zloop n body c = ROk c' -> b_at c' d = b_at c d.
Proof.
  intros c c' H. unfold zloop. assert (G : forall k c', (Z.of_nat k <= n \/ k = O) -> loop k body c = ROk c' -> b_at c' d = b_at c d).
  { induction k as [|k IH]; intros c2 Hk E; [cbn in E; congruence|]. cbn [loop] in E. destruct (loop k body c) as [c1| | |] eqn:E1; cbn [rbind] in E; try discriminate.
    apply H in E; [|lia]. rewrite E. apply IH; auto. destruct k; lia. }
  apply G. lia.
Qed.
Lemma store_keeps {A} (c c' : buf A) e v d : store c e v = ROk c' -> d <> e -> b_at c' d = b_at c d.
Proof.
  unfold store. destruct (_ && _); intro E; [|discriminate]. injection E as <-. intro N. cbn [b_at]. replace (d =? e) with false by lia. reflexivity.
Qed.

Section Pack.
Context {A : Type}.
Variable tile : Z -> Z -> option (Z * Z).
Hypothesis Htile : tile_ok tile.
Variables (value : Z -> Z -> res A) (V : Z -> Z -> A) (co ldc nth : Z) (G : Z -> option A).
Hypothesis Hnth : 1 <= nth.
(** Cells of the rectangle [m0, m) x [n0, n) (stored transposed). *)
Definition in_rect (m0 m n0 n i j : Z) : Prop := m0 <= i < m /\ n0 <= j < n.
Definition ready (L m0 m n0 n : Z) : Prop := forall i j, in_rect m0 m n0 n i j ->
  value i j = ROk (V i j) /\ 0 <= co + (ldc * j + i) < L /\ G (co + (ldc * j + i)) = Some (V i j).
Lemma ready_sub L m0 m n0 n m0' m' n0' n' : ready L m0 m n0 n -> m0 <= m0' -> m' <= m -> n0 <= n0' -> n' <= n -> ready L m0' m' n0' n'.
Proof using. intros H H1 H2 H3 H4 i j [Hi Hj]. apply H. split; lia. Qed.

(** The cell belongs to a job of thread [id]. *)
Definition gemm_cells (RM RN m0 m n0 n id d : Z) : Prop :=
  let xt := (n - n0) / RN in let yt := (m - m0) / RM in
  exists i j, m0 <= i < m0 + yt * RM /\ n0 <= j < n0 + xt * RN /\ d = co + (ldc * j + i) /\
    owner_of nth (xt * yt) ((i - m0) / RM * xt + (j - n0) / RN) = id.
Lemma pack_gemm_spec RM RN m0 m n0 n id (c : buf A) : 1 <= RM <= m - m0 -> 1 <= RN <= n - n0 -> ready (b_len c) m0 m n0 n -> 0 <= id < nth ->
  exists c', pack_gemm value co ldc RM RN m0 m n0 n id nth c = ROk c' /\ good G (gemm_cells RM RN m0 m n0 n id) c c'.
Proof using Hnth.
  intros HRM HRN R Hid. unfold pack_gemm. cbv zeta. 
  set (yt := (m - m0) / RM) in *. set (xt := (n - n0) / RN) in *.
  assert (Hy : 0 < yt) by (apply Z.div_str_pos; lia). assert (Hx : 0 < xt) by (apply Z.div_str_pos; lia).
  assert (Hy2 : yt * RM <= m - m0) by (unfold yt; assert (D := Z.mul_div_le (m - m0) RM ltac:(lia)); lia).
  assert (Hx2 : xt * RN <= n - n0) by (unfold xt; assert (D := Z.mul_div_le (n - n0) RN ltac:(lia)); lia).
  set (tiles := xt * yt) in *. assert (Ht : 0 < tiles) by (unfold tiles; nia).
  fold (duty nth tiles). set (du := duty nth tiles) in *. assert (Hdu : 0 < du) by (unfold du, duty; apply Z.div_str_pos; lia).
  set (start := du * id). set (end_ := if tiles <? start + du then tiles else start + du).
  assert (Hend : end_ <= tiles /\ end_ <= start + du) by (unfold end_; destruct (tiles <? start + du) eqn:Q; lia).
  assert (Hst : 0 <= start) by (unfold start; nia).
  match goal with |- exists _, zloop _ ?body c = _ /\ _ =>
    destruct (good_loop G (end_ - start) (fun t d => exists i j, 0 <= i < RM /\ 0 <= j < RN /\
      d = co + (ldc * (n0 + (start + t) mod xt * RN + j) + (m0 + (start + t) / xt * RM + i))) body c (b_len c) eq_refl) as (c' & E & C) end.
  - intros t c1 Ht1 L. destruct (job_split (start + t) xt yt) as [B1 B2]; [unfold tiles in Hend; nia|auto|].
    set (ii := m0 + (start + t) / xt * RM) in *. set (jj := n0 + (start + t) mod xt * RN) in *.
    assert (Bi : m0 <= ii /\ ii + RM <= m) by (unfold ii; nia). assert (Bj : n0 <= jj /\ jj + RN <= n) by (unfold jj; nia).
    destruct (good_loop G RN (fun j d => exists i, 0 <= i < RM /\ d = co + (ldc * (jj + j) + (ii + i)))
      (fun j c => zloop RM (fun i c => do v <- value (ii + i) (jj + j); store c (co + (ldc * (jj + j) + (ii + i))) (Some v)) c) c1 (b_len c1) eq_refl) as (c2 & E2 & C2).
    + intros j c2 Hj L2.
      destruct (good_loop G RM (fun i d => d = co + (ldc * (jj + j) + (ii + i)))
        (fun i c => do v <- value (ii + i) (jj + j); store c (co + (ldc * (jj + j) + (ii + i))) (Some v)) c2 (b_len c2) eq_refl) as (c3 & E3 & C3).
      * intros i c3 Hi L3. destruct (R (ii + i) (jj + j)) as (R1 & R2 & R3); [split; lia|]. rewrite R1. cbn [rbind].
        destruct (good_store G c3 (co + (ldc * (jj + j) + (ii + i))) (Some (V (ii + i) (jj + j)))) as (c4 & E4 & C4); [lia|auto|].
        exists c4. split; [exact E4|]. eapply good_weaken; [|exact C4]. cbn beta. auto.
      * exists c3. split; [exact E3|]. eapply good_weaken; [|exact C3]. intros d (i & Hi & ->). eauto.
    + exists c2. split; [exact E2|]. eapply good_weaken; [|exact C2]. intros d (i & j & Hi & Hj & ->). exists j. split; auto. exists i. auto.
  - exists c'. split; [exact E|]. eapply good_weaken; [|exact C].
    intros d (i & j & Hi & Hj & -> & Hown). fold xt in Hj, Hown. fold yt in Hi, Hown. fold tiles in Hown.
    assert (DI := Z.div_mod (i - m0) RM ltac:(lia)). assert (BI := Z.mod_pos_bound (i - m0) RM ltac:(lia)).
    assert (DJ := Z.div_mod (j - n0) RN ltac:(lia)). assert (BJ := Z.mod_pos_bound (j - n0) RN ltac:(lia)).
    set (qi := (i - m0) / RM) in *. set (qj := (j - n0) / RN) in *.
    assert (0 <= qi) by (unfold qi; apply Z.div_pos; lia). assert (0 <= qj) by (unfold qj; apply Z.div_pos; lia).
    assert (qi < yt) by (apply quot_lt; lia). assert (qj < xt) by (apply quot_lt; lia).
    set (job := qi * xt + qj) in *. assert (Hjob : 0 <= job < tiles) by (apply job_bound'; split; assumption).
    unfold owner_of in Hown. fold du in Hown.
    assert (DD := Z.div_mod job du ltac:(lia)). assert (BD := Z.mod_pos_bound job du ltac:(lia)). rewrite Hown in DD.
    assert (start <= job) by (unfold start; lia).
    assert (job < end_) by (unfold end_; destruct (tiles <? start + du) eqn:Q; [lia|unfold start; lia]).
    exists (job - start). split; [lia|]. replace (start + (job - start)) with job by lia.
    replace (job / xt) with qi by (unfold job; rewrite Z.div_add_l, (Z.div_small qj xt) by lia; lia).
    replace (job mod xt) with qj by (unfold job; rewrite Z.add_comm, Z.mod_add, Z.mod_small; lia).
    exists ((i - m0) mod RM), ((j - n0) mod RN). split; [lia|]. split; [lia|].
    replace (n0 + qj * RN + (j - n0) mod RN) with j by lia. replace (m0 + qi * RM + (i - m0) mod RM) with i by lia. reflexivity.
Qed.

(** The cells thread [id] computes. *)
Fixpoint pack_cells (fuel : nat) (m0 m n0 n id : Z) (d : Z) : Prop :=
  match fuel with
  | O => False
  | S f =>
      match tile (m - m0) (n - n0) with
      | None => False
      | Some (mc, nc) =>
          let mp := m0 + (m - m0) / mc * mc in
          let np := n0 + (n - n0) / nc * nc in
          gemm_cells mc nc m0 m n0 n id d \/ pack_cells f mp m n0 np id d \/ pack_cells f m0 m np n id d
      end
  end.
Lemma mnpack_spec id : 0 <= id < nth -> forall fuel m0 m n0 n (c : buf A),
  m0 <= m -> n0 <= n -> (m - m0) + (n - n0) < Z.of_nat fuel -> ready (b_len c) m0 m n0 n ->
  exists c', mnpack fuel tile value co ldc m0 m n0 n id nth c = ROk c' /\ good G (pack_cells fuel m0 m n0 n id) c c'.
Proof using All.
  intro Hid. induction fuel as [|f IH]; intros m0 m n0 n c Hm Hn Hf R; [lia|]. cbn [mnpack pack_cells].
  assert (T := Htile (m - m0) (n - n0)). destruct (tile (m - m0) (n - n0)) as [[mc nc]|].
  2:{ exists c. split; auto. apply good_refl. }
  destruct T as [T1 T2].
  assert (D1 : mc <= (m - m0) / mc * mc <= m - m0).
  { assert (D := Z.mul_div_le (m - m0) mc ltac:(lia)). assert (0 < (m - m0) / mc) by (apply Z.div_str_pos; lia). nia. }
  assert (D2 : nc <= (n - n0) / nc * nc <= n - n0).
  { assert (D := Z.mul_div_le (n - n0) nc ltac:(lia)). assert (0 < (n - n0) / nc) by (apply Z.div_str_pos; lia). nia. }
  destruct (pack_gemm_spec mc nc m0 m n0 n id c) as (c1 & E1 & C1); auto. rewrite E1. cbn [rbind]. cbv zeta.
  set (mp := m0 + (m - m0) / mc * mc) in *. set (np := n0 + (n - n0) / nc * nc) in *.
  destruct (IH mp m n0 np c1) as (c2 & E2 & C2); try lia.
  { rewrite (g_len _ _ _ _ C1). eapply ready_sub; [exact R|lia..]. }
  rewrite E2. cbn [rbind].
  destruct (IH m0 m np n c2) as (c3 & E3 & C3); try lia.
  { rewrite (g_len _ _ _ _ C2), (g_len _ _ _ _ C1). eapply ready_sub; [exact R|lia..]. }
  exists c3. split; auto. eapply good_weaken; [|eapply good_trans; [eapply good_trans; [exact C1|exact C2]|exact C3]]. cbn beta. intros d. tauto.
Qed.
Lemma pack_cover : forall fuel m0 m n0 n i j, (m - m0) + (n - n0) < Z.of_nat fuel -> in_rect m0 m n0 n i j ->
  exists id, 0 <= id < nth /\ pack_cells fuel m0 m n0 n id (co + (ldc * j + i)).
Proof using All.
  induction fuel as [|f IH]; intros m0 m n0 n i j Hf [Hi Hj]; [lia|]. cbn [pack_cells].
  assert (T := Htile (m - m0) (n - n0)). destruct (tile (m - m0) (n - n0)) as [[mc nc]|]; [|lia].
  destruct T as [T1 T2].
  assert (D1 : mc <= (m - m0) / mc * mc <= m - m0).
  { assert (D := Z.mul_div_le (m - m0) mc ltac:(lia)). assert (0 < (m - m0) / mc) by (apply Z.div_str_pos; lia). nia. }
  assert (D2 : nc <= (n - n0) / nc * nc <= n - n0).
  { assert (D := Z.mul_div_le (n - n0) nc ltac:(lia)). assert (0 < (n - n0) / nc) by (apply Z.div_str_pos; lia). nia. }
  cbv zeta. set (mp := m0 + (m - m0) / mc * mc) in *. set (np := n0 + (n - n0) / nc * nc) in *.
  destruct (Z_lt_le_dec j np) as [Hjn|Hjn].
  - destruct (Z_lt_le_dec i mp) as [Hin|Hin].
    + set (xt := (n - n0) / nc). set (yt := (m - m0) / mc).
      set (job := (i - m0) / mc * xt + (j - n0) / nc).
      assert (Hjob : 0 <= job < xt * yt).
      { assert (0 <= (i - m0) / mc) by (apply Z.div_pos; lia). assert (0 <= (j - n0) / nc) by (apply Z.div_pos; lia).
        assert ((i - m0) / mc < yt) by (apply Z.div_lt_upper_bound; unfold mp, yt in *; lia).
        assert ((j - n0) / nc < xt) by (apply Z.div_lt_upper_bound; unfold np, xt in *; lia). apply job_bound'; split; assumption. }
      exists (owner_of nth (xt * yt) job). split; [apply owner_bounds; auto|]. left.
      exists i, j. unfold mp, np in *. fold xt yt. repeat split; try lia.
    + destruct (IH mp m n0 np i j) as (id & Hid & P); [lia|split; lia|]. exists id. auto.
  - destruct (IH m0 m np n i j) as (id & Hid & P); [lia|split; lia|]. exists id. auto.
Qed.
(** ... and no other, whatever the buffer. *)
Lemma pack_gemm_other RM RN m0 m n0 n id (c c' : buf A) d : 1 <= RM <= m - m0 -> 1 <= RN <= n - n0 -> 0 <= id < nth ->
  pack_gemm value co ldc RM RN m0 m n0 n id nth c = ROk c' -> ~ gemm_cells RM RN m0 m n0 n id d -> b_at c' d = b_at c d.
Proof using All.
  intros HRM HRN Hid E Hn. unfold pack_gemm in E. cbv zeta in E. unfold gemm_cells in Hn. cbv zeta in Hn.
  set (yt := (m - m0) / RM) in *. set (xt := (n - n0) / RN) in *.
  assert (Hy : 0 < yt) by (apply Z.div_str_pos; lia). assert (Hx : 0 < xt) by (apply Z.div_str_pos; lia).
  set (tiles := xt * yt) in *. assert (Ht : 0 < tiles) by (unfold tiles; nia).
  fold (duty nth tiles) in E. set (du := duty nth tiles) in *. assert (Hdu : 0 < du) by (unfold du, duty; apply Z.div_str_pos; lia).
  set (start := du * id) in *. set (end_ := if tiles <? start + du then tiles else start + du) in *.
  assert (Hend : end_ <= tiles /\ end_ <= start + du) by (unfold end_; destruct (tiles <? start + du) eqn:Q; lia).
  assert (Hst : 0 <= start) by (unfold start; nia).
  eapply zloop_keeps; [|exact E]. cbn beta. intros t b1 b2 Ht1 E1.
  destruct (job_split (start + t) xt yt) as [B1 B2]; [unfold tiles in Hend; lia|auto|].
  assert (DM := Z.div_mod (start + t) xt ltac:(lia)).
  set (ti := (start + t) / xt) in *. set (tj := (start + t) mod xt) in *.
  eapply zloop_keeps; [|exact E1]. cbn beta. intros j b3 b4 Hj E3.
  eapply zloop_keeps; [|exact E3]. cbn beta. intros i b5 b6 Hi E5.
  destruct (value _ _) as [v| | |]; cbn [rbind] in E5; try discriminate.
  apply (store_keeps _ _ _ _ _ E5). intro Ed. apply Hn.
  exists (m0 + ti * RM + i), (n0 + tj * RN + j).
  split; [split; [nia|]|split; [split; [nia|]|split; [auto|]]].
  - assert (ti * RM + RM <= yt * RM) by nia. lia.
  - assert (tj * RN + RN <= xt * RN) by nia. lia.
  - replace ((m0 + ti * RM + i - m0) / RM) with ti by (replace (m0 + ti * RM + i - m0) with (ti * RM + i) by ring; rewrite Z.div_add_l, Z.div_small by lia; lia).
    replace ((n0 + tj * RN + j - n0) / RN) with tj by (replace (n0 + tj * RN + j - n0) with (tj * RN + j) by ring; rewrite Z.div_add_l, Z.div_small by lia; lia).
    replace (ti * xt + tj) with (start + t) by lia. unfold owner_of. fold du. symmetry. apply (Z.div_unique (start + t) du id t); [lia|reflexivity].
Qed.
Lemma mnpack_other id d : 0 <= id < nth -> forall fuel m0 m n0 n (c c' : buf A),
  mnpack fuel tile value co ldc m0 m n0 n id nth c = ROk c' -> ~ pack_cells fuel m0 m n0 n id d -> b_at c' d = b_at c d.
Proof using All.
  intro Hid. induction fuel as [|f IH]; intros m0 m n0 n c c' E Hn; [discriminate|]. cbn [mnpack pack_cells] in E, Hn.
  assert (T := Htile (m - m0) (n - n0)). destruct (tile (m - m0) (n - n0)) as [[mc nc]|]; [|congruence].
  destruct T as [T1 T2]. cbv zeta in Hn.
  destruct (pack_gemm value co ldc mc nc m0 m n0 n id nth c) as [c1| | |] eqn:E1; cbn [rbind] in E; try discriminate. cbv zeta in E.
  destruct (mnpack f tile value co ldc (m0 + (m - m0) / mc * mc) m n0 (n0 + (n - n0) / nc * nc) id nth c1) as [c2| | |] eqn:E2; cbn [rbind] in E; try discriminate.
  rewrite (IH _ _ _ _ _ _ E) by tauto. rewrite (IH _ _ _ _ _ _ E2) by tauto. apply (pack_gemm_other mc nc m0 m n0 n id c c1 d T1 T2 Hid E1). tauto.
Qed.
Lemma pack_cells_rect id d : forall fuel m0 m n0 n, pack_cells fuel m0 m n0 n id d ->
  exists i j, in_rect m0 m n0 n i j /\ d = co + (ldc * j + i).
Proof using All.
  induction fuel as [|f IH]; intros m0 m n0 n H; [contradiction|]. cbn [pack_cells] in H.
  assert (T := Htile (m - m0) (n - n0)). destruct (tile (m - m0) (n - n0)) as [[mc nc]|]; [|contradiction].
  destruct T as [T1 T2].
  assert (D1 : mc <= (m - m0) / mc * mc <= m - m0).
  { assert (D := Z.mul_div_le (m - m0) mc ltac:(lia)). assert (0 < (m - m0) / mc) by (apply Z.div_str_pos; lia). nia. }
  assert (D2 : nc <= (n - n0) / nc * nc <= n - n0).
  { assert (D := Z.mul_div_le (n - n0) nc ltac:(lia)). assert (0 < (n - n0) / nc) by (apply Z.div_str_pos; lia). nia. }
  cbv zeta in H. set (mp := m0 + (m - m0) / mc * mc) in *. set (np := n0 + (n - n0) / nc * nc) in *.
  destruct H as [(i & j & Hi & Hj & Ed & _)|[H|H]].
  - exists i, j. split; [split; lia|auto].
  - destruct (IH _ _ _ _ H) as (i & j & [R1 R2] & Ed). exists i, j. split; [split; lia|auto].
  - destruct (IH _ _ _ _ H) as (i & j & [R1 R2] & Ed). exists i, j. split; [split; lia|auto].
Qed.
Lemma cell_inj m i j i' j' : m <= ldc -> 0 <= i < m -> 0 <= i' < m -> co + (ldc * j + i) = co + (ldc * j' + i') -> i = i' /\ j = j'.
Proof using All. intros Hm Hi Hi' E. assert (j = j') by nia. subst. lia. Qed.
Lemma pack_cells_unique id1 id2 d : forall fuel m0 m n0 n, 0 <= m0 -> m <= ldc ->
  pack_cells fuel m0 m n0 n id1 d -> pack_cells fuel m0 m n0 n id2 d -> id1 = id2.
Proof using All.
  induction fuel as [|f IH]; intros m0 m n0 n H0 Hl P1 P2; [contradiction|]. cbn [pack_cells] in P1, P2.
  assert (T := Htile (m - m0) (n - n0)). destruct (tile (m - m0) (n - n0)) as [[mc nc]|]; [|contradiction].
  destruct T as [T1 T2].
  assert (D1 : mc <= (m - m0) / mc * mc <= m - m0).
  { assert (D := Z.mul_div_le (m - m0) mc ltac:(lia)). assert (0 < (m - m0) / mc) by (apply Z.div_str_pos; lia). nia. }
  assert (D2 : nc <= (n - n0) / nc * nc <= n - n0).
  { assert (D := Z.mul_div_le (n - n0) nc ltac:(lia)). assert (0 < (n - n0) / nc) by (apply Z.div_str_pos; lia). nia. }
  cbv zeta in P1, P2. set (mp := m0 + (m - m0) / mc * mc) in *. set (np := n0 + (n - n0) / nc * nc) in *.
  assert (Where : forall id, gemm_cells mc nc m0 m n0 n id d \/ pack_cells f mp m n0 np id d \/ pack_cells f m0 m np n id d ->
    exists i j, m0 <= i < m /\ d = co + (ldc * j + i) /\
      ((i < mp /\ j < np /\ gemm_cells mc nc m0 m n0 n id d) \/ (mp <= i /\ j < np /\ pack_cells f mp m n0 np id d) \/ (np <= j /\ pack_cells f m0 m np n id d))).
  { intros id [H|[H|H]].
    - assert (H' := H). destruct H as (i & j & Hi & Hj & Ed & _). exists i, j. unfold mp, np in *. split; [lia|]. split; [auto|]. left. split; [lia|]. split; [lia|auto].
    - assert (H' := H). apply pack_cells_rect in H as (i & j & [Hi Hj] & Ed). exists i, j. split; [lia|]. split; [auto|]. right; left. split; [lia|]. split; [lia|auto].
    - assert (H' := H). apply pack_cells_rect in H as (i & j & [Hi Hj] & Ed). exists i, j. split; [lia|]. split; [auto|]. right; right. split; [lia|auto]. }
  destruct (Where id1 P1) as (i1 & j1 & B1 & E1 & C1). destruct (Where id2 P2) as (i2 & j2 & B2 & E2 & C2).
  destruct (cell_inj m i1 j1 i2 j2) as [Ei Ej]; try lia. subst i2 j2.
  destruct C1 as [(A1 & A2 & A3)|[(A1 & A2 & A3)|(A1 & A3)]], C2 as [(A4 & A5 & A6)|[(A4 & A5 & A6)|(A4 & A6)]]; try lia.
  - destruct A3 as (i & j & Hi & Hj & Ed & O1). destruct A6 as (i' & j' & Hi' & Hj' & Ed' & O2).
    destruct (cell_inj m i j i' j') as [-> ->]; try (unfold mp, np in *; lia).
  - apply (IH mp m n0 np); auto; lia.
  - apply (IH m0 m np n); auto; lia.
Qed.
Lemma threads_apart m n fuel id1 id2 (c1 c1' c2 c2' : buf A) d : m <= ldc -> 0 <= id1 < nth -> 0 <= id2 < nth ->
  mnpack fuel tile value co ldc 0 m 0 n id1 nth c1 = ROk c1' -> mnpack fuel tile value co ldc 0 m 0 n id2 nth c2 = ROk c2' ->
  b_at c1' d <> b_at c1 d -> b_at c2' d <> b_at c2 d -> id1 = id2.
Proof using All.
  intros Hm H1 H2 E1 E2 N1 N2. destruct (Z.eq_dec id1 id2) as [|NE]; auto. exfalso. apply N1. apply (mnpack_other id1 d H1 fuel 0 m 0 n c1 c1' E1).
  intro P1. apply N2. apply (mnpack_other id2 d H2 fuel 0 m 0 n c2 c2' E2). intro P2. apply NE. apply (pack_cells_unique id1 id2 d fuel 0 m 0 n); auto. lia.
Qed.
Lemma pack_all m n (c : buf A) : 0 <= m -> 0 <= n -> ready (b_len c) 0 m 0 n ->
  exists c', zloop nth (fun id c => mnpack (S (Z.to_nat (m + n))) tile value co ldc 0 m 0 n id nth c) c = ROk c' /\
    good G (fun d => exists i j, in_rect 0 m 0 n i j /\ d = co + (ldc * j + i)) c c'.
Proof using All.
  intros Hm Hn R.
  destruct (good_loop G nth (fun id => pack_cells (S (Z.to_nat (m + n))) 0 m 0 n id)
    (fun id c => mnpack (S (Z.to_nat (m + n))) tile value co ldc 0 m 0 n id nth c) c (b_len c) eq_refl) as (c' & E & C).
  - intros id c1 Hid L. apply mnpack_spec; auto; [lia|rewrite L; auto].
  - exists c'. split; auto. eapply good_weaken; [|exact C]. intros d (i & j & Hr & ->). apply pack_cover; auto. lia.
Qed.
End Pack.
