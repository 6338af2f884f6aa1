(** Proofs about matrix products, part 5: the operators MatMul and Linear. *)
From Verif Require Import Base DTypeModel ParamModel ParamSpec ParamProofs TensorModel TensorSpec TensorProofs TensorSplit
  OpsModel OpsSpec OpsProofs OpsIndex OpsSum MatModel MatSpec MatProofs MatKernel MatBlas MatGguf.
Local Open Scope Z_scope.

Lemma default_strides_nth s : forall k, (k < length s)%nat -> nth k (default_strides s) 0 = product (skipn (S k) s).
Proof.
  induction s as [|d ds IH]; intros [|k] H; cbn [length] in H; try lia; rewrite default_strides_cons; [reflexivity|].
  cbn [nth skipn]. rewrite IH by lia. reflexivity.
Qed.
Lemma contiguous_strides {A} (t : tns A) : contiguous t -> x_stride t = default_strides (x_shape t).
Proof. unfold contiguous. intro H. apply row_major_default in H. exact H. Qed.
Lemma skipn_two (pre : list Z) P Q : skipn (length (pre ++ [P; Q]) - 2) (pre ++ [P; Q]) = [P; Q].
Proof. rewrite app_length. cbn [length]. replace (length pre + 2 - 2)%nat with (length pre) by lia. rewrite skipn_app, skipn_all, Nat.sub_diag. reflexivity. Qed.
Lemma firstn_two (pre : list Z) P Q : firstn (length (pre ++ [P; Q]) - 2) (pre ++ [P; Q]) = pre.
Proof. rewrite app_length. cbn [length]. replace (length pre + 2 - 2)%nat with (length pre) by lia. rewrite firstn_app, firstn_all, Nat.sub_diag, firstn_O, app_nil_r. reflexivity. Qed.
Lemma nth_two (pre : list Z) P Q : nth (length (pre ++ [P; Q]) - 2) (pre ++ [P; Q]) 0 = P /\ nth (length (pre ++ [P; Q]) - 1) (pre ++ [P; Q]) 0 = Q.
Proof.
  rewrite app_length. cbn [length]. rewrite !app_nth2 by lia.
  replace (length pre + 2 - 2 - length pre)%nat with 0%nat by lia. replace (length pre + 2 - 1 - length pre)%nat with 1%nat by lia. split; reflexivity.
Qed.
Lemma row_stride {A} (t : tns A) pre P Q : contiguous t -> x_shape t = pre ++ [P; Q] -> nth (length (x_shape t) - 2) (x_stride t) 0 = Q.
Proof.
  intros C E. rewrite (contiguous_strides t C), E. rewrite default_strides_nth by (rewrite app_length; cbn [length]; lia).
  rewrite app_length. cbn [length]. replace (S (length pre + 2 - 2)) with (length pre + 1)%nat by lia.
  rewrite skipn_app. rewrite skipn_all2 by lia. replace (length pre + 1 - length pre)%nat with 1%nat by lia. cbn. lia.
Qed.
Lemma batch_stride {A} (t : tns A) pre P Q : contiguous t -> x_shape t = pre ++ [P; Q] -> pre <> [] -> nth (length (x_shape t) - 3) (x_stride t) 0 = P * Q.
Proof.
  intros C E N. rewrite (contiguous_strides t C), E. rewrite default_strides_nth by (rewrite app_length; cbn [length]; lia).
  rewrite app_length. cbn [length]. assert (length pre <> 0)%nat by (destruct pre; [contradiction|discriminate]).
  replace (S (length pre + 2 - 3)) with (length pre) by lia. rewrite skipn_app, skipn_all, Nat.sub_diag. cbn. lia.
Qed.
Lemma holds_load {A} (t : tns A) pre P Q F p m k : holds t (pre ++ [P; Q]) F -> in_shape pre p -> 0 <= m < P -> 0 <= k < Q ->
  loadv (x_buf t) (x_offset t + ravel pre p * (P * Q) + (m * Q + k)) = ROk (F (p ++ [m; k])).
Proof.
  intros [h1 h2 h3 h4] Hp Hm Hk. assert (I : in_shape (pre ++ [P; Q]) (p ++ [m; k])).
  { apply in_shape_app; [apply in_shape_length; auto|]. split; auto. repeat constructor; lia. }
  assert (Ad := contiguous_address t (p ++ [m; k]) h3). rewrite h1 in Ad. specialize (Ad (in_shape_length _ _ I)).
  rewrite ravel_app in Ad by (apply in_shape_length; auto). cbn [ravel] in Ad. rewrite !product_cons in Ad. change (product []) with 1 in Ad.
  replace (x_offset t + ravel pre p * (P * Q) + (m * Q + k)) with (address (x_view t) (p ++ [m; k])) by (rewrite Ad; ring).
  apply loadv_at; [apply (ok_inside _ h2); rewrite h1; auto|]. specialize (h4 _ I). exact h4.
Qed.

(** What both operators have in common: a buffer filled batch by batch. *)
Lemma filled {A} pre M N (V : list Z -> Z -> Z -> A) :
  (length pre <= 14)%nat -> Forall (fun d => 0 <= d) pre -> 0 <= M -> 0 <= N ->
  forall run : buf A -> res (buf A),
  (forall G c, b_len c = product (pre ++ [M; N]) ->
     (forall i m n, 0 <= i < product pre -> 0 <= m < M -> 0 <= n < N -> 0 <= i * (M * N) + (m * N + n) < b_len c) ->
     (forall i m n, 0 <= i < product pre -> 0 <= m < M -> 0 <= n < N -> G (i * (M * N) + (m * N + n)) = Some (V (unravel pre i) m n)) ->
     exists c', run c = ROk c' /\ good G (fun d => exists i, 0 <= i < product pre /\ cells (i * (M * N)) N M N d) c c') ->
  exists o, run (mkBuf (product (pre ++ [M; N])) (fun _ => None)) = ROk o /\
    let out := mkTns (mkV (pre ++ [M; N]) (default_strides (pre ++ [M; N])) 0) o in
    tensor_ok out /\ owns_storage out /\
    forall p m n, in_shape pre p -> 0 <= m < M -> 0 <= n < N -> elem out (p ++ [m; n]) = Some (V p m n).
Proof.
  intros Hr Hd HM HN run Hrun. set (os := pre ++ [M; N]).
  set (F := fun idx => Some (V (firstn (length pre) idx) (nth (length pre) idx 0) (nth (S (length pre)) idx 0))).
  assert (P2 : product os = product pre * (M * N)) by (unfold os; rewrite product_app, !product_cons; change (product []) with 1; ring).
  assert (IN : forall p m n, in_shape pre p -> 0 <= m < M -> 0 <= n < N ->
    in_shape os (p ++ [m; n]) /\ ravel os (p ++ [m; n]) = ravel pre p * (M * N) + (m * N + n) /\ F (p ++ [m; n]) = Some (V p m n)).
  { intros p m n Hp Hm Hn. assert (L := in_shape_length _ _ Hp). split; [|split].
    - apply in_shape_app; auto. split; auto. repeat constructor; lia.
    - unfold os. rewrite ravel_app by auto. cbn [ravel]. rewrite !product_cons. change (product []) with 1. ring.
    - unfold F. rewrite <- L, firstn_app, firstn_all, Nat.sub_diag, firstn_O, app_nil_r.
      rewrite !app_nth2 by lia. replace (length p - length p)%nat with 0%nat by lia. replace (S (length p) - length p)%nat with 1%nat by lia. reflexivity. }
  destruct (Hrun (at_pos os F) (mkBuf (product os) (fun _ => None)) eq_refl) as (o & E & G).
  - intros i m n Hi Hm Hn. destruct (unravel_spec pre i Hd Hi) as [U1 U2]. destruct (IN _ m n U1 Hm Hn) as (I1 & I2 & _).
    assert (B := ravel_bounds _ _ I1). rewrite I2, U2 in B. exact B.
  - intros i m n Hi Hm Hn. destruct (unravel_spec pre i Hd Hi) as [U1 U2]. destruct (IN _ m n U1 Hm Hn) as (I1 & I2 & I3).
    rewrite U2 in I2. rewrite <- I2, at_pos_ravel by auto. exact I3.
  - exists o. split; [exact E|]. cbv zeta. assert (Hos : Forall (fun d => 0 <= d) os) by (apply Forall_app; split; auto).
    assert (Ros : (1 <= length os <= 16)%nat) by (unfold os; rewrite app_length; cbn [length]; lia).
    destruct (owner_ok os o Ros Hos (g_len _ _ _ _ G)) as [O1 O2]. split; [exact O1|]. split; [exact O2|].
    intros p m n Hp Hm Hn. destruct (IN p m n Hp Hm Hn) as (I1 & I2 & I3). rewrite owner_elem by (apply in_shape_length; auto).
    rewrite (g_set _ _ _ _ G).
    + rewrite at_pos_ravel by auto. exact I3.
    + exists (ravel pre p). split; [apply ravel_bounds; auto|]. rewrite I2. apply cells_at; auto.
Qed.

Section Ops.
Context {A : Type}.
Variable zero : A.
Variable add : A -> A -> A.
Variable mul : A -> A -> A.
Hypothesis M0 : comm_monoid zero add.

Theorem matmul_correct cpu (tb : bool) threads a b pre M K N FA FB :
  (forall x y, mul x y = mul y x) -> 1 <= threads -> 1 <= K ->
  holds a (pre ++ [M; K]) FA -> holds b (pre ++ right_shape tb K N) FB ->
  (tb = true -> 4 <= M -> 2 <= product pre -> K mod reg_floats cpu = 0) ->
  exists out, matmul_op zero add mul cpu tb threads a b = ROk out /\
    x_shape out = pre ++ [M; N] /\ tensor_ok out /\ owns_storage out /\
    forall p m n, in_shape pre p -> 0 <= m < M -> 0 <= n < N ->
      elem out (p ++ [m; n]) = Some (dot_product zero add mul K (fun k => FA (p ++ [m; k])) (fun k => FB (right_index tb p k n))).
Proof using M0.
  intros Hcomm HT HK HA HB Hlim. unfold matmul_op. cbv zeta.
  assert (EA := h_shape _ _ _ HA). assert (EB : x_shape b = pre ++ [if tb then N else K; if tb then K else N]) by (rewrite (h_shape _ _ _ HB); destruct tb; reflexivity).
  assert (OA := h_ok _ _ _ HA). assert (OB := h_ok _ _ _ HB).
  assert (DA := ok_dims _ OA). rewrite EA in DA. apply Forall_app in DA as [Dp DA].
  assert (HM : 0 <= M) by (inversion DA; auto).
  assert (HN : 0 <= N). { assert (DB := ok_dims _ OB). rewrite EB in DB. apply Forall_app in DB as [_ DB]. inversion DB as [|? ? Q1 Q2]; subst. inversion Q2; subst. destruct tb; auto. }
  assert (Rk : (length pre <= 14)%nat). { assert (R := ok_rank _ OA). rewrite EA, app_length in R. cbn [length] in R. lia. }
  rewrite EA, EB. destruct (nth_two pre M K) as [N1 N2]. destruct (nth_two pre (if tb then N else K) (if tb then K else N)) as [N3 N4].
  replace (length (pre ++ [M; K]) <? 2)%nat with false by (rewrite app_length; cbn [length]; lia).
  replace (length (pre ++ [if tb then N else K; if tb then K else N]) <? 2)%nat with false by (rewrite app_length; cbn [length]; lia).
  rewrite N1, N2.
  replace (nth (if tb then length (pre ++ [if tb then N else K; if tb then K else N]) - 2 else length (pre ++ [if tb then N else K; if tb then K else N]) - 1)%nat (pre ++ [if tb then N else K; if tb then K else N]) 0) with N by (destruct tb; auto).
  replace (nth (if tb then length (pre ++ [if tb then N else K; if tb then K else N]) - 1 else length (pre ++ [if tb then N else K; if tb then K else N]) - 2)%nat (pre ++ [if tb then N else K; if tb then K else N]) 0) with K by (destruct tb; auto).
  rewrite Z.eqb_refl. cbn [negb]. rewrite !firstn_two.
  set (os := pre ++ [M; N]). assert (Ros : (1 <= length os <= 16)%nat) by (unfold os; rewrite app_length; cbn [length]; lia).
  rewrite fresh_ok by auto. cbn [rbind]. rewrite Z.eqb_refl. cbn [negb]. rewrite numel_product.
  assert (SO : pre <> [] -> nth (length os - 3) (default_strides os) 0 = M * N).
  { intro Hne. apply (batch_stride (mkTns (mkV os (default_strides os) 0) (mkBuf (product os) (fun _ => @None A))) pre M N); auto. apply default_strides_row_major. }
  assert (SA : pre <> [] -> nth (length (pre ++ [M; K]) - 3) (x_stride a) 0 = M * K).
  { rewrite <- EA. apply batch_stride; auto. apply (h_contiguous _ _ _ HA). }
  assert (SB : pre <> [] -> nth (length (pre ++ [if tb then N else K; if tb then K else N]) - 3) (x_stride b) 0 = N * K).
  { intro Hne. rewrite <- EB. rewrite (batch_stride b pre _ _ (h_contiguous _ _ _ HB) EB Hne). destruct tb; ring. }
  assert (RA : nth (length (pre ++ [M; K]) - 2) (x_stride a) 0 = K).
  { rewrite <- EA. apply (row_stride a pre M K); auto. apply (h_contiguous _ _ _ HA). }
  assert (RB : tb = true -> nth (length (pre ++ [if tb then N else K; if tb then K else N]) - 2) (x_stride b) 0 = K).
  { intro Htb. rewrite <- EB. rewrite (row_stride b pre _ _ (h_contiguous _ _ _ HB) EB). rewrite Htb. reflexivity. }
  set (ot := mkTns (mkV os (default_strides os) 0) (mkBuf (product os) (fun _ => @None A))).
  assert (EO : x_shape ot = os) by reflexivity.
  set (X := fun i m k => FA (unravel pre i ++ [m; k])). set (Y := fun i n k => FB (right_index tb (unravel pre i) k n)).
  assert (LX : forall i m k, 0 <= i < product pre -> 0 <= m < M -> 0 <= k < K -> loadv (x_buf a) (x_offset a + i * (M * K) + (m * K + k)) = ROk (X i m k)).
  { intros i m k Hi Hm Hk. destruct (unravel_spec pre i Dp Hi) as [U1 U2]. rewrite <- U2 at 1. apply (holds_load a pre M K FA); auto. }
  assert (LY : forall i n k, 0 <= i < product pre -> 0 <= n < N -> 0 <= k < K -> loadv (x_buf b) (x_offset b + i * (N * K) + (if tb then n * K + k else k * N + n)) = ROk (Y i n k)).
  { intros i n k Hi Hn Hk. destruct (unravel_spec pre i Dp Hi) as [U1 U2]. rewrite <- U2 at 1. unfold Y, right_index. destruct tb.
    - apply (holds_load b pre N K FB); auto.
    - rewrite (Z.mul_comm N K). apply (holds_load b pre K N FB); auto. }
  match goal with |- exists out, (do o <- ?e; _) = ROk out /\ _ =>
    let e' := eval pattern (x_buf ot) in e in match e' with ?f _ => set (run := f); change e with (run (mkBuf (product os) (fun _ => @None A))) end end.
  destruct (filled pre M N (fun p m n => dot_product zero add mul K (fun k => FA (p ++ [m; k])) (fun k => FB (right_index tb p k n))) Rk Dp HM HN run) as (o & E & O1 & O2 & O3).
  2:{ unfold os. rewrite E. cbn [rbind]. eexists. split; [reflexivity|]. split; [reflexivity|]. auto. }
  intros G c Lc HC HG.
  assert (DP : forall i m n, dot_product zero add mul K (fun k => FA (unravel pre i ++ [m; k])) (fun k => FB (right_index tb (unravel pre i) k n)) =
    psum zero add (fun k => mul (X i m k) (Y i n k)) (Z.to_nat K)).
  { intros. unfold dot_product. symmetry. apply (psum_range zero add M0). }
  assert (HG' : forall i m n, 0 <= i < product pre -> 0 <= m < M -> 0 <= n < N -> G (i * (M * N) + (m * N + n)) = Some (psum zero add (fun k => mul (X i m k) (Y i n k)) (Z.to_nat K))).
  { intros i m n Hi Hm Hn. rewrite HG by auto. cbn beta. f_equal. apply DP. }
  clear HG DP. rename HG' into HG.
  assert (P1 : pre = [] -> product pre = 1) by (intros ->; reflexivity).
  assert (PN : pre = [] \/ pre <> []) by (destruct pre; [left; reflexivity|right; discriminate]).
  unfold run. change (x_offset ot) with 0. rewrite EO. change (x_stride ot) with (default_strides os).
  destruct (tb && (4 <=? M)) eqn:QT.
  - assert (Htb : tb = true) by (destruct tb; auto). assert (HM4 : 4 <= M) by (rewrite Htb in QT; cbn in QT; lia).
    rewrite RA, (RB Htb).
    set (sa := nth (length (pre ++ [M; K]) - 3) (x_stride a) 0) in *.
    set (sc := if (2 <? length (pre ++ [M; K]))%nat then nth (length os - 3) (default_strides os) 0 else 0).
    assert (LL : (2 <? length (pre ++ [M; K]))%nat = negb (match pre with [] => true | _ => false end)).
    { rewrite app_length. cbn [length]. destruct pre; cbn [length negb]; lia. }
    assert (EQ : forall i, 0 <= i < product pre -> i * sa = i * (M * K) /\ i * sc = i * (M * N)).
    { intros i Hi. destruct PN as [Pe|Pn].
      - specialize (P1 Pe). assert (i = 0) by lia. subst i. split; ring.
      - rewrite (SA Pn). split; [reflexivity|]. unfold sc. rewrite (SO Pn), LL. destruct pre; [contradiction|reflexivity]. }
    clearbody sa sc.
    set (sb := if (2 <? _)%nat then Some _ else None).
    assert (EB2 : forall i, 0 <= i < product pre -> (match sb with Some s => if 0 <? s then i * s else 0 | None => 0 end) = i * (N * K) \/ N * K <= 0).
    { intros i Hi. destruct PN as [Pe|Pn].
      - left. specialize (P1 Pe). assert (i = 0) by lia. subst i. destruct sb as [s|]; [destruct (0 <? s)|]; reflexivity.
      - unfold sb. replace (2 <? length _)%nat with true by (rewrite app_length; cbn [length]; destruct pre; [contradiction|cbn [length]; lia]). rewrite (SB Pn).
        destruct (0 <? N * K) eqn:Q; [left; reflexivity|right; lia]. }
    clearbody sb.
    destruct (gguf_spec zero add mul M0 cpu (product pre) M K N sa sb sc (x_buf a) (x_offset a) (x_buf b) (x_offset b) 0 threads X Y None None G c) as (c' & E & C); auto.
    + lia.
    + exact I.
    + intros Hmod i Hi. destruct (Z_le_gt_dec (product pre) 1) as [L1|L1].
      * assert (i = 0) by lia. subst i. destruct sb as [s|]; [destruct (0 <? s)|]; reflexivity.
      * exfalso. unfold llamafile_serves in Hmod. rewrite Hlim in Hmod by (auto; lia). destruct cpu; lia.
    + intros i m k Hi Hm Hk. destruct (EQ i Hi) as [-> _]. apply LX; auto.
    + intros i n k Hi Hn Hk. destruct (EB2 i Hi) as [->|Z0]; [|nia]. rewrite <- (LY i n k) by auto. rewrite Htb. reflexivity.
    + intros i m n Hi Hm Hn. destruct (EQ i Hi) as [_ ->]. apply HC; auto.
    + intros i m n Hi Hm Hn. destruct (EQ i Hi) as [_ ->]. rewrite Z.add_0_l, HG by auto. cbn [plus_bias]. f_equal.
      apply psum_ext. intros k Hk. apply Hcomm.
    + exists c'. split; [exact E|]. eapply good_weaken; [|exact C]. intros d (i & Hi & Hd). exists i. split; auto. destruct (EQ i Hi) as [_ ->]. exact Hd.
  - assert (BO : bias_ok (@None (buf A * Z)) (@None (Z -> A)) N) by exact I. destruct (product pre =? 1) eqn:Q1.
    + destruct (blas_matmul_spec zero add mul M0 cpu tb M N K (x_buf a) (x_offset a) (x_buf b) (x_offset b) 0 threads (X 0) (Y 0) None None G c) as (c' & E & C); auto.
      * intros m k Hm Hk. rewrite <- (LX 0 m k) by lia. f_equal. lia.
      * intros n k Hn Hk. rewrite <- (LY 0 n k) by lia. f_equal. lia.
      * intros m n Hm Hn. apply (HC 0 m n); lia.
      * intros m n Hm Hn. cbn [plus_bias]. rewrite <- (HG 0 m n) by lia. reflexivity.
      * exists c'. split; [exact E|]. eapply good_weaken; [|exact C]. intros d (i & Hi & Hd). assert (i = 0) by lia. subst i. exact Hd.
    + assert (Hne : pre <> []) by (intro Hn; specialize (P1 Hn); lia). rewrite SO, SA, SB by auto. unfold blas_batch_matmul.
      apply good_loop with (L := b_len c); auto. intros i c1 Hi L1.
      apply (blas_matmul_spec zero add mul M0 cpu tb M N K (x_buf a) (x_offset a + i * (M * K)) (x_buf b) (x_offset b + i * (N * K)) (i * (M * N)) threads (X i) (Y i) None None G c1); auto.
      * intros m n Hm Hn. rewrite L1. apply HC; auto.
      * intros m n Hm Hn. cbn [plus_bias]. apply HG; auto.
Qed.

Theorem linear_correct cpu threads (x weight : tns A) bias pre M K N FX FW fb :
  (forall x y, mul x y = mul y x) -> 1 <= threads -> (match cpu with Neon => 1 | _ => 4 end) <= K ->
  holds x (pre ++ [M; K]) FX -> holds weight [N; K] FW -> bias_holds bias fb N ->
  exists out, linear_op zero add mul cpu threads K N weight bias x = ROk out /\
    x_shape out = pre ++ [M; N] /\ tensor_ok out /\ owns_storage out /\
    forall p m n, in_shape pre p -> 0 <= m < M -> 0 <= n < N ->
      elem out (p ++ [m; n]) = Some (with_bias add fb n (dot_product zero add mul K (fun k => FX (p ++ [m; k])) (fun k => FW [n; k]))).
Proof using M0.
  intros Hcomm HT HK HA HB Hbias. unfold linear_op. cbv zeta.
  assert (EA := h_shape _ _ _ HA). assert (EB : x_shape weight = [] ++ [N; K]) by (rewrite (h_shape _ _ _ HB); reflexivity).
  assert (OA := h_ok _ _ _ HA). assert (OB := h_ok _ _ _ HB).
  assert (DA := ok_dims _ OA). rewrite EA in DA. apply Forall_app in DA as [Dp DA].
  assert (HM : 0 <= M) by (inversion DA; auto).
  assert (HN : 0 <= N). { assert (DB := ok_dims _ OB). rewrite EB in DB. inversion DB; auto. }
  assert (Rk : (length pre <= 14)%nat). { assert (R := ok_rank _ OA). rewrite EA, app_length in R. cbn [length] in R. lia. }
  assert (RB : nth (length (x_shape weight) - 2) (x_stride weight) 0 = K).
  { rewrite (row_stride weight [] N K (h_contiguous _ _ _ HB) EB). reflexivity. }
  rewrite RB. clear RB.
  assert (RA : nth (length (x_shape x) - 2) (x_stride x) 0 = K) by (apply (row_stride x pre M K); auto; apply (h_contiguous _ _ _ HA)).
  assert (SA : pre <> [] -> nth (length (x_shape x) - 3) (x_stride x) 0 = M * K) by (apply batch_stride; auto; apply (h_contiguous _ _ _ HA)).
  rewrite RA. rewrite EA in *. destruct (nth_two pre M K) as [N1 N2].
  replace (length (pre ++ [M; K]) <? 1)%nat with false by (rewrite app_length; cbn [length]; lia).
  replace (length (pre ++ [M; K]) <? 2)%nat with false by (rewrite app_length; cbn [length]; lia).
  rewrite N1, N2. rewrite Z.eqb_refl. cbn [negb]. rewrite firstn_two.
  replace (firstn (length (pre ++ [M; K]) - 1) (pre ++ [M; K]) ++ [N]) with (pre ++ [M; N]).
  2:{ rewrite app_length. cbn [length]. replace (length pre + 2 - 1)%nat with (length pre + 1)%nat by lia. rewrite firstn_app, firstn_all2 by lia.
      replace (length pre + 1 - length pre)%nat with 1%nat by lia. cbn [firstn]. rewrite <- app_assoc. reflexivity. }
  set (os := pre ++ [M; N]). assert (Ros : (1 <= length os <= 16)%nat) by (unfold os; rewrite app_length; cbn [length]; lia).
  rewrite fresh_ok by auto. cbn [rbind]. rewrite numel_product.
  match goal with |- exists out, (if K <? 4 then match cpu with Neon => do o2 <- ?R1; ROk _ | _ => _ end else do o3 <- ?R2; _) = _ /\ _ =>
    match goal with |- exists out, ?e = _ /\ _ => replace e with (do o <- (if K <? 4 then R1 else R2); ROk (mkTns (x_view (mkTns (mkV (pre ++ [M; N]) (default_strides (pre ++ [M; N])) 0) (mkBuf (product (pre ++ [M; N])) (fun _ => @None A)))) o)) end end.
  2:{ destruct (K <? 4) eqn:QK; [|reflexivity]. destruct cpu; try lia; reflexivity. }
  assert (SO : pre <> [] -> nth (length os - 3) (default_strides os) 0 = M * N).
  { intro Hne. apply (batch_stride (mkTns (mkV os (default_strides os) 0) (mkBuf (product os) (fun _ => @None A))) pre M N); auto. apply default_strides_row_major. }
  set (ot := mkTns (mkV os (default_strides os) 0) (mkBuf (product os) (fun _ => @None A))).
  assert (EO : x_shape ot = os) by reflexivity.
  set (X := fun i m k => FX (unravel pre i ++ [m; k])). set (Y := fun (i : Z) n k => FW [n; k]).
  assert (LX : forall i m k, 0 <= i < product pre -> 0 <= m < M -> 0 <= k < K -> loadv (x_buf x) (x_offset x + i * (M * K) + (m * K + k)) = ROk (X i m k)).
  { intros i m k Hi Hm Hk. destruct (unravel_spec pre i Dp Hi) as [U1 U2]. rewrite <- U2 at 1. apply (holds_load x pre M K FX); auto. }
  assert (LY : forall i n k, 0 <= n < N -> 0 <= k < K -> loadv (x_buf weight) (x_offset weight + 0 + (n * K + k)) = ROk (Y i n k)).
  { intros i n k Hn Hk. apply (holds_load weight [] N K FW [] n k); auto. constructor. }
  match goal with |- exists out, (do o <- ?e; _) = ROk out /\ _ =>
    let e' := eval pattern (x_buf ot) in e in match e' with ?f _ => set (run := f); change e with (run (mkBuf (product os) (fun _ => @None A))) end end.
  destruct (filled pre M N (fun p m n => with_bias add fb n (dot_product zero add mul K (fun k => FX (p ++ [m; k])) (fun k => FW [n; k]))) Rk Dp HM HN run) as (o & E & O1 & O2 & O3).
  2:{ unfold os. rewrite E. cbn [rbind]. eexists. split; [reflexivity|]. split; [reflexivity|]. auto. }
  intros G c Lc HC HG.
  assert (P1 : pre = [] -> product pre = 1) by (intros ->; reflexivity).
  assert (PN : pre = [] \/ pre <> []) by (destruct pre; [left; reflexivity|right; discriminate]).
  unfold run. change (x_offset ot) with 0. rewrite EO. change (x_stride ot) with (default_strides os).
  set (sa := nth (length (pre ++ [M; K]) - 3) (x_stride x) 0) in *.
  set (sc := if (2 <? length (pre ++ [M; K]))%nat then nth (length os - 3) (default_strides os) 0 else 0).
  assert (EQ : forall i, 0 <= i < product pre -> i * sa = i * (M * K) /\ i * sc = i * (M * N)).
  { intros i Hi. destruct PN as [Pe|Pn].
    - specialize (P1 Pe). assert (i = 0) by lia. subst i. split; ring.
    - rewrite (SA Pn). split; [reflexivity|]. unfold sc. rewrite (SO Pn). replace (2 <? length (pre ++ [M; K]))%nat with true; [reflexivity|].
      rewrite app_length. cbn [length]. destruct pre; [contradiction|cbn [length]; lia]. }
  assert (SCN : pre <> [] -> nth (length os - 3) (default_strides os) 0 = sc).
  { intro Pn. unfold sc. replace (2 <? length (pre ++ [M; K]))%nat with true; [reflexivity|]. rewrite app_length. cbn [length]. destruct pre; [contradiction|cbn [length]; lia]. }
  clearbody sa sc.
  assert (BO : bias_ok (option_map (fun t => (x_buf t, x_offset t)) bias) (option_map (fun f n => f [n]) fb) N).
  { destruct bias as [t|], fb as [f|]; cbn in Hbias |- *; auto. intros n Hn. destruct Hbias as [b1 b2 b3 b4].
    assert (I : in_shape [N] [n]) by (repeat constructor; lia).
    assert (Ad := contiguous_address t [n] b3). rewrite b1 in Ad. specialize (Ad eq_refl). cbn [ravel] in Ad. change (product []) with 1 in Ad.
    replace (x_offset t + n) with (address (x_view t) [n]) by lia. apply loadv_at; [apply (ok_inside _ b2); rewrite b1; auto|exact (b4 _ I)]. }
  assert (HK1 : 1 <= K) by (destruct cpu; lia).
  assert (VAL : forall i m n, with_bias add fb n (dot_product zero add mul K (fun k => FX (unravel pre i ++ [m; k])) (fun k => FW [n; k])) =
     plus_bias add (option_map (fun f n => f [n]) fb) n (psum zero add (fun k => mul (X i m k) (Y i n k)) (Z.to_nat K))).
  { intros i m n. unfold dot_product. rewrite <- (psum_range zero add M0). destruct fb as [f|]; cbn [with_bias plus_bias option_map]; [apply (cm_comm _ _ M0)|reflexivity]. }
  destruct (K <? 4) eqn:QK.
  { destruct (product pre =? 1) eqn:Q1.
    - destruct (blas_matmul_spec zero add mul M0 cpu true M N K (x_buf x) (x_offset x) (x_buf weight) (x_offset weight) 0 threads (X 0) (Y 0)
        (option_map (fun t => (x_buf t, x_offset t)) bias) (option_map (fun f n => f [n]) fb) G c) as (c' & E & C); auto; try discriminate.
      + intros m k Hm Hk. rewrite <- (LX 0 m k) by lia. f_equal. lia.
      + intros n k Hn Hk. rewrite <- (LY 0 n k) by lia. f_equal. lia.
      + intros m n Hm Hn. apply (HC 0 m n); lia.
      + intros m n Hm Hn. rewrite <- VAL. rewrite <- (HG 0 m n) by lia. reflexivity.
      + exists c'. split; [exact E|]. eapply good_weaken; [|exact C]. intros d (i & Hi & Hd). assert (i = 0) by lia. subst i. exact Hd.
    - assert (Hne : pre <> []) by (intro Hn; specialize (P1 Hn); lia). rewrite (SCN Hne). unfold blas_batch_matmul.
      apply good_loop with (L := b_len c); auto. intros i c1 Hi L1. destruct (EQ i Hi) as [-> ->]. rewrite Z.mul_0_r, !Z.add_0_l.
      apply (blas_matmul_spec zero add mul M0 cpu true M N K (x_buf x) (x_offset x + i * (M * K)) (x_buf weight) (x_offset weight + 0) (i * (M * N)) threads (X i) (Y i)
        (option_map (fun t => (x_buf t, x_offset t)) bias) (option_map (fun f n => f [n]) fb) G c1); auto; try discriminate.
      + intros m n Hm Hn. rewrite L1. apply HC; auto.
      + intros m n Hm Hn. rewrite <- VAL. apply HG; auto. }
  destruct (gguf_spec zero add mul M0 cpu (product pre) M K N sa None sc (x_buf x) (x_offset x) (x_buf weight) (x_offset weight) 0 threads X Y
     (option_map (fun t => (x_buf t, x_offset t)) bias) (option_map (fun f n => f [n]) fb) G c) as (c' & E & C); auto.
  - lia.
  - intros i m k Hi Hm Hk. destruct (EQ i Hi) as [-> _]. apply LX; auto.
  - intros i m n Hi Hm Hn. destruct (EQ i Hi) as [_ ->]. apply HC; auto.
  - intros i m n Hi Hm Hn. destruct (EQ i Hi) as [_ ->]. rewrite Z.add_0_l, HG by auto. f_equal.
    assert (DP : dot_product zero add mul K (fun k => FX (unravel pre i ++ [m; k])) (fun k => FW [n; k]) = psum zero add (fun k => mul (Y i n k) (X i m k)) (Z.to_nat K)).
    { unfold dot_product. rewrite <- (psum_range zero add M0). apply psum_ext. intros k Hk. apply Hcomm. }
    rewrite DP. destruct fb as [f|]; cbn [with_bias plus_bias option_map]; [apply (cm_comm _ _ M0)|reflexivity].
  - exists c'. split; [exact E|]. eapply good_weaken; [|exact C]. intros d (i & Hi & Hd). exists i. split; auto. destruct (EQ i Hi) as [_ ->]. exact Hd.
Qed.
End Ops.
