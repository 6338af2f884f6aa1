(** Proofs about stack and repeat, and split followed by concat. *)
From Verif Require Import Base DTypeModel ParamModel ParamSpec ParamProofs ParamMore TensorModel TensorSpec TensorProofs TensorViews TensorSplit TensorConcat.
Local Open Scope Z_scope.

(* ---------------- stack ---------------- *)
Section Stack.
Context {A : Type}.
Variables (d : nat) (t0 : tns A) (r : list (tns A)).
Let ts := t0 :: r.
Let shape0 := x_shape t0.
Let pre := firstn d shape0.
Let post := skipn d shape0.
Let N := zlen ts.
Let outshape := pre ++ N :: post.
Hypothesis Hd : (d <= length shape0)%nat.
Hypothesis Hrank : (length shape0 <= 15)%nat.
Hypothesis Hts : Forall (fun t => tensor_ok t /\ x_shape t = shape0) ts.

Let G : Z -> option A := fun pos =>
  let idx := unravel outshape pos in
  elem (nth (Z.to_nat (nth d idx 0)) ts t0) (firstn d idx ++ skipn (S d) idx).

Lemma st_pre_len : length pre = d.
Proof. unfold pre. rewrite firstn_length. lia. Qed.
Lemma st_shape : shape0 = pre ++ post.
Proof. symmetry. apply firstn_skipn. Qed.
Lemma st_nonneg : Forall (fun x => 0 <= x) pre /\ Forall (fun x => 0 <= x) post.
Proof.
  assert (H0 : tensor_ok t0) by (inversion Hts; tauto). destruct H0 as [_ _ o3 _]. fold shape0 in o3.
  rewrite st_shape in o3. apply Forall_app in o3. exact o3.
Qed.
Lemma st_out_nonneg : Forall (fun x => 0 <= x) outshape.
Proof. destruct st_nonneg. apply Forall_app. split; auto. constructor; auto. unfold N, zlen. lia. Qed.
Lemma st_nth k : 0 <= k < N -> exists t, nth (Z.to_nat k) ts t0 = t /\ vget ts k = ROk t /\ tensor_ok t /\ x_shape t = shape0.
Proof.
  intro Hk. eexists. split; [reflexivity|]. split; [apply vget_ok; auto|].
  rewrite Forall_forall in Hts. apply Hts. apply nth_In. unfold N, zlen in Hk. lia.
Qed.
Lemma st_G a k b : 0 <= k < N -> in_shape pre a -> in_shape post b ->
  in_shape outshape (a ++ k :: b) /\ G (ravel outshape (a ++ k :: b)) = elem (nth (Z.to_nat k) ts t0) (a ++ b) /\
  in_shape shape0 (a ++ b).
Proof.
  intros Hk Ha Hb. assert (La : length a = d) by (rewrite (in_shape_length _ _ Ha); apply st_pre_len).
  assert (Hin : in_shape outshape (a ++ k :: b)).
  { apply in_shape_app; [rewrite st_pre_len; auto|]. split; auto. apply in_shape_cons; auto. }
  split; [auto|]. split.
  - unfold G. rewrite unravel_ravel by auto. rewrite nth_mid, firstn_mid, skipn_mid by auto. reflexivity.
  - rewrite st_shape. apply in_shape_app; [rewrite st_pre_len; auto|]. auto.
Qed.
Lemma st_index pos : 0 <= pos < product outshape ->
  exists a k b, in_shape pre a /\ 0 <= k < N /\ in_shape post b /\ ravel outshape (a ++ k :: b) = pos.
Proof.
  intros Hp. destruct (unravel_spec outshape pos st_out_nonneg Hp) as [U1 U2].
  assert (Hl := in_shape_length _ _ U1).
  assert (Hol : length outshape = S (length shape0)).
  { unfold outshape, pre, post. rewrite app_length. cbn [length]. rewrite firstn_length, skipn_length. lia. }
  set (idx := unravel outshape pos) in *.
  exists (firstn d idx), (nth d idx 0), (skipn (S d) idx).
  assert (La : length (firstn d idx) = d) by (rewrite firstn_length; lia).
  rewrite (list_at d idx 0) in U1 by lia. unfold outshape in U1. apply in_shape_app in U1 as [I1 I2]; [|rewrite st_pre_len; auto].
  apply in_shape_cons in I2 as [I2 I3]. repeat split; auto; try lia.
  rewrite <- (list_at d idx 0) by lia. auto.
Qed.

Lemma stack_contig_ok (o : buf A) : Forall (fun t => contiguous t) ts -> b_len o = product outshape ->
  exists o', stack_contig ts shape0 (Z.of_nat d) o = ROk o' /\ good G (fun p => 0 <= p < product outshape) o o'.
Proof.
  intros Hc Hl. unfold stack_contig. rewrite Nat2Z.id. fold pre post N. rewrite !numel_product.
  set (P := product pre). set (Q := product post). destruct st_nonneg as [Hpre Hpost].
  assert (HP : 0 <= P) by (apply product_nonneg; auto). assert (HQ : 0 <= Q) by (apply product_nonneg; auto).
  assert (Hout : product outshape = P * (N * Q)) by (unfold outshape; rewrite product_app, product_cons; reflexivity).
  destruct (good_loop G N (fun k pos => exists s, 0 <= s < P /\ (s * N + k) * Q <= pos < (s * N + k) * Q + Q)
    (fun k o => do t <- vget ts k;
      zloop P (fun slice o => memcpy (x_buf t) (x_offset t + slice * Q) ((slice * N + k) * Q) Q o) o) o (product outshape) Hl)
    as (o' & E' & G').
  { intros k b Hk Hb. destruct (st_nth k Hk) as (t & Ht & Ev & Hok & Hsh). rewrite Ev. cbn [rbind].
    assert (Hct : contiguous t).
    { rewrite Forall_forall in Hc. apply Hc. rewrite <- Ht. apply nth_In. unfold N, zlen in Hk. lia. }
    apply (good_loop G P (fun s pos => (s * N + k) * Q <= pos < (s * N + k) * Q + Q) _ b (product outshape) Hb).
    intros s b1 Hs Hb1.
    assert (Hpos : forall x, 0 <= x < Q -> exists a b2, in_shape pre a /\ in_shape post b2 /\
       ravel outshape (a ++ k :: b2) = (s * N + k) * Q + x /\ address (x_view t) (a ++ b2) = x_offset t + s * Q + x).
    { intros x Hx. exists (unravel pre s), (unravel post x).
      destruct (unravel_spec pre s Hpre Hs) as [U1 U2]. destruct (unravel_spec post x Hpost Hx) as [V1 V2].
      assert (La : length (unravel pre s) = length pre) by apply unravel_length.
      split; [auto|]. split; [auto|]. split.
      - unfold outshape. rewrite ravel_app by auto. cbn [ravel]. rewrite U2, V2, product_cons. fold Q. ring.
      - rewrite contiguous_address; auto.
        + rewrite Hsh, st_shape. rewrite ravel_app by auto. rewrite U2, V2. fold Q. ring.
        + rewrite Hsh, st_shape, !app_length, La, unravel_length. reflexivity. }
    apply good_memcpy.
    - intro HQ0. destruct Hok as [_ _ _ o4].
      destruct (Hpos 0 ltac:(lia)) as (a1 & b2 & L1 & L2 & L3 & L4).
      destruct (Hpos (Q - 1) ltac:(lia)) as (a1' & b2' & M1 & M2 & M3 & M4).
      destruct (st_G a1 k b2 Hk L1 L2) as (_ & _ & I1). destruct (st_G a1' k b2' Hk M1 M2) as (_ & _ & I2).
      rewrite Hsh in o4. apply o4 in I1, I2. lia.
    - intro HQ0. rewrite Hb1. destruct (Hpos 0 ltac:(lia)) as (a1 & b2 & L1 & L2 & L3 & L4).
      destruct (Hpos (Q - 1) ltac:(lia)) as (a1' & b2' & M1 & M2 & M3 & M4).
      destruct (st_G a1 k b2 Hk L1 L2) as (I1 & _ & _). destruct (st_G a1' k b2' Hk M1 M2) as (I2 & _ & _).
      apply ravel_bounds in I1, I2. lia.
    - intros x Hx. destruct (Hpos x Hx) as (a1 & b2 & L1 & L2 & L3 & L4).
      destruct (st_G a1 k b2 Hk L1 L2) as (_ & I & _). rewrite L3 in I. rewrite I, Ht. unfold elem. rewrite L4. reflexivity. }
  exists o'. split; [exact E'|]. eapply good_weaken; [|exact G']. cbn beta. intros pos Hp.
  destruct (st_index pos Hp) as (a & k & b & L1 & L2 & L3 & L4).
  exists k. split; [auto|]. exists (ravel pre a). assert (R1 := ravel_bounds _ _ L1). assert (R2 := ravel_bounds _ _ L3).
  fold P in R1. fold Q in R2. split; [lia|]. rewrite <- L4. unfold outshape.
  rewrite ravel_app by (apply in_shape_length; auto). cbn [ravel]. rewrite product_cons. fold Q. nia.
Qed.

Lemma stack_strided_ok (o : tns A) : x_view o = mkV outshape (default_strides outshape) 0 -> b_len (x_buf o) = product outshape ->
  exists o', stack_strided ts (Z.of_nat d) o = ROk o' /\ x_view o' = x_view o /\ good G (fun p => 0 <= p < product outshape) (x_buf o) (x_buf o').
Proof.
  intros Hv Hl. unfold stack_strided. rewrite Nat2Z.id. fold N.
  set (keep := fun o : tns A => x_view o = mkV outshape (default_strides outshape) 0 /\ b_len (x_buf o) = product outshape).
  assert (TL : forall n (P : Z -> Z -> Prop) body o, keep o ->
    (forall i o, 0 <= i < n -> keep o -> exists o', body i o = ROk o' /\ x_view o' = x_view o /\ good G (P i) (x_buf o) (x_buf o')) ->
    exists o', zloop n body o = ROk o' /\ x_view o' = x_view o /\ good G (fun p => exists i, 0 <= i < n /\ P i p) (x_buf o) (x_buf o')).
  { intros n P body o1 Hk Hb. destruct (Z_le_gt_dec n 0) as [Hn|Hn].
    - rewrite zloop_0 by auto. exists o1. split; [auto|]. split; [auto|].
      eapply good_weaken; [|apply good_refl]. intros p (i & Hi & _). lia.
    - destruct (zloop_inv (fun k o' => x_view o' = x_view o1 /\ good G (fun p => exists i, 0 <= i < k /\ P i p) (x_buf o1) (x_buf o')) n body o1)
        as (o' & E & HG); [lia| | |exists o'; tauto].
      + split; auto. eapply good_weaken; [|apply good_refl]. intros p (i & Hi & _). lia.
      + intros i o2 Hi [K1 H1]. destruct (Hb i o2 Hi) as (o3 & E2 & V2 & G2).
        { destruct Hk as [k1 k2]. split; [congruence|]. rewrite (g_len _ _ _ _ H1). auto. }
        exists o3. split; auto. split; [congruence|].
        eapply good_weaken; [|eapply good_trans; eauto].
        intros p (j & Hj & Pj). destruct (Z.eq_dec j i) as [->|]; auto.
        left. exists j. split; [lia|auto]. }
  destruct (TL N (fun k pos => exists a b, in_shape pre a /\ in_shape post b /\ pos = ravel outshape (a ++ k :: b))
    (fun k o => do t <- vget ts k;
      zloop (numel (x_shape t)) (fun j o =>
        let idx := unravel (x_shape t) j in
        do x <- at_load t idx;
        at_store o (firstn d idx ++ k :: skipn d idx) x) o) o (conj Hv Hl)) as (o' & E' & V' & G').
  { intros k o1 Hk K1. destruct (st_nth k Hk) as (t & Ht & Ev & Hok & Hsh). rewrite Ev. cbn [rbind].
    destruct (TL (numel (x_shape t)) (fun j pos => pos = ravel outshape (firstn d (unravel (x_shape t) j) ++ k :: skipn d (unravel (x_shape t) j)))
      (fun j o => let idx := unravel (x_shape t) j in
        do x <- at_load t idx; at_store o (firstn d idx ++ k :: skipn d idx) x) o1 K1) as (o2 & E2 & V2 & G2).
    - intros j o2 Hj [K2 K3]. cbv zeta. rewrite numel_product in Hj.
      destruct (unravel_spec (x_shape t) j (ok_dims _ Hok) Hj) as [U1 U2].
      set (idx := unravel (x_shape t) j) in *. assert (Li := in_shape_length _ _ U1). rewrite Hsh in Li.
      rewrite at_load_ok by auto. cbn [rbind].
      assert (U3 := U1). rewrite Hsh, st_shape in U3. rewrite <- (firstn_skipn d idx) in U3.
      apply in_shape_app in U3 as [I1 I2]; [|rewrite st_pre_len, firstn_length; lia].
      destruct (st_G (firstn d idx) k (skipn d idx) Hk I1 I2) as (J1 & J2 & J3).
      rewrite firstn_skipn, Ht in J2.
      unfold at_store, offsetted, zlen. rewrite K2. cbn [v_shape v_offset v_stride].
      rewrite (in_shape_length _ _ J1), Z.eqb_refl. cbn [rbind]. rewrite dot_ravel by (apply in_shape_length; auto).
      assert (B := ravel_bounds _ _ J1). change (0 + ?z) with z.
      destruct (good_store G (x_buf o2) (ravel outshape (firstn d idx ++ k :: skipn d idx)) (elem t idx) ltac:(lia) (eq_sym J2)) as (b' & Eb & HG).
      rewrite Eb. cbn [rbind]. eexists. split; [reflexivity|]. cbn [x_view x_buf]. split; auto.
      eapply good_weaken; [|exact HG]. auto.
    - exists o2. split; [exact E2|]. split; [exact V2|]. eapply good_weaken; [|exact G2]. cbn beta.
      intros pos (a & b & Ha & Hb & ->). destruct (st_G a k b Hk Ha Hb) as (J1 & J2 & J3).
      assert (La : length a = d) by (rewrite (in_shape_length _ _ Ha); apply st_pre_len).
      exists (ravel shape0 (a ++ b)). rewrite Hsh, numel_product. assert (B := ravel_bounds _ _ J3). split; [lia|].
      rewrite unravel_ravel by auto. rewrite firstn_mid, skipn_mid0 by auto. reflexivity. }
  exists o'. split; [exact E'|]. split; [exact V'|]. eapply good_weaken; [|exact G']. cbn beta. intros pos Hp.
  destruct (st_index pos Hp) as (a & k & b & L1 & L2 & L3 & L4). exists k. split; [auto|]. exists a, b. auto.
Qed.

Theorem stack_correct dt dim : has_copy_loop dt = true ->
  (if dim <? 0 then dim + (zlen shape0 + 1) else dim) = Z.of_nat d ->
  exists out, stack_op dt ts dim = ROk out /\ x_shape out = outshape /\ tensor_ok out /\ owns_storage out /\
    forall k t idx, nth_error ts k = Some t -> in_shape (x_shape t) idx ->
      in_shape (x_shape out) (firstn d idx ++ Z.of_nat k :: skipn d idx) /\
      elem out (firstn d idx ++ Z.of_nat k :: skipn d idx) = elem t idx.
Proof.
  intros Hdt Hn. unfold stack_op, stack_shape. unfold ts at 1. fold shape0. rewrite Hn.
  replace ((Z.of_nat d <? 0) || (zlen shape0 <? Z.of_nat d)) with false by (unfold zlen; lia).
  replace (forallb _ r) with true.
  2:{ symmetry. apply forallb_forall. intros t Ht. destruct (list_eq_dec Z.eq_dec (x_shape t) shape0) as [|Hne]; auto.
      exfalso. apply Hne. rewrite Forall_forall in Hts. apply Hts. right. auto. }
  cbn [rbind]. rewrite Nat2Z.id. fold pre post ts N. fold outshape.
  assert (H0 : tensor_ok t0) by (inversion Hts; tauto).
  assert (Hr : (1 <= length outshape <= 16)%nat).
  { unfold outshape, pre, post. rewrite app_length. cbn [length]. rewrite firstn_length, skipn_length. lia. }
  rewrite fresh_ok by auto. cbn [rbind].
  assert (Final : forall b b0 : buf A, b_len b0 = product outshape -> good G (fun p => 0 <= p < product outshape) b0 b ->
    let out := mkTns (mkV outshape (default_strides outshape) 0) b in
    x_shape out = outshape /\ tensor_ok out /\ owns_storage out /\
    forall k t idx, nth_error ts k = Some t -> in_shape (x_shape t) idx ->
      in_shape (x_shape out) (firstn d idx ++ Z.of_nat k :: skipn d idx) /\
      elem out (firstn d idx ++ Z.of_nat k :: skipn d idx) = elem t idx).
  { intros b b0 Hb0 HG out. split; [reflexivity|].
    assert (Hbl : b_len b = product outshape) by (rewrite (g_len _ _ _ _ HG); auto).
    destruct (owner_ok outshape b Hr st_out_nonneg Hbl) as [O1 O2].
    split; [exact O1|]. split; [exact O2|].
    intros k t idx Hk Hi.
    assert (Hkl : (k < length ts)%nat) by (apply nth_error_Some; congruence).
    assert (Hin : In t ts) by (eapply nth_error_In; eauto).
    assert (Hsh : x_shape t = shape0) by (rewrite Forall_forall in Hts; apply Hts; auto).
    rewrite Hsh in Hi. assert (Li := in_shape_length _ _ Hi).
    assert (U3 := Hi). rewrite st_shape in U3. rewrite <- (firstn_skipn d idx) in U3.
    apply in_shape_app in U3 as [I1 I2]; [|rewrite st_pre_len, firstn_length; lia].
    destruct (st_G (firstn d idx) (Z.of_nat k) (skipn d idx) ltac:(unfold N, zlen; lia) I1 I2) as (J1 & J2 & J3).
    split; [exact J1|]. unfold out. rewrite owner_elem by (apply in_shape_length; auto).
    rewrite (g_set _ _ _ _ HG) by (apply ravel_bounds; auto). rewrite J2, Nat2Z.id, firstn_skipn.
    rewrite (nth_error_nth _ _ t0 Hk). reflexivity. }
  unfold stack_forward. unfold ts at 1. fold shape0. rewrite Hn, Hdt. cbn [negb]. fold ts.
  destruct (forallb (fun t => is_contiguous (x_view t)) ts) eqn:Ec.
  - assert (Hc : Forall (fun t => contiguous t) ts).
    { rewrite forallb_forall in Ec. rewrite Forall_forall in *. intros t Hi. apply is_contiguous_spec; auto. apply Hts; auto. }
    destruct (stack_contig_ok (mkBuf (product outshape) (fun _ => None)) Hc eq_refl) as (o' & E' & G').
    cbn [x_buf]. rewrite E'. cbn [rbind]. eexists. split; [reflexivity|]. cbn [x_view]. eapply Final; [|exact G']. reflexivity.
  - destruct (stack_strided_ok (mkTns (mkV outshape (default_strides outshape) 0) (mkBuf (product outshape) (fun _ => None))) eq_refl eq_refl)
      as (o' & E' & V' & G').
    rewrite E'. exists o'. split; [reflexivity|]. destruct o' as [v b]. cbn [x_view x_buf] in *. subst v.
    eapply Final; [|exact G']. reflexivity.
Qed.
End Stack.

(* ---------------- repeat ---------------- *)
Section Repeat.
Context {A : Type}.
Variables (d : nat) (t : tns A) (times : Z).
Let shape0 := x_shape t.
Let pre := firstn d shape0.
Let post := skipn (S d) shape0.
Let n := nth d shape0 0.
Let outshape := pre ++ n * times :: post.
Hypothesis Hd : (d < length shape0)%nat.
Hypothesis Hok : tensor_ok t.
Hypothesis Hc : contiguous t.
Hypothesis Htimes : 0 < times.

Theorem repeat_correct dt dim : has_copy_loop dt = true -> times <> 1 -> norm_dim (zlen shape0) dim = Z.of_nat d ->
  exists out, repeat_op dt t times dim = ROk out /\ x_shape out = with_coord d (n * times) shape0 /\
    tensor_ok out /\ owns_storage out /\
    forall idx, in_shape (x_shape out) idx ->
      in_shape shape0 (with_coord d (nth d idx 0 / times) idx) /\
      elem out idx = elem t (with_coord d (nth d idx 0 / times) idx).
Proof.
  intros Hdt Hne Hn.
  assert (Lpre : length pre = d) by (unfold pre; rewrite firstn_length; lia).
  assert (Hs : shape0 = pre ++ n :: post) by (apply list_at; auto).
  assert (Hnn : Forall (fun x => 0 <= x) pre /\ 0 <= n /\ Forall (fun x => 0 <= x) post).
  { destruct Hok as [_ _ o3 _]. fold shape0 in o3. rewrite Hs in o3. apply Forall_app in o3 as [H1 H2]. inversion H2; auto. }
  destruct Hnn as (Hpre & Hn0 & Hpost).
  assert (Hout : with_coord d (n * times) shape0 = outshape) by (rewrite Hs; rewrite with_coord_app by auto; reflexivity).
  assert (Hon : Forall (fun x => 0 <= x) outshape).
  { apply Forall_app. split; auto. constructor; auto. nia. }
  assert (Hol : length outshape = length shape0).
  { rewrite <- Hout. apply with_coord_length. }
  assert (Hr : (1 <= length outshape <= 16)%nat) by (rewrite Hol; apply Hok).
  unfold repeat_op. replace (times =? 1) with false by lia. fold shape0. rewrite Hn.
  rewrite (vget_ok _ _ 0) by (unfold zlen; lia). cbn [rbind]. rewrite vset_ok by (unfold zlen; lia). cbn [rbind].
  rewrite Nat2Z.id. fold n. change (upd_nth d _ shape0) with (with_coord d (n * times) shape0). rewrite Hout.
  rewrite fresh_ok by auto. cbn [rbind x_buf x_view]. rewrite Hdt.
  unfold repeat_forward. fold shape0. rewrite Nat2Z.id. fold pre post n. rewrite !numel_product.
  set (P := product pre). set (Q := product post).
  assert (HP : 0 <= P) by (apply product_nonneg; auto). assert (HQ : 0 <= Q) by (apply product_nonneg; auto).
  set (G := fun pos => let idx := unravel outshape pos in elem t (with_coord d (nth d idx 0 / times) idx)).
  assert (Hpo : product outshape = P * (n * times * Q)) by (unfold outshape; rewrite product_app, product_cons; reflexivity).
  (* value prescribed at an output index *)
  assert (HG : forall a x m b, in_shape pre a -> 0 <= x < n -> 0 <= m < times -> in_shape post b ->
     in_shape outshape (a ++ (x * times + m) :: b) /\ G (ravel outshape (a ++ (x * times + m) :: b)) = elem t (a ++ x :: b) /\
     in_shape shape0 (a ++ x :: b)).
  { intros a x m b Ha Hx Hm Hb. assert (La : length a = d) by (rewrite (in_shape_length _ _ Ha); auto).
    assert (Hi : in_shape outshape (a ++ (x * times + m) :: b)).
    { apply in_shape_app; [lia|]. split; auto. apply in_shape_cons. split; auto. nia. }
    split; [auto|]. split.
    - unfold G. rewrite unravel_ravel by auto. rewrite nth_mid, with_coord_app by auto.
      replace ((x * times + m) / times) with x; auto. rewrite Z.div_add_l by lia. rewrite Z.div_small by lia. lia.
    - rewrite Hs. apply in_shape_app; [lia|]. split; auto. apply in_shape_cons. auto. }
  destruct (good_loop G P (fun outer pos => exists x m, 0 <= x < n /\ 0 <= m < times /\
       outer * (n * times * Q) + x * times * Q + m * Q <= pos < outer * (n * times * Q) + x * times * Q + m * Q + Q)
    (fun outer o => zloop n (fun x o => zloop times (fun m o =>
        memcpy (x_buf t) (x_offset t + outer * (n * Q) + x * Q) (outer * (n * times * Q) + x * times * Q + m * Q) Q o) o) o)
    (mkBuf (product outshape) (fun _ => None)) (product outshape) eq_refl) as (o' & E' & G').
  { intros outer b0 Ho Hb0.
    destruct (good_loop G n (fun x pos => exists m, 0 <= m < times /\
       outer * (n * times * Q) + x * times * Q + m * Q <= pos < outer * (n * times * Q) + x * times * Q + m * Q + Q)
      (fun x o => zloop times (fun m o =>
        memcpy (x_buf t) (x_offset t + outer * (n * Q) + x * Q) (outer * (n * times * Q) + x * times * Q + m * Q) Q o) o)
      b0 (product outshape) Hb0) as (b1 & E1 & G1).
    { intros x b1 Hx Hb1.
      apply (good_loop G times (fun m pos =>
         outer * (n * times * Q) + x * times * Q + m * Q <= pos < outer * (n * times * Q) + x * times * Q + m * Q + Q)
        _ b1 (product outshape) Hb1).
      intros m b2 Hm Hb2.
      assert (Hpos : forall k, 0 <= k < Q -> exists a b, in_shape pre a /\ in_shape post b /\
         ravel outshape (a ++ (x * times + m) :: b) = outer * (n * times * Q) + x * times * Q + m * Q + k /\
         address (x_view t) (a ++ x :: b) = x_offset t + outer * (n * Q) + x * Q + k).
      { intros k Hk. exists (unravel pre outer), (unravel post k).
        destruct (unravel_spec pre outer Hpre Ho) as [U1 U2]. destruct (unravel_spec post k Hpost Hk) as [V1 V2].
        assert (La : length (unravel pre outer) = length pre) by apply unravel_length.
        split; [auto|]. split; [auto|]. split.
        - unfold outshape. rewrite ravel_app by auto. cbn [ravel]. rewrite U2, V2, product_cons. fold Q. ring.
        - rewrite contiguous_address; auto.
          + fold shape0. rewrite Hs. rewrite ravel_app by auto. cbn [ravel]. rewrite U2, V2, product_cons. fold Q. ring.
          + fold shape0. rewrite Hs, !app_length. cbn [length]. rewrite La, unravel_length. reflexivity. }
      apply good_memcpy.
      - intro HQ0. destruct Hok as [_ _ _ o4].
        destruct (Hpos 0 ltac:(lia)) as (a1 & b3 & L1 & L2 & L3 & L4).
        destruct (Hpos (Q - 1) ltac:(lia)) as (a1' & b3' & M1 & M2 & M3 & M4).
        destruct (HG a1 x m b3 L1 Hx Hm L2) as (_ & _ & I1). destruct (HG a1' x m b3' M1 Hx Hm M2) as (_ & _ & I2).
        apply o4 in I1, I2. lia.
      - intro HQ0. rewrite Hb2. destruct (Hpos 0 ltac:(lia)) as (a1 & b3 & L1 & L2 & L3 & L4).
        destruct (Hpos (Q - 1) ltac:(lia)) as (a1' & b3' & M1 & M2 & M3 & M4).
        destruct (HG a1 x m b3 L1 Hx Hm L2) as (I1 & _ & _). destruct (HG a1' x m b3' M1 Hx Hm M2) as (I2 & _ & _).
        apply ravel_bounds in I1, I2. lia.
      - intros k Hk. destruct (Hpos k Hk) as (a1 & b3 & L1 & L2 & L3 & L4).
        destruct (HG a1 x m b3 L1 Hx Hm L2) as (_ & I & _). rewrite L3 in I. rewrite I. unfold elem. rewrite L4. reflexivity. }
    exists b1. split; [exact E1|]. eapply good_weaken; [|exact G1]. cbn beta.
    intros pos (x & m & Hx & Hm & H). exists x. split; [auto|]. exists m. auto. }
  rewrite E'. cbn [rbind]. eexists. split; [reflexivity|].
  assert (Hbl : b_len o' = product outshape) by (rewrite (g_len _ _ _ _ G'); auto).
  destruct (owner_ok outshape o' Hr Hon Hbl) as [O1 O2].
  split; [reflexivity|]. split; [exact O1|]. split; [exact O2|].
  unfold x_shape. cbn [x_view v_shape]. intros idx Hi.
  rewrite owner_elem by (apply in_shape_length; auto).
  assert (Hi' := Hi). rewrite <- Hout in Hi'. apply in_shape_split in Hi' as (a & y & b & -> & La & I1 & I2 & I3); auto.
  fold pre in I1. fold post in I3.
  assert (Hy1 : 0 <= y / times < n) by (split; [apply Z.div_pos; lia|apply Z.div_lt_upper_bound; lia]).
  assert (Hy2 := Z.mod_pos_bound y times Htimes). assert (Hy3 := Z_div_mod_eq_full y times).
  destruct (HG a (y / times) (y mod times) b I1 Hy1 Hy2 I3) as (J1 & J2 & J3).
  replace (y / times * times + y mod times) with y in * by lia.
  rewrite nth_mid, with_coord_app by auto. split; [exact J3|].
  rewrite (g_set _ _ _ _ G'); [exact J2|].
  exists (ravel pre a). assert (R1 := ravel_bounds _ _ I1). assert (R2 := ravel_bounds _ _ I3). fold P in R1. fold Q in R2.
  split; [lia|]. exists (y / times), (y mod times). split; [auto|]. split; [auto|].
  unfold outshape. rewrite ravel_app by lia. cbn [ravel]. rewrite product_cons. fold Q.
  assert (E3 : y * Q = y / times * times * Q + y mod times * Q) by (rewrite Hy3 at 1; ring). lia.
Qed.
End Repeat.

(* ---------------- split, then concat ---------------- *)
Lemma piece_extents {A} (t : tns A) d : (d < length (x_shape t))%nat -> forall sections sum,
  extents d (map (piece t d) (starts sum sections)) = sections.
Proof.
  intros Hd. induction sections as [|s r IH]; intro sum; [reflexivity|]. cbn [starts map extents].
  unfold piece at 1. unfold x_shape at 1. cbn [x_view v_shape snd]. rewrite nth_with_coord_eq by auto. f_equal. apply IH.
Qed.
Lemma locate_section l : forall c, Forall (fun s => 0 < s) l -> 0 <= c < total l ->
  exists before s after, l = before ++ s :: after /\ 0 <= c - total before < s.
Proof.
  induction l as [|s l IH]; intros c Hp Hc; [unfold total in Hc; cbn in Hc; lia|].
  inversion Hp as [|? ? H1 H2]; subst.
  destruct (Z_lt_le_dec c s) as [Hlt|Hge].
  - exists [], s, l. split; [reflexivity|]. unfold total; cbn [fold_right]. lia.
  - unfold total in Hc. cbn [fold_right] in Hc. fold (total l) in Hc.
    destruct (IH (c - s) H2 ltac:(lia)) as (b & s' & a & -> & Hb).
    exists (s :: b), s', a. split; [reflexivity|]. unfold total in *. cbn [fold_right]. lia.
Qed.

Theorem split_concat_correct {A} (t : tns A) dt dim spec ts :
  tensor_ok t -> Forall (fun s => 0 < s) spec -> has_copy_loop dt = true ->
  split t dim spec = ROk ts -> ts <> [] ->
  exists out, concat_op dt ts dim = ROk out /\ x_shape out = x_shape t /\ contents out = contents t.
Proof.
  intros Hok Hspec Hdt H Hne.
  destruct (split_correct t dim spec ts Hok Hspec H) as (d & sections & Hn & Hd & Htot & Hpos & _ & _ & Ets & Hp).
  destruct ts as [|t0 r]; [contradiction|].
  assert (Hjoin : forall p, In p (t0 :: r) -> tensor_ok p /\ exists s, x_shape p = with_coord d s (x_shape t)).
  { intros p Hin. apply In_nth_error in Hin as [k Hk].
    assert (Hkl : (k < length sections)%nat).
    { assert (k < length (t0 :: r))%nat by (apply nth_error_Some; congruence). rewrite Ets, map_length, starts_length in H0. auto. }
    destruct (Hp (firstn k sections) (nth k sections 0) (skipn (S k) sections)) as (p' & Hp' & P1 & P2 & P3 & _).
    { apply list_at; auto. }
    rewrite firstn_length in Hp'. replace (Nat.min k (length sections)) with k in Hp' by lia.
    rewrite Hk in Hp'. injection Hp' as <-. split; auto. eauto. }
  assert (Hlen0 : forall p, In p (t0 :: r) -> length (x_shape p) = length (x_shape t)).
  { intros p Hin. destruct (Hjoin p Hin) as (_ & s & ->). apply with_coord_length. }
  assert (Hall : Forall (fun p => tensor_ok p /\ agree_outside d (x_shape t0) p) (t0 :: r)).
  { apply Forall_forall. intros p Hin. destruct (Hjoin p Hin) as (J1 & s & J2).
    split; auto. destruct (Hjoin t0 (or_introl eq_refl)) as (_ & s0 & J3).
    unfold agree_outside. rewrite J2, J3. split; [rewrite !with_coord_length; auto|]. intros i Hi. rewrite !nth_with_coord_ne by auto. auto. }
  assert (Hd0 : (d < length (x_shape t0))%nat) by (rewrite (Hlen0 t0 (or_introl eq_refl)); auto).
  assert (Hn0 : norm_dim (zlen (x_shape t0)) dim = Z.of_nat d).
  { unfold zlen in *. rewrite (Hlen0 t0 (or_introl eq_refl)). auto. }
  destruct (concat_correct d t0 r Hd0 Hall dt dim Hdt Hn0) as (out & E & Hsh & Hok' & _ & Hel).
  exists out. split; [exact E|].
  assert (Hext : extents d (t0 :: r) = sections) by (rewrite Ets; apply piece_extents; auto).
  assert (Hshape : x_shape out = x_shape t).
  { rewrite Hsh, Hext, Htot. destruct (Hjoin t0 (or_introl eq_refl)) as (_ & s0 & ->).
    rewrite with_coord_twice. apply with_coord_id. auto. }
  split; [exact Hshape|].
  unfold contents. rewrite Hshape. apply map_ext_in. intros idx Hi. apply in_indices in Hi.
  assert (Li := in_shape_length _ _ Hi). assert (Hc := in_shape_nth _ _ d Hi Hd). rewrite <- Htot in Hc.
  destruct (locate_section sections (nth d idx 0) Hpos Hc) as (before & s & after & Es & Hb).
  destruct (Hp before s after Es) as (p & Hp1 & Hp2 & _ & Hp4 & Hp5).
  set (c := nth d idx 0 - total before) in *.
  assert (Hin : in_shape (x_shape p) (with_coord d c idx)).
  { rewrite Hp4. apply in_shape_split; [auto|]. rewrite <- (with_coord_id d (x_shape t)) in Hi by auto.
    apply in_shape_split in Hi as (a & x & b & -> & L1 & L2 & L3 & L4); auto.
    exists a, c, b. rewrite with_coord_app by auto. repeat split; auto; lia. }
  destruct (Hp5 _ Hin) as [_ Hp6]. rewrite nth_with_coord_eq, with_coord_twice in Hp6 by lia.
  assert (Hid : with_coord d (c + total before) idx = idx).
  { replace (c + total before) with (nth d idx 0) by (unfold c; lia). apply with_coord_id. lia. }
  rewrite Hid in Hp6. rewrite <- Hp6.
  apply nth_error_split in Hp1 as (lb & la & El & Hlb).
  destruct (Hel lb p la El _ Hin) as [_ Hel2].
  assert (Hb2 : extents d lb = before).
  { assert (Hx : extents d (lb ++ p :: la) = before ++ s :: after) by (rewrite <- El, Hext; auto).
    unfold extents in *. rewrite map_app in Hx.
    rewrite <- (firstn_mid (map (fun t => nth d (x_shape t) 0) lb) (map (fun t => nth d (x_shape t) 0) (p :: la)) (length before))
      by (rewrite map_length; auto).
    rewrite Hx. apply firstn_mid. reflexivity. }
  rewrite Hb2, nth_with_coord_eq, with_coord_twice in Hel2 by lia.
  replace (total before + c) with (c + total before) in Hel2 by lia. rewrite Hid in Hel2. exact Hel2.
Qed.
