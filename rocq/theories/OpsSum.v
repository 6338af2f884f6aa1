(** Proofs about the CPU operators, part 6: sums. *)
From Verif Require Import Base DTypeModel ParamModel ParamSpec ParamProofs TensorModel TensorSpec TensorProofs TensorSplit
  OpsModel OpsSpec OpsProofs OpsIndex OpsMask OpsSort.
Local Open Scope Z_scope.

Section Monoid.
Context {A : Type} (zero : A) (add : A -> A -> A).
Hypothesis M : comm_monoid zero add.
Notation "a ⊕ b" := (add a b) (at level 50, left associativity).
Notation Sum := (sum zero add).
Lemma add_zero_r a : a ⊕ zero = a.
Proof using M. rewrite (cm_comm _ _ M). apply (cm_zero _ _ M). Qed.
Lemma sum_app a b : Sum (a ++ b) = Sum a ⊕ Sum b.
Proof using M.
  unfold sum. induction a as [|x a IH]; cbn [app fold_right]; [symmetry; apply (cm_zero _ _ M)|].
  rewrite IH. apply (cm_assoc _ _ M).
Qed.
Lemma sum_zeros k : Sum (repeat zero k) = zero.
Proof using M. unfold sum. induction k as [|k IH]; [reflexivity|]. cbn [repeat fold_right]. rewrite IH. apply (cm_zero _ _ M). Qed.
Lemma fold_left_sum l : forall a, fold_left add l a = a ⊕ Sum l.
Proof using M.
  unfold sum. induction l as [|x l IH]; intro a; cbn [fold_left fold_right]; [symmetry; apply add_zero_r|].
  rewrite IH. symmetry. apply (cm_assoc _ _ M).
Qed.
Lemma sum_vadd a : forall b, length a = length b -> Sum (vadd add a b) = Sum a ⊕ Sum b /\ length (vadd add a b) = length a.
Proof using M.
  unfold sum, vadd. induction a as [|x a IH]; intros [|y b] H; cbn [length] in H; try lia.
  - cbn. split; [symmetry; apply (cm_zero _ _ M)|reflexivity].
  - cbn [combine map fold_right fst snd length]. destruct (IH b ltac:(lia)) as [E1 E2]. rewrite E1. split; [|f_equal; exact E2].
    set (sa := fold_right add zero a). set (sb := fold_right add zero b).
    rewrite <- (cm_assoc _ _ M x y), (cm_assoc _ _ M y sa sb), (cm_comm _ _ M y sa), <- (cm_assoc _ _ M sa y sb), (cm_assoc _ _ M x sa). reflexivity.
Qed.

Section Lane.
Variables (x : buf A) (p : Z) (vals : list A).
Let size := zlen vals.
(** Elements from position i on. *)
Definition seg (i n : Z) : list A := firstn (Z.to_nat n) (skipn (Z.to_nat i) vals).
Lemma seg_length i n : 0 <= i -> 0 <= n -> i + n <= size -> length (seg i n) = Z.to_nat n.
Proof using. intros. unfold seg, size, zlen in *. rewrite firstn_length, skipn_length. lia. Qed.
Lemma firstn_seg i n : 0 <= i -> 0 <= n -> firstn (Z.to_nat (i + n)) vals = firstn (Z.to_nat i) vals ++ seg i n.
Proof using.
  intros Hi Hn. unfold seg. rewrite Z2Nat.inj_add by lia. clear. revert vals. induction (Z.to_nat i) as [|k IH]; intros vals; [reflexivity|].
  destruct vals as [|y l]; [cbn; rewrite firstn_nil; reflexivity|]. cbn [Nat.add firstn skipn app]. f_equal. apply IH.
Qed.
Lemma load_seg i n : 0 <= i -> 0 <= n -> i + n <= size ->
  (forall j, 0 <= j < size -> load x (p + j * 1) = ROk (nth_error vals (Z.to_nat j))) ->
  load_vec x (p + i) n = ROk (seg i n).
Proof using.
  intros Hi Hn Hs HL. unfold load_vec.
  assert (E := lane_list x (p + i) 1 n (seg i n)). unfold lane in E.
  assert (E2 : zloop n (fun i0 acc => do v <- load x (p + i + i0 * 1); match v with Some v => ROk (acc ++ [v]) | None => RUB end) [] = ROk (seg i n)).
  { apply E.
    - unfold zlen. rewrite seg_length by auto. lia.
    - intros j Hj. replace (p + i + j * 1) with (p + (i + j) * 1) by lia. rewrite HL by lia. f_equal.
      unfold seg. rewrite Z2Nat.inj_add by lia. assert (Hjn : (Z.to_nat j < Z.to_nat n)%nat) by lia. clear - Hjn.
      revert vals. induction (Z.to_nat i) as [|k IH]; intro vals.
      + cbn [Nat.add skipn]. revert vals Hjn. generalize (Z.to_nat n) as m. induction (Z.to_nat j) as [|jj IHj]; intros [|m] [|y l] H; cbn; try lia; auto. apply IHj. lia.
      + destruct vals as [|y l]; cbn [Nat.add skipn nth_error]; [rewrite firstn_nil; destruct (Z.to_nat j); reflexivity|]. apply IH. }
  rewrite <- E2. clear. unfold zloop. induction (Z.to_nat n) as [|m IH]; cbn [loop]; [reflexivity|].
  rewrite IH. match goal with |- rbind ?e _ = _ => destruct e as [acc| | |] end; cbn [rbind]; auto.
  rewrite Z.mul_1_r. destruct (load x (p + i + Z.of_nat m)) as [[v|]| | |]; reflexivity.
Qed.
End Lane.

Lemma reduce_spec N (x : buf A) p stride (vals : list A) :
  0 < N -> (forall j, 0 <= j < zlen vals -> load x (p + j * stride) = ROk (nth_error vals (Z.to_nat j))) ->
  reduce_impl zero add N x p stride (zlen vals) = ROk (Sum vals).
Proof using M.
  intros HN HL. unfold reduce_impl. set (size := zlen vals) in *. assert (Hs : 0 <= size) by (unfold size, zlen; lia).
  destruct (size =? 0) eqn:Q0.
  { assert (vals = []) as -> by (destruct vals; auto; unfold size, zlen in Q0; cbn in Q0; lia). reflexivity. }
  destruct ((stride =? 1) && (N <=? size)) eqn:Q1.
  - assert (stride = 1) as -> by lia.
    assert (LS : forall i n, 0 <= i -> 0 <= n -> i + n <= size -> load_vec x (p + i) n = ROk (seg vals i n)) by (intros; apply load_seg; auto).
    assert (E0 := LS 0 N ltac:(lia) ltac:(lia) ltac:(lia)). rewrite Z.add_0_r in E0. rewrite E0. cbn [rbind].
    set (Inv := fun i v => Sum v = Sum (firstn (Z.to_nat i) vals) /\ length v = Z.to_nat N).
    assert (Step : forall i v, 0 <= i -> i + N <= size -> Inv i v -> Inv (i + N) (vadd add v (seg vals i N))).
    { intros i v Hi Hin [I1 I2]. assert (L := seg_length vals i N Hi ltac:(lia) Hin).
      destruct (sum_vadd v (seg vals i N) ltac:(lia)) as [S1 S2]. split; [|lia].
      rewrite S1, I1, firstn_seg, sum_app by lia. reflexivity. }
    assert (I0 : Inv N (seg vals 0 N)).
    { split; [|apply seg_length; unfold size in *; lia]. unfold seg. cbn [Z.to_nat skipn]. reflexivity. }
    set (q := (size - N) / (4 * N)).
    assert (Hq : 0 <= q) by (apply Z.div_pos; lia).
    assert (Hq2 : q * (4 * N) <= size - N) by (unfold q; assert (D := Z.mul_div_le (size - N) (4 * N) ltac:(lia)); lia).
    destruct (zloop_inv (fun u v => Inv (N + u * (4 * N)) v) q (fun u v =>
      let i := N + u * (4 * N) in
      do v0 <- load_vec x (p + i) N;
      do v1 <- load_vec x (p + i + N) N;
      do v2 <- load_vec x (p + i + 2 * N) N;
      do v3 <- load_vec x (p + i + 3 * N) N;
      ROk (vadd add (vadd add (vadd add (vadd add v v0) v1) v2) v3)) (seg vals 0 N) Hq) as (v1 & E1 & I1).
    { rewrite Z.mul_0_l, Z.add_0_r. exact I0. }
    { intros u v Hu Iu. cbv zeta. set (i := N + u * (4 * N)) in *.
      assert (Bi : 0 <= i /\ i + 4 * N <= size) by (unfold i; nia).
      rewrite <- !(Z.add_assoc p i). rewrite !LS by lia. cbn [rbind]. eexists. split; [reflexivity|].
      replace (N + (u + 1) * (4 * N)) with (i + N + N + N + N) by (unfold i; ring).
      replace (i + 2 * N) with (i + N + N) by ring. replace (i + 3 * N) with (i + N + N + N) by ring.
      apply Step; [lia|lia|]. apply Step; [lia|lia|]. apply Step; [lia|lia|]. apply Step; [lia|lia|]. exact Iu. }
    cbv zeta. cbv zeta in E1. rewrite E1. cbn [rbind]. set (i := N + q * (4 * N)) in *.
    set (r := (size - i) / N).
    assert (Hi : 0 <= i <= size) by (unfold i; nia).
    assert (Hr : 0 <= r) by (apply Z.div_pos; lia).
    assert (Hr2 : r * N <= size - i) by (unfold r; assert (D := Z.mul_div_le (size - i) N HN); lia).
    assert (Hr3 : size - i < r * N + N) by (unfold r; assert (D := Z.mul_succ_div_gt (size - i) N HN); lia).
    destruct (zloop_inv (fun u v => Inv (i + u * N) v) r (fun u v => do w <- load_vec x (p + (i + u * N)) N; ROk (vadd add v w)) v1 Hr) as (v2 & E2 & I2).
    { rewrite Z.mul_0_l, Z.add_0_r. exact I1. }
    { intros u v Hu Iu. assert (Bu : 0 <= i + u * N /\ i + u * N + N <= size) by nia.
      rewrite LS by lia. cbn [rbind]. eexists. split; [reflexivity|]. replace (i + (u + 1) * N) with (i + u * N + N) by ring.
      apply Step; [lia|lia|]. exact Iu. }
    rewrite E2. cbn [rbind]. set (j := i + r * N) in *. destruct I2 as [S2 L2].
    assert (F : forall v, Sum v = Sum vals -> ROk (fold_left add v zero) = ROk (Sum vals)).
    { intros v Ev. rewrite fold_left_sum, (cm_zero _ _ M), Ev. reflexivity. }
    destruct (j <? size) eqn:Qj.
    + unfold load_vec_n. rewrite LS by lia. cbn [rbind]. apply F.
      assert (LL : length (seg vals j (size - j)) = Z.to_nat (size - j)) by (apply seg_length; unfold size in *; lia).
      destruct (sum_vadd v2 (seg vals j (size - j) ++ repeat zero (Z.to_nat (N - (size - j))))) as [S3 _].
      { rewrite app_length, repeat_length. lia. }
      rewrite S3, S2, sum_app, sum_zeros, add_zero_r, <- sum_app, <- firstn_seg by lia.
      replace (j + (size - j)) with size by lia. unfold size, zlen. rewrite Nat2Z.id, firstn_all. reflexivity.
    + cbn [rbind]. apply F. rewrite S2. assert (j = size) as -> by lia. unfold size, zlen. rewrite Nat2Z.id, firstn_all. reflexivity.
  - assert (E0 := HL 0 ltac:(lia)). rewrite Z.mul_0_l, Z.add_0_r in E0. rewrite E0. cbn [rbind].
    assert (NE : exists v0 l, vals = v0 :: l) by (destruct vals as [|v0 l]; [unfold size, zlen in Q0; cbn in Q0; lia|eauto]).
    destruct NE as (v0 & l & EV). cbn [Z.to_nat].
    assert (N0 : nth_error vals 0 = Some v0) by (rewrite EV; reflexivity). rewrite N0. cbn [need rbind].
    destruct (zloop_inv (fun i acc => acc = Sum (firstn (Z.to_nat (i + 1)) vals)) (size - 1)
       (fun i acc => do w <- load x (p + (i + 1) * stride); do w <- need w; ROk (add acc w)) v0) as (r & E & Hr).
    + lia.
    + rewrite EV. cbn. symmetry. apply add_zero_r.
    + intros i s Hi ->. rewrite HL by lia. cbn [rbind].
      destruct (nth_error vals (Z.to_nat (i + 1))) as [w|] eqn:Ew; [|apply nth_error_None in Ew; unfold size, zlen in *; lia].
      cbn [need rbind]. eexists. split; [reflexivity|].
      replace (Z.to_nat (i + 1 + 1)) with (Z.to_nat (i + 1 + 1)) by reflexivity. rewrite (firstn_seg vals (i + 1) 1) by lia.
      rewrite sum_app. f_equal. unfold seg.
      assert (SK : skipn (Z.to_nat (i + 1)) vals = w :: skipn (S (Z.to_nat (i + 1))) vals).
      { clear - Ew. revert Ew. generalize (Z.to_nat (i + 1)) as k. induction vals as [|y m IH]; intros [|k] Ew; cbn in *; try discriminate; [congruence|]. apply IH; auto. }
      rewrite SK. change (Z.to_nat 1) with 1%nat. cbn. symmetry. apply add_zero_r.
    + rewrite E, Hr. replace (size - 1 + 1) with size by lia. unfold size, zlen. rewrite Nat2Z.id, firstn_all. reflexivity.
Qed.
End Monoid.

Lemma drop_dim (shape : list Z) d : (d < length shape)%nat ->
  map snd (filter (fun p => negb (Z.of_nat (fst p) =? Z.of_nat d)) (combine (seq 0 (length shape)) shape)) = firstn d shape ++ skipn (S d) shape.
Proof.
  assert (All : forall (l : list Z) k e, (forall i, (k <= i)%nat -> i <> e) -> map snd (filter (fun p => negb (Z.of_nat (fst p) =? Z.of_nat e)) (combine (seq k (length l)) l)) = l).
  { induction l as [|y l IH]; intros k e H; [reflexivity|]. cbn [length seq combine filter fst].
    assert (k <> e) by (apply H; lia). replace (Z.of_nat k =? Z.of_nat e) with false by lia. cbn [negb map snd]. f_equal. apply IH. intros i Hi. apply H. lia. }
  assert (G : forall (l : list Z) k d, (d < length l)%nat ->
     map snd (filter (fun p => negb (Z.of_nat (fst p) =? Z.of_nat (k + d))) (combine (seq k (length l)) l)) = firstn d l ++ skipn (S d) l).
  { induction l as [|y l IH]; intros k [|d'] H; cbn [length] in H; try lia; cbn [length seq combine filter fst].
    - rewrite Nat.add_0_r, Z.eqb_refl. cbn [negb firstn skipn app]. apply All. intros; lia.
    - replace (Z.of_nat k =? Z.of_nat (k + S d')) with false by lia. cbn [negb map snd firstn skipn app]. f_equal.
      replace (k + S d')%nat with (S k + d')%nat by lia. apply IH. lia. }
  intro H. apply (G shape 0%nat d H).
Qed.

(** Summing along dimension d. *)
Theorem sum_correct {A} (zero : A) add N (x : tns A) dim d keep :
  comm_monoid zero add -> 0 < N -> tensor_ok x -> contiguous x -> dim <> all_dims -> names_dim (length (x_shape x)) dim d ->
  (forall idx, in_shape (x_shape x) idx -> elem x idx <> None) ->
  (keep = true \/ (2 <= length (x_shape x))%nat) ->
  let oshape := if keep then with_coord d 1 (x_shape x) else firstn d (x_shape x) ++ skipn (S d) (x_shape x) in
  exists out, sum_op zero add N x dim keep = ROk out /\ x_shape out = oshape /\ tensor_ok out /\ owns_storage out /\
    forall idx, in_shape oshape idx ->
      exists vals, along x d (if keep then idx else firstn d idx ++ 0 :: skipn d idx) = map Some vals /\
        elem out idx = Some (sum zero add vals).
Proof.
  intros M HN Ox Cx Hnall [Hd Hdim] Hw Hkeep oshape. unfold sum_op.
  set (sh := x_shape x) in *. set (n := nth d sh 0) in *. set (pre := firstn d sh) in *. set (post := skipn (S d) sh) in *.
  assert (EN : norm_dim (zlen sh) dim = Z.of_nat d) by (unfold norm_dim, zlen; destruct (dim <? 0) eqn:Q; lia).
  assert (Esh : sh = pre ++ n :: post) by (apply ln_shape; auto).
  assert (Lp : length pre = d) by (apply ln_len; auto).
  destruct (ln_dims x d Ox Hd) as (D1 & Hn & D2). fold sh in D1, Hn, D2. fold pre in D1. fold n in Hn. fold post in D2.
  assert (ER : reduce_shape sh dim keep = ROk oshape).
  { unfold reduce_shape. replace (dim =? all_dims) with false by lia. cbv zeta. rewrite EN. unfold oshape. destruct keep.
    - unfold vset. replace ((0 <=? Z.of_nat d) && (Z.of_nat d <? zlen sh)) with true by (unfold zlen; lia). rewrite Nat2Z.id. reflexivity.
    - rewrite drop_dim by auto. reflexivity. }
  cbv zeta. rewrite ER. cbn [rbind].
  assert (Lsh : length sh = (length pre + S (length post))%nat) by (rewrite Esh at 1; rewrite app_length; reflexivity).
  assert (Eos : oshape = pre ++ (if keep then [1] else []) ++ post).
  { unfold oshape. destruct keep; [rewrite Esh; rewrite with_coord_app by auto; reflexivity|reflexivity]. }
  assert (Rk := ok_rank _ Ox). fold sh in Rk.
  assert (Ros : (1 <= length oshape <= 16)%nat) by (rewrite Eos, !app_length; destruct keep; cbn [length]; destruct Hkeep as [Hk|Hk]; try discriminate Hk; lia).
  assert (Hos : Forall (fun d => 0 <= d) oshape) by (rewrite Eos; repeat (apply Forall_app; split); auto; destruct keep; repeat constructor; lia).
  rewrite fresh_ok by auto. cbn [rbind x_buf x_view]. replace (dim =? all_dims) with false by lia. rewrite EN.
  rewrite (vget_nth sh _ 0) by (unfold zlen; lia). rewrite Nat2Z.id. fold n pre post. cbn [rbind].
  rewrite !numel_product. set (O := product pre). set (I := product post).
  assert (EP : product oshape = O * I) by (rewrite Eos, !product_app; destruct keep; rewrite ?product_cons; change (product []) with 1; fold O I; ring).
  set (F := fun idx => match reduce_impl zero add N (x_buf x) (x_offset x + (ravel pre (firstn d idx) * n * I + ravel post (skipn (if keep then S d else d) idx))) I n with ROk v => Some v | _ => None end).
  set (ins := fun q : list Z => (if keep then [0] else []) ++ q).
  assert (IP : forall p q, in_shape pre p -> in_shape post q -> in_shape oshape (p ++ ins q) /\ ravel oshape (p ++ ins q) = ravel pre p * I + ravel post q /\
     firstn d (p ++ ins q) = p /\ skipn (if keep then S d else d) (p ++ ins q) = q).
  { intros p q Hp Hq. assert (Lpp : length p = d) by (rewrite (in_shape_length _ _ Hp); auto). rewrite Eos. unfold ins. destruct keep; cbn [app].
    - split; [apply in_shape_app; [lia|]; split; auto; apply in_shape_cons; split; auto; lia|].
      split; [rewrite ravel_app by lia; cbn [ravel]; rewrite product_cons; fold I; ring|].
      split; [apply firstn_mid; auto|apply skipn_mid; auto].
    - split; [apply in_shape_app; [lia|]; auto|]. split; [rewrite ravel_app by lia; reflexivity|].
      split; [apply firstn_mid; auto|apply skipn_mid0; auto]. }
  assert (LN : forall p q, in_shape pre p -> in_shape post q -> exists vals, along x d (p ++ 0 :: q) = map Some vals /\
    reduce_impl zero add N (x_buf x) (x_offset x + (ravel pre p * n * I + ravel post q)) I n = ROk (sum zero add vals)).
  { intros p q Hp Hq. destruct (ln_lane x d Ox Cx Hd p q Hp Hq Hw) as (vals & V1 & V2 & V3 & V4). exists vals. split; auto.
    fold sh in V2. fold n in V2. rewrite <- V2 at 2. apply reduce_spec; auto. intros j Hj. fold sh in V4. fold n in V4. fold pre in V4. fold post in V4. fold I in V4.
    rewrite Z.add_assoc. apply V4. lia. }
  set (body := fun u v (o : buf A) =>
      do s <- reduce_impl zero add N (x_buf x) (x_offset x + (u * n * I + v)) I n;
      store o (u * I + v) (Some s)).
  destruct (good_loop (at_pos oshape F) O (fun u p => exists v, 0 <= v < I /\ p = u * I + v)
    (fun u o => zloop I (body u) o) (mkBuf (product oshape) (fun _ => None)) (product oshape) eq_refl) as (o & E & G).
  { intros u b Hu Hb.
    destruct (good_loop (at_pos oshape F) I (fun v => eq (u * I + v)) (body u) b (product oshape) Hb) as (b1 & E1 & G1).
    { intros v b1 Hv Hb1. unfold body.
      destruct (unravel_spec pre u D1 Hu) as [A1 A2]. destruct (unravel_spec post v D2 Hv) as [B1 B2].
      set (p := unravel pre u) in *. set (q := unravel post v) in *.
      destruct (LN p q A1 B1) as (vals & V1 & V2). destruct (IP p q A1 B1) as (W1 & W2 & W3 & W4). rewrite A2, B2 in V2, W2.
      rewrite V2. cbn [rbind]. apply good_store; [rewrite Hb1, EP; nia|].
      rewrite <- W2, at_pos_ravel by auto. unfold F. rewrite W3, W4, A2, B2, V2. reflexivity. }
    exists b1. split; auto. eapply good_weaken; [|exact G1]. intros p (v & Hv & ->). exists v. auto. }
  unfold body in E. rewrite E. cbn [rbind]. eexists. split; [reflexivity|].
  destruct (produces_good oshape F _ o Ros Hos G) as (P1 & P2 & P3 & P4).
  { intros p Hp. rewrite EP in Hp. assert (HI : 0 <= I) by (apply product_nonneg; auto). assert (HI' : 0 < I) by (destruct (Z.eq_dec I 0) as [e0|]; [rewrite e0 in Hp; lia|lia]).
    exists (p / I). assert (DM := Z_div_mod_eq_full p I). assert (MB := Z.mod_pos_bound p I HI').
    split; [split; [apply Z.div_pos; lia|apply Z.div_lt_upper_bound; [lia|rewrite Z.mul_comm; lia]]|]. exists (p mod I). split; auto. lia. }
  split; [exact P1|]. split; [exact P2|]. split; [exact P3|].
  intros idx Hidx. assert (Hidx0 := Hidx). rewrite Eos in Hidx. destruct (in_shape_app_inv _ _ _ Hidx) as (I1 & I2 & EI).
  remember (firstn (length pre) idx) as p. remember (skipn (length pre) idx) as cq. clear Heqp Heqcq.
  assert (Lpp : length p = d) by (rewrite (in_shape_length _ _ I1); auto).
  assert (EQ : exists q, in_shape post q /\ idx = p ++ ins q).
  { unfold ins. destruct keep; cbn [app] in I2 |- *; [|exists cq; auto]. destruct cq as [|c q]; [inversion I2|].
    apply in_shape_cons in I2 as [Hc I2]. exists q. assert (c = 0) as -> by lia. auto. }
  destruct EQ as (q & Hq & Eidx). destruct (LN p q I1 Hq) as (vals & V1 & V2). destruct (IP p q I1 Hq) as (W1 & W2 & W3 & W4).
  exists vals. split.
  - rewrite <- V1. f_equal. rewrite Eidx. destruct keep; [reflexivity|]. cbn [ins app]. rewrite firstn_mid, skipn_mid0 by auto. reflexivity.
  - rewrite P4 by auto. unfold F. rewrite Eidx, W3, W4, V2. reflexivity.
Qed.

(** Summing everything. *)
Theorem sum_all_correct {A} (zero : A) add N (x : tns A) keep :
  comm_monoid zero add -> 0 < N -> tensor_ok x -> contiguous x ->
  (forall idx, in_shape (x_shape x) idx -> elem x idx <> None) ->
  exists out vals, sum_op zero add N x all_dims keep = ROk out /\
    x_shape out = (if keep then map (fun _ => 1) (x_shape x) else [1]) /\ tensor_ok out /\ owns_storage out /\
    contents x = map Some vals /\ contents out = [Some (sum zero add vals)].
Proof.
  intros M HN Ox Cx Hw. unfold sum_op. set (sh := x_shape x) in *. unfold reduce_shape. rewrite Z.eqb_refl. cbn [rbind].
  set (os := if keep then map (fun _ => 1) sh else [1]).
  assert (Eos : os = repeat 1 (length os) /\ (1 <= length os <= 16)%nat).
  { assert (R := ok_rank _ Ox). fold sh in R. unfold os. destruct keep; [|cbn; split; [reflexivity|lia]]. rewrite map_length. split; auto.
    clear. induction sh as [|y l IH]; [reflexivity|]. cbn [map length repeat]. f_equal. exact IH. }
  destruct Eos as [Eos Ros].
  assert (Pos : product os = 1) by (rewrite Eos; apply product_ones).
  assert (Hos : Forall (fun d => 0 <= d) os) by (rewrite Eos; apply Forall_forall; intros y Hy; apply repeat_spec in Hy; lia).
  rewrite fresh_ok by auto. cbn [rbind x_buf x_view].
  destruct (map_some_list (contents x)) as [vals EV].
  { intros o Ho. unfold contents in Ho. apply in_map_iff in Ho as (idx & <- & Hi). apply Hw. apply in_indices. exact Hi. }
  assert (EC := contents_contiguous x (ok_dims _ Ox) Cx). fold sh in EC. rewrite EV in EC.
  assert (PN : 0 <= product sh) by (apply product_nonneg; apply Ox).
  assert (LV : zlen vals = product sh) by (unfold zlen; rewrite <- (map_length Some vals), EC, map_length, seq_length; lia).
  assert (RS : reduce_impl zero add N (x_buf x) (x_offset x) 1 (zlen vals) = ROk (sum zero add vals)).
  { apply reduce_spec; auto. intros j Hj. rewrite Z.mul_1_r.
    rewrite load_ok by (apply contiguous_inside; auto; fold sh; lia). f_equal.
    assert (Q : nth_error (map Some vals) (Z.to_nat j) = Some (b_at (x_buf x) (x_offset x + j))).
    { rewrite EC, nth_error_map, (nth_error_nth' _ 0%nat) by (rewrite seq_length; lia). rewrite seq_nth by lia. cbn [option_map Nat.add].
      rewrite Z2Nat.id by lia. reflexivity. }
    rewrite nth_error_map in Q. destruct (nth_error vals (Z.to_nat j)); cbn [option_map] in Q; congruence. }
  rewrite numel_product. rewrite LV in RS. rewrite RS. cbn [rbind].
  unfold store. cbn [b_len]. rewrite Pos. cbn [Z.leb Z.ltb Z.compare andb rbind].
  do 2 eexists. split; [reflexivity|].
  set (o := mkBuf 1 _). destruct (owner_ok os o Ros Hos) as [O1 O2]; [rewrite Pos; reflexivity|].
  split; [reflexivity|]. split; [exact O1|]. split; [exact O2|]. split; [exact EV|].
  rewrite contents_contiguous; [|exact Hos|apply O2]. unfold x_shape, x_offset. cbn [x_view x_buf v_shape v_offset]. rewrite Pos. reflexivity.
Qed.
