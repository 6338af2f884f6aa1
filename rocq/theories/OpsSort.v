(** Proofs about the CPU operators, part 4: operators working lane by lane
    (argsort, top-k, sums). *)
From Verif Require Import Base DTypeModel ParamModel ParamSpec ParamProofs TensorModel TensorSpec TensorProofs TensorSplit
  OpsModel OpsSpec OpsProofs OpsIndex OpsMask.
Local Open Scope Z_scope.

Lemma vget_error {X} (l : list X) i x : 0 <= i -> nth_error l (Z.to_nat i) = Some x -> vget l i = ROk x.
Proof. intros H E. unfold vget. replace (0 <=? i) with true by lia. rewrite E. reflexivity. Qed.

Lemma nth_error_ext {X} (a : list X) : forall b, (forall j, nth_error a j = nth_error b j) -> a = b.
Proof.
  induction a as [|x a IH]; intros [|y b] H; auto; [specialize (H 0%nat); discriminate|specialize (H 0%nat); discriminate|].
  assert (H0 := H 0%nat). cbn in H0. injection H0 as ->. f_equal. apply IH. intro j. apply (H (S j)).
Qed.

(* ---------------- reading a lane ---------------- *)
Lemma lane_list {A} (x : buf A) base stride n (vals : list A) :
  zlen vals = n -> (forall i, 0 <= i < n -> load x (base + i * stride) = ROk (nth_error vals (Z.to_nat i))) ->
  lane x base stride n = ROk vals.
Proof.
  intros Hl H. unfold lane.
  destruct (zloop_inv (fun i acc => acc = firstn (Z.to_nat i) vals) n
    (fun i acc => do v <- load x (base + i * stride); match v with Some v => ROk (acc ++ [v]) | None => RUB end) []) as (r & E & Hr).
  - unfold zlen in Hl. lia.
  - reflexivity.
  - intros i s Hi ->. rewrite H by lia. cbn [rbind]. unfold zlen in Hl.
    destruct (nth_error vals (Z.to_nat i)) as [v|] eqn:Ev; [|apply nth_error_None in Ev; lia].
    eexists. split; [reflexivity|]. replace (Z.to_nat (i + 1)) with (S (Z.to_nat i)) by lia.
    clear - Ev. revert vals Ev. induction (Z.to_nat i) as [|k IH]; intros [|y l] Ev; cbn in *; try discriminate; [congruence|].
    f_equal. apply IH. auto.
  - rewrite E, Hr. f_equal. unfold zlen in Hl. rewrite firstn_all2 by lia. reflexivity.
Qed.
Lemma map_some_list {X} (l : list (option X)) : (forall o, In o l -> o <> None) -> exists vals, l = map Some vals.
Proof.
  induction l as [|[x|] l IH]; intro H; [exists []; reflexivity| |destruct (H None); cbn; auto].
  destruct IH as [v ->]; [intros o Ho; apply H; right; auto|]. exists (x :: v). reflexivity.
Qed.

Section Lanes.
Context {A : Type}.
Variables (x : tns A) (d : nat).
Hypothesis Ox : tensor_ok x.
Hypothesis Cx : contiguous x.
Hypothesis Hd : (d < length (x_shape x))%nat.
Let pre := firstn d (x_shape x).
Let post := skipn (S d) (x_shape x).
Let n := nth d (x_shape x) 0.
Let inner := product post.
Lemma ln_shape : x_shape x = pre ++ n :: post.
Proof using Hd. apply shape_split; auto. Qed.
Lemma ln_len : length pre = d.
Proof using Hd. unfold pre. rewrite firstn_length. lia. Qed.
Lemma ln_dims : Forall (fun d => 0 <= d) pre /\ 0 <= n /\ Forall (fun d => 0 <= d) post.
Proof using Ox Hd.
  assert (D := ok_dims _ Ox). rewrite ln_shape in D. apply Forall_app in D as [D1 D2]. inversion D2; auto.
Qed.
Lemma ln_elem p q i : in_shape pre p -> in_shape post q -> 0 <= i < n ->
  in_shape (x_shape x) (p ++ i :: q) /\
  address (x_view x) (p ++ i :: q) = x_offset x + ravel pre p * n * inner + ravel post q + i * inner.
Proof using Cx Hd.
  intros Hp Hq Hi. assert (I : in_shape (x_shape x) (p ++ i :: q)).
  { rewrite ln_shape. apply in_shape_app; [apply in_shape_length; auto|]. split; auto. apply in_shape_cons. auto. }
  split; auto. rewrite contiguous_address by (auto; apply in_shape_length; auto). rewrite ln_shape.
  rewrite ravel_app by (apply in_shape_length; auto). cbn [ravel]. rewrite product_cons. fold inner. ring.
Qed.
(** The lane through p and q is what the kernel reads. *)
Lemma ln_lane p q : in_shape pre p -> in_shape post q -> (forall idx, in_shape (x_shape x) idx -> elem x idx <> None) ->
  exists vals, along x d (p ++ 0 :: q) = map Some vals /\ zlen vals = n /\
    (forall i, 0 <= i < n -> elem x (p ++ i :: q) = nth_error vals (Z.to_nat i)) /\
    forall i, 0 <= i < n -> load (x_buf x) (x_offset x + ravel pre p * n * inner + ravel post q + i * inner) = ROk (nth_error vals (Z.to_nat i)).
Proof using Ox Cx Hd.
  intros Hp Hq Hw. destruct ln_dims as (_ & Hn & _).
  assert (Lp : length p = d) by (rewrite (in_shape_length _ _ Hp); apply ln_len).
  assert (EA : forall i, with_coord d i (p ++ 0 :: q) = p ++ i :: q).
  { intro i. apply with_coord_app; auto. }
  destruct (map_some_list (along x d (p ++ 0 :: q))) as [vals EV].
  { intros o Ho. unfold along in Ho. apply in_map_iff in Ho as (i & <- & Hi). rewrite EA. apply in_seq in Hi. apply Hw.
    fold n in Hi. apply ln_elem; auto. lia. }
  assert (LV : zlen vals = n).
  { unfold zlen. rewrite <- (map_length Some vals), <- EV. unfold along. rewrite map_length, seq_length. fold n. lia. }
  assert (EE : forall i, 0 <= i < n -> elem x (p ++ i :: q) = nth_error vals (Z.to_nat i)).
  { intros i Hi. assert (Q : nth_error (along x d (p ++ 0 :: q)) (Z.to_nat i) = Some (elem x (p ++ i :: q))).
    { unfold along. fold n. rewrite nth_error_map, (nth_error_nth' _ 0%nat) by (rewrite seq_length; lia).
      rewrite seq_nth by lia. cbn [option_map Nat.add]. rewrite Z2Nat.id by lia. rewrite EA. reflexivity. }
    rewrite EV, nth_error_map in Q. destruct (nth_error vals (Z.to_nat i)) as [v|]; cbn [option_map] in Q; congruence. }
  exists vals. split; auto. split; auto. split; auto. intros i Hi. destruct (ln_elem p q i Hp Hq Hi) as [I E].
  rewrite <- EE by auto. unfold elem. rewrite <- E. apply load_ok. apply Ox. auto.
Qed.
End Lanes.

(* ---------------- writing lanes ---------------- *)
(** The cell of lane (u, v) at i in a tensor with k elements along the dimension. *)
Definition by_lane {B} (d : nat) (pre post : list Z) (f : Z -> Z -> Z -> option B) (idx : list Z) : option B :=
  f (ravel pre (firstn d idx)) (ravel post (skipn (S d) idx)) (nth d idx 0).

Section Write.
Context {B : Type}.
Variables (pre post : list Z) (k : Z) (f : Z -> Z -> Z -> option B).
Let os := pre ++ k :: post.
Let inner := product post.
Let G := at_pos os (by_lane (length pre) pre post f).
Lemma wl_G u v i : Forall (fun d => 0 <= d) pre -> Forall (fun d => 0 <= d) post ->
  0 <= u < product pre -> 0 <= v < inner -> 0 <= i < k -> G (u * k * inner + i * inner + v) = f u v i.
Proof using.
  intros D1 D2 Hu Hv Hi. destruct (unravel_spec pre u D1 Hu) as [A1 A2]. destruct (unravel_spec post v D2 Hv) as [B1 B2].
  set (p := unravel pre u) in *. set (q := unravel post v) in *.
  assert (L := in_shape_length _ _ A1).
  assert (I : in_shape os (p ++ i :: q)) by (apply in_shape_app; auto; split; auto; apply in_shape_cons; auto).
  assert (R : ravel os (p ++ i :: q) = u * k * inner + i * inner + v).
  { unfold os. rewrite ravel_app by auto. cbn [ravel]. rewrite product_cons, A2, B2. fold inner. ring. }
  unfold G. rewrite <- R, at_pos_ravel by auto. unfold by_lane. rewrite nth_mid, firstn_mid, skipn_mid, A2, B2 by auto. reflexivity.
Qed.
Lemma wl_cover p : Forall (fun d => 0 <= d) pre -> Forall (fun d => 0 <= d) post -> 0 <= k -> 0 <= p < product os ->
  exists u v i, 0 <= u < product pre /\ 0 <= v < inner /\ 0 <= i < k /\ p = u * k * inner + i * inner + v.
Proof using.
  intros D1 D2 Hk Hp. assert (D : Forall (fun d => 0 <= d) os) by (apply Forall_app; split; auto).
  destruct (unravel_spec os p D Hp) as [I R]. destruct (in_shape_app_inv _ _ _ I) as (I1 & I2 & E).
  remember (firstn (length pre) (unravel os p)) as a. remember (skipn (length pre) (unravel os p)) as b. clear Heqa Heqb.
  destruct b as [|i q]; [inversion I2|]. apply in_shape_cons in I2 as [Hi I2].
  exists (ravel pre a), (ravel post q), i.
  split; [apply ravel_bounds; auto|]. split; [apply ravel_bounds; auto|]. split; auto.
  rewrite <- R, E. unfold os. rewrite ravel_app by (apply in_shape_length; auto). cbn [ravel]. rewrite product_cons. fold inner. ring.
Qed.
End Write.

Lemma lane_cells u k inner v i : 0 <= u -> 0 <= v < inner -> 0 <= i < k -> forall O, u < O ->
  0 <= u * k * inner + i * inner + v < O * (k * inner).
Proof.
  intros Hu Hv Hi O HO. assert (M : 0 <= u * k + i < O * k) by nia. set (m := u * k + i) in *.
  replace (u * k * inner + i * inner + v) with (m * inner + v) by (unfold m; ring).
  replace (O * (k * inner)) with (O * k * inner) by ring. nia.
Qed.

(* ---------------- argsort ---------------- *)
Lemma positions_length m : length (positions m) = m.
Proof. unfold positions. rewrite map_length, seq_length. reflexivity. Qed.
Lemma combine_positions {A} (vals : list A) w p :
  In (w, p) (combine vals (positions (length vals))) -> 0 <= p < zlen vals /\ nth_error vals (Z.to_nat p) = Some w.
Proof.
  intro H. unfold positions in H.
  assert (G : forall l k, In (w, p) (combine l (map Z.of_nat (seq k (length l)))) ->
     Z.of_nat k <= p < Z.of_nat k + zlen l /\ nth_error l (Z.to_nat p - k) = Some w).
  { induction l as [|y l IH]; intros k Hin; cbn [length seq map combine] in Hin; [inversion Hin|].
    unfold zlen in *. cbn [length].
    destruct Hin as [E|Hin]; [injection E as -> <-; split; [lia|]; rewrite Nat2Z.id, Nat.sub_diag; reflexivity|].
    destruct (IH (S k) Hin) as [I1 I2]. split; [lia|]. replace (Z.to_nat p - k)%nat with (S (Z.to_nat p - S k)) by lia. exact I2. }
  destruct (G vals 0%nat H) as [G1 G2]. rewrite Nat.sub_0_r in G2. split; auto.
Qed.
Lemma map_snd_combine {A} (vals : list A) : map snd (combine vals (positions (length vals))) = positions (length vals).
Proof.
  unfold positions. generalize 0%nat. induction vals as [|y l IH]; intro k; [reflexivity|]. cbn [length seq map combine snd]. f_equal. apply IH.
Qed.
Lemma in_order_map {A} (less : A -> A -> bool) (l : list (A * Z)) : in_order (by_value less) l <-> in_order less (map fst l).
Proof.
  unfold in_order. induction l as [|y l IH]; cbn [map]; [split; constructor|].
  split; intro H; inversion H as [|? ? H1 H2]; subst; constructor; try (apply IH; auto).
  - apply Forall_map. exact H2.
  - apply Forall_map in H2. exact H2.
Qed.

Theorem argsort_correct {A} (less : A -> A -> bool) sort (x : tns A) dim d :
  tensor_ok x -> contiguous x -> names_dim (length (x_shape x)) dim d ->
  (forall idx, in_shape (x_shape x) idx -> elem x idx <> None) ->
  sorts (by_value less) sort ->
  exists out, argsort_op sort x dim = ROk out /\ x_shape out = x_shape x /\ tensor_ok out /\ owns_storage out /\
    forall idx, in_shape (x_shape x) idx ->
      exists pairs,
        along out d idx = map (fun p => Some (snd p)) pairs /\
        (forall w p, In (w, p) pairs -> elem x (with_coord d p idx) = Some w) /\
        Permutation (map snd pairs) (positions (Z.to_nat (nth d (x_shape x) 0))) /\
        in_order less (map fst pairs).
Proof.
  intros Ox Cx [Hd Hdim] Hw Hsort. unfold argsort_op.
  set (sh := x_shape x) in *. set (n := nth d sh 0). set (pre := firstn d sh). set (post := skipn (S d) sh).
  assert (EN : norm_dim (zlen sh) dim = Z.of_nat d) by (unfold norm_dim, zlen; destruct (dim <? 0) eqn:Q; lia).
  assert (Esh : sh = pre ++ n :: post) by (apply ln_shape; auto).
  assert (Lp : length pre = d) by (apply ln_len; auto).
  destruct (ln_dims x d Ox Hd) as (D1 & Hn & D2). fold sh in D1, Hn, D2. fold pre in D1. fold n in Hn. fold post in D2.
  assert (Hos : Forall (fun d => 0 <= d) sh) by apply Ox.
  rewrite fresh_ok by apply Ox. cbn [rbind x_buf x_view]. rewrite EN.
  rewrite (vget_nth sh _ 0) by (unfold zlen; lia). cbv zeta. rewrite Nat2Z.id. fold n pre post. cbn [rbind].
  rewrite !numel_product. set (O := product pre). set (I := product post).
  set (f := fun u v i => match lane (x_buf x) (x_offset x + u * n * I + v) I n with
     | ROk vals => match nth_error (sort (combine vals (positions (length vals)))) (Z.to_nat i) with Some p => Some (snd p) | None => None end
     | _ => None end).
  set (F := by_lane d pre post f).
  assert (LN : forall p q, in_shape pre p -> in_shape post q -> exists vals, along x d (p ++ 0 :: q) = map Some vals /\ zlen vals = n /\
    (forall i, 0 <= i < n -> elem x (p ++ i :: q) = nth_error vals (Z.to_nat i)) /\
    lane (x_buf x) (x_offset x + ravel pre p * n * I + ravel post q) I n = ROk vals).
  { intros p q Hp Hq. destruct (ln_lane x d Ox Cx Hd p q Hp Hq Hw) as (vals & V1 & V2 & V3 & V4). exists vals. split; auto. split; auto. split; auto.
    apply lane_list; auto. }
  assert (EP : product sh = O * (n * I)) by (rewrite Esh, product_app, product_cons; reflexivity).
  set (body := fun u v (b : buf Z) =>
      do vals <- lane (x_buf x) (x_offset x + u * n * I + v) I n;
      zloop n (fun i b => do p <- vget (sort (combine vals (positions (length vals)))) i; store b (u * n * I + i * I + v) (Some (snd p))) b).
  destruct (good_loop (at_pos sh F) O (fun u p => exists v i, 0 <= v < I /\ 0 <= i < n /\ p = u * n * I + i * I + v)
    (fun u b => zloop I (body u) b) (mkBuf (product sh) (fun _ => None)) (product sh) eq_refl) as (o & E & G).
  { intros u b Hu Hb.
    destruct (good_loop (at_pos sh F) I (fun v p => exists i, 0 <= i < n /\ p = u * n * I + i * I + v) (body u) b (product sh) Hb) as (b1 & E1 & G1).
    { intros v b1 Hv Hb1. unfold body.
      destruct (unravel_spec pre u D1 Hu) as [A1 A2]. destruct (unravel_spec post v D2 Hv) as [B1 B2].
      destruct (LN _ _ A1 B1) as (vals & V1 & V2 & V3 & V4). rewrite A2, B2 in V4. rewrite V4. cbn [rbind].
      destruct (Hsort (combine vals (positions (length vals)))) as [P1 P2].
      set (sorted := sort (combine vals (positions (length vals)))) in *.
      assert (LS : length sorted = Z.to_nat n).
      { rewrite <- (Permutation_length P1), combine_length, positions_length. unfold zlen in V2. lia. }
      destruct (good_loop (at_pos sh F) n (fun i => eq (u * n * I + i * I + v))
        (fun i b => do p <- vget sorted i; store b (u * n * I + i * I + v) (Some (snd p))) b1 (product sh) Hb1) as (b2 & E2 & G2).
      { intros i b2 Hi Hb2. destruct (nth_error sorted (Z.to_nat i)) as [pr|] eqn:Epr; [|apply nth_error_None in Epr; lia].
        rewrite (vget_error _ _ pr) by (auto; lia). cbn [rbind].
        apply good_store; [rewrite Hb2, EP; apply lane_cells; auto; lia|].
        rewrite Esh. unfold F. rewrite <- Lp at 1. rewrite wl_G by (auto; lia). unfold f. rewrite V4. fold sorted. rewrite Epr. reflexivity. }
      exists b2. split; auto. eapply good_weaken; [|exact G2]. intros p (i & Hi & ->). exists i. auto. }
    exists b1. split; auto. eapply good_weaken; [|exact G1]. intros p (v & i & Hv & Hi & ->). exists v. split; auto. exists i. auto. }
  unfold body in E. cbv zeta in E. rewrite E. cbn [rbind]. eexists. split; [reflexivity|].
  destruct (produces_good sh F _ o (ok_rank _ Ox) Hos G) as (P1 & P2 & P3 & P4).
  { intros p Hp. rewrite Esh in Hp. destruct (wl_cover pre post n p D1 D2 Hn Hp) as (u & v & i & Hu & Hv & Hi & ->).
    exists u. split; auto. exists v, i. auto. }
  split; [exact P1|]. split; [exact P2|]. split; [exact P3|].
  intros idx Hidx. assert (Hidx0 := Hidx). rewrite Esh in Hidx. destruct (in_shape_app_inv _ _ _ Hidx) as (I1 & I2 & EI).
  remember (firstn (length pre) idx) as p. remember (skipn (length pre) idx) as cq. clear Heqp Heqcq.
  destruct cq as [|c q]; [inversion I2|]. apply in_shape_cons in I2 as [Hc I2].
  assert (Lpp : length p = d) by (rewrite (in_shape_length _ _ I1); auto).
  destruct (LN _ _ I1 I2) as (vals & V1 & V2 & V3 & V4).
  destruct (Hsort (combine vals (positions (length vals)))) as [Q1 Q2].
  set (sorted := sort (combine vals (positions (length vals)))) in *.
  assert (LS : length sorted = Z.to_nat n).
  { rewrite <- (Permutation_length Q1), combine_length, positions_length. unfold zlen in V2. lia. }
  exists sorted.
  assert (EW : forall i, with_coord d i idx = p ++ i :: q) by (intro i; rewrite EI; apply with_coord_app; auto).
  split.
  { unfold along. rewrite P1. fold n. apply nth_error_ext. intro j.
    rewrite !nth_error_map. destruct (Nat.lt_ge_cases j (Z.to_nat n)) as [Hj|Hj].
    - rewrite (nth_error_nth' _ 0%nat) by (rewrite seq_length; auto). rewrite seq_nth by auto. cbn [option_map Nat.add]. rewrite EW.
      assert (IS : in_shape sh (p ++ Z.of_nat j :: q)).
      { rewrite Esh. apply in_shape_app; [lia|]. split; auto. apply in_shape_cons. split; auto. lia. }
      rewrite P4 by auto. unfold F, by_lane. rewrite nth_mid, firstn_mid, skipn_mid by auto. unfold f. rewrite V4. fold sorted.
      rewrite Nat2Z.id. destruct (nth_error sorted j) as [pr|] eqn:Epr; [reflexivity|]. apply nth_error_None in Epr. lia.
    - rewrite (proj2 (nth_error_None _ _)) by (rewrite seq_length; auto).
      rewrite (proj2 (nth_error_None sorted _)) by lia. reflexivity. }
  split.
  { intros w j Hin. rewrite EW. apply (Permutation_in _ (Permutation_sym Q1)) in Hin.
    destruct (combine_positions _ _ _ Hin) as [R1 R2]. rewrite V3 by lia. exact R2. }
  split.
  { apply Permutation_sym. rewrite <- (Permutation_map snd Q1), map_snd_combine. unfold zlen in V2.
    replace (Z.to_nat n) with (length vals) by lia. reflexivity. }
  apply in_order_map. exact Q2.
Qed.
