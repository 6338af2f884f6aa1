(** Proofs about the tensor model: loops, buffers, index arithmetic. *)
From Verif Require Import Base DTypeModel ParamModel ParamSpec ParamProofs TensorModel TensorSpec.
Local Open Scope Z_scope.

(* ---------------- loops ---------------- *)
Lemma loop_inv {S} (P : nat -> S -> Prop) n body s :
  P O s ->
  (forall i s, (i < n)%nat -> P i s -> exists s', body (Z.of_nat i) s = ROk s' /\ P (Datatypes.S i) s') ->
  exists s', loop n body s = ROk s' /\ P n s'.
Proof.
  intros H0 Hs. induction n as [|n IH]; [exists s; split; auto|].
  destruct IH as (s1 & E1 & P1). { intros i s1 Hi Hp. apply Hs; auto. }
  destruct (Hs n s1 ltac:(lia) P1) as (s2 & E2 & P2).
  exists s2. split; auto. cbn [loop rbind]. rewrite E1. exact E2.
Qed.
Lemma zloop_inv {S} (P : Z -> S -> Prop) n body s :
  0 <= n -> P 0 s ->
  (forall i s, 0 <= i < n -> P i s -> exists s', body i s = ROk s' /\ P (i + 1) s') ->
  exists s', zloop n body s = ROk s' /\ P n s'.
Proof.
  intros Hn H0 Hs. unfold zloop.
  destruct (loop_inv (fun i => P (Z.of_nat i)) (Z.to_nat n) body s) as (s' & E & HP).
  - exact H0.
  - intros i x Hi Hx. destruct (Hs (Z.of_nat i) x ltac:(lia) Hx) as (y & Ey & Py).
    exists y. split; auto. replace (Z.of_nat (Datatypes.S i)) with (Z.of_nat i + 1) by lia. exact Py.
  - exists s'. split; auto. rewrite Z2Nat.id in HP by lia. exact HP.
Qed.
Lemma zloop_0 {S} n body (s : S) : n <= 0 -> zloop n body s = ROk s.
Proof. intro H. unfold zloop. replace (Z.to_nat n) with O by lia. reflexivity. Qed.

(* ---------------- buffers ---------------- *)
(** [good G P b b']: b' results from b by writing some cells, all of them with the
    content [G] prescribes, among them at least those in [P]. *)
Record good {A} (G : Z -> option A) (P : Z -> Prop) (b b' : buf A) : Prop := {
  g_len : b_len b' = b_len b;
  g_set : forall d, P d -> b_at b' d = G d;
  g_old : forall d, b_at b' d = b_at b d \/ b_at b' d = G d;
}.
Lemma good_weaken {A} (G : Z -> option A) (P Q : Z -> Prop) b b' :
  (forall d, Q d -> P d) -> good G P b b' -> good G Q b b'.
Proof. intros H [a1 a2 a3]. constructor; auto. Qed.
Lemma good_refl {A} (G : Z -> option A) b : good G (fun _ => False) b b.
Proof. constructor; auto. tauto. Qed.
Lemma good_trans {A} (G : Z -> option A) P Q b b1 b2 :
  good G P b b1 -> good G Q b1 b2 -> good G (fun d => P d \/ Q d) b b2.
Proof.
  intros [a1 a2 a3] [c1 c2 c3]. constructor; [congruence| |].
  - intros d [H|H]; auto. destruct (c3 d) as [e|e]; auto. rewrite e. auto.
  - intro d. destruct (c3 d) as [e|e]; auto. rewrite e. auto.
Qed.
Lemma good_loop {A} (G : Z -> option A) n (P : Z -> Z -> Prop) body b L :
  b_len b = L ->
  (forall i b, 0 <= i < n -> b_len b = L -> exists b', body i b = ROk b' /\ good G (P i) b b') ->
  exists b', zloop n body b = ROk b' /\ good G (fun d => exists i, 0 <= i < n /\ P i d) b b'.
Proof.
  intros HL Hb. destruct (Z_le_gt_dec n 0) as [Hn|Hn].
  - rewrite zloop_0 by auto. exists b. split; auto.
    eapply good_weaken; [|apply good_refl]. intros d (i & Hi & _). lia.
  - destruct (zloop_inv (fun k b' => good G (fun d => exists i, 0 <= i < k /\ P i d) b b') n body b)
      as (b' & E & HG); [lia| | |exists b'; auto].
    + eapply good_weaken; [|apply good_refl]. intros d (i & Hi & _). lia.
    + intros i b1 Hi H1. destruct (Hb i b1 Hi) as (b2 & E2 & G2); [rewrite (g_len _ _ _ _ H1); auto|].
      exists b2. split; auto. eapply good_weaken; [|eapply good_trans; eauto].
      intros d (j & Hj & Pj). destruct (Z.eq_dec j i) as [->|]; auto.
      left. exists j. split; [lia|auto].
Qed.
Lemma good_store {A} (G : Z -> option A) b d x :
  0 <= d < b_len b -> x = G d -> exists b', store b d x = ROk b' /\ good G (eq d) b b'.
Proof.
  intros Hd Hx. unfold store. replace ((0 <=? d) && (d <? b_len b)) with true by lia.
  eexists. split; [reflexivity|]. constructor; cbn [b_len b_at]; auto.
  - intros e <-. rewrite Z.eqb_refl. exact Hx.
  - intro e. destruct (Z.eqb_spec e d) as [->|]; auto.
Qed.
Lemma good_copy1 {A} (G : Z -> option A) src s d b :
  0 <= s < b_len src -> 0 <= d < b_len b -> b_at src s = G d ->
  exists b', copy1 src s d b = ROk b' /\ good G (eq d) b b'.
Proof.
  intros Hs Hd Hx. unfold copy1, load. replace ((0 <=? s) && (s <? b_len src)) with true by lia.
  cbn [rbind]. apply good_store; auto.
Qed.
Lemma good_memcpy {A} (G : Z -> option A) src s d n b :
  (0 < n -> 0 <= s /\ s + n <= b_len src) -> (0 < n -> 0 <= d /\ d + n <= b_len b) ->
  (forall k, 0 <= k < n -> b_at src (s + k) = G (d + k)) ->
  exists b', memcpy src s d n b = ROk b' /\ good G (fun e => d <= e < d + n) b b'.
Proof.
  intros Hs Hd Hx. unfold memcpy.
  destruct (good_loop G n (fun i => eq (d + i)) (fun k => copy1 src (s + k) (d + k)) b (b_len b)) as (b' & E & HG);
    [reflexivity| |].
  - intros i b1 Hi Hl. apply good_copy1; [lia|lia|]. apply Hx; auto.
  - exists b'. split; auto. eapply good_weaken; [|exact HG]. intros e He. exists (e - d). split; lia.
Qed.

(* ---------------- element counts ---------------- *)
Lemma fold_mul l : forall c, fold_left Z.mul l c = c * product l.
Proof.
  induction l as [|d l IH]; intro c; cbn [fold_left product fold_right]; [lia|].
  rewrite IH. unfold product. lia.
Qed.
Lemma numel_product l : numel l = product l.
Proof. unfold numel. rewrite fold_mul. lia. Qed.
Lemma product_app a b : product (a ++ b) = product a * product b.
Proof. unfold product. induction a as [|x a IH]; cbn [app fold_right]; [lia|]. rewrite IH. lia. Qed.
Lemma product_cons d l : product (d :: l) = d * product l.
Proof. reflexivity. Qed.

(* ---------------- addresses ---------------- *)
Lemma address_dot v idx : address v idx = v_offset v + dot idx (v_stride v).
Proof.
  unfold address. f_equal. revert idx.
  induction (v_stride v) as [|s q IH]; intros [|i r]; cbn [dot combine map fold_right]; auto.
  rewrite IH. reflexivity.
Qed.
Lemma dot_app a b s q : length a = length s -> dot (a ++ b) (s ++ q) = dot a s + dot b q.
Proof.
  revert s; induction a as [|x a IH]; intros [|y s] H; cbn [length] in H; try lia; cbn [app dot]; auto.
  rewrite IH by lia. lia.
Qed.
Lemma in_shape_length shape idx : in_shape shape idx -> length idx = length shape.
Proof. induction 1; cbn [length]; lia. Qed.
Lemma in_shape_cons d ds i r : in_shape (d :: ds) (i :: r) <-> 0 <= i < d /\ in_shape ds r.
Proof.
  unfold in_shape. split; [intro H; inversion H; auto|intros [? ?]; constructor; auto].
Qed.
Lemma in_shape_app s1 s2 i1 i2 :
  length i1 = length s1 -> in_shape (s1 ++ s2) (i1 ++ i2) <-> in_shape s1 i1 /\ in_shape s2 i2.
Proof.
  revert i1. induction s1 as [|d s1 IH]; intros [|i i1] H; cbn [length] in H; try lia; cbn [app].
  - split; [intro; split; auto; constructor|tauto].
  - rewrite !in_shape_cons, IH by lia. tauto.
Qed.
Lemma in_shape_nth shape idx k :
  in_shape shape idx -> (k < length shape)%nat -> 0 <= nth k idx 0 < nth k shape 0.
Proof.
  intro H. revert k. induction H as [|i d idx shape Hi H IH]; intros [|k] Hk; cbn [length nth] in *; try lia.
  apply IH. lia.
Qed.
Lemma in_shape_of_nth shape idx :
  length idx = length shape -> (forall k, (k < length shape)%nat -> 0 <= nth k idx 0 < nth k shape 0) ->
  in_shape shape idx.
Proof.
  revert idx. induction shape as [|d ds IH]; intros [|i r] Hl H; cbn [length] in Hl; try lia; [constructor|].
  apply in_shape_cons. split; [apply (H 0%nat); cbn [length]; lia|].
  apply IH; [lia|]. intros k Hk. apply (H (S k)). cbn [length]; lia.
Qed.
Lemma in_shape_pos shape idx : in_shape shape idx -> Forall (fun d => 0 <= d) shape.
Proof. induction 1; constructor; auto; lia. Qed.

(* ---------------- row-major positions ---------------- *)
(** Row-major position of a multi-index (Horner form). *)
Fixpoint ravel (shape idx : list Z) : Z :=
  match shape, idx with
  | d :: ds, i :: r => i * product ds + ravel ds r
  | _, _ => 0
  end.
Lemma default_strides_cons d ds : default_strides (d :: ds) = product ds :: default_strides ds.
Proof.
  unfold default_strides. cbn [strides_acc]. destruct (strides_acc ds) as [st acc] eqn:E.
  assert (H := strides_acc_spec ds). rewrite E in H. cbn [fst snd] in *. destruct H as [H _]. rewrite <- H.
  reflexivity.
Qed.
Lemma default_strides_length s : length (default_strides s) = length s.
Proof. induction s as [|d s IH]; [reflexivity|]. rewrite default_strides_cons. cbn [length]. lia. Qed.
Lemma row_major_default shape stride : row_major shape stride <-> stride = default_strides shape.
Proof.
  split; [|intros ->; apply default_strides_row_major].
  revert stride. induction shape as [|d ds IH]; intros stride [Hl H].
  - destruct stride; [reflexivity|discriminate].
  - destruct stride as [|s ss]; [discriminate|]. rewrite default_strides_cons.
    f_equal; [apply (H 0%nat); cbn [length]; lia|]. apply IH. split; [cbn [length] in Hl; lia|].
    intros i Hi. apply (H (S i)). cbn [length]; lia.
Qed.
Lemma dot_ravel shape idx : length idx = length shape -> dot idx (default_strides shape) = ravel shape idx.
Proof.
  revert idx. induction shape as [|d ds IH]; intros [|i r] H; cbn [length] in H; try lia; [reflexivity|].
  rewrite default_strides_cons. cbn [dot ravel]. rewrite IH by lia. reflexivity.
Qed.
Lemma ravel_bounds shape idx : in_shape shape idx -> 0 <= ravel shape idx < product shape.
Proof.
  induction 1 as [|i d r ds Hi H IH]; cbn [ravel product fold_right]; [unfold product; cbn; lia|].
  fold (product ds). nia.
Qed.
Lemma ravel_app s1 s2 i1 i2 :
  length i1 = length s1 -> ravel (s1 ++ s2) (i1 ++ i2) = ravel s1 i1 * product s2 + ravel s2 i2.
Proof.
  revert i1. induction s1 as [|d s1 IH]; intros [|i i1] H; cbn [length] in H; try lia; cbn [app ravel]; [lia|].
  rewrite IH by lia. rewrite product_app. lia.
Qed.
Lemma unravel_aux_len shape t : length (fst (unravel_aux shape t)) = length shape.
Proof.
  induction shape as [|d ds IH]; cbn [unravel_aux]; [reflexivity|].
  destruct (unravel_aux ds t) as [idx r]. cbn [fst length] in *. lia.
Qed.
Lemma unravel_length shape t : length (unravel shape t) = length shape.
Proof. apply unravel_aux_len. Qed.
Lemma product_pos_dims shape : Forall (fun d => 0 <= d) shape -> 0 < product shape -> Forall (fun d => 0 < d) shape.
Proof.
  induction 1 as [|d ds Hd H IH]; intro Hp; constructor; rewrite product_cons in Hp;
    assert (0 <= product ds) by (apply product_nonneg; auto); [nia|apply IH; nia].
Qed.
Lemma unravel_aux_spec shape t :
  Forall (fun d => 0 < d) shape -> 0 <= t ->
  in_shape shape (fst (unravel_aux shape t)) /\
  ravel shape (fst (unravel_aux shape t)) = t mod product shape /\
  snd (unravel_aux shape t) = t / product shape.
Proof.
  intros H Ht. induction H as [|d ds Hd H IH]; cbn [unravel_aux fst snd].
  - split; [constructor|]. unfold product; cbn [fold_right ravel]. rewrite Z.mod_1_r, Z.div_1_r. auto.
  - destruct (unravel_aux ds t) as [idx r]. cbn [fst snd] in *. destruct IH as (I1 & I2 & I3).
    assert (Hp : 0 < product ds).
    { clear -H. induction H as [|x l Hx Hl IHl]; [unfold product; cbn; lia|rewrite product_cons; nia]. }
    assert (Hr : 0 <= t / product ds) by (apply Z.div_pos; lia). subst r.
    assert (Hm := Z.mod_pos_bound (t / product ds) d Hd).
    repeat split.
    + apply in_shape_cons. split; auto.
    + cbn [ravel]. rewrite product_cons, I2.
      rewrite (Z.mul_comm d (product ds)). rewrite Z.rem_mul_r by lia. lia.
    + rewrite product_cons, (Z.mul_comm d (product ds)). rewrite Z.div_div by lia. reflexivity.
Qed.
Lemma unravel_spec shape i :
  Forall (fun d => 0 <= d) shape -> 0 <= i < product shape ->
  in_shape shape (unravel shape i) /\ ravel shape (unravel shape i) = i.
Proof.
  intros H Hi. apply product_pos_dims in H; [|lia].
  destruct (unravel_aux_spec shape i H ltac:(lia)) as (H1 & H2 & _).
  split; auto. unfold unravel. rewrite H2. apply Z.mod_small. lia.
Qed.
Lemma ravel_inj shape a b : in_shape shape a -> in_shape shape b -> ravel shape a = ravel shape b -> a = b.
Proof.
  intro H. revert b. induction H as [|i d r ds Hi H IH]; intros b Hb E.
  - inversion Hb; auto.
  - destruct b as [|j q]; [inversion Hb|]. apply in_shape_cons in Hb as [Hj Hq]. cbn [ravel] in E.
    assert (R1 := ravel_bounds _ _ H). assert (R2 := ravel_bounds _ _ Hq).
    assert (i = j) by nia. subst j. f_equal. apply IH; auto. lia.
Qed.
Lemma unravel_ravel shape idx : in_shape shape idx -> unravel shape (ravel shape idx) = idx.
Proof.
  intro H. assert (B := ravel_bounds _ _ H).
  destruct (unravel_spec shape (ravel shape idx)) as [H1 H2]; auto.
  { eapply in_shape_pos; eauto. }
  eapply ravel_inj; eauto.
Qed.

(* ---------------- row-major listings ---------------- *)
Lemma in_indices shape idx : In idx (indices shape) <-> in_shape shape idx.
Proof.
  revert idx. induction shape as [|d ds IH]; intro idx; cbn [indices].
  - split; [intros [<-|[]]; constructor|intro H; inversion H; left; auto].
  - rewrite in_flat_map. split.
    + intros (i & Hi & H). apply in_map_iff in H as (r & <- & Hr). apply in_seq in Hi.
      apply in_shape_cons. split; [lia|]. apply IH; auto.
    + intro H. destruct idx as [|i r]; [inversion H|]. apply in_shape_cons in H as [Hi Hr].
      exists (Z.to_nat i). split; [apply in_seq; lia|]. apply in_map_iff. exists r.
      split; [f_equal; lia|apply IH; auto].
Qed.
Lemma seq_shift_add a m : forall b, map (Nat.add a) (seq b m) = seq (a + b) m.
Proof.
  induction m as [|k IHk]; intro b; [reflexivity|].
  cbn [seq map]. f_equal. rewrite IHk. f_equal. lia.
Qed.
Lemma indices_ravel shape :
  Forall (fun d => 0 <= d) shape ->
  map (ravel shape) (indices shape) = map Z.of_nat (seq 0 (Z.to_nat (product shape))).
Proof.
  induction 1 as [|d ds Hd H IH]; [reflexivity|].
  cbn [indices]. assert (Hp : 0 <= product ds) by (apply product_nonneg; auto).
  rewrite product_cons, Z2Nat.inj_mul by lia.
  set (m := Z.to_nat (product ds)) in *. assert (Hm : product ds = Z.of_nat m) by lia.
  clear Hd. generalize (Z.to_nat d) as n. intro n.
  induction n as [|n IHn]; [reflexivity|].
  rewrite seq_S, flat_map_app, map_app, IHn. cbn [flat_map]. rewrite app_nil_r. cbn [plus].
  replace (S n * m)%nat with (n * m + m)%nat by lia. rewrite seq_app, map_app. f_equal.
  cbn [plus]. rewrite map_map.
  rewrite (map_ext _ (fun r => Z.of_nat n * product ds + ravel ds r)) by (intros; reflexivity).
  rewrite <- (map_map (ravel ds) (fun x => Z.of_nat n * product ds + x)).
  rewrite IH. rewrite map_map, Hm.
  replace (seq (n * m) m) with (map (Nat.add (n * m)) (seq 0 m)) by (rewrite seq_shift_add; f_equal; lia).
  rewrite map_map. apply map_ext. intro a. lia.
Qed.
Lemma indices_unravel shape :
  Forall (fun d => 0 <= d) shape ->
  indices shape = map (fun i => unravel shape (Z.of_nat i)) (seq 0 (Z.to_nat (product shape))).
Proof.
  intro H. rewrite <- (map_map Z.of_nat (unravel shape)), <- indices_ravel by auto.
  rewrite map_map. rewrite <- (map_id (indices shape)) at 1. apply map_ext_in.
  intros idx Hi. symmetry. apply unravel_ravel. apply in_indices; auto.
Qed.

(* ---------------- contiguity ---------------- *)
Lemma contig_scan_spec shape : forall stride, length stride = length shape ->
  snd (contig_scan shape stride) = product shape /\ (fst (contig_scan shape stride) = true <-> stride = default_strides shape).
Proof.
  induction shape as [|d ds IH]; intros [|s ss] H; cbn [length] in H; try lia.
  - cbn [contig_scan fst snd]. split; [reflexivity|]. split; reflexivity.
  - cbn [contig_scan]. destruct (IH ss ltac:(lia)) as [I1 I2].
    destruct (contig_scan ds ss) as [ok e]. cbn [fst snd] in *. subst e.
    split; [rewrite product_cons; lia|]. rewrite default_strides_cons, andb_true_iff, Z.eqb_eq, I2.
    split; [intros [-> ->]; auto|intro E; injection E; auto].
Qed.
Lemma is_contiguous_spec {A} (t : tns A) : length (x_stride t) = length (x_shape t) ->
  is_contiguous (x_view t) = true <-> contiguous t.
Proof.
  intro H. unfold is_contiguous, contiguous, x_shape, x_stride in *.
  rewrite row_major_default. apply contig_scan_spec; auto.
Qed.
Lemma view_contig_scan_eq shape stride : view_contig_scan shape stride = contig_scan shape stride.
Proof.
  revert stride. induction shape as [|d ds IH]; intros [|s ss]; cbn [view_contig_scan contig_scan]; auto.
  rewrite IH. destruct (contig_scan ds ss) as [ok e]. f_equal. destruct (Z.eqb_spec d 1); lia.
Qed.
Lemma view_strides_eq shape : view_strides shape = strides_acc shape.
Proof. induction shape as [|d ds IH]; cbn [view_strides strides_acc]; auto. Qed.
Lemma contiguous_address {A} (t : tns A) idx :
  contiguous t -> length idx = length (x_shape t) ->
  address (x_view t) idx = x_offset t + ravel (x_shape t) idx.
Proof.
  intros H Hl. rewrite address_dot. unfold contiguous, x_stride in H. apply row_major_default in H.
  rewrite H. unfold x_shape in *. rewrite dot_ravel by auto. reflexivity.
Qed.
Lemma contents_contiguous {A} (t : tns A) :
  Forall (fun d => 0 <= d) (x_shape t) -> contiguous t ->
  contents t = map (fun i => b_at (x_buf t) (x_offset t + Z.of_nat i)) (seq 0 (Z.to_nat (product (x_shape t)))).
Proof.
  intros Hd Hc. unfold contents. rewrite indices_unravel by auto. rewrite map_map.
  apply map_ext_in. intros i Hi. apply in_seq in Hi. unfold elem.
  destruct (unravel_spec (x_shape t) (Z.of_nat i)) as [H1 H2]; [auto|lia|].
  rewrite contiguous_address by (auto; apply in_shape_length; auto). rewrite H2. reflexivity.
Qed.

(* ---------------- fresh tensors ---------------- *)
Lemma fresh_ok {A} (shape : list Z) : (1 <= length shape <= 16)%nat ->
  @fresh_tensor A shape = ROk (mkTns (mkV shape (default_strides shape) 0) (mkBuf (product shape) (fun _ => None))).
Proof.
  intro H. unfold fresh_tensor, create_view. unfold zlen.
  replace ((1 <=? Z.of_nat (length shape)) && (Z.of_nat (length shape) <=? 16)) with true by lia.
  cbn [rbind]. rewrite numel_product. reflexivity.
Qed.
Lemma fresh_inv {A} (shape : list Z) (t : tns A) : fresh_tensor shape = ROk t -> (1 <= length shape <= 16)%nat.
Proof.
  unfold fresh_tensor, create_view, zlen.
  destruct ((1 <=? Z.of_nat (length shape)) && (Z.of_nat (length shape) <=? 16)) eqn:E; [lia|discriminate].
Qed.
(** Any tensor with a fresh tensor's view. *)
Lemma owner_elem {A} (shape : list Z) (b : buf A) idx :
  length idx = length shape ->
  elem (mkTns (mkV shape (default_strides shape) 0) b) idx = b_at b (ravel shape idx).
Proof.
  intro H. unfold elem. rewrite address_dot. cbn [x_view x_buf v_offset v_stride].
  rewrite dot_ravel by auto. f_equal.
Qed.
Lemma owner_ok {A} (shape : list Z) (b : buf A) :
  (1 <= length shape <= 16)%nat -> Forall (fun d => 0 <= d) shape -> b_len b = product shape ->
  tensor_ok (mkTns (mkV shape (default_strides shape) 0) b) /\ owns_storage (mkTns (mkV shape (default_strides shape) 0) b).
Proof.
  intros Hr Hd Hl. split; constructor; unfold x_shape, x_stride, x_offset; cbn [x_view x_buf v_shape v_stride v_offset]; auto.
  - apply default_strides_length.
  - intros idx Hi. rewrite address_dot. cbn [v_offset v_stride].
    rewrite dot_ravel by (apply in_shape_length; auto). assert (B := ravel_bounds _ _ Hi). lia.
  - apply default_strides_row_major.
Qed.
Lemma at_load_ok {A} (t : tns A) idx : tensor_ok t -> in_shape (x_shape t) idx -> at_load t idx = ROk (elem t idx).
Proof.
  intros [o1 o2 o3 o4] Hi. unfold at_load, offsetted, zlen. unfold x_shape in *.
  rewrite (in_shape_length _ _ Hi), Z.eqb_refl. cbn [rbind]. rewrite <- address_dot. unfold load.
  assert (O := o4 idx Hi). replace ((0 <=? _) && _) with true by lia. reflexivity.
Qed.
