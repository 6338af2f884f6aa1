(** Proofs about contiguous() and clone(). *)
From Verif Require Import Base DTypeModel ParamModel ParamSpec ParamProofs ParamMore TensorModel TensorSpec TensorProofs TensorViews TensorSplit TensorConcat TensorPermute.
Local Open Scope Z_scope.

Definition row_target {A} (t : tns A) : Z -> option A := fun pos => elem t (unravel (x_shape t) pos).

(** The common end of every row-major copy. *)
Lemma row_copy_correct {A} (t : tns A) (o o' : buf A) :
  tensor_ok t -> b_len o = product (x_shape t) ->
  good (row_target t) (fun p => 0 <= p < product (x_shape t)) o o' ->
  let out := mkTns (mkV (x_shape t) (default_strides (x_shape t)) 0) o' in
  tensor_ok out /\ owns_storage out /\ contents out = contents t /\
  (forall idx, in_shape (x_shape t) idx -> elem out idx = elem t idx).
Proof.
  intros Hok Hl G. cbv zeta. destruct (owner_ok (x_shape t) o') as [O1 O2]; [apply Hok|apply Hok|rewrite (g_len _ _ _ _ G); auto|].
  assert (Hel : forall idx, in_shape (x_shape t) idx -> elem (mkTns (mkV (x_shape t) (default_strides (x_shape t)) 0) o') idx = elem t idx).
  { intros idx Hi. rewrite owner_elem by (apply in_shape_length; auto).
    rewrite (g_set _ _ _ _ G) by (apply ravel_bounds; auto). unfold row_target. rewrite unravel_ravel; auto. }
  split; [auto|]. split; [auto|]. split; [|auto].
  unfold contents. change (x_shape (mkTns (mkV (x_shape t) (default_strides (x_shape t)) 0) o')) with (x_shape t).
  apply map_ext_in. intros idx Hi. apply Hel. apply in_indices. auto.
Qed.

Lemma advance_spec shape : forall idx, in_shape shape idx ->
  if ravel shape idx + 1 <? product shape
  then fst (advance shape idx) = false /\ in_shape shape (snd (advance shape idx)) /\
       ravel shape (snd (advance shape idx)) = ravel shape idx + 1
  else fst (advance shape idx) = true /\ ravel shape (snd (advance shape idx)) = 0 /\ in_shape shape (snd (advance shape idx)).
Proof.
  induction shape as [|d ds IH]; intros idx Hi.
  - inversion Hi; subst. cbn [advance ravel fst snd]. unfold product; cbn [fold_right].
    change (0 + 1 <? 1) with false. cbv iota. repeat split; auto.
  - destruct idx as [|i r]; [inversion Hi|]. apply in_shape_cons in Hi as [H1 H2].
    specialize (IH r H2). cbn [advance ravel]. rewrite product_cons.
    assert (B := ravel_bounds _ _ H2). destruct (advance ds r) as [c r'] eqn:E. cbn [fst snd] in IH.
    destruct (ravel ds r + 1 <? product ds) eqn:Elt.
    + destruct IH as (-> & I2 & I3). cbn [fst snd].
      replace (i * product ds + ravel ds r + 1 <? d * product ds) with true by (symmetry; apply Z.ltb_lt; nia).
      split; [auto|]. split; [apply in_shape_cons; auto|]. cbn [ravel]. rewrite I3. lia.
    + destruct IH as (-> & I2 & I3). assert (Er : ravel ds r = product ds - 1) by lia.
      destruct (i + 1 <? d) eqn:Ed; cbn [fst snd].
      * replace (i * product ds + ravel ds r + 1 <? d * product ds) with true by (symmetry; apply Z.ltb_lt; nia).
        split; [auto|]. split; [apply in_shape_cons; split; [lia|auto]|]. cbn [ravel]. rewrite I2. nia.
      * replace (i * product ds + ravel ds r + 1 <? d * product ds) with false by (symmetry; apply Z.ltb_ge; nia).
        split; [auto|]. cbn [ravel]. rewrite I2. split; [lia|]. apply in_shape_cons. split; [lia|auto].
Qed.

Lemma zeros_in_shape shape : Forall (fun d => 0 < d) shape ->
  in_shape shape (map (fun _ => 0) shape) /\ ravel shape (map (fun _ => 0) shape) = 0.
Proof.
  induction 1 as [|d ds Hd H IH]; [split; [constructor|reflexivity]|]. cbn [map ravel]. destruct IH as [I1 I2].
  split; [apply in_shape_cons; split; [lia|auto]|lia].
Qed.

Lemma contig_general_ok {A} (t : tns A) (o : buf A) :
  tensor_ok t -> 0 < product (x_shape t) -> b_len o = product (x_shape t) ->
  exists o', contig_general t o = ROk o' /\ good (row_target t) (fun p => 0 <= p < product (x_shape t)) o o'.
Proof.
  intros Hok Hpos Hl. unfold contig_general. rewrite numel_product.
  assert (Hd := product_pos_dims _ (ok_dims _ Hok) Hpos). destruct (zeros_in_shape _ Hd) as [Z1 Z2].
  destruct (zloop_inv (fun k (s : buf A * list Z) => in_shape (x_shape t) (snd s) /\
      (k < product (x_shape t) -> ravel (x_shape t) (snd s) = k) /\
      good (row_target t) (fun p => 0 <= p < k) o (fst s)) (product (x_shape t))
    (fun count s =>
      do o <- copy1 (x_buf t) (x_offset t + dot (snd s) (x_stride t)) count (fst s);
      ROk (o, snd (advance (x_shape t) (snd s)))) (o, map (fun _ => 0) (x_shape t))) as ([o' ix] & E & _ & _ & G).
  - lia.
  - cbn [fst snd]. split; [auto|]. split; [auto|]. eapply good_weaken; [|apply good_refl]. cbn beta. lia.
  - intros k [b ix] Hk (I1 & I2 & I3). cbn [fst snd] in *. specialize (I2 ltac:(lia)).
    assert (O := ok_inside _ Hok _ I1). rewrite address_dot in O. fold (x_offset t) in O. fold (x_stride t) in O.
    destruct (good_copy1 (row_target t) (x_buf t) (x_offset t + dot ix (x_stride t)) k b) as (b' & Eb & Gb).
    + exact O.
    + rewrite (g_len _ _ _ _ I3). lia.
    + unfold row_target. rewrite <- I2, unravel_ravel by auto. unfold elem. rewrite address_dot. reflexivity.
    + rewrite Eb. cbn [rbind]. eexists. split; [reflexivity|]. cbn [fst snd].
      assert (Ad := advance_spec (x_shape t) ix I1). rewrite I2 in Ad.
      assert (Gn : good (row_target t) (fun p => 0 <= p < k + 1) o b').
      { eapply good_weaken; [|eapply good_trans; [exact I3|exact Gb]]. cbn beta. lia. }
      destruct (k + 1 <? product (x_shape t)) eqn:Ek.
      * destruct Ad as (_ & A2 & A3). split; [auto|]. split; auto.
      * destruct Ad as (_ & A2 & A3). split; [auto|]. split; [lia|auto].
  - cbn [rbind fst] in *. rewrite E. cbn [rbind fst]. exists o'. split; [reflexivity|exact G].
Qed.

Lemma contig_rank1_ok {A} (t : tns A) n st (o : buf A) :
  tensor_ok t -> x_shape t = [n] -> x_stride t = [st] -> 0 < n -> b_len o = n ->
  exists o', contig_rank1 t n st o = ROk o' /\ good (row_target t) (fun p => 0 <= p < n) o o'.
Proof.
  intros Hok Hs Ht Hn Hl.
  set (P := fun k (s : buf A * Z * Z) => snd (fst s) = x_offset t + k * st /\ snd s = k /\
     good (row_target t) (fun p => 0 <= p < k) o (fst (fst s))).
  assert (Step : forall k s, 0 <= k < n -> P k s -> exists s', contig_step (x_buf t) st s = ROk s' /\ P (k + 1) s').
  { intros k [[b src] dst] Hk (I1 & I2 & I3). cbn [fst snd] in *. subst src dst. unfold contig_step. cbn [fst snd].
    assert (Hin : in_shape (x_shape t) [k]) by (rewrite Hs; apply in_shape_cons; split; [auto|constructor]).
    assert (Ha : address (x_view t) [k] = x_offset t + k * st).
    { rewrite address_dot. fold (x_stride t). fold (x_offset t). rewrite Ht. cbn [dot]. lia. }
    assert (O := ok_inside _ Hok _ Hin). rewrite Ha in O.
    destruct (good_copy1 (row_target t) (x_buf t) (x_offset t + k * st) k b) as (b' & Eb & Gb).
    - exact O.
    - rewrite (g_len _ _ _ _ I3). lia.
    - unfold row_target. rewrite Hs. unfold unravel. cbn [unravel_aux fst].
      rewrite (Z.mod_small k n) by lia. unfold elem. rewrite Ha. reflexivity.
    - rewrite Eb. cbn [rbind]. eexists. split; [reflexivity|]. unfold P. cbn [fst snd].
      split; [lia|]. split; [lia|]. eapply good_weaken; [|eapply good_trans; [exact I3|exact Gb]]. cbn beta. lia. }
  unfold contig_rank1. assert (M := Z.mod_pos_bound n 8 ltac:(lia)). assert (Q := Z_div_mod_eq_full n 8).
  destruct (zloop_inv P (n mod 8) (fun _ => contig_step (x_buf t) st) (o, x_offset t, 0)) as (s1 & E1 & P1).
  - lia.
  - unfold P. cbn [fst snd]. split; [lia|]. split; [lia|]. eapply good_weaken; [|apply good_refl]. cbn beta. lia.
  - intros k s Hk Hp. apply Step; auto; lia.
  - rewrite E1. cbn [rbind].
    assert (Ed : (n - n mod 8) / 8 = n / 8) by (replace (n - n mod 8) with (n / 8 * 8) by lia; apply Z.div_mul; lia).
    destruct (zloop_inv (fun q s => P (n mod 8 + 8 * q) s) (n / 8)
      (fun _ s => zloop 8 (fun _ => contig_step (x_buf t) st) s) s1) as (s2 & E2 & P2).
    + apply Z.div_pos; lia.
    + replace (n mod 8 + 8 * 0) with (n mod 8) by lia. exact P1.
    + intros q s Hq Hp.
      destruct (zloop_inv (fun r s => P (n mod 8 + 8 * q + r) s) 8 (fun _ => contig_step (x_buf t) st) s) as (s3 & E3 & P3).
      * lia.
      * rewrite Z.add_0_r. exact Hp.
      * intros r s3 Hr Hp3. rewrite Z.add_assoc. apply Step; auto. lia.
      * exists s3. split; [exact E3|]. replace (n mod 8 + 8 * (q + 1)) with (n mod 8 + 8 * q + 8) by lia. exact P3.
    + cbv zeta. rewrite Ed, E2. cbn [rbind]. eexists. split; [reflexivity|].
      destruct P2 as (_ & _ & G). eapply good_weaken; [|exact G]. cbn beta. lia.
Qed.

(** Row-major shapes that pass the test in front of the blocked copy have a single
    dimension of extent other than 1, the first. *)
Lemma blocks_row_major shape : Forall (fun d => 0 < d) shape -> last_dim_contiguous (default_strides shape) = true ->
  forall d ds, shape = d :: ds -> Forall (fun x => x = 1) ds.
Proof.
  induction shape as [|x xs IH]; intros Hd Hl d ds E; [discriminate|]. injection E as <- <-.
  destruct xs as [|y ys]; [constructor|]. inversion Hd as [|? ? D1 D2]; subst.
  rewrite !default_strides_cons in *. cbn [last_dim_contiguous] in Hl. apply andb_true_iff in Hl as [L1 L2].
  apply Z.eqb_eq in L2. rewrite product_cons in L2.
  assert (Hys : Forall (fun x => x = 1) ys) by (apply (IH D2 L1 y ys eq_refl)).
  assert (Hp : product ys = 1).
  { clear -Hys. induction Hys as [|a l -> _ IHl]; [reflexivity|]. rewrite product_cons. lia. }
  constructor; [nia|auto].
Qed.
Lemma product_ones l : Forall (fun x => x = 1) l -> product l = 1.
Proof. induction 1 as [|a l -> _ IH]; [reflexivity|]. rewrite product_cons. lia. Qed.
Lemma outer_strides_ones d ds : Forall (fun x => x = 1) ds ->
  snd (outer_strides (d :: ds) (default_strides (d :: ds))) = 1 /\
  (forall l, removelast (d :: ds) = l -> forall temp,
    0 <= temp < d -> outer_offset l (fst (outer_strides (d :: ds) (default_strides (d :: ds)))) temp = match ds with [] => 0 | _ => temp end).
Proof.
  intro H. revert d. induction H as [|x xs -> Hx IH]; intro d.
  - split; [reflexivity|]. intros l <- temp Ht. reflexivity.
  - rewrite default_strides_cons, product_cons, (product_ones xs Hx).
    destruct (IH 1) as [I1 I2].
    change (outer_strides (d :: 1 :: xs) (1 * 1 :: default_strides (1 :: xs))) with
      (let '(os, cum) := outer_strides (1 :: xs) (default_strides (1 :: xs)) in (1 * 1 * (cum * 1) :: os, cum * 1)).
    destruct (outer_strides (1 :: xs) (default_strides (1 :: xs))) as [os cum] eqn:E.
    cbn [snd fst] in *. subst cum. split; [reflexivity|].
    intros l El temp Ht. change (removelast (d :: 1 :: xs)) with (d :: removelast (1 :: xs)) in El. subst l. cbn [outer_offset].
    rewrite Z.mod_small by lia. rewrite (Z.div_small temp d) by lia. rewrite (I2 _ eq_refl 0) by lia. destruct xs; lia.
Qed.

Lemma contig_blocks_ok {A} (t : tns A) (o : buf A) :
  tensor_ok t -> contiguous t -> 0 < product (x_shape t) -> b_len o = product (x_shape t) ->
  (2 <= length (x_shape t))%nat -> last_dim_contiguous (x_stride t) = true ->
  exists o', contig_blocks t o = ROk o' /\ good (row_target t) (fun p => 0 <= p < product (x_shape t)) o o'.
Proof.
  intros Hok Hc Hpos Hl Hr Ht. assert (Hd := product_pos_dims _ (ok_dims _ Hok) Hpos).
  assert (Hst : x_stride t = default_strides (x_shape t)) by (apply row_major_default; auto).
  rewrite Hst in Ht. destruct (x_shape t) as [|d ds] eqn:Es; [cbn in Hr; lia|].
  assert (H1 := blocks_row_major _ Hd Ht d ds eq_refl). assert (Hp1 := product_ones _ H1).
  assert (Hpd : product (d :: ds) = d) by (rewrite product_cons; lia).
  unfold contig_blocks. rewrite Es, Hst. rewrite numel_product, Hpd in *.
  assert (Hlast : last (d :: ds) 0 = 1).
  { rewrite last_nth_. cbn [length] in *. destruct ds as [|y ys]; [cbn in Hr; lia|].
    replace (S (length (y :: ys)) - 1)%nat with (S (length (y :: ys) - 1)) by (cbn [length]; lia).
    change (nth (length (y :: ys) - 1) (y :: ys) 0 = 1).
    rewrite Forall_forall in H1. apply H1. apply nth_In. cbn [length]. lia. }
  rewrite Hlast, Z.div_1_r. cbv zeta.
  destruct (outer_strides_ones d ds H1) as [_ Ho].
  destruct (good_loop (row_target t) d (fun idx => eq idx)
    (fun idx o => memcpy (x_buf t) (x_offset t + outer_offset (removelast (d :: ds)) (fst (outer_strides (d :: ds) (default_strides (d :: ds)))) idx)
       (idx * 1) 1 o) o (b_len o) eq_refl) as (o' & E & G).
  { intros idx b Hi Hb. rewrite (Ho _ eq_refl idx Hi). destruct ds as [|y ys]; [cbn in Hr; lia|].
    assert (U := unravel_spec (d :: y :: ys) idx ltac:(rewrite <- Es; apply Hok) ltac:(lia)). destruct U as [U1 U2].
    assert (O := ok_inside _ Hok (unravel (d :: y :: ys) idx)). rewrite Es in O. specialize (O U1).
    rewrite contiguous_address in O by (auto; rewrite Es; apply in_shape_length; auto). rewrite Es, U2 in O.
    destruct (good_memcpy (row_target t) (x_buf t) (x_offset t + idx) (idx * 1) 1 b) as (b' & E1 & G1).
    - lia.
    - lia.
    - intros k Hk. replace (x_offset t + idx + k) with (x_offset t + idx) by lia. replace (idx * 1 + k) with idx by lia.
      unfold row_target, elem. rewrite Es.
      rewrite contiguous_address by (auto; rewrite Es; apply in_shape_length; auto). rewrite Es, U2. reflexivity.
    - exists b'. split; [exact E1|]. eapply good_weaken; [|exact G1]. cbn beta. lia. }
  exists o'. split; [exact E|]. eapply good_weaken; [|exact G]. cbn beta. intros p Hp. exists p. auto.
Qed.

Lemma last_dim_spec stride : last_dim_contiguous stride = true <->
  (forall i, (S i < length stride)%nat -> nth i stride 0 = nth (S i) stride 0 * nth (S i) stride 0).
Proof.
  induction stride as [|s r IH]; [split; [cbn; lia|reflexivity]|].
  destruct r as [|s' r]; [split; [cbn; lia|reflexivity]|].
  cbn [last_dim_contiguous]. rewrite andb_true_iff, Z.eqb_eq. split.
  - intros [H1 H2] [|i] Hi; [exact H2|]. rewrite IH in H1. apply (H1 i). cbn [length] in *. lia.
  - intro H. split; [|exact (H 0%nat ltac:(cbn [length]; lia))]. apply IH. intros i Hi. apply (H (S i)). cbn [length] in *. lia.
Qed.

Theorem contiguous_correct {A} (t : tns A) :
  tensor_ok t ->
  (length (x_shape t) = 1%nat \/ contiguous t \/
   exists i, (S i < length (x_shape t))%nat /\ nth i (x_stride t) 0 <> nth (S i) (x_stride t) 0 * nth (S i) (x_stride t) 0) ->
  exists out, contiguous_op t = ROk out /\ is_packed_copy t out.
Proof.
  intros Hok Hcase. unfold contiguous_op. rewrite fresh_ok by apply Hok. cbn [rbind x_buf x_view].
  set (o := mkBuf (product (x_shape t)) (fun _ => None)).
  assert (Hpn := product_nonneg _ (ok_dims _ Hok)).
  assert (Hf : exists o', contiguous_forward t o = ROk o' /\ good (row_target t) (fun p => 0 <= p < product (x_shape t)) o o').
  { unfold contiguous_forward. rewrite numel_product. destruct (Z.eqb_spec (product (x_shape t)) 0) as [E0|E0].
    { exists o. split; [reflexivity|]. eapply good_weaken; [|apply good_refl]. cbn beta. lia. }
    assert (Hpos : 0 < product (x_shape t)) by lia. assert (Hrk := ok_rank _ Hok). assert (Hst := ok_stride _ Hok).
    destruct (Nat.eq_dec (length (x_shape t)) 1) as [H1|H1].
    { destruct (x_shape t) as [|n [|? ?]] eqn:Es; cbn [length] in *; try lia.
      destruct (x_stride t) as [|s [|? ?]] eqn:Et; cbn [length] in *; try lia.
      assert (Hp : product [n] = n) by (unfold product; cbn [fold_right]; lia). rewrite Hp in *.
      apply (contig_rank1_ok t n s); auto. }
    assert (Hg : (if last_dim_contiguous (x_stride t) then contig_blocks t o else contig_general t o) =
       match x_shape t, x_stride t with [n], [s] => contig_rank1 t n s o
       | _, _ => if last_dim_contiguous (x_stride t) then contig_blocks t o else contig_general t o end).
    { destruct (x_shape t) as [|n [|? ?]]; cbn [length] in *; try lia; reflexivity. }
    rewrite <- Hg. destruct (last_dim_contiguous (x_stride t)) eqn:El; [|apply contig_general_ok; auto].
    destruct Hcase as [H2|[H2|(i & Hi & Hne)]]; [lia| |].
    - apply contig_blocks_ok; auto. lia.
    - exfalso. apply Hne. rewrite last_dim_spec in El. apply El. lia. }
  destruct Hf as (o' & E & G). rewrite E. cbn [rbind]. eexists. split; [reflexivity|].
  destruct (row_copy_correct t o o' Hok eq_refl G) as (R1 & R2 & R3 & R4).
  split; [reflexivity|]. auto.
Qed.

Theorem clone_correct {A} (t : tns A) : tensor_ok t -> owns_storage t ->
  exists out, clone_op t = ROk out /\ is_packed_copy t out.
Proof.
  intros Hok [Hc Ho Hb]. assert (Hcc : contiguous t) by exact Hc.
  unfold clone_op. rewrite fresh_ok by apply Hok. cbn [rbind x_buf x_view].
  replace (is_contiguous (x_view t)) with true by (symmetry; apply is_contiguous_spec; [apply Hok|auto]).
  set (o := mkBuf (product (x_shape t)) (fun _ => None)).
  assert (Hpn := product_nonneg _ (ok_dims _ Hok)).
  destruct (good_memcpy (row_target t) (x_buf t) (x_offset t) 0 (b_len (x_buf t)) o) as (o' & E & G).
  - rewrite Ho, Hb. lia.
  - rewrite Hb. cbn [o b_len]. lia.
  - intros k Hk. rewrite Hb in Hk. unfold row_target, elem.
    destruct (unravel_spec (x_shape t) k (ok_dims _ Hok) ltac:(lia)) as [U1 U2].
    replace (0 + k) with k by lia. rewrite contiguous_address by (auto; apply in_shape_length; auto). rewrite U2. f_equal.
  - rewrite E. cbn [rbind]. eexists. split; [reflexivity|].
    destruct (row_copy_correct t o o' Hok eq_refl) as (R1 & R2 & R3 & R4).
    { eapply good_weaken; [|exact G]. cbn beta. rewrite Hb. lia. }
    split; [reflexivity|]. auto.
Qed.

(** copy2 between tensors owning their storage: the argument receives the contents
    of the tensor it is called on. *)
Theorem copy2_correct {A} (self src : tns A) :
  tensor_ok self -> owns_storage self -> tensor_ok src -> owns_storage src -> x_shape self = x_shape src ->
  exists b, copy2 self src = ROk b /\ is_packed_copy self (mkTns (x_view src) b).
Proof.
  intros Hok [Hc Ho Hb] Hok2 [Hc2 Ho2 Hb2] Hs. unfold copy2.
  destruct (good_memcpy (row_target self) (x_buf self) (x_offset self) (x_offset src) (b_len (x_buf self)) (x_buf src)) as (o' & E & G).
  - rewrite Ho, Hb. lia.
  - rewrite Hb, Hb2, Ho2, Hs. lia.
  - intros k Hk. rewrite Hb in Hk. unfold row_target, elem.
    destruct (unravel_spec (x_shape self) k (ok_dims _ Hok) ltac:(lia)) as [U1 U2].
    rewrite Ho2. replace (0 + k) with k by lia.
    rewrite contiguous_address by (auto; apply in_shape_length; auto). rewrite U2. f_equal.
  - exists o'. split; [exact E|].
    destruct (row_copy_correct self (x_buf src) o' Hok ltac:(congruence)) as (R1 & R2 & R3 & R4).
    { eapply good_weaken; [|exact G]. cbn beta. rewrite Hb, Ho2. lia. }
    assert (Ev : x_view src = mkV (x_shape self) (default_strides (x_shape self)) 0).
    { apply row_major_default in Hc2. unfold x_shape, x_stride, x_offset in *. destruct (x_view src) as [a b0 c]. cbn [v_shape v_stride v_offset] in *.
      rewrite Hs, Ho2, Hc2. reflexivity. }
    rewrite Ev. split; [reflexivity|]. auto.
Qed.
