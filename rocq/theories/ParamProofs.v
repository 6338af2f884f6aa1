From Verif Require Import Base DTypeModel ParamModel ParamSpec.
Local Open Scope Z_scope.

Lemma zlen_nonneg {A} (l : list A) : 0 <= zlen l.
Proof. unfold zlen; lia. Qed.
Lemma zlen_app {A} (a b : list A) : zlen (a ++ b) = zlen a + zlen b.
Proof. unfold zlen; rewrite app_length; lia. Qed.
Lemma zlen_cons {A} x (l : list A) : zlen (x :: l) = 1 + zlen l.
Proof. unfold zlen; cbn [length]; lia. Qed.
Lemma zlen_nil {A} : zlen (@nil A) = 0.
Proof. reflexivity. Qed.

Lemma le_bytes_length n x : length (le_bytes n x) = n.
Proof. revert x; induction n as [|n IH]; intro x; cbn [le_bytes length]; auto. Qed.
Lemma zlen_le n x : zlen (le_bytes n x) = Z.of_nat n.
Proof. unfold zlen; rewrite le_bytes_length; reflexivity. Qed.

Lemma le_val_bytes n x : le_val (le_bytes n x) = x mod 256 ^ Z.of_nat n.
Proof.
  revert x; induction n as [|n IH]; intro x; cbn [le_bytes le_val].
  - rewrite Z.pow_0_r, Z.mod_1_r; reflexivity.
  - rewrite IH, Nat2Z.inj_succ, Z.pow_succ_r by lia.
    rewrite (Z.rem_mul_r x 256) by (try lia; apply Z.pow_pos_nonneg; lia). lia.
Qed.

(** Reading back a piece that sits at a known position. *)
Lemma bytes_at_mid a b c off len :
  off = zlen a -> len = zlen b -> bytes_at (a ++ b ++ c) off len = Some b.
Proof.
  intros -> ->. unfold bytes_at.
  pose proof (zlen_nonneg a) as Ha; pose proof (zlen_nonneg b) as Hb; pose proof (zlen_nonneg c) as Hc.
  rewrite !zlen_app.
  replace ((0 <=? zlen a) && (0 <=? zlen b) && (zlen a + zlen b <=? zlen a + (zlen b + zlen c))) with true by lia.
  unfold zlen. rewrite !Nat2Z.id. rewrite skipn_app, skipn_all, Nat.sub_diag.
  cbn [app skipn]. rewrite firstn_app, firstn_all, Nat.sub_diag. cbn [firstn].
  rewrite app_nil_r; reflexivity.
Qed.

Lemma read_bytes_mid a b c off len :
  off = zlen a -> len = zlen b -> read_bytes (a ++ b ++ c) off len = ROk b.
Proof. intros H1 H2. unfold read_bytes. rewrite (bytes_at_mid a b c off len H1 H2). reflexivity. Qed.

Lemma read_uint_mid a n x c off :
  off = zlen a -> read_uint (a ++ le_bytes n x ++ c) off n = ROk (x mod 256 ^ Z.of_nat n).
Proof.
  intros H. unfold read_uint. rewrite (read_bytes_mid a (le_bytes n x) c) by (try exact H; rewrite zlen_le; reflexivity).
  cbn [rbind]. rewrite le_val_bytes. reflexivity.
Qed.

Lemma bytes_at_spec file off len b :
  bytes_at file off len = Some b ->
  0 <= off /\ 0 <= len /\ off + len <= zlen file /\ zlen b = len.
Proof.
  unfold bytes_at. destruct ((0 <=? off) && (0 <=? len) && (off + len <=? zlen file)) eqn:E; [|discriminate].
  intro H; injection H as <-. unfold zlen in *. rewrite firstn_length, skipn_length. lia.
Qed.

Lemma bytes_at_full l : bytes_at l 0 (zlen l) = Some l.
Proof.
  pose proof (bytes_at_mid [] l [] 0 (zlen l) eq_refl eq_refl) as H.
  cbn [app] in H. rewrite app_nil_r in H. exact H.
Qed.

(** Numbers in a file. *)
Lemma fold_add_app l1 l2 : fold_right Z.add 0 (l1 ++ l2) = fold_right Z.add 0 l1 + fold_right Z.add 0 l2.
Proof. induction l1 as [|x l1 IH]; cbn [app fold_right]; lia. Qed.

Lemma number_at_le_val a b c off n :
  off = zlen a -> n = length b -> number_at (a ++ b ++ c) off n = le_val b.
Proof.
  intros -> ->. unfold number_at, zlen. rewrite Nat2Z.id.
  assert (G : forall pre k, length pre = k ->
     fold_right Z.add 0 (map (fun i => nth (length a + i) (a ++ (pre ++ b) ++ c) 0 * 256 ^ Z.of_nat i) (seq k (length b)))
     = 256 ^ Z.of_nat k * le_val b).
  { induction b as [|x b IH]; intros pre k Hk; cbn [length seq map fold_right le_val].
    - lia.
    - specialize (IH (pre ++ [x]) (S k)).
      replace ((pre ++ [x]) ++ b) with (pre ++ x :: b) in IH by (rewrite <- app_assoc; reflexivity).
      rewrite IH by (rewrite app_length; cbn [length]; lia).
      rewrite app_nth2 by lia. replace (length a + k - length a)%nat with k by lia.
      rewrite <- app_assoc, app_nth2 by lia. rewrite Hk, Nat.sub_diag. cbn [app nth].
      rewrite Nat2Z.inj_succ, Z.pow_succ_r by lia. ring. }
  specialize (G [] O eq_refl). cbn [app] in G. rewrite G. cbn [Z.of_nat]. rewrite Z.pow_0_r. lia.
Qed.

Lemma number_at_le a n x c off :
  off = zlen a -> number_at (a ++ le_bytes n x ++ c) off n = x mod 256 ^ Z.of_nat n.
Proof.
  intro H. rewrite (number_at_le_val a (le_bytes n x) c off n H) by (rewrite le_bytes_length; reflexivity).
  apply le_val_bytes.
Qed.

(** Types. *)
Lemma lanes_pos t : 0 < lanesOfType t.
Proof.
  unfold lanesOfType.
  repeat (match goal with |- context [match ?x with _ => _ end] => destruct x end; try lia).
Qed.
Lemma bytes_pos t : 0 < bytesOfType t.
Proof.
  unfold bytesOfType.
  repeat (match goal with |- context [match ?x with _ => _ end] => destruct x end; try lia).
Qed.

Lemma fold_cnt shape c :
  0 <= c < 2 ^ 64 ->
  fold_left (fun c i => to_u64 (c * i)) shape c = (c * product shape) mod 2 ^ 64.
Proof.
  revert c; induction shape as [|d shape IH]; intros c Hc; cbn [fold_left product fold_right].
  - rewrite Z.mul_1_r, Z.mod_small by lia. reflexivity.
  - rewrite IH by (unfold to_u64; apply Z.mod_pos_bound; lia).
    unfold to_u64. rewrite Z.mul_mod_idemp_l by lia. f_equal. unfold product. ring.
Qed.

Lemma product_nonneg l : Forall (fun d => 0 <= d) l -> 0 <= product l.
Proof. induction 1 as [|d l Hd Hl IH]; cbn [product fold_right]; unfold product in *; nia. Qed.

Lemma storage_size_blocks shape dt blocks :
  0 <= product shape < 2 ^ 64 -> product shape = blocks * lanesOfType dt ->
  0 <= blocks * bytesOfType dt < 2 ^ 64 ->
  storage_size shape dt = ROk (blocks * bytesOfType dt).
Proof.
  intros Hp Hb Hm. unfold storage_size.
  rewrite fold_cnt by lia. rewrite Z.mul_1_l, (Z.mod_small (product shape) (2 ^ 64)) by lia.
  pose proof (lanes_pos dt) as Hl.
  rewrite Hb, Z.mod_mul, Z.eqb_refl by lia. rewrite Z.div_mul by lia.
  unfold to_u64. rewrite Z.mod_small by lia. reflexivity.
Qed.

Lemma strides_acc_spec shape :
  snd (strides_acc shape) = product shape /\ row_major shape (fst (strides_acc shape)).
Proof.
  induction shape as [|d ds IH].
  - split; [reflexivity|]. split; [reflexivity|]. cbn [length]; intros i Hi; lia.
  - cbn [strides_acc]. destruct (strides_acc ds) as [st acc]. cbn [fst snd] in *.
    destruct IH as [Hacc [Hl Hst]]. split.
    + cbn [product fold_right]. unfold product in Hacc. rewrite Hacc. ring.
    + split; [cbn [length]; congruence|].
      intros [|i] Hi; cbn [nth skipn].
      * exact Hacc.
      * apply Hst. cbn [length] in Hi. lia.
Qed.
Lemma default_strides_row_major shape : row_major shape (default_strides shape).
Proof. apply strides_acc_spec. Qed.

(** *** The data section *)
Lemma t_data_whole t : t_offset t = 0 -> t_data t = ROk (t_mem t).
Proof.
  intro H. unfold t_data, read_bytes. rewrite H.
  rewrite Z.div_0_l by (pose proof (lanes_pos (t_dtype t)); lia).
  rewrite Z.mul_0_l. unfold t_bytes. rewrite bytes_at_full. reflexivity.
Qed.

Lemma all_data_whole s :
  (forall name t, In (name, t) s -> t_offset t = 0) ->
  all_data s = ROk (flat_map (fun p => t_mem (snd p)) s).
Proof.
  induction s as [|[n t] s IH]; intros H; [reflexivity|].
  cbn [all_data flat_map]. rewrite t_data_whole by (apply (H n t); left; reflexivity).
  rewrite IH by (intros m u Hu; apply (H m u); right; exact Hu). reflexivity.
Qed.

(** Whatever could be written is, for each tensor, the content of its whole storage. *)
Lemma t_data_ok t d : t_data t = ROk d -> d = t_mem t.
Proof.
  unfold t_data, read_bytes, bytes_at, t_bytes.
  set (o := t_offset t / lanesOfType (t_dtype t) * bytesOfType (t_dtype t)).
  destruct ((0 <=? o) && (0 <=? zlen (t_mem t)) && (o + zlen (t_mem t) <=? zlen (t_mem t))) eqn:E; [|discriminate].
  intro H; injection H as <-.
  assert (o = 0) as -> by lia.
  unfold zlen. rewrite Nat2Z.id. cbn [Z.to_nat skipn]. apply firstn_all.
Qed.
Lemma all_data_ok s d : all_data s = ROk d -> d = flat_map (fun p => t_mem (snd p)) s.
Proof.
  revert d; induction s as [|[n t] s IH]; intros d; cbn [all_data flat_map].
  - intro H; injection H as <-; reflexivity.
  - destruct (t_data t) as [x| | |] eqn:E; try discriminate. cbn [rbind].
    destruct (all_data s) as [y| | |]; try discriminate. cbn [rbind].
    intro H; injection H as <-. rewrite (t_data_ok _ _ E), (IH y eq_refl). reflexivity.
Qed.

Lemma zlen_data s : zlen (flat_map (fun p => t_mem (snd p)) s) = total_bytes s.
Proof.
  induction s as [|[n t] s IH]; [reflexivity|].
  cbn [flat_map total_bytes fold_right]. rewrite zlen_app. rewrite IH. reflexivity.
Qed.

Lemma total_bytes_nonneg s : 0 <= total_bytes s.
Proof. rewrite <- zlen_data. apply zlen_nonneg. Qed.
Lemma total_bytes_app a b : total_bytes (a ++ b) = total_bytes a + total_bytes b.
Proof. rewrite <- !zlen_data, flat_map_app, zlen_app. reflexivity. Qed.
Lemma total_bytes_cons n t s : total_bytes ((n, t) :: s) = zlen (t_mem t) + total_bytes s.
Proof. reflexivity. Qed.

(** *** Version 2 *)
Lemma padded_length n l : length (padded n l) = n.
Proof. unfold padded. rewrite app_length, firstn_length, repeat_length. lia. Qed.

Lemma flat_le4_length l : length (flat_map (le_bytes 4) l) = (4 * length l)%nat.
Proof. induction l as [|x l IH]; [reflexivity|]. cbn [flat_map]. rewrite app_length, le_bytes_length, IH. cbn [length]. lia. Qed.

Lemma name_field_length name : length (v2_name_field name) = 256%nat.
Proof. unfold v2_name_field. rewrite app_length, padded_length. reflexivity. Qed.

Lemma v2_desc_length id name t off : zlen (v2_desc id name t off) = 352.
Proof.
  unfold v2_desc, zlen. rewrite !app_length, !le_bytes_length, flat_le4_length, padded_length, name_field_length.
  reflexivity.
Qed.

Lemma v2_header_length n : zlen (v2_header n) = 532.
Proof. unfold v2_header, zlen. rewrite !app_length, !le_bytes_length, repeat_length. reflexivity. Qed.

Lemma v2_descs_length pid i s off : zlen (v2_descs pid i s off) = 352 * zlen s.
Proof.
  revert i off; induction s as [|[n t] s IH]; intros i off; cbn [v2_descs].
  - reflexivity.
  - rewrite zlen_app, v2_desc_length, IH, zlen_cons. lia.
Qed.

Lemma to_i32_small x : - 2 ^ 31 <= x < 2 ^ 31 -> to_i32 (x mod 2 ^ 32) = x.
Proof.
  intro H. unfold to_i32. rewrite Z.mod_mod by lia.
  destruct (Z_lt_le_dec x 0) as [L|L].
  - replace (x mod 2 ^ 32) with (x + 2 ^ 32).
    + destruct (Z.ltb_spec (x + 2 ^ 32) (2 ^ 31)); lia.
    + apply (Z.mod_unique_pos x (2 ^ 32) (-1)); lia.
  - rewrite Z.mod_small by lia. destruct (Z.ltb_spec x (2 ^ 31)); lia.
Qed.

Lemma split4_flat l r :
  Forall (fun d => 0 <= d < 2 ^ 31) l ->
  split4 (flat_map (le_bytes 4) l ++ r) = l ++ split4 r.
Proof.
  induction 1 as [|x l Hx Hl IH]; [reflexivity|].
  cbn [flat_map le_bytes app split4]. rewrite <- IH.
  change [x mod 256; x / 256 mod 256; x / 256 / 256 mod 256; x / 256 / 256 / 256 mod 256] with (le_bytes 4 x).
  rewrite le_val_bytes. change (256 ^ Z.of_nat 4) with (2 ^ 32). rewrite to_i32_small by lia. reflexivity.
Qed.

Lemma until_nul_pad l n : ~ In 0 l -> until_nul (l ++ repeat 0 (S n)) = l.
Proof.
  induction l as [|x l IH]; intro H; [reflexivity|].
  cbn [app until_nul]. destruct (Z.eqb_spec x 0) as [->|N]; [exfalso; apply H; left; reflexivity|].
  f_equal. apply IH. intro Hin; apply H; right; exact Hin.
Qed.
Lemma until_nul_id l : ~ In 0 l -> until_nul l = l.
Proof.
  induction l as [|x l IH]; intro H; [reflexivity|].
  cbn [until_nul]. destruct (Z.eqb_spec x 0) as [->|N]; [exfalso; apply H; left; reflexivity|].
  f_equal. apply IH. intro Hin; apply H; right; exact Hin.
Qed.

Lemma name_field_read name :
  (length name <= 255)%nat -> ~ In 0 name -> until_nul (v2_name_field name) = name.
Proof.
  intros Hl H0. unfold v2_name_field, padded. rewrite (until_nul_id name H0).
  rewrite firstn_all2 by exact Hl. rewrite <- app_assoc.
  replace (repeat 0 (255 - length name) ++ [0]) with (repeat 0 (S (255 - length name))).
  - apply until_nul_pad. exact H0.
  - change (repeat 0 (S (255 - length name))) with (0 :: repeat 0 (255 - length name)). apply repeat_cons.
Qed.

Lemma padded_small n l : (length l <= n)%nat -> firstn (length l) (padded n l) = l.
Proof.
  intro H. unfold padded. rewrite (@firstn_all2 Z n l H).
  rewrite firstn_app, firstn_all, Nat.sub_diag. cbn [firstn]. apply app_nil_r.
Qed.
Lemma padded_dims n l : Forall (fun d => 0 <= d < 2 ^ 31) l -> Forall (fun d => 0 <= d < 2 ^ 31) (padded n l).
Proof.
  intro H. unfold padded. apply Forall_app. split.
  - apply Forall_forall. intros x Hx. rewrite Forall_forall in H. apply H.
    rewrite <- (firstn_skipn n l). apply in_or_app. left; exact Hx.
  - apply Forall_forall. intros x Hx. apply repeat_spec in Hx. subst x. lia.
Qed.

(** What loading a saved tensor yields. *)
Definition loaded2 (p : list Z * tensor) : list Z * tensor :=
  (fst p, new_tensor (fst p) (t_shape (snd p)) (t_dtype (snd p)) (t_mem (snd p))).

Lemma has_false name s : ~ In name (map fst s) -> has name s = false.
Proof.
  intro H. unfold has. apply not_true_is_false. intro E. apply existsb_exists in E.
  destruct E as [[n t] [Hin Hn]]. unfold eqb_name in Hn. cbn [fst] in Hn.
  destruct (list_eq_dec Z.eq_dec n name) as [->|]; [|discriminate].
  apply H. apply in_map_iff. exists (name, t). auto.
Qed.

(** Decoding one descriptor. *)
Lemma v2_load1_desc mmap pid name t off pre post s :
  whole t -> (length name <= 255)%nat -> ~ In 0 name ->
  0 <= off -> off + zlen (t_mem t) < 2 ^ 64 ->
  bytes_at (pre ++ v2_desc pid name t off ++ post) off (zlen (t_mem t)) = Some (t_mem t) ->
  ~ In name (map fst s) ->
  v2_load1 mmap (pre ++ v2_desc pid name t off ++ post) (zlen pre) s
  = ROk (s ++ [loaded2 (name, t)]).
Proof.
  intros W Hn H0 Hoff Htot Hdata Hfresh.
  destruct W as [_ _ Wr Wd Wt [blocks [Wb Wm]] Wn].
  assert (Hdesc : read_bytes (pre ++ v2_desc pid name t off ++ post) (zlen pre) v2_desc_size = ROk (v2_desc pid name t off)).
  { apply read_bytes_mid; [reflexivity|]. rewrite v2_desc_length. reflexivity. }
  unfold v2_load1. rewrite Hdesc. cbn [rbind].
  set (A := le_bytes 4 pid) in *.
  set (shp := flat_map (le_bytes 4) (padded 16 (t_shape t))) in *.
  assert (Lshp : zlen shp = 64).
  { unfold shp, zlen. rewrite flat_le4_length, padded_length. reflexivity. }
  assert (R1 : read_uint (v2_desc pid name t off) 4 4 = ROk (t_dtype t mod 2 ^ 32)).
  { unfold v2_desc. apply (read_uint_mid A 4 (t_dtype t)). unfold A; rewrite zlen_le; reflexivity. }
  assert (R2 : read_uint (v2_desc pid name t off) 8 8 = ROk (t_bytes t)).
  { unfold v2_desc. rewrite (app_assoc (le_bytes 4 pid)).
    rewrite (read_uint_mid _ 8 (t_bytes t)) by (rewrite zlen_app, !zlen_le; reflexivity).
    rewrite Z.mod_small; [reflexivity|]. unfold t_bytes. pose proof (zlen_nonneg (t_mem t)).
    change (256 ^ Z.of_nat 8) with (2 ^ 64). lia. }
  assert (R3 : read_uint (v2_desc pid name t off) 16 8 = ROk off).
  { unfold v2_desc. rewrite (app_assoc (le_bytes 4 pid)), (app_assoc (le_bytes 4 pid ++ _)).
    rewrite (read_uint_mid _ 8 off) by (rewrite !zlen_app, !zlen_le; reflexivity).
    rewrite Z.mod_small; [reflexivity|]. pose proof (zlen_nonneg (t_mem t)).
    change (256 ^ Z.of_nat 8) with (2 ^ 64). lia. }
  assert (R4 : read_uint (v2_desc pid name t off) 24 8 = ROk (zlen (t_shape t))).
  { unfold v2_desc. rewrite (app_assoc (le_bytes 4 pid)), (app_assoc (le_bytes 4 pid ++ _)), (app_assoc ((le_bytes 4 pid ++ _) ++ _)).
    rewrite (read_uint_mid _ 8 (zlen (t_shape t))) by (rewrite !zlen_app, !zlen_le; reflexivity).
    rewrite Z.mod_small; [reflexivity|]. unfold zlen. change (256 ^ Z.of_nat 8) with (2 ^ 64). lia. }
  assert (R5 : read_bytes (v2_desc pid name t off) 32 64 = ROk shp).
  { unfold v2_desc. fold shp.
    rewrite (app_assoc (le_bytes 4 pid)), (app_assoc (le_bytes 4 pid ++ _)), (app_assoc ((le_bytes 4 pid ++ _) ++ _)),
      (app_assoc (((le_bytes 4 pid ++ _) ++ _) ++ _)).
    apply read_bytes_mid; [rewrite !zlen_app, !zlen_le; reflexivity | symmetry; exact Lshp]. }
  assert (R6 : read_bytes (v2_desc pid name t off) 96 256 = ROk (v2_name_field name)).
  { unfold v2_desc. fold shp.
    rewrite (app_assoc (le_bytes 4 pid)), (app_assoc (le_bytes 4 pid ++ _)), (app_assoc ((le_bytes 4 pid ++ _) ++ _)),
      (app_assoc (((le_bytes 4 pid ++ _) ++ _) ++ _)), (app_assoc ((((le_bytes 4 pid ++ _) ++ _) ++ _) ++ _)).
    rewrite <- (app_nil_r (v2_name_field name)) at 1.
    apply read_bytes_mid; [rewrite !zlen_app, !zlen_le, Lshp; reflexivity|].
    unfold zlen; rewrite name_field_length; reflexivity. }
  rewrite R1, R2, R3, R4, R5, R6. cbn [rbind].
  replace (16 <? zlen (t_shape t)) with false by (unfold zlen; lia).
  rewrite (name_field_read name Hn H0).
  rewrite to_i32_small by lia.
  assert (Hshape : firstn (Z.to_nat (zlen (t_shape t))) (split4 shp) = t_shape t).
  { unfold zlen. rewrite Nat2Z.id. unfold shp.
    rewrite <- (app_nil_r (flat_map _ _)), split4_flat by (apply padded_dims; exact Wd).
    cbn [split4]. rewrite app_nil_r. apply padded_small. lia. }
  rewrite Hshape.
  pose proof (product_nonneg (t_shape t)) as Hpn.
  assert (0 <= product (t_shape t)).
  { apply Hpn. eapply Forall_impl; [|exact Wd]. cbn. intros a Ha; lia. }
  pose proof (zlen_nonneg (t_mem t)) as Hm.
  rewrite (storage_size_blocks (t_shape t) (t_dtype t) blocks) by lia.
  cbn [rbind]. rewrite <- Wm.
  assert (Hr : rank_ok (t_shape t) = true) by (unfold rank_ok, zlen; lia).
  rewrite Hr. cbn [negb]. unfold t_bytes.
  assert (Hread : read_bytes (pre ++ v2_desc pid name t off ++ post) off (zlen (t_mem t)) = ROk (t_mem t)).
  { unfold read_bytes. rewrite Hdata. reflexivity. }
  assert (Hpush : forall u, push name u s = ROk (s ++ [(name, u)])).
  { intro u. unfold push. rewrite has_false by exact Hfresh. reflexivity. }
  destruct mmap.
  - rewrite Z.leb_refl. cbn [negb]. rewrite Hread. cbn [rbind]. apply Hpush.
  - rewrite Z.ltb_irrefl. rewrite Hread. cbn [rbind]. apply Hpush.
Qed.

(** The descriptor loop: [pre] holds the header and the descriptors already read. *)
Lemma v2_load_all mmap pid s : forall i pre off data done rest,
  NoDup (map fst done ++ map fst s) ->
  (forall name t, In (name, t) s -> whole t) ->
  (forall name t, In (name, t) s -> (length name <= 255)%nat /\ ~ In 0 name) ->
  off = zlen pre + zlen (v2_descs pid i s off) + zlen data ->
  off + total_bytes s < 2 ^ 64 ->
  rest = flat_map (fun p => t_mem (snd p)) s ->
  v2_load mmap (pre ++ v2_descs pid i s off ++ data ++ rest) (length s) (zlen pre) done
  = ROk (done ++ map loaded2 s).
Proof.
  induction s as [|[name t] s IH]; intros i pre off data done rest Hnd Hw Hn Hoff Htot Hrest.
  - cbn [length v2_load map]. rewrite app_nil_r. reflexivity.
  - cbn [length v2_load v2_descs] in *.
    rewrite total_bytes_cons in Htot. pose proof (total_bytes_nonneg s) as Htn.
    pose proof (zlen_nonneg (t_mem t)) as Hmn. pose proof (zlen_nonneg pre) as Hpn. pose proof (zlen_nonneg data) as Hdn.
    assert (Hu : to_u64 (off + t_bytes t) = off + zlen (t_mem t)).
    { unfold to_u64, t_bytes. apply Z.mod_small.
      rewrite zlen_app, v2_desc_length, v2_descs_length in Hoff. pose proof (zlen_nonneg s). lia. }
    rewrite Hu in *.
    rewrite zlen_app, v2_desc_length in Hoff.
    set (D := v2_desc (pid i) name t off) in *.
    set (DS := v2_descs pid (S i) s (off + zlen (t_mem t))) in *.
    pose proof (zlen_nonneg DS) as HDSn.
    cbn [flat_map snd] in Hrest.
    set (rest' := flat_map (fun p => t_mem (snd p)) s) in *.
    destruct (Hn name t (or_introl eq_refl)) as [Hn1 Hn2].
    rewrite <- app_assoc.
    assert (Hdata : bytes_at (pre ++ D ++ DS ++ data ++ rest) off (zlen (t_mem t)) = Some (t_mem t)).
    { subst rest. rewrite (app_assoc pre), (app_assoc (pre ++ D)), (app_assoc ((pre ++ D) ++ DS)).
      apply bytes_at_mid; [|reflexivity].
      rewrite !zlen_app. unfold D. rewrite v2_desc_length. lia. }
    unfold D at 1. unfold D in Hdata.
    rewrite (v2_load1_desc mmap (pid i) name t off pre (DS ++ data ++ rest) done); try assumption.
    + cbn [rbind].
      subst rest. fold D.
      assert (E : pre ++ D ++ DS ++ data ++ t_mem t ++ rest'
                = (pre ++ D) ++ DS ++ (data ++ t_mem t) ++ rest') by (rewrite <- !app_assoc; reflexivity).
      rewrite E.
      replace (zlen pre + v2_desc_size) with (zlen (pre ++ D)).
      * unfold DS. rewrite (IH (S i) (pre ++ D) (off + zlen (t_mem t)) (data ++ t_mem t) (done ++ [loaded2 (name, t)]) rest').
        -- rewrite <- app_assoc. reflexivity.
        -- rewrite map_app. cbn [map loaded2 fst snd]. rewrite <- app_assoc. exact Hnd.
        -- intros m u Hu'. apply (Hw m u). right; exact Hu'.
        -- intros m u Hu'. apply (Hn m u). right; exact Hu'.
        -- rewrite !zlen_app. unfold D. rewrite v2_desc_length. fold DS. lia.
        -- lia.
        -- reflexivity.
      * rewrite zlen_app. unfold D. rewrite v2_desc_length. reflexivity.
    + apply (Hw name t). left; reflexivity.
    + lia.
    + lia.
    + cbn [map fst] in Hnd. apply NoDup_remove_2 in Hnd. intro Hin. apply Hnd. apply in_or_app; left; exact Hin.
Qed.

Theorem v2_round_trip mmap pid s :
  savable_v2 s ->
  exists file, v2_write pid s = ROk file /\ v2_read mmap file = ROk (map loaded2 s).
Proof.
  intros [Hmap Hw Hn Hc Ht].
  pose proof (zlen_nonneg s) as Hs. pose proof (total_bytes_nonneg s) as Htn.
  unfold v2_write. rewrite all_data_whole by (intros n t Hin; apply (wh_offset t (Hw n t Hin))).
  cbn [rbind]. eexists. split; [reflexivity|].
  assert (Hu : to_u64 (v2_header_size + zlen s * v2_desc_size) = 532 + 352 * zlen s).
  { unfold to_u64, v2_header_size, v2_desc_size. rewrite Z.mod_small; lia. }
  rewrite Hu.
  set (H := v2_header (zlen s)).
  set (body := v2_descs pid 0 s (532 + 352 * zlen s) ++ flat_map (fun p => t_mem (snd p)) s).
  assert (R1 : read_uint (H ++ body) 0 4 = ROk (v2_magic mod 2 ^ 32)).
  { unfold H, v2_header. rewrite <- !app_assoc. apply (read_uint_mid [] 4 v2_magic). reflexivity. }
  assert (R2 : read_uint (H ++ body) 4 4 = ROk (2 mod 2 ^ 32)).
  { unfold H, v2_header. rewrite <- !app_assoc. apply (read_uint_mid (le_bytes 4 v2_magic) 4 2). rewrite zlen_le; reflexivity. }
  assert (R3 : read_uint (H ++ body) 520 4 = ROk (zlen s)).
  { unfold H, v2_header. rewrite <- !app_assoc.
    rewrite (app_assoc (le_bytes 4 v2_magic)), (app_assoc (le_bytes 4 v2_magic ++ _)).
    rewrite (read_uint_mid _ 4 (zlen s)).
    - rewrite Z.mod_small; [reflexivity|]. change (256 ^ Z.of_nat 4) with (2 ^ 32). lia.
    - rewrite !zlen_app, !zlen_le. unfold zlen. rewrite repeat_length. reflexivity. }
  assert (R4 : read_uint (H ++ body) 524 8 = ROk 532).
  { unfold H, v2_header. rewrite <- !app_assoc.
    rewrite (app_assoc (le_bytes 4 v2_magic)), (app_assoc (le_bytes 4 v2_magic ++ _)), (app_assoc ((le_bytes 4 v2_magic ++ _) ++ _)).
    rewrite (read_uint_mid _ 8 v2_header_size).
    - reflexivity.
    - rewrite !zlen_app, !zlen_le. unfold zlen. rewrite repeat_length. reflexivity. }
  unfold v2_read. rewrite R1. cbn [rbind]. rewrite to_i32_small by (unfold v2_magic; lia).
  rewrite Z.eqb_refl. cbn [negb]. rewrite R2. cbn [rbind]. rewrite to_i32_small by lia.
  rewrite Z.eqb_refl. cbn [negb]. rewrite R3, R4. cbn [rbind].
  unfold zlen at 1. rewrite Nat2Z.id.
  replace 532 with (zlen H) at 1 by (unfold H; apply v2_header_length).
  unfold body.
  change (flat_map (fun p => t_mem (snd p)) s) with ([] ++ flat_map (fun p => t_mem (snd p)) s).
  rewrite (v2_load_all mmap pid s 0 H (532 + 352 * zlen s) [] []).
  - reflexivity.
  - exact Hmap.
  - exact Hw.
  - exact Hn.
  - unfold H. rewrite v2_header_length, v2_descs_length, zlen_nil. lia.
  - lia.
  - reflexivity.
Qed.
