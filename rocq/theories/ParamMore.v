From Verif Require Import Base DTypeModel ParamModel ParamSpec ParamProofs.
Local Open Scope Z_scope.

Lemma ROk_inj {A} (a b : A) : ROk a = ROk b -> a = b.
Proof. congruence. Qed.

(** *** The store *)
Lemma eqb_name_refl n : eqb_name n n = true.
Proof. unfold eqb_name. destruct (list_eq_dec Z.eq_dec n n); congruence. Qed.
Lemma eqb_name_true a b : eqb_name a b = true -> a = b.
Proof. unfold eqb_name. destruct (list_eq_dec Z.eq_dec a b); congruence. Qed.

Lemma lookup_in name t s : NoDup (map fst s) -> In (name, t) s -> lookup name s = Some t.
Proof.
  induction s as [|[n u] s IH]; intros Hnd Hin; [contradiction|].
  cbn [map fst] in Hnd. inversion Hnd as [|x l Hx Hl]; subst.
  unfold lookup in *. cbn [find fst]. destruct (eqb_name n name) eqn:E.
  - apply eqb_name_true in E; subst n. destruct Hin as [Hin|Hin]; [injection Hin as ->; reflexivity|].
    exfalso; apply Hx. apply in_map_iff. exists (name, t); auto.
  - destruct Hin as [Hin|Hin]; [injection Hin as -> ->; rewrite eqb_name_refl in E; discriminate|].
    apply IH; assumption.
Qed.
Lemma lookup_none name s : ~ In name (map fst s) -> lookup name s = None.
Proof.
  intro H. unfold lookup. destruct (find _ s) as [[n t]|] eqn:E; [|reflexivity].
  apply find_some in E. destruct E as [Hin E]. apply eqb_name_true in E. cbn [fst] in E; subst n.
  exfalso; apply H. apply in_map_iff. exists (name, t); auto.
Qed.

Lemma holds_same_map s (f : list Z * tensor -> list Z * tensor) (b : bool) :
  NoDup (map fst s) ->
  (forall p : list Z * tensor, fst (f p) = fst p) ->
  (forall name t, In (name, t) s ->
     let t' := snd (f (name, t)) in
     t_dtype t' = t_dtype t /\ t_mem t' = t_mem t /\ t_sname t' = name /\ t_offset t' = 0 /\
     row_major (t_shape t') (t_stride t') /\
     (if b then t_shape t' = t_shape t else t_shape t' = [product (t_shape t)])) ->
  holds_same s (map f s) b.
Proof.
  intros Hnd Hf H.
  assert (Hm : map fst (map f s) = map fst s).
  { rewrite map_map. apply map_ext. exact Hf. }
  constructor.
  - intros name t Hin. exists (snd (f (name, t))). split.
    + unfold pull. rewrite (lookup_in name (snd (f (name, t))) (map f s)); [reflexivity| |].
      * rewrite Hm; exact Hnd.
      * apply in_map_iff. exists (name, t). split; [|exact Hin].
        rewrite (surjective_pairing (f (name, t))) at 1. rewrite Hf. reflexivity.
    + apply H; exact Hin.
  - intros name Hno. split.
    + apply has_false. rewrite Hm; exact Hno.
    + unfold pull. rewrite lookup_none by (rewrite Hm; exact Hno). reflexivity.
Qed.

Theorem v2_save_load mmap pid s :
  savable_v2 s ->
  exists file s', v2_write pid s = ROk file /\ v2_read mmap file = ROk s' /\ holds_same s s' true.
Proof.
  intro Hs. destruct (v2_round_trip mmap pid s Hs) as [file [Hw Hr]].
  exists file, (map loaded2 s). split; [exact Hw|]. split; [exact Hr|].
  apply holds_same_map.
  - apply (s2_map s Hs).
  - intros [n t]; reflexivity.
  - intros name t Hin. cbn [loaded2 fst snd new_tensor t_dtype t_mem t_sname t_offset t_shape t_stride].
    split; [reflexivity|]. split; [reflexivity|]. split; [reflexivity|]. split; [reflexivity|].
    split; [apply default_strides_row_major | reflexivity].
Qed.

(** *** Sections of a V2 file *)
Lemma firstn_S_total s i name t :
  nth_error s i = Some (name, t) ->
  total_bytes s = total_bytes (firstn i s) + zlen (t_mem t) + total_bytes (skipn (S i) s).
Proof.
  revert i; induction s as [|[n u] s IH]; intros [|i] H; try discriminate.
  - injection H as -> ->. cbn [firstn skipn]. rewrite total_bytes_cons. cbn. lia.
  - cbn [nth_error] in H. cbn [firstn]. rewrite !total_bytes_cons.
    rewrite (IH i H). cbn [skipn]. lia.
Qed.

Lemma v2_descs_split pid s : forall k i off name t,
  0 <= off -> off + total_bytes s < 2 ^ 64 ->
  nth_error s i = Some (name, t) ->
  exists A B, v2_descs pid k s off
    = A ++ v2_desc (pid (k + i)%nat) name t (off + total_bytes (firstn i s)) ++ B
    /\ zlen A = 352 * Z.of_nat i.
Proof.
  induction s as [|[n u] s IH]; intros k [|i] off name t H0 Ht Hn; try discriminate.
  - injection Hn as -> ->. exists [], (v2_descs pid (S k) s (to_u64 (off + t_bytes t))).
    cbn [v2_descs firstn app]. rewrite Nat.add_0_r. cbn [total_bytes fold_right]. rewrite Z.add_0_r.
    split; reflexivity.
  - cbn [nth_error] in Hn. rewrite total_bytes_cons in Ht.
    pose proof (zlen_nonneg (t_mem u)) as Hu. pose proof (total_bytes_nonneg s) as Hs.
    assert (Hto : to_u64 (off + t_bytes u) = off + zlen (t_mem u)).
    { unfold to_u64, t_bytes. apply Z.mod_small. lia. }
    destruct (IH (S k) i (off + zlen (t_mem u)) name t) as [A [B [E L]]]; try assumption; try lia.
    exists (v2_desc (pid k) n u off ++ A), B. cbn [v2_descs]. rewrite Hto, E.
    cbn [firstn]. rewrite total_bytes_cons. split.
    + rewrite <- app_assoc. replace (k + S i)%nat with (S k + i)%nat by lia.
      rewrite Z.add_assoc. reflexivity.
    + rewrite zlen_app, v2_desc_length, L. lia.
Qed.

Lemma data_split s i name t :
  nth_error s i = Some (name, t) ->
  exists A B, flat_map (fun p => t_mem (snd p)) s = A ++ t_mem t ++ B /\ zlen A = total_bytes (firstn i s).
Proof.
  revert i; induction s as [|[n u] s IH]; intros [|i] H; try discriminate.
  - injection H as -> ->. exists [], (flat_map (fun p => t_mem (snd p)) s). split; reflexivity.
  - cbn [nth_error] in H. destruct (IH i H) as [A [B [E L]]].
    exists (t_mem u ++ A), B. cbn [flat_map snd firstn]. rewrite E, <- app_assoc. split; [reflexivity|].
    rewrite zlen_app, total_bytes_cons, L. reflexivity.
Qed.

Lemma number_at_inside A B C off n x off' :
  off = zlen A + off' ->
  (exists a c, B = a ++ le_bytes n x ++ c /\ zlen a = off') ->
  number_at (A ++ B ++ C) off n = x mod 256 ^ Z.of_nat n.
Proof.
  intros Hoff [a [c [-> Ha]]].
  rewrite <- !app_assoc, (app_assoc A). apply number_at_le.
  rewrite zlen_app. lia.
Qed.

Lemma total_firstn_le s i : total_bytes (firstn i s) <= total_bytes s.
Proof.
  rewrite <- (firstn_skipn i s) at 2. rewrite total_bytes_app.
  pose proof (total_bytes_nonneg (skipn i s)). lia.
Qed.

Lemma total_firstn_mono s i j name t :
  nth_error s i = Some (name, t) -> (i < j)%nat ->
  total_bytes (firstn i s) + zlen (t_mem t) <= total_bytes (firstn j s).
Proof.
  revert i j; induction s as [|[n u] s IH]; intros [|i] [|j] H L; try discriminate; try lia.
  - injection H as -> ->. cbn [firstn]. rewrite total_bytes_cons. cbn [total_bytes fold_right].
    pose proof (total_bytes_nonneg (firstn j s)). unfold total_bytes in *. lia.
  - cbn [nth_error] in H. cbn [firstn]. rewrite !total_bytes_cons. specialize (IH i j H). lia.
Qed.

Theorem v2_sections pid s file :
  zlen s < 2 ^ 32 -> 532 + 352 * zlen s + total_bytes s < 2 ^ 64 ->
  v2_write pid s = ROk file ->
  sections_ok s file (532 + 352 * zlen s) (v2_size_of file) (v2_offset_of file).
Proof.
  intros Hc Ht Hw. unfold v2_write in Hw.
  destruct (all_data s) as [data| | |] eqn:Ed; try discriminate. cbn [rbind] in Hw. apply ROk_inj in Hw.
  pose proof (all_data_ok s data Ed) as Hd.
  pose proof (zlen_nonneg s) as Hsn. pose proof (total_bytes_nonneg s) as Htn.
  assert (Hu : to_u64 (v2_header_size + zlen s * v2_desc_size) = 532 + 352 * zlen s).
  { unfold to_u64, v2_header_size, v2_desc_size. rewrite Z.mod_small; lia. }
  rewrite Hu in Hw.
  assert (Hlen : zlen file = 532 + 352 * zlen s + total_bytes s).
  { rewrite <- Hw, !zlen_app, v2_header_length, v2_descs_length, Hd, zlen_data. lia. }
  assert (F : forall i name t, nth_error s i = Some (name, t) ->
     v2_size_of file i = zlen (t_mem t) /\
     v2_offset_of file i = 532 + 352 * zlen s + total_bytes (firstn i s) /\
     bytes_at file (v2_offset_of file i) (v2_size_of file i) = Some (t_mem t)).
  { intros i name t Hi.
    destruct (v2_descs_split pid s 0 i (532 + 352 * zlen s) name t) as [A [B [E L]]]; try assumption; try lia.
    pose proof (zlen_nonneg (t_mem t)) as Hm.
    pose proof (firstn_S_total s i name t Hi) as Hsum.
    pose proof (total_bytes_nonneg (firstn i s)) as Hf.
    pose proof (total_bytes_nonneg (skipn (S i) s)) as Hk.
    set (o := 532 + 352 * zlen s + total_bytes (firstn i s)) in *.
    assert (Hfile : file = (v2_header (zlen s) ++ A) ++ v2_desc (pid (0 + i)%nat) name t o ++ (B ++ data)).
    { rewrite <- Hw, E, <- !app_assoc. reflexivity. }
    assert (LA : zlen (v2_header (zlen s) ++ A) = 532 + 352 * Z.of_nat i) by (rewrite zlen_app, v2_header_length; lia).
    assert (S1 : v2_size_of file i = zlen (t_mem t)).
    { unfold v2_size_of. rewrite Hfile.
      rewrite (number_at_inside _ _ _ _ 8 (t_bytes t) 8).
      - unfold t_bytes. apply Z.mod_small. change (256 ^ Z.of_nat 8) with (2 ^ 64). lia.
      - lia.
      - unfold v2_desc. eexists (le_bytes 4 _ ++ le_bytes 4 _), _. split; [rewrite <- app_assoc; reflexivity|].
        rewrite zlen_app, !zlen_le. reflexivity. }
    assert (S2 : v2_offset_of file i = o).
    { unfold v2_offset_of. rewrite Hfile.
      rewrite (number_at_inside _ _ _ _ 8 o 16).
      - apply Z.mod_small. change (256 ^ Z.of_nat 8) with (2 ^ 64). lia.
      - lia.
      - unfold v2_desc. eexists (le_bytes 4 _ ++ le_bytes 4 _ ++ le_bytes 8 _), _. split; [rewrite <- !app_assoc; reflexivity|].
        rewrite !zlen_app, !zlen_le. reflexivity. }
    split; [exact S1|]. split; [exact S2|].
    rewrite S1, S2. destruct (data_split s i name t Hi) as [P [Q [E2 L2]]].
    assert (Hfile2 : file = (v2_header (zlen s) ++ v2_descs pid 0 s (532 + 352 * zlen s) ++ P) ++ t_mem t ++ Q).
    { rewrite <- Hw, Hd, E2, <- !app_assoc. reflexivity. }
    rewrite Hfile2. apply bytes_at_mid; [|reflexivity].
    rewrite !zlen_app, v2_header_length, v2_descs_length, L2. unfold o. lia. }
  assert (G : forall i, (i < length s)%nat -> exists name t, nth_error s i = Some (name, t)).
  { intros i Hi. destruct (nth_error s i) as [[name t]|] eqn:E; [eauto|].
    apply nth_error_None in E. lia. }
  constructor.
  - intros i Hi. destruct (G i Hi) as [name [t E]]. destruct (F i name t E) as [_ [F2 _]].
    rewrite F2. pose proof (total_bytes_nonneg (firstn i s)). lia.
  - intros i Hi. destruct (G i Hi) as [name [t E]]. destruct (F i name t E) as [F1 [F2 _]].
    rewrite F1, F2, Hlen. rewrite (firstn_S_total s i name t E).
    pose proof (total_bytes_nonneg (skipn (S i) s)). lia.
  - intros i j [Hij Hj]. destruct (G i) as [name [t E]]; [lia|]. destruct (G j Hj) as [name' [t' E']].
    destruct (F i name t E) as [F1 [F2 _]]. destruct (F j name' t' E') as [_ [F2' _]].
    rewrite F1, F2, F2'. pose proof (total_firstn_mono s i j name t E Hij). lia.
  - intros i name t E. destruct (F i name t E) as [F1 [_ F3]]. split; assumption.
Qed.

(** *** Version 1 *)
Definition desc_len (p : list Z * tensor) : Z := 24 + zlen (fst p).
Fixpoint descs_len (s : store) : Z := match s with [] => 0 | p :: r => desc_len p + descs_len r end.

Lemma descs_len_spec s : descs_len s = fold_right (fun p a => 24 + zlen (fst p) + a) 0 s.
Proof. induction s as [|p s IH]; [reflexivity|]. cbn [descs_len fold_right]. rewrite IH. unfold desc_len. lia. Qed.
Lemma descs_len_nonneg s : 0 <= descs_len s.
Proof. induction s as [|p s IH]; cbn [descs_len]; [lia|]. unfold desc_len; pose proof (zlen_nonneg (fst p)); lia. Qed.

Lemma firstn_zlen {A} (l : list A) : firstn (Z.to_nat (zlen l)) l = l.
Proof. unfold zlen. rewrite Nat2Z.id. apply firstn_all. Qed.

Lemma v1_desc_fields name t off : zlen name < 2 ^ 31 ->
  v1_desc name t off =
  le_bytes 4 (zlen name) ++ name ++ le_bytes 8 (t_bytes t) ++ le_bytes 8 off ++ le_bytes 4 (t_dtype t).
Proof.
  intro H. pose proof (zlen_nonneg name) as Hn. unfold v1_desc.
  rewrite (Z.mod_small (zlen name) (2 ^ 32)) by lia. rewrite firstn_zlen. reflexivity.
Qed.

Lemma v1_desc_length name t off : zlen name < 2 ^ 31 -> zlen (v1_desc name t off) = 24 + zlen name.
Proof. intro H. rewrite v1_desc_fields by exact H. rewrite !zlen_app, !zlen_le. lia. Qed.

Lemma v1_descs_length s : forall off,
  (forall name t, In (name, t) s -> zlen name < 2 ^ 31) -> zlen (v1_descs s off) = descs_len s.
Proof.
  induction s as [|[n t] s IH]; intros off H; [reflexivity|].
  cbn [v1_descs descs_len]. rewrite zlen_app, v1_desc_length by (apply (H n t); left; reflexivity).
  rewrite IH by (intros m u Hu; apply (H m u); right; exact Hu). unfold desc_len. cbn [fst]. lia.
Qed.

Lemma v1_desc_total_spec s :
  0 <= 24 * zlen s + fold_right (fun p a => zlen (t_sname (snd p)) + a) 0 s < 2 ^ 64 ->
  v1_desc_total s = 24 * zlen s + fold_right (fun p a => zlen (t_sname (snd p)) + a) 0 s.
Proof.
  unfold v1_desc_total. intro H.
  assert (G : forall c, 0 <= c ->
    c + 24 * zlen s + fold_right (fun p a => zlen (t_sname (snd p)) + a) 0 s < 2 ^ 64 ->
    fold_left (fun a p => to_u64 (a + 4 + zlen (t_sname (snd p)) + 8 + 8 + 4)) s c
    = c + 24 * zlen s + fold_right (fun p a => zlen (t_sname (snd p)) + a) 0 s).
  { clear H. induction s as [|p s IH]; intros c Hc H.
    - cbn. unfold zlen. cbn. lia.
    - cbn [fold_left fold_right] in *. rewrite zlen_cons in *.
      pose proof (zlen_nonneg s) as Hs. pose proof (zlen_nonneg (t_sname (snd p))) as Hp.
      assert (Hr : 0 <= fold_right (fun p a => zlen (t_sname (snd p)) + a) 0 s).
      { clear. induction s as [|q s IH]; cbn [fold_right]; [lia|]. pose proof (zlen_nonneg (t_sname (snd q))). lia. }
      assert (E : to_u64 (c + 4 + zlen (t_sname (snd p)) + 8 + 8 + 4) = c + 24 + zlen (t_sname (snd p))).
      { unfold to_u64. rewrite Z.mod_small; lia. }
      rewrite E, IH by lia. lia. }
  rewrite G by lia. lia.
Qed.

Definition meta_of (p : list Z * tensor) (off : Z) : v1_meta :=
  mkMeta (fst p) (t_bytes (snd p)) off (t_dtype (snd p)).
Fixpoint metas_of (s : store) (off : Z) : list v1_meta :=
  match s with [] => [] | p :: r => meta_of p off :: metas_of r (off + t_bytes (snd p)) end.

Lemma v1_parse_all s : forall fuel pre off post acc end_,
  (forall name t, In (name, t) s -> zlen name < 2 ^ 31) ->
  (forall name t, In (name, t) s -> 0 <= t_dtype t < 2 ^ 31) ->
  0 <= off -> off + total_bytes s < 2 ^ 64 ->
  end_ = zlen pre + descs_len s ->
  (length s < fuel)%nat ->
  v1_parse fuel (pre ++ v1_descs s off ++ post) (zlen pre) end_ acc = ROk (acc ++ metas_of s off).
Proof.
  induction s as [|[name t] s IH]; intros fuel pre off post acc end_ Hn Hd H0 Ht He Hf.
  - destruct fuel as [|fuel]; [cbn in Hf; lia|]. cbn [v1_parse descs_len metas_of] in *.
    replace (zlen pre <? end_) with false by lia. rewrite app_nil_r. reflexivity.
  - destruct fuel as [|fuel]; [cbn in Hf; lia|].
    cbn [v1_parse v1_descs descs_len metas_of] in *. rewrite total_bytes_cons in Ht.
    pose proof (total_bytes_nonneg s) as Htn. pose proof (zlen_nonneg (t_mem t)) as Hm.
    pose proof (descs_len_nonneg s) as Hdn. pose proof (zlen_nonneg name) as Hnn.
    assert (Hn1 : zlen name < 2 ^ 31) by (apply (Hn name t); left; reflexivity).
    assert (Hd1 : 0 <= t_dtype t < 2 ^ 31) by (apply (Hd name t); left; reflexivity).
    assert (Hu : to_u64 (off + t_bytes t) = off + t_bytes t).
    { unfold to_u64, t_bytes. apply Z.mod_small. lia. }
    rewrite Hu. unfold desc_len in He. cbn [fst] in He.
    replace (zlen pre <? end_) with true by lia.
    assert (Hdesc : v1_desc name t off =
      le_bytes 4 (zlen name) ++ name ++ le_bytes 8 (t_bytes t) ++ le_bytes 8 off ++ le_bytes 4 (t_dtype t)).
    { apply v1_desc_fields. lia. }
    set (DS := v1_descs s (off + t_bytes t)) in *.
    set (file := pre ++ (v1_desc name t off ++ DS) ++ post).
    assert (R1 : read_uint file (zlen pre) 4 = ROk (zlen name mod 2 ^ 32)).
    { unfold file. rewrite Hdesc. rewrite <- !app_assoc. apply read_uint_mid. reflexivity. }
    assert (R2 : read_bytes file (zlen pre + 4) (zlen name) = ROk name).
    { unfold file. rewrite Hdesc. rewrite <- !app_assoc. rewrite (app_assoc pre).
      apply read_bytes_mid; [rewrite zlen_app, zlen_le|]; reflexivity. }
    assert (R3 : read_uint file (zlen pre + 4 + zlen name) 8 = ROk (t_bytes t)).
    { unfold file. rewrite Hdesc. rewrite <- !app_assoc. rewrite (app_assoc pre), (app_assoc (pre ++ _)).
      rewrite (read_uint_mid _ 8 (t_bytes t)).
      - rewrite Z.mod_small; [reflexivity|]. unfold t_bytes. change (256 ^ Z.of_nat 8) with (2 ^ 64). lia.
      - rewrite !zlen_app, zlen_le. lia. }
    assert (R4 : read_uint file (zlen pre + 4 + zlen name + 8) 8 = ROk off).
    { unfold file. rewrite Hdesc. rewrite <- !app_assoc.
      rewrite (app_assoc pre), (app_assoc (pre ++ _)), (app_assoc ((pre ++ _) ++ _)).
      rewrite (read_uint_mid _ 8 off).
      - rewrite Z.mod_small; [reflexivity|]. change (256 ^ Z.of_nat 8) with (2 ^ 64). lia.
      - rewrite !zlen_app, !zlen_le. lia. }
    assert (R5 : read_uint file (zlen pre + 4 + zlen name + 16) 4 = ROk (t_dtype t mod 2 ^ 32)).
    { unfold file. rewrite Hdesc. rewrite <- !app_assoc.
      rewrite (app_assoc pre), (app_assoc (pre ++ _)), (app_assoc ((pre ++ _) ++ _)), (app_assoc (((pre ++ _) ++ _) ++ _)).
      apply read_uint_mid. rewrite !zlen_app, !zlen_le. lia. }
    rewrite R1. cbn [rbind]. rewrite to_i32_small by lia.
    replace (zlen name <? 0) with false by lia.
    rewrite R2. cbn [rbind]. rewrite R3. cbn [rbind]. rewrite R4. cbn [rbind]. rewrite R5. cbn [rbind].
    rewrite to_i32_small by lia.
    unfold file.
    replace (zlen pre + 4 + zlen name + 20) with (zlen (pre ++ v1_desc name t off))
      by (rewrite zlen_app, v1_desc_length by lia; lia).
    replace (pre ++ (v1_desc name t off ++ DS) ++ post) with ((pre ++ v1_desc name t off) ++ DS ++ post)
      by (rewrite <- !app_assoc; reflexivity).
    unfold DS. rewrite (IH fuel (pre ++ v1_desc name t off) (off + t_bytes t) post).
    + rewrite <- app_assoc. reflexivity.
    + intros m u Hmu; apply (Hn m u); right; exact Hmu.
    + intros m u Hmu; apply (Hd m u); right; exact Hmu.
    + unfold t_bytes; lia.
    + unfold t_bytes; lia.
    + rewrite zlen_app, v1_desc_length by lia. lia.
    + cbn [length] in Hf. lia.
Qed.

Definition loaded1 (p : list Z * tensor) : list Z * tensor :=
  (fst p, new_tensor (fst p) [product (t_shape (snd p))] (t_dtype (snd p)) (t_mem (snd p))).

Lemma v1_load1_meta mmap file name t off s :
  whole t -> product (t_shape t) < 2 ^ 31 -> zlen (t_mem t) < 2 ^ 64 ->
  bytes_at file off (zlen (t_mem t)) = Some (t_mem t) ->
  ~ In name (map fst s) ->
  v1_load1 mmap file (meta_of (name, t) off) s = ROk (s ++ [loaded1 (name, t)]).
Proof.
  intros W Hp Hmem Hdata Hfresh.
  destruct W as [_ _ Wr Wd Wt [blocks [Wb Wm]] Wn].
  pose proof (lanes_pos (t_dtype t)) as Hl. pose proof (bytes_pos (t_dtype t)) as Hb.
  pose proof (zlen_nonneg (t_mem t)) as Hm.
  assert (0 <= product (t_shape t)).
  { apply product_nonneg. eapply Forall_impl; [|exact Wd]. cbn. intros a Ha; lia. }
  unfold v1_load1, meta_of. cbn [m_name m_len m_off m_dtype fst snd]. unfold t_bytes.
  assert (E : zlen (t_mem t) / bytesOfType (t_dtype t) * lanesOfType (t_dtype t) = product (t_shape t)).
  { rewrite Wm, Z.div_mul by lia. lia. }
  rewrite E.
  assert (E2 : to_i32 (product (t_shape t)) = product (t_shape t)).
  { unfold to_i32. rewrite Z.mod_small by lia. destruct (Z.ltb_spec (product (t_shape t)) (2 ^ 31)); lia. }
  rewrite E2.
  assert (Hpp : product [product (t_shape t)] = product (t_shape t)) by (unfold product at 1; cbn [fold_right]; lia).
  rewrite (storage_size_blocks [product (t_shape t)] (t_dtype t) blocks) by (rewrite ?Hpp; lia).
  cbn [rbind]. rewrite <- Wm.
  assert (Hread : read_bytes file off (zlen (t_mem t)) = ROk (t_mem t)) by (unfold read_bytes; rewrite Hdata; reflexivity).
  assert (Hpush : forall u, push name u s = ROk (s ++ [(name, u)])).
  { intro u. unfold push. rewrite has_false by exact Hfresh. reflexivity. }
  destruct mmap.
  - rewrite Hread. cbn [rbind]. apply Hpush.
  - rewrite Z.ltb_irrefl. rewrite Hread. cbn [rbind]. apply Hpush.
Qed.

Lemma v1_load_all mmap s : forall pre off done,
  NoDup (map fst done ++ map fst s) ->
  (forall name t, In (name, t) s -> whole t) ->
  (forall name t, In (name, t) s -> product (t_shape t) < 2 ^ 31) ->
  off = zlen pre -> off + total_bytes s < 2 ^ 64 ->
  v1_load mmap (pre ++ flat_map (fun p => t_mem (snd p)) s) (metas_of s off) done
  = ROk (done ++ map loaded1 s).
Proof.
  induction s as [|[name t] s IH]; intros pre off done Hnd Hw Hp Hoff Ht.
  - cbn. rewrite app_nil_r. reflexivity.
  - cbn [metas_of v1_load flat_map snd map] in *. rewrite total_bytes_cons in Ht.
    pose proof (total_bytes_nonneg s) as Htn. pose proof (zlen_nonneg (t_mem t)) as Hm. pose proof (zlen_nonneg pre) as Hpn.
    rewrite (v1_load1_meta mmap _ name t off done).
    + cbn [rbind]. rewrite app_assoc. rewrite (IH (pre ++ t_mem t) (off + t_bytes t) (done ++ [loaded1 (name, t)])).
      * rewrite <- app_assoc. reflexivity.
      * rewrite map_app. cbn [map fst loaded1]. rewrite <- app_assoc. exact Hnd.
      * intros m u Hu; apply (Hw m u); right; exact Hu.
      * intros m u Hu; apply (Hp m u); right; exact Hu.
      * rewrite zlen_app. unfold t_bytes. lia.
      * unfold t_bytes. lia.
    + apply (Hw name t); left; reflexivity.
    + apply (Hp name t); left; reflexivity.
    + lia.
    + apply bytes_at_mid; [exact Hoff | reflexivity].
    + cbn [map fst] in Hnd. apply NoDup_remove_2 in Hnd. intro Hin. apply Hnd. apply in_or_app; left; exact Hin.
Qed.

Lemma snames_total s :
  24 * zlen s + fold_right (fun p a => zlen (fst p) + a) 0 s = descs_len s.
Proof.
  induction s as [|p s IH]; [reflexivity|].
  rewrite zlen_cons. cbn [fold_right descs_len]. unfold desc_len. lia.
Qed.

Lemma descs_len_ge s : Z.of_nat (length s) * 24 <= descs_len s.
Proof.
  induction s as [|p s IH]; cbn [length descs_len]; [lia|].
  unfold desc_len. pose proof (zlen_nonneg (fst p)). lia.
Qed.

(** The bytes the V1 writer produces for a savable store. *)
Lemma v1_write_savable s :
  savable_v1 s ->
  v1_write s = ROk ((le_bytes 4 v1_magic ++ le_bytes 8 (descs_len s)) ++
                    v1_descs s (12 + descs_len s) ++ flat_map (fun p => t_mem (snd p)) s).
Proof.
  intros [Hmap Hw Hnum Hn Ht Hsn].
  rewrite <- descs_len_spec in Ht.
  pose proof (total_bytes_nonneg s) as Htn. pose proof (descs_len_nonneg s) as Hdn.
  unfold v1_write. rewrite all_data_whole by (intros n t Hin; apply (wh_offset t (Hw n t Hin))).
  cbn [rbind].
  pose proof (snames_total s) as Hst.
  rewrite v1_desc_total_spec by lia. rewrite Hsn, Hst.
  assert (Hu : to_u64 (12 + descs_len s) = 12 + descs_len s) by (unfold to_u64; apply Z.mod_small; lia).
  rewrite Hu, <- !app_assoc. reflexivity.
Qed.

Theorem v1_round_trip mmap s :
  savable_v1 s ->
  exists file, v1_write s = ROk file /\ v1_read mmap file = ROk (map loaded1 s).
Proof.
  intro Hs. pose proof (v1_write_savable s Hs) as Hwr.
  destruct Hs as [Hmap Hw Hnum Hn Ht Hsn]. rewrite <- descs_len_spec in Ht.
  pose proof (total_bytes_nonneg s) as Htn. pose proof (descs_len_nonneg s) as Hdn.
  eexists. split; [exact Hwr|].
  set (H := le_bytes 4 v1_magic ++ le_bytes 8 (descs_len s)).
  set (data := flat_map (fun p => t_mem (snd p)) s).
  set (DS := v1_descs s (12 + descs_len s)).
  assert (LH : zlen H = 12) by (unfold H; rewrite zlen_app, !zlen_le; reflexivity).
  assert (LDS : zlen DS = descs_len s) by (unfold DS; apply v1_descs_length; exact Hn).
  assert (R1 : read_uint (H ++ DS ++ data) 0 4 = ROk (v1_magic mod 2 ^ 32)).
  { unfold H. rewrite <- !app_assoc. apply (read_uint_mid [] 4 v1_magic). reflexivity. }
  assert (R2 : read_uint (H ++ DS ++ data) 4 8 = ROk (descs_len s)).
  { unfold H. rewrite <- !app_assoc. rewrite (read_uint_mid _ 8 (descs_len s)) by (rewrite zlen_le; reflexivity).
    rewrite Z.mod_small; [reflexivity|]. change (256 ^ Z.of_nat 8) with (2 ^ 64). lia. }
  unfold v1_read. rewrite R1. cbn [rbind]. rewrite to_i32_small by (unfold v1_magic; lia).
  rewrite Z.eqb_refl. cbn [negb]. rewrite R2. cbn [rbind].
  assert (Hfuel : (length s < S (length (H ++ DS ++ data)))%nat).
  { pose proof (descs_len_ge s). unfold zlen in LDS. rewrite !app_length. lia. }
  assert (Hpost : forall post, v1_parse (S (length (H ++ DS ++ data))) (H ++ DS ++ post) 12 (12 + descs_len s) []
                  = ROk (metas_of s (12 + descs_len s))).
  { intro post. rewrite <- LH at 1. unfold DS.
    rewrite (v1_parse_all s); try assumption; try lia.
    - reflexivity.
    - intros name t Hin. apply (wh_dtype t (Hw name t Hin)).
  }
  assert (Hmem : exists post, (if mmap then ROk (H ++ DS ++ data) else read_bytes (H ++ DS ++ data) 0 (12 + descs_len s))
                 = ROk (H ++ DS ++ post)).
  { destruct mmap; [exists data; reflexivity|]. exists []. rewrite app_nil_r.
    rewrite app_assoc. change ((H ++ DS) ++ data) with ([] ++ (H ++ DS) ++ data).
    apply read_bytes_mid; [reflexivity|]. rewrite zlen_app. lia. }
  destruct Hmem as [post Hmem]. rewrite Hmem. cbn [rbind]. rewrite Hpost. cbn [rbind].
  rewrite app_assoc. unfold data.
  rewrite (v1_load_all mmap s (H ++ DS) (12 + descs_len s) []); try assumption; try lia.
  - reflexivity.
  - rewrite zlen_app. lia.
Qed.

Theorem v1_save_load mmap s :
  savable_v1 s ->
  exists file s', v1_write s = ROk file /\ v1_read mmap file = ROk s' /\ holds_same s s' false.
Proof.
  intro Hs. destruct (v1_round_trip mmap s Hs) as [file [Hw Hr]].
  exists file, (map loaded1 s). split; [exact Hw|]. split; [exact Hr|].
  apply holds_same_map.
  - apply (s1_map s Hs).
  - intros [n t]; reflexivity.
  - intros name t Hin. cbn [loaded1 fst snd new_tensor t_dtype t_mem t_sname t_offset t_shape t_stride].
    split; [reflexivity|]. split; [reflexivity|]. split; [reflexivity|]. split; [reflexivity|].
    split; [apply default_strides_row_major | reflexivity].
Qed.

(** *** Sections of a V1 file *)
Lemma v1_descs_split s : forall i off name t,
  (forall name t, In (name, t) s -> zlen name < 2 ^ 31) ->
  0 <= off -> off + total_bytes s < 2 ^ 64 ->
  nth_error s i = Some (name, t) ->
  exists A B, v1_descs s off = A ++ v1_desc name t (off + total_bytes (firstn i s)) ++ B
    /\ zlen A = descs_len (firstn i s).
Proof.
  induction s as [|[n u] s IH]; intros [|i] off name t Hk H0 Ht Hn; try discriminate.
  - injection Hn as -> ->. exists [], (v1_descs s (to_u64 (off + t_bytes t))).
    cbn [v1_descs firstn app]. cbn [total_bytes fold_right]. rewrite Z.add_0_r.
    split; reflexivity.
  - cbn [nth_error] in Hn. rewrite total_bytes_cons in Ht.
    pose proof (zlen_nonneg (t_mem u)) as Hu. pose proof (total_bytes_nonneg s) as Hs.
    assert (Hto : to_u64 (off + t_bytes u) = off + zlen (t_mem u)).
    { unfold to_u64, t_bytes. apply Z.mod_small. lia. }
    destruct (IH i (off + zlen (t_mem u)) name t) as [A [B [E L]]]; try assumption; try lia.
    { intros m v Hv; apply (Hk m v); right; exact Hv. }
    exists (v1_desc n u off ++ A), B. cbn [v1_descs]. rewrite Hto, E.
    cbn [firstn descs_len]. rewrite total_bytes_cons. split.
    + rewrite <- app_assoc. rewrite Z.add_assoc. reflexivity.
    + rewrite zlen_app, v1_desc_length, L by (apply (Hk n u); left; reflexivity).
      unfold desc_len. cbn [fst]. lia.
Qed.

Theorem v1_sections s file :
  savable_v1 s -> v1_write s = ROk file ->
  sections_ok s file (v1_pos s (length s)) (v1_size_of s file) (v1_offset_of s file).
Proof.
  intros Hs Hw. rewrite (v1_write_savable s Hs) in Hw. apply ROk_inj in Hw.
  destruct Hs as [Hmap Hwh Hnum Hn Ht Hsn]. rewrite <- descs_len_spec in Ht.
  pose proof (total_bytes_nonneg s) as Htn. pose proof (descs_len_nonneg s) as Hdn.
  set (H := le_bytes 4 v1_magic ++ le_bytes 8 (descs_len s)) in *.
  assert (LH : zlen H = 12) by (unfold H; rewrite zlen_app, !zlen_le; reflexivity).
  assert (Hlen : zlen file = 12 + descs_len s + total_bytes s).
  { rewrite <- Hw, !zlen_app, LH, v1_descs_length, zlen_data by exact Hn. lia. }
  assert (Hpos : forall i, v1_pos s i = 12 + descs_len (firstn i s)).
    { intro i. unfold v1_pos. f_equal. }
  assert (F : forall i name t, nth_error s i = Some (name, t) ->
     v1_size_of s file i = zlen (t_mem t) /\
     v1_offset_of s file i = 12 + descs_len s + total_bytes (firstn i s) /\
     bytes_at file (v1_offset_of s file i) (v1_size_of s file i) = Some (t_mem t)).
  { intros i name t Hi.
    destruct (v1_descs_split s i (12 + descs_len s) name t) as [A [B [E L]]]; try assumption; try lia.
    pose proof (zlen_nonneg (t_mem t)) as Hm.
    pose proof (firstn_S_total s i name t Hi) as Hsum.
    pose proof (total_bytes_nonneg (firstn i s)) as Hf.
    pose proof (total_bytes_nonneg (skipn (S i) s)) as Hk.
    assert (Hname : zlen name < 2 ^ 31) by (apply (Hn name t); eapply nth_error_In; exact Hi).
    pose proof (zlen_nonneg name) as Hnn.
    set (o := 12 + descs_len s + total_bytes (firstn i s)) in *.
    assert (Hnth : nth i s ([], mkT 0 [] [] 0 [] []) = (name, t)) by (apply nth_error_nth; exact Hi).
    assert (Hfile : file = (H ++ A) ++ v1_desc name t o ++ (B ++ flat_map (fun p => t_mem (snd p)) s)).
    { rewrite <- Hw, E, <- !app_assoc. reflexivity. }
    assert (LA : zlen (H ++ A) = v1_pos s i) by (rewrite zlen_app, LH, L, Hpos; reflexivity).
    assert (Hdesc : v1_desc name t o =
      le_bytes 4 (zlen name) ++ name ++ le_bytes 8 (t_bytes t) ++ le_bytes 8 o ++ le_bytes 4 (t_dtype t)).
    { apply v1_desc_fields. lia. }
    assert (S1 : v1_size_of s file i = zlen (t_mem t)).
    { unfold v1_size_of. rewrite Hnth. cbn [fst]. rewrite Hfile.
      rewrite (number_at_inside _ _ _ _ 8 (t_bytes t) (4 + zlen name)).
      - unfold t_bytes. apply Z.mod_small. change (256 ^ Z.of_nat 8) with (2 ^ 64). lia.
      - lia.
      - rewrite Hdesc. eexists (le_bytes 4 _ ++ name), _. split; [rewrite <- app_assoc; reflexivity|].
        rewrite zlen_app, !zlen_le. reflexivity. }
    assert (S2 : v1_offset_of s file i = o).
    { unfold v1_offset_of. rewrite Hnth. cbn [fst]. rewrite Hfile.
      rewrite (number_at_inside _ _ _ _ 8 o (12 + zlen name)).
      - apply Z.mod_small. change (256 ^ Z.of_nat 8) with (2 ^ 64). lia.
      - lia.
      - rewrite Hdesc. eexists (le_bytes 4 _ ++ name ++ le_bytes 8 _), _. split; [rewrite <- !app_assoc; reflexivity|].
        rewrite !zlen_app, !zlen_le. lia. }
    split; [exact S1|]. split; [exact S2|].
    rewrite S1, S2. destruct (data_split s i name t Hi) as [P [Q [E2 L2]]].
    assert (Hfile2 : file = (H ++ v1_descs s (12 + descs_len s) ++ P) ++ t_mem t ++ Q).
    { rewrite <- Hw, E2, <- !app_assoc. reflexivity. }
    rewrite Hfile2. apply bytes_at_mid; [|reflexivity].
    rewrite !zlen_app, LH, v1_descs_length, L2 by exact Hn. unfold o. lia. }
  assert (G : forall i, (i < length s)%nat -> exists name t, nth_error s i = Some (name, t)).
  { intros i Hi. destruct (nth_error s i) as [[name t]|] eqn:E; [eauto|].
    apply nth_error_None in E. lia. }
  constructor.
  - intros i Hi. destruct (G i Hi) as [name [t E]]. destruct (F i name t E) as [_ [F2 _]].
    rewrite F2, Hpos, firstn_all. pose proof (total_bytes_nonneg (firstn i s)). lia.
  - intros i Hi. destruct (G i Hi) as [name [t E]]. destruct (F i name t E) as [F1 [F2 _]].
    rewrite F1, F2, Hlen. rewrite (firstn_S_total s i name t E).
    pose proof (total_bytes_nonneg (skipn (S i) s)). lia.
  - intros i j [Hij Hj]. destruct (G i) as [name [t E]]; [lia|]. destruct (G j Hj) as [name' [t' E']].
    destruct (F i name t E) as [F1 [F2 _]]. destruct (F j name' t' E') as [_ [F2' _]].
    rewrite F1, F2, F2'. pose proof (total_firstn_mono s i j name t E Hij). lia.
  - intros i name t E. destruct (F i name t E) as [F1 [_ F3]]. split; assumption.
Qed.
