(** Properties of the Qwen2-VL / Qwen2.5-VL vision pipeline: C99 - C103. *)
From Verif Require Import Base DTypeModel ParamModel TensorModel VlModel VlSpec VlProofs VlGrid VlRot VlPos VlWin VlWin2 VlRope.
From Verif Require AotModel AotProofs AotGraph.
Local Open Scope nat_scope.

(** ** C99: the positions and angles of the patches *)
(** What [patch_cells] is: the patch which is number (jh, jw) of the m x m block of merged row r. *)
Theorem C99_order : forall m t h w, whole_blocks m (t, h, w) ->
  length (patch_cells m (t, h, w)) = t * h * w /\
  Permutation (cells m h w) (list_prod (seq 0 h) (seq 0 w)) /\
  forall r jh jw, r < t * (h / m) * (w / m) -> jh < m -> jw < m ->
    nth (r * (m * m) + jh * m + jw) (patch_cells m (t, h, w)) (0, 0) =
    (axis 1 (merged_cell (h / m) (w / m) r) * m + jh, axis 2 (merged_cell (h / m) (w / m) r) * m + jw).
Proof.
  intros m t h w Hw. split; [rewrite patch_cells_len by exact Hw; reflexivity|].
  destruct Hw as (Hm & Ht & Hh & Hw & [nh Eh] & [nw Ew]). assert (Hnw : 0 < nw) by (destruct nw; lia). assert (Hnh : 0 < nh) by (destruct nh; lia).
  split; [apply (cells_all m h w nh nw); auto|]. intros r jh jw Hr Hjh Hjw.
  assert (E1 : h / m = nh) by (rewrite Eh; apply Nat.div_mul; lia). assert (E2 : w / m = nw) by (rewrite Ew; apply Nat.div_mul; lia).
  rewrite E1, E2 in *. destruct (cell_split t nh nw r Hr) as (ti & hi & wi & H1 & H2 & H3 & Er). rewrite Er at 2 3. rewrite merged_split by auto. cbn [axis].
  unfold patch_cells. assert (L := cells_len m h w nh nw Hm Hnw Eh Ew).
  assert (Bq : (hi * nw + wi) * (m * m) + jh * m + jw < h * w).
  { assert (A := index_bound hi wi nh nw H2 H3). assert (B := index_bound jh jw m m Hjh Hjw).
    assert (C := index_bound (hi * nw + wi) (jh * m + jw) (nh * nw) (m * m) A B). rewrite Eh, Ew. clear - C.
    replace (nh * m * (nw * m)) with (nh * nw * (m * m)) by lia. lia. }
  replace (r * (m * m) + jh * m + jw) with (ti * length (cells m h w) + ((hi * nw + wi) * (m * m) + jh * m + jw)).
  2:{ rewrite L, Er, Eh, Ew. clear. replace (nh * m * (nw * m)) with (nh * nw * (m * m)) by lia. generalize (m * m). intro mm. lia. }
  rewrite nth_concat_repeat by (auto; rewrite L; exact Bq).
  rewrite (cells_enum m h w nh nw Hm Hnw Eh Ew).
  rewrite (nth_indep _ (0, 0) (hcoord m nw 0, wcoord m nw 0)) by (rewrite map_length, seq_length; exact Bq).
  rewrite (map_nth (fun p => (hcoord m nw p, wcoord m nw p))). rewrite seq_nth by exact Bq. cbn [Nat.add].
  destruct (coord_split m nw (hi * nw + wi) jh jw Hjh Hjw) as [-> ->]. rewrite div_mul_add, mod_mul_add by exact H3. reflexivity.
Qed.
Theorem C99_ids : forall m grid b, Forall (whole_blocks m) grid -> length b = total_positions grid * 2 ->
  visual_ids m grid b = ROk (flat_map (fun yx => [fst yx; snd yx]) (flat_map (patch_cells m) grid)).
Proof. intros. apply visual_ids_ok; auto. Qed.
Theorem C99_angles : forall {F : Type} (times : nat -> F -> F) m g (inv : list F) b1 b2 b3, whole_blocks m g -> inv <> [] ->
  length b1 = positions_of g * 2 -> length b2 = positions_of g * length inv -> length b3 = positions_of g * (2 * length inv) ->
  patch_angles times m [g] inv (positions_of g) b1 b2 b3 =
  ROk (flat_map (fun yx => map (times (fst yx)) inv ++ map (times (snd yx)) inv) (patch_cells m g)).
Proof. intros. apply angles_ok; auto. Qed.
(** Only the first row of grid_thw is compared with the number of patches: a second image always aborts. *)
Theorem C99_two_images_refuted : forall {F : Type} (times : nat -> F -> F) m g1 g2 r (inv : list F) b1 b2 b3,
  Forall (whole_blocks m) (g1 :: g2 :: r) -> inv <> [] ->
  let n := total_positions (g1 :: g2 :: r) in
  length b1 = n * 2 -> length b2 = n * length inv -> length b3 = n * (2 * length inv) ->
  patch_angles times m (g1 :: g2 :: r) inv n b1 b2 b3 = RAbort.
Proof.
  intros F times m g1 g2 r inv b1 b2 b3 Hf Hi n H1 H2 H3. unfold patch_angles. rewrite visual_ids_ok by auto. cbn [rbind].
  assert (Pos : forall g, whole_blocks m g -> 0 < positions_of g).
  { intros [[t h] w] (_ & A & B & C & _). unfold positions_of. destruct t, h, w; cbn; lia. }
  assert (P1 := Pos _ (Forall_inv Hf)). assert (P2 := Pos _ (Forall_inv (Forall_inv_tail Hf))).
  assert (En : n = positions_of g1 + (positions_of g2 + total_positions r)) by (unfold n; rewrite !total_cons; reflexivity).
  rewrite (full_ok times inv n b2) by (auto; lia). cbn [rbind]. unfold visual_rotary. fold n.
  replace (length b3 =? n * (2 * length inv)) with true by lia. cbn [negb].
  destruct ((n =? 0) || (length inv =? 0) || (n =? 0)); [reflexivity|]. replace (positions_of g1 =? n) with false by lia. reflexivity.
Qed.
(** A grid which is not made of whole blocks: the last row of a 3 x 2 grid gets position (0, 0). *)
Theorem C99_ragged_refuted : exists b ids, length b = 12 /\ visual_ids 2 [(1, 3, 2)] b = ROk ids /\ ids = [0; 0; 0; 1; 1; 0; 1; 1; 0; 0; 0; 0].
Proof. exists (repeat 9 12). eexists. split; [reflexivity|]. split; [vm_compute; reflexivity|reflexivity]. Qed.
Example C99_example : visual_ids 2 [(1, 2, 4); (2, 2, 2)] (repeat 9 32) =
  ROk [0;0; 0;1; 1;0; 1;1; 0;2; 0;3; 1;2; 1;3; 0;0; 0;1; 1;0; 1;1; 0;0; 0;1; 1;0; 1;1] /\
  patch_angles (fun i f => (i * f)%nat) 2 [(1, 2, 2)] [1; 5] 4 (repeat 9 8) (repeat 9 8) (repeat 9 16) =
  ROk [0;0;0;0; 0;0;1;5; 1;5;0;0; 1;5;1;5].
Proof. split; vm_compute; reflexivity. Qed.
Lemma C99_hypotheses : Forall (whole_blocks 2) [(1, 2, 4); (2, 2, 2)] /\ length (repeat 9 32) = total_positions [(1, 2, 4); (2, 2, 2)] * 2 /\
  length (repeat 9 8) = positions_of (1, 2, 2) * length [1; 5].
Proof.
  split; [|split; reflexivity]. repeat (constructor; [unfold whole_blocks; do 4 (split; [lia|]); split; [exists 1; reflexivity|]|]); [exists 2|exists 1|constructor]; reflexivity.
Qed.

(** ** C100: the positions of the tokens *)
Theorem C100_prefill : forall vtok m pre post t h w b, 0 < m -> ~ In vtok pre ->
  let n := t * (h / m) * (w / m) in let S_ := length pre + n + length post in
  0 < n -> length b = 3 * S_ ->
  exists ids, position_ids_prefill vtok m (pre ++ repeat vtok n ++ post) (t, h, w) b = ROk ids /\ length ids = 3 * S_ /\
  forall a, a < 3 ->
    (forall k, k < length pre -> pos_entry S_ ids a k = Some (Z.of_nat k)) /\
    (forall r, r < n -> pos_entry S_ ids a (length pre + r) = Some (Z.of_nat (length pre + axis a (merged_cell (h / m) (w / m) r)))) /\
    (forall k, k < length post -> pos_entry S_ ids a (length pre + n + k) = Some (Z.of_nat (length pre + Nat.max t (Nat.max (h / m) (w / m)) + k))).
Proof.
  intros vtok m pre post t h w b Hm Hp n S_ Hn Hl. eexists. split; [apply prefill_ok; auto|].
  split; [apply pos_rows_len|]. intros a Ha. unfold pos_entry. unfold S_, n in *. split; [|split].
  - intros k Hk. rewrite pos_rows_nth by lia. apply pos_row_text. exact Hk.
  - intros r Hr. rewrite pos_rows_nth by lia. apply pos_row_image. exact Hr.
  - intros k Hk. rewrite pos_rows_nth by lia. apply pos_row_tail. exact Hk.
Qed.
(** With text after the image, as in the chat template: the generated tokens go on one by one on all three axes. *)
Theorem C100_decode : forall vtok m pre post t h w b k, 0 < m -> ~ In vtok pre -> post <> [] ->
  let n := t * (h / m) * (w / m) in
  0 < n -> length b = 3 * (length pre + n + length post) ->
  (do ids <- position_ids_prefill vtok m (pre ++ repeat vtok n ++ post) (t, h, w) b; decode_steps (S k) ids) =
  let p := Z.of_nat (length pre + Nat.max t (Nat.max (h / m) (w / m)) + length post + k) in ROk [p; p; p].
Proof.
  intros vtok m pre post t h w b k Hm Hp Hq n Hn Hl. assert (E := prefill_ok vtok m pre post t h w b Hm Hp Hn Hl). fold n in E. rewrite E. clear E. cbn [rbind decode_steps].
  set (P := length pre) in *. set (Q := length post) in *. assert (HQ : 0 < Q) by (unfold Q; destruct post; [contradiction|cbn; lia]).
  rewrite (decode_first _ (P + n + Q) (Z.of_nat (P + Nat.max t (Nat.max (h / m) (w / m)) + (Q - 1)))).
  - cbn [rbind]. rewrite decode_small. cbv zeta.
    replace (Z.of_nat (P + Nat.max t (Nat.max (h / m) (w / m)) + (Q - 1)) + 1 + Z.of_nat k)%Z
      with (Z.of_nat (P + Nat.max t (Nat.max (h / m) (w / m)) + Q + k)) by lia. reflexivity.
  - lia.
  - apply pos_rows_len.
  - replace (P + n + Q - 1) with (0 * (P + n + Q) + (P + n + (Q - 1))) by lia. unfold n. rewrite pos_rows_nth by lia. apply pos_row_tail. lia.
Qed.
(** No text after the image: decoding goes on from the temporal axis only, and repeats positions of the image. *)
Theorem C100_no_tail_refuted : forall vtok m pre t h w b, 0 < m -> ~ In vtok pre ->
  let n := t * (h / m) * (w / m) in
  0 < n -> length b = 3 * (length pre + n) -> t < h / m ->
  exists ids, position_ids_prefill vtok m (pre ++ repeat vtok n ++ []) (t, h, w) b = ROk ids /\
    decode_steps 1 ids = (let p := Z.of_nat (length pre + t) in ROk [p; p; p]) /\
    exists r, r < n /\ pos_entry (length pre + n) ids 1 (length pre + r) = Some (Z.of_nat (length pre + t)).
Proof.
  intros vtok m pre t h w b Hm Hp n Hn Hl Ht. eexists. split; [apply prefill_ok; auto; cbn [length]; fold n; lia|].
  set (P := length pre) in *. cbn [length]. assert (D : 0 < t /\ 0 < h / m /\ 0 < w / m). { unfold n in Hn. clear - Hn. destruct t, (h / m), (w / m); cbn in *; lia. }
  split.
  - cbn [decode_steps]. rewrite (decode_first _ (P + n + 0) (Z.of_nat (P + (t - 1)))).
    + cbn [rbind]. replace (Z.of_nat (P + (t - 1)) + 1)%Z with (Z.of_nat (P + t)) by lia. reflexivity.
    + lia.
    + apply pos_rows_len.
    + replace (P + n + 0 - 1) with (0 * (P + n + 0) + (P + (n - 1))) by lia. unfold n. rewrite pos_rows_nth by (fold n; lia). fold n.
      rewrite pos_row_image by (fold n; lia). f_equal. f_equal. f_equal.
      assert (En : n - 1 = (t - 1) * (h / m * (w / m)) + (h / m - 1) * (w / m) + (w / m - 1)).
      { unfold n. clear - D. destruct t as [|t]; [lia|]. destruct (h / m) as [|h']; [lia|]. destruct (w / m) as [|w']; [lia|].
        cbn [Nat.sub]. rewrite !Nat.sub_0_r. lia. }
      rewrite En, merged_split by lia. reflexivity.
  - exists (0 * (h / m * (w / m)) + t * (w / m) + 0). assert (B := cell_lt t (h / m) (w / m) 0 t 0 ltac:(lia) Ht ltac:(lia)). split; [exact B|].
    unfold pos_entry. replace (P + n) with (P + n + 0) by lia. unfold n. rewrite pos_rows_nth by (fold n; fold n in B; lia). rewrite pos_row_image by exact B.
    rewrite merged_split by lia. reflexivity.
Qed.
Example C100_example : exists ids, position_ids_prefill 7 2 [1; 2; 7; 7; 7; 7; 7; 7; 3; 4]%Z (1, 4, 6) (repeat 99%Z 30) = ROk ids /\
  ids = [0; 1; 2; 2; 2; 2; 2; 2; 5; 6; 0; 1; 2; 2; 2; 3; 3; 3; 5; 6; 0; 1; 2; 3; 4; 2; 3; 4; 5; 6]%Z /\ decode_steps 2 ids = ROk [8; 8; 8]%Z.
Proof. eexists. split; [vm_compute; reflexivity|]. split; vm_compute; reflexivity. Qed.
Lemma C100_hypotheses : ~ In 7%Z [1; 2]%Z /\ [3; 4]%Z <> [] /\ 0 < 1 * (4 / 2) * (6 / 2) /\
  length (repeat 99%Z 30) = 3 * (length [1; 2]%Z + 1 * (4 / 2) * (6 / 2) + length [3; 4]%Z) /\ 1 < 4 / 2.
Proof. split; [cbn; lia|]. split; [discriminate|]. split; [cbn; lia|]. split; [reflexivity|cbn; lia]. Qed.

(** ** C101: the image's place in the message *)
Theorem C101_pads : forall pad pre post g, ~ In pad pre -> 0 < positions_of g / 4 ->
  expand_pads pad (pre ++ pad :: post) g = ROk (pre ++ repeat pad (positions_of g / 4) ++ post).
Proof. intros. apply expand_ok; auto. Qed.
(** From the message to the rows of the language model: the rows of the pads are replaced by the visual rows, in order,
    and no other row changes. *)
Theorem C101_insert : forall {R : Type} pad pre post g (rows visual : list R), ~ In pad pre -> 0 < positions_of g / 4 ->
  length rows = length pre + positions_of g / 4 + length post -> length visual = positions_of g / 4 ->
  exists out, (do ids <- expand_pads pad (pre ++ pad :: post) g; insert_visual pad ids rows visual) = ROk out /\ length out = length rows /\
    forall k, nth_error out k = if (length pre <=? k) && (k <? length pre + length visual) then nth_error visual (k - length pre) else nth_error rows k.
Proof.
  intros R pad pre post g rows visual Hp Hn Hr Hv. rewrite expand_ok by auto. cbn [rbind]. set (n := positions_of g / 4) in *. set (P := length pre) in *.
  assert (E : rows = firstn P rows ++ firstn n (skipn P rows) ++ skipn n (skipn P rows)) by (rewrite (firstn_skipn n), (firstn_skipn P); reflexivity).
  assert (L1 : length (firstn P rows) = P) by (rewrite firstn_length; lia).
  assert (L2 : length (firstn n (skipn P rows)) = n) by (rewrite firstn_length, skipn_length; lia).
  exists (firstn P rows ++ visual ++ skipn n (skipn P rows)). split; [|split].
  - rewrite E at 1. apply insert_ok; auto. lia.
  - rewrite !app_length, L1, !skipn_length. lia.
  - intro k. destruct (Nat.lt_ge_cases k P) as [C|C].
    + replace (P <=? k) with false by lia. cbn [andb]. rewrite nth_error_app1 by lia. rewrite E at 2. rewrite nth_error_app1 by lia. reflexivity.
    + replace (P <=? k) with true by lia. cbn [andb]. rewrite nth_error_app2, L1 by lia. destruct (Nat.lt_ge_cases k (P + length visual)) as [C2|C2].
      * replace (k <? P + length visual) with true by lia. apply nth_error_app1. lia.
      * replace (k <? P + length visual) with false by lia. rewrite nth_error_app2 by lia. rewrite E at 2.
        rewrite nth_error_app2, L1 by lia. rewrite nth_error_app2, L2 by lia. rewrite Hv. reflexivity.
Qed.
(** Row, position and patches belong together: the r-th inserted row carries the position of merged cell r, which is the
    block of the four patches 4r .. 4r+3 the merger joins into row r. *)
Theorem C101_alignment : forall vtok pre post t h w b, ~ In vtok pre -> whole_blocks 2 (t, h, w) ->
  let n := positions_of (t, h, w) / 4 in let S_ := length pre + n + length post in length b = 3 * S_ ->
  exists ids, (do toks <- expand_pads vtok (pre ++ vtok :: post) (t, h, w); position_ids_prefill vtok 2 toks (t, h, w) b) = ROk ids /\
  forall r, r < n -> exists f y x,
    (pos_entry S_ ids 0 (length pre + r), pos_entry S_ ids 1 (length pre + r), pos_entry S_ ids 2 (length pre + r)) =
      (Some (Z.of_nat (length pre + f)), Some (Z.of_nat (length pre + y)), Some (Z.of_nat (length pre + x))) /\
    f = r * 4 / (h * w) /\
    forall j, j < 4 -> nth (r * 4 + j) (patch_cells 2 (t, h, w)) (0, 0) = (y * 2 + j / 2, x * 2 + j mod 2).
Proof.
  intros vtok pre post t h w b Hp Hw n S_ Hl. assert (Ord := C99_order 2 t h w Hw). destruct Ord as (_ & _ & Ord).
  destruct Hw as (_ & Ht & Hh & Hw & [nh Eh] & [nw Ew]). assert (Hnw : 0 < nw) by (destruct nw; lia). assert (Hnh : 0 < nh) by (destruct nh; lia).
  assert (E1 : h / 2 = nh) by (rewrite Eh; apply Nat.div_mul; lia). assert (E2 : w / 2 = nw) by (rewrite Ew; apply Nat.div_mul; lia).
  assert (En : n = t * (h / 2) * (w / 2)).
  { unfold n, positions_of. rewrite E1, E2, Eh, Ew. replace (t * (nh * 2) * (nw * 2)) with (t * nh * nw * 4) by lia. apply Nat.div_mul. lia. }
  assert (Hn : 0 < n) by (rewrite En, E1, E2; clear - Ht Hnh Hnw; destruct t, nh, nw; cbn; lia).
  rewrite expand_ok by (auto; exact Hn). cbn [rbind]. fold n. unfold S_ in *. clearbody n. subst n.
  destruct (C100_prefill vtok 2 pre post t h w b ltac:(lia) Hp Hn Hl) as (ids & E & _ & Ent). exists ids. split; [exact E|].
  intros r Hr. exists (axis 0 (merged_cell (h / 2) (w / 2) r)), (axis 1 (merged_cell (h / 2) (w / 2) r)), (axis 2 (merged_cell (h / 2) (w / 2) r)).
  split; [|split].
  - destruct (Ent 0 ltac:(lia)) as (_ & I0 & _). destruct (Ent 1 ltac:(lia)) as (_ & I1 & _). destruct (Ent 2 ltac:(lia)) as (_ & I2 & _).
    rewrite (I0 r Hr), (I1 r Hr), (I2 r Hr). reflexivity.
  - unfold merged_cell, axis. rewrite E1, E2, Eh, Ew. replace (nh * 2 * (nw * 2)) with (nh * nw * 4) by lia. symmetry. apply Nat.div_mul_cancel_r; lia.
  - intros j Hj. assert (Bj : j mod 2 < 2) by (apply Nat.mod_upper_bound; lia). assert (Bd : j / 2 < 2) by (apply Nat.div_lt_upper_bound; lia).
    specialize (Ord r (j / 2) (j mod 2) Hr Bd Bj). rewrite <- Ord. f_equal. assert (Dm := Nat.div_mod j 2 ltac:(lia)). lia.
Qed.
(** The template without the pad token (or a vocabulary which lacks it): inserting past the end. *)
Theorem C101_no_pad_refuted : forall pad ids g, ~ In pad ids -> expand_pads pad ids g = RUB.
Proof. intros. unfold expand_pads. rewrite find_first_none by auto. reflexivity. Qed.
Example C101_example : expand_pads 7 [1; 7; 2; 7]%Z (1, 4, 4) = ROk [1; 7; 7; 7; 7; 2; 7]%Z /\
  insert_visual 7 [1; 7; 7; 7; 7; 2; 7]%Z [10; 11; 12; 13; 14; 15; 16] [101; 102; 103; 104] = ROk [10; 101; 102; 103; 104; 15; 16].
Proof. split; vm_compute; reflexivity. Qed.
Lemma C101_hypotheses : ~ In 7%Z [1]%Z /\ whole_blocks 2 (1, 4, 4) /\ 0 < positions_of (1, 4, 4) / 4 /\
  length (repeat 0%Z 21) = 3 * (length [1]%Z + positions_of (1, 4, 4) / 4 + length [2; 7]%Z).
Proof.
  split; [cbn; lia|]. split; [unfold whole_blocks; do 4 (split; [lia|]); split; exists 2; reflexivity|]. split; [cbn; lia|reflexivity].
Qed.

(** ** C102: windows *)
(** [wi] lists the merged cells window by window; in the reordered sequence row k holds patch k mod mm of cell wi[k / mm]. *)
Theorem C102_windows : forall window merge patch gt gh gw, 0 < merge -> 0 < patch -> 0 < window / merge / patch ->
  let V := window / merge / patch in let H := gh / merge in let W := gw / merge in let mm := merge * merge in let n := gt * H * W * mm in
  exists wi cu, window_index window merge patch (gt, gh, gw) = ROk (wi, cu) /\
    Permutation wi (seq 0 (gt * H * W)) /\
    nth_error cu 0 = Some 0 /\ last cu 0 = n /\
    forall b, length b = n * n -> exists mask, window_mask n cu b = ROk mask /\ length mask = n * n /\
      forall r c, r < n -> c < n ->
        exists seen, nth_error mask (r * n + c) = Some seen /\
          (seen = true <-> window_of V H W (nth (r / mm) wi 0) = window_of V H W (nth (c / mm) wi 0)).
Proof.
  intros window merge patch gt gh gw Hm Hp Hv V H W mm n.
  destruct (window_index_ok window merge patch gt gh gw Hm Hp Hv) as (nwh & nww & _ & _ & Bh & Bw & E). fold V H W mm in Bh, Bw, E.
  assert (Hmm : 0 < mm) by (unfold mm; destruct merge; cbn; lia).
  eexists. eexists. split; [exact E|]. split; [apply windows_perm; auto|]. split; [reflexivity|]. split.
  - rewrite seq_S, map_app. cbn [map]. rewrite last_last. cbn [Nat.add].
    assert (A := plen_all V H W gt nwh nww Hv Bh Bw). unfold plen in A. rewrite A. reflexivity.
  - intros b Hb. destruct (mask_ok V H W gt nwh nww Hv Bh Bw mm b Hmm Hb) as (mask & E1 & L & S). exists mask. split; [exact E1|]. split; [exact L|].
    intros r c Hr Hc. destruct (S r c Hr Hc) as [Iff Or]. fold n in Iff, Or. destruct Or as [T|T]; rewrite T in Iff; eexists; (split; [exact T|]).
    + tauto.
    + split; [discriminate|]. intro X. apply Iff in X. discriminate.
Qed.
(** What the sort of the window index gives back, whatever happened to the rows one by one. *)
Theorem C102_restore : forall window merge patch g wi cu rev, 0 < merge -> 0 < patch -> 0 < window / merge / patch ->
  window_index window merge patch g = ROk (wi, cu) -> sorts_by wi rev ->
  forall {R Q : Type} (f : R -> Q) (rows : list R), length rows = length wi ->
  exists rows', gather rows wi = ROk rows' /\ length rows' = length rows /\ gather (map f rows') rev = ROk (map f rows).
Proof.
  intros window merge patch [[gt gh] gw] wi cu rev Hm Hp Hv E Sr R Q f rows L.
  destruct (C102_windows window merge patch gt gh gw Hm Hp Hv) as (wi' & cu' & E' & Pm & _). rewrite E' in E. injection E as -> ->. clear E'.
  set (N := gt * (gh / merge) * (gw / merge)) in *. assert (Lw : length wi = N) by (rewrite (Permutation_length Pm); apply seq_length).
  destruct (reverse_ok wi rev N Pm Sr) as [Lr Rv].
  destruct rows as [|d rows0] eqn:Er.
  { cbn [length] in L. assert (wi = []) by (destruct wi; [reflexivity|discriminate L]). subst wi. cbn in Lw. assert (rev = []) by (destruct rev; [reflexivity|cbn in Lr; lia]). subst rev.
    exists []. repeat split. }
  rewrite <- Er in *. clear Er.
  exists (map (fun i => nth i rows d) wi). split.
  { apply gather_ok. apply Forall_forall. intros i Hi. apply (Permutation_in _ Pm) in Hi. apply in_seq in Hi. lia. }
  split; [rewrite map_length; lia|]. rewrite map_map. rewrite (gather_ok _ rev (f d)).
  - f_equal. apply (nth_ext _ _ (f d) (f d)); [rewrite !map_length; lia|]. intros k Hk. rewrite map_length, Lr in Hk.
    set (D := map (fun x => f (nth x rows d)) wi). rewrite (nth_indep _ (f d) (nth 0 D (f d))) by (rewrite map_length; lia). rewrite (map_nth (fun i => nth i D (f d))).
    destruct (Rv k Hk) as [B1 B2]. unfold D. rewrite (nth_indep _ (f d) (f (nth 0 rows d))) by (rewrite map_length; lia).
    rewrite (map_nth (fun x => f (nth x rows d))), B2. symmetry. apply map_nth.
  - apply Forall_forall. intros i Hi. rewrite map_length. destruct (In_nth _ _ 0 Hi) as (k & Hk & <-). rewrite Lr in Hk. destruct (Rv k Hk). lia.
Qed.
(** A 6 x 10 grid with windows of 2 x 2 merged cells. *)
Example C102_example : exists cu, window_index 8 2 2 (1, 6, 10) = ROk ([0; 1; 5; 6; 2; 3; 7; 8; 4; 9; 10; 11; 12; 13; 14], cu) /\ cu = [0; 16; 32; 40; 48; 56; 60].
Proof. eexists. split; [vm_compute; reflexivity|reflexivity]. Qed.
Definition ex_rev := [0; 1; 4; 5; 8; 2; 3; 6; 7; 9; 10; 11; 12; 13; 14].
Lemma C102_hypotheses : 0 < 8 / 2 / 2 /\ 0 < 112 / 2 / 14 /\ sorts_by [0; 1; 5; 6; 2; 3; 7; 8; 4; 9; 10; 11; 12; 13; 14] ex_rev.
Proof.
  split; [cbn; lia|]. split; [vm_compute; lia|]. assert (Perm : Permutation ex_rev (seq 0 15)).
  { apply NoDup_Permutation_bis; [|cbn; lia|].
    - unfold ex_rev. repeat (constructor; [cbn; lia|]). constructor.
    - intros x I. cbn in I. apply in_seq. lia. }
  split; [exact Perm|]. intros i j Hij Hj. cbn [length ex_rev] in Hj.
  assert (K : forall k, k < 15 -> nth (nth k ex_rev 0) [0; 1; 5; 6; 2; 3; 7; 8; 4; 9; 10; 11; 12; 13; 14] 0 = k).
  { intros k Hk. do 15 (destruct k as [|k]; [reflexivity|]). lia. }
  rewrite !K by lia. lia.
Qed.

(** ** C103: the rotary embedding of the language model *)
Theorem C103_mrope : forall {F : Type} (angle : F -> Z -> F) (trig : F -> F) pos S_ (inv : list F) s0 s1 s2 b b2,
  length pos = 3 * S_ -> s0 + s1 + s2 = length inv -> length b = 3 * S_ * (length inv * 2) -> length b2 = S_ * (length inv * 2) ->
  exists out, mrope angle trig pos S_ inv [s0; s1; s2] b b2 = ROk out /\ length out = S_ * (length inv * 2) /\
  forall s c, s < S_ -> c < length inv * 2 ->
    exists f p, nth_error inv (c mod length inv) = Some f /\ pos_entry S_ pos (section_axis s0 s1 (c mod length inv)) s = Some p /\
      nth_error out (s * (length inv * 2) + c) = Some (trig (angle f p)).
Proof.
  intros F angle trig pos S_ inv s0 s1 s2 b b2 Hp Hs Hb Hb2. destruct inv as [|f0 inv0] eqn:Ei.
  - cbn [length] in *. exists []. split; [|split; [rewrite Nat.mul_0_r; reflexivity|lia]].
    unfold mrope, mrope_tmp. cbn [length Nat.mul]. rewrite Nat.mul_0_r in *. rewrite Hb, Hb2. cbn [Nat.eqb negb].
    assert (b = []) by (destruct b; [reflexivity|discriminate]). assert (b2 = []) by (destruct b2; [reflexivity|discriminate]). subst b b2.
    assert (s0 = 0) by lia. assert (s1 = 0) by lia. assert (s2 = 0) by lia. subst s0 s1 s2. cbn [AotModel.for_up rbind length app start_cols].
    assert (L : forall (g : nat -> nat -> list F -> res (list F)) n k, for_up n k (fun row b2 => for_up 0 0 (g row) b2) [] = ROk []).
    { intros g n. induction n as [|n IH]; intro k; cbn [AotModel.for_up rbind]; [reflexivity|]. apply IH. }
    cbn [rd nth_error rbind Nat.add]. do 6 (rewrite L; cbn [rbind rd nth_error]). cbn [length]. rewrite Nat.mul_0_r. reflexivity.
  - rewrite <- Ei in *. assert (Hi : 0 < length inv) by (rewrite Ei; cbn; lia). clear Ei.
    eexists. split; [apply (mrope_ok angle trig f0); auto|]. split.
    { rewrite (AotGraph.flat_map_len _ (length inv * 2)), seq_length; [reflexivity|]. intros x _. rewrite map_length, seq_length. reflexivity. }
    intros s c Hs' Hc. assert (M : c mod length inv < length inv) by (apply Nat.mod_upper_bound; lia).
    exists (nth (c mod length inv) inv f0), (nth (section_axis s0 s1 (c mod length inv) * S_ + s) pos 0%Z).
    assert (Ax : section_axis s0 s1 (c mod length inv) < 3) by (unfold section_axis; destruct (_ <? s0); [lia|]; destruct (_ <? s0 + s1); lia).
    split; [apply nth_error_nth'; exact M|]. split; [unfold pos_entry; apply nth_error_nth'; rewrite Hp; apply index_bound; auto|].
    rewrite (nth_error_flat _ (length inv * 2)); [|apply Forall_forall; intros x _; rewrite map_length, seq_length; reflexivity|exact Hc].
    rewrite nth_error_seq by exact Hs'. cbn [Nat.add]. rewrite nth_error_map_seq by exact Hc. reflexivity.
Qed.
(** Tokens of text, which have the same position on the three axes, get the ordinary rotary embedding of that position. *)
Theorem C103_text : forall {F : Type} (angle : F -> Z -> F) (trig : F -> F) pos S_ (inv : list F) s0 s1 s2 b b2 s p,
  length pos = 3 * S_ -> s0 + s1 + s2 = length inv -> length b = 3 * S_ * (length inv * 2) -> length b2 = S_ * (length inv * 2) ->
  s < S_ -> (forall a, a < 3 -> pos_entry S_ pos a s = Some p) ->
  exists out, mrope angle trig pos S_ inv [s0; s1; s2] b b2 = ROk out /\
    firstn (length inv * 2) (skipn (s * (length inv * 2)) out) = map (fun f => trig (angle f p)) (inv ++ inv).
Proof.
  intros F angle trig pos S_ inv s0 s1 s2 b b2 s p Hp Hs Hb Hb2 Hss Same.
  destruct (C103_mrope angle trig pos S_ inv s0 s1 s2 b b2 Hp Hs Hb Hb2) as (out & E & L & V). exists out. split; [exact E|].
  set (w := length inv * 2) in *. assert (Bw : s * w + w <= length out). { rewrite L. assert (s * w + w <= S_ * w); [|auto]. replace (s * w + w) with ((s + 1) * w) by lia. apply Nat.mul_le_mono_r. lia. }
  apply nth_error_ext. intro k. destruct (Nat.lt_ge_cases k w) as [Hk|Hk].
  - assert (E1 : nth_error (firstn w (skipn (s * w) out)) k = nth_error out (s * w + k)).
    { rewrite <- (firstn_skipn (s * w) out) at 2. assert (Lf : length (firstn (s * w) out) = s * w) by (rewrite firstn_length; lia).
      rewrite nth_error_app2 by lia. rewrite Lf. replace (s * w + k - s * w) with k by lia.
      rewrite <- (firstn_skipn w (skipn (s * w) out)) at 2. rewrite nth_error_app1; [reflexivity|]. rewrite firstn_length, skipn_length. lia. }
    rewrite E1. destruct (V s k Hss Hk) as (f & q & Ef & Eq & ->).
    assert (Ax : section_axis s0 s1 (k mod length inv) < 3) by (unfold section_axis; destruct (_ <? s0); [lia|]; destruct (_ <? s0 + s1); lia).
    rewrite Same in Eq by exact Ax. injection Eq as <-. rewrite nth_error_map.
    destruct (Nat.lt_ge_cases k (length inv)) as [C|C].
    + rewrite nth_error_app1 by exact C. rewrite Nat.mod_small in Ef by exact C. rewrite Ef. reflexivity.
    + rewrite nth_error_app2 by exact C. assert (M : k mod length inv = k - length inv).
      { symmetry. apply (Nat.mod_unique k (length inv) 1); unfold w in Hk; lia. }
      rewrite M in Ef. rewrite Ef. reflexivity.
  - transitivity (@None F); [|symmetry]; apply nth_error_None; [rewrite firstn_length; lia|rewrite map_length, app_length; unfold w in Hk; lia].
Qed.
(** Two sections: the copies of the sections are numbered modulo 3, so the two halves of a row are turned by different
    axes (section 0 by axis 0 in the first half and by axis 2 in the second). *)
Theorem C103_two_sections_refuted : exists pos b b2 out, mrope (fun f p => (f * p)%Z) (fun x => x) pos 1 [1; 10]%Z [1; 1] b b2 = ROk out /\
  pos = [5; 6; 7]%Z /\ out = [5; 60; 7; 50]%Z.
Proof. exists [5; 6; 7]%Z, (repeat 0%Z 12), (repeat 0%Z 4). eexists. split; [vm_compute; reflexivity|]. split; reflexivity. Qed.
Example C103_example : mrope (fun f p => (f * p)%Z) (fun x => x) [5; 1; 6; 1; 7; 1]%Z 2 [1; 10; 100]%Z [1; 1; 1] (repeat 0%Z 36) (repeat 0%Z 12) =
  ROk [5; 60; 700; 5; 60; 700; 1; 10; 100; 1; 10; 100]%Z.
Proof. vm_compute. reflexivity. Qed.
Lemma C103_hypotheses : length [5; 1; 6; 1; 7; 1]%Z = 3 * 2 /\ 1 + 1 + 1 = length [1; 10; 100]%Z /\ length (repeat 0%Z 36) = 3 * 2 * (length [1; 10; 100]%Z * 2) /\
  length (repeat 0%Z 12) = 2 * (length [1; 10; 100]%Z * 2) /\ (forall a, a < 3 -> pos_entry 2 [5; 1; 6; 1; 7; 1]%Z a 1 = Some 1%Z).
Proof. do 4 (split; [reflexivity|]). intros a Ha. do 3 (destruct a as [|a]; [reflexivity|]). lia. Qed.

Print Assumptions C99_order.
Print Assumptions C99_ids.
Print Assumptions C99_angles.
Print Assumptions C99_two_images_refuted.
Print Assumptions C99_ragged_refuted.
Print Assumptions C100_prefill.
Print Assumptions C100_decode.
Print Assumptions C100_no_tail_refuted.
Print Assumptions C101_pads.
Print Assumptions C101_insert.
Print Assumptions C101_alignment.
Print Assumptions C101_no_pad_refuted.
Print Assumptions C102_windows.
Print Assumptions C102_restore.
Print Assumptions C103_mrope.
Print Assumptions C103_text.
Print Assumptions C103_two_sections_refuted.
