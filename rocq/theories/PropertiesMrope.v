(** Properties of the rotary embeddings of the vision-language models: C122 and C123. *)
From Coq Require Import Reals Lra Psatz.
From Verif Require Import Base DTypeModel ParamModel ParamSpec ParamProofs TensorModel TensorSpec TensorProofs TensorSplit
  OpsModel OpsSpec OpsProofs OpsIndex OpsSum MatModel MatSpec MatProofs MatKernel MatOps ExpModel ExpProofs
  AttnModel AttnSpec AttnProofs AttnOps NumModel NumSpec NumProofs NumNorm PropertiesAttn PropertiesNum
  RopeModel RopeSpec RopeProofs RopeOps RopeTables RopeMath VlModel VlSpec VlProofs PropertiesVl MropeModel MropeSpec MropeProofs.
Local Open Scope Z_scope.

Lemma pairs_return lay shape D Sn Cs F out r : r = ROk out -> (exists rest, shape = rest ++ [D]) -> D mod 2 = 0 ->
  turned_pairs lay shape (D / 2) Sn Cs F out -> returns r shape (rope_by_place lay (D / 2) Sn Cs F).
Proof.
  intros E (rest & Es) Ev (H1 & H2 & H3 & H4). exists out. do 4 (split; [assumption|]). intros idx Hi. rewrite H4 by auto.
  replace (last idx 0 <? 2 * (D / 2)) with true; [reflexivity|]. symmetry. apply Z.ltb_lt.
  assert (last idx 0 < D).
  { rewrite Es in Hi. clear - Hi. revert idx Hi. induction rest as [|d rest IH]; intros idx Hi.
    - destruct idx as [|i [|? ?]]; try (apply in_shape_length in Hi; discriminate Hi). apply in_shape_cons in Hi. cbn [last]. lia.
    - destruct idx as [|i idx]; [inversion Hi|]. apply in_shape_cons in Hi. destruct Hi as [_ Hi]. specialize (IH idx Hi). destruct idx; [|exact IH].
      apply in_shape_length in Hi. rewrite app_length in Hi. cbn in Hi. lia. }
  assert (M := Z.div_mod D 2 ltac:(lia)). lia.
Qed.

(* ================= C122 the multimodal rotary embedding operator ================= *)
(** On ARM, with tables of two axes (token, channel): each pair (d, d + D/2) of every row is turned by the angle which
    the tables give for the token's place in the sequence, in both layouts and for any dense rows (transposed views). *)
Theorem C122_mrope : forall lay t sn cs B H S D TS TD F Sn Cs,
  dense_rows t (activation_shape lay B H S D) F -> dense_rows sn [TS; TD] Sn -> dense_rows cs [TS; TD] Cs ->
  S <= TS /\ D / 2 <= TD -> D mod 2 = 0 ->
  returns (mrope_op Arm lay t sn cs) (activation_shape lay B H S D) (rope_by_place lay (D / 2) Sn Cs F).
Proof.
  intros lay t sn cs B H S D TS TD F Sn Cs HT HS HC HB Ev. destruct (mrope_fresh lay t sn cs B H S D TS TD F Sn Cs HT HS HC HB) as (out & E & V).
  eapply pairs_return; [exact E| |exact Ev|exact V]. destruct lay; [exists [B; H; S]|exists [B; S; H]]; reflexivity.
Qed.
(** The angle of channel d for token s: the frequency times the token's position on the axis of the channel's section. *)
Definition axis_angle (S_ s0 s1 : nat) (pos : list Z) (inv : list R) (s d : Z) : R :=
  (nth (Z.to_nat d) inv 0 * IZR (nth (section_axis s0 s1 (Z.to_nat d) * S_ + Z.to_nat s) pos 0%Z))%R.

Lemma table_reals (S_ cols : nat) l f : (length l = S_ * cols)%nat -> (forall s c, (s < S_)%nat -> (c < cols)%nat -> nth_error l (s * cols + c) = Some (f s c)) ->
  dense_rows (reals [Z.of_nat S_; Z.of_nat cols] l) [Z.of_nat S_; Z.of_nat cols] (reals_at [Z.of_nat S_; Z.of_nat cols] l) /\
  forall s d, 0 <= s < Z.of_nat S_ -> 0 <= d < Z.of_nat cols -> reals_at [Z.of_nat S_; Z.of_nat cols] l [s; d] = f (Z.to_nat s) (Z.to_nat d).
Proof.
  intros L V. split.
  - apply contiguous_dense. apply reals_holds; [cbn; lia|repeat constructor; lia|]. unfold zlen, product. cbn [fold_right]. lia.
  - intros s d Hs Hd. unfold reals_at. apply nth_error_nth. rewrite <- (V (Z.to_nat s) (Z.to_nat d)) by lia. f_equal.
    cbn [ravel product fold_right]. unfold product. cbn [fold_right]. nia.
Qed.
(** End to end: the tables which the model makes from the positions, then the operator. *)
Theorem C122_positions : forall lay t (S_ : nat) pos inv s0 s1 s2 B H F b b2 c c2,
  (length pos = 3 * S_)%nat -> (s0 + s1 + s2 = length inv)%nat ->
  (length b = 3 * S_ * (length inv * 2))%nat -> (length b2 = S_ * (length inv * 2))%nat ->
  (length c = 3 * S_ * (length inv * 2))%nat -> (length c2 = S_ * (length inv * 2))%nat ->
  let m := Z.of_nat (length inv) in let S := Z.of_nat S_ in
  dense_rows t (activation_shape lay B H S (2 * m)) F ->
  exists sn cs, mrope (fun f p => f * IZR p)%R sin pos S_ inv [s0; s1; s2] b b2 = ROk sn /\ mrope (fun f p => f * IZR p)%R cos pos S_ inv [s0; s1; s2] c c2 = ROk cs /\
    returns (mrope_op Arm lay t (reals [S; 2 * m] sn) (reals [S; 2 * m] cs)) (activation_shape lay B H S (2 * m))
      (spun_by_place lay m (axis_angle S_ s0 s1 pos inv) F).
Proof.
  intros lay t S_ pos inv s0 s1 s2 B H F b b2 c c2 Hp Hs Hb Hb2 Hc Hc2 m S HT.
  destruct (C103_mrope (fun f p => f * IZR p)%R sin pos S_ inv s0 s1 s2 b b2 Hp Hs Hb Hb2) as (sn & E1 & L1 & V1).
  destruct (C103_mrope (fun f p => f * IZR p)%R cos pos S_ inv s0 s1 s2 c c2 Hp Hs Hc Hc2) as (cs & E2 & L2 & V2).
  exists sn, cs. split; [exact E1|]. split; [exact E2|]. clear E1 E2.
  assert (W : forall tr (l : list R), (forall s c, (s < S_)%nat -> (c < length inv * 2)%nat ->
       exists f p, nth_error inv (c mod length inv) = Some f /\ pos_entry S_ pos (section_axis s0 s1 (c mod length inv)) s = Some p /\
         nth_error l (s * (length inv * 2) + c) = Some (tr (f * IZR p)%R)) ->
     forall s c, (s < S_)%nat -> (c < length inv * 2)%nat -> nth_error l (s * (length inv * 2) + c) =
       Some (tr (axis_angle S_ s0 s1 pos inv (Z.of_nat s) (Z.of_nat (c mod length inv))))).
  { intros tr l V s d Hs' Hd. destruct (V s d Hs' Hd) as (f & p & Ef & Ep & ->). unfold axis_angle, pos_entry in *. rewrite !Nat2Z.id.
    rewrite (nth_error_nth _ _ 0%R Ef), (nth_error_nth _ _ 0%Z Ep). reflexivity. }
  destruct (table_reals S_ (length inv * 2) sn _ L1 (W sin sn V1)) as [T1 T2]. destruct (table_reals S_ (length inv * 2) cs _ L2 (W cos cs V2)) as [T3 T4].
  replace (Z.of_nat (length inv * 2)) with (2 * m) in * by (unfold m; lia). fold S in T1, T2, T3, T4.
  assert (HalfE : 2 * m / 2 = m) by (rewrite Z.mul_comm; apply Z.div_mul; lia).
  destruct (C122_mrope lay t _ _ B H S (2 * m) S (2 * m) F _ _ HT T1 T3) as (out & E & Q1 & Q2 & Q3 & Q4).
  { rewrite HalfE. unfold m. lia. } { rewrite Z.mul_comm. apply Z.mod_mul. lia. }
  exists out. do 4 (split; [assumption|]). intros idx Hi. rewrite Q4 by exact Hi. f_equal. rewrite HalfE.
  apply (by_place_angles lay m _ _ _ F idx B H S (2 * m)); [exact Hi|unfold m; lia|]. intros s d Hs' Hd.
  rewrite T2, T4 by lia. rewrite (Nat.mod_small (Z.to_nat d)) by (unfold m in *; lia). rewrite !Z2Nat.id by lia. auto.
Qed.
(** Row (b, h, s) of the result. *)
Lemma spun_row lay half th F b h s d : row lay (spun_by_place lay half th F) b h s d = spun half (th s) (row lay F b h s) d.
Proof. unfold row, spun_by_place, place. destruct lay; reflexivity. Qed.
(** So attention scores depend only on the differences of positions: shifting the time, the rows or the columns of all
    tokens, each by any amount, changes no inner product of a query with a key. *)
Theorem C122_shift : forall lay tq tk (S_ : nat) pos pos' (r : nat -> Z) inv s0 s1 s2 B Hq Hk Q K b b2,
  (length pos = 3 * S_)%nat -> (length pos' = 3 * S_)%nat -> (s0 + s1 + s2 = length inv)%nat ->
  (length b = 3 * S_ * (length inv * 2))%nat -> (length b2 = S_ * (length inv * 2))%nat ->
  (forall a s, (a < 3)%nat -> (s < S_)%nat -> nth (a * S_ + s) pos' 0 = nth (a * S_ + s) pos 0 + r a) ->
  let m := Z.of_nat (length inv) in let S := Z.of_nat S_ in
  dense_rows tq (activation_shape lay B Hq S (2 * m)) Q -> dense_rows tk (activation_shape lay B Hk S (2 * m)) K ->
  exists sn cs sn' cs' Q1 K1 Q2 K2,
    mrope (fun f p => f * IZR p)%R sin pos S_ inv [s0; s1; s2] b b2 = ROk sn /\ mrope (fun f p => f * IZR p)%R cos pos S_ inv [s0; s1; s2] b b2 = ROk cs /\
    mrope (fun f p => f * IZR p)%R sin pos' S_ inv [s0; s1; s2] b b2 = ROk sn' /\ mrope (fun f p => f * IZR p)%R cos pos' S_ inv [s0; s1; s2] b b2 = ROk cs' /\
    returns (mrope_op Arm lay tq (reals [S; 2 * m] sn) (reals [S; 2 * m] cs)) (activation_shape lay B Hq S (2 * m)) Q1 /\
    returns (mrope_op Arm lay tk (reals [S; 2 * m] sn) (reals [S; 2 * m] cs)) (activation_shape lay B Hk S (2 * m)) K1 /\
    returns (mrope_op Arm lay tq (reals [S; 2 * m] sn') (reals [S; 2 * m] cs')) (activation_shape lay B Hq S (2 * m)) Q2 /\
    returns (mrope_op Arm lay tk (reals [S; 2 * m] sn') (reals [S; 2 * m] cs')) (activation_shape lay B Hk S (2 * m)) K2 /\
    forall i h h' s s', 0 <= i < B -> 0 <= h < Hq -> 0 <= h' < Hk -> 0 <= s < S -> 0 <= s' < S ->
      inner (2 * m) (row lay Q2 i h s) (row lay K2 i h' s') = inner (2 * m) (row lay Q1 i h s) (row lay K1 i h' s').
Proof.
  intros lay tq tk S_ pos pos' r inv s0 s1 s2 B Hq Hk Q K b b2 Hp Hp' Hs Hb Hb2 Hr m S HQ HK.
  destruct (C122_positions lay tq S_ pos inv s0 s1 s2 B Hq Q b b2 b b2 Hp Hs Hb Hb2 Hb Hb2 HQ) as (sn & cs & E1 & E2 & R1).
  destruct (C122_positions lay tk S_ pos inv s0 s1 s2 B Hk K b b2 b b2 Hp Hs Hb Hb2 Hb Hb2 HK) as (sn1 & cs1 & E1' & E2' & R2).
  rewrite E1 in E1'. rewrite E2 in E2'. injection E1' as <-. injection E2' as <-.
  destruct (C122_positions lay tq S_ pos' inv s0 s1 s2 B Hq Q b b2 b b2 Hp' Hs Hb Hb2 Hb Hb2 HQ) as (sn' & cs' & E3 & E4 & R3).
  destruct (C122_positions lay tk S_ pos' inv s0 s1 s2 B Hk K b b2 b b2 Hp' Hs Hb Hb2 Hb Hb2 HK) as (sn1 & cs1 & E3' & E4' & R4).
  rewrite E3 in E3'. rewrite E4 in E4'. injection E3' as <-. injection E4' as <-.
  exists sn, cs, sn', cs'. do 4 eexists. split; [exact E1|]. split; [exact E2|]. split; [exact E3|]. split; [exact E4|]. split; [exact R1|]. split; [exact R2|]. split; [exact R3|]. split; [exact R4|].
  intros i h h' s s' Hi Hh Hh' Hs1 Hs2. fold m. 
  transitivity (inner (2 * m) (spun m (axis_angle S_ s0 s1 pos' inv s) (row lay Q i h s)) (spun m (axis_angle S_ s0 s1 pos' inv s') (row lay K i h' s'))).
  { apply total_ext. intros d _. rewrite !spun_row. reflexivity. }
  transitivity (inner (2 * m) (spun m (axis_angle S_ s0 s1 pos inv s) (row lay Q i h s)) (spun m (axis_angle S_ s0 s1 pos inv s') (row lay K i h' s'))).
  2: { apply total_ext. intros d _. rewrite !spun_row. reflexivity. }
  rewrite !spun_inner by (unfold m; lia). unfold inner. apply total_ext. intros d Hd. apply in_range in Hd. f_equal. apply spun_ext; [|reflexivity|lia].
  intros j Hj. unfold axis_angle. assert (Ax : (section_axis s0 s1 (Z.to_nat j) < 3)%nat).
  { unfold section_axis. destruct (_ <? _)%nat; [lia|]. destruct (_ <? _)%nat; lia. }
  rewrite !Hr by (unfold S in *; lia). rewrite !plus_IZR. ring.
Qed.
(** An odd number of channels: the last channel of every row is left uninitialised (RoPEOp copies it). *)
Theorem C122_odd_refuted : forall lay t sn cs B H S D TS TD F Sn Cs,
  dense_rows t (activation_shape lay B H S D) F -> dense_rows sn [TS; TD] Sn -> dense_rows cs [TS; TD] Cs ->
  S <= TS /\ D / 2 <= TD -> D mod 2 = 1 ->
  exists out, mrope_op Arm lay t sn cs = ROk out /\ forall i j k, in_shape (activation_shape lay B H S D) [i; j; k; D - 1] -> elem out [i; j; k; D - 1] = None.
Proof.
  intros lay t sn cs B H S D TS TD F Sn Cs HT HS HC HB Od. destruct (mrope_fresh lay t sn cs B H S D TS TD F Sn Cs HT HS HC HB) as (out & E & _ & _ & _ & V).
  exists out. split; [exact E|]. intros i j k Hi. rewrite V by exact Hi. cbn [last]. assert (M := Z.div_mod D 2 ltac:(lia)). replace (D - 1 <? 2 * (D / 2)) with false by lia. reflexivity.
Qed.
(** On x86 nothing is computed: the operator returns an uninitialised tensor for every input. *)
Theorem C122_x86_refuted : forall L lay t sn cs n0 n1 n2 D, tensor_ok t -> x_shape t = [n0; n1; n2; D] ->
  returns_nothing (mrope_op (X86 L) lay t sn cs) [n0; n1; n2; D].
Proof.
  intros L lay t sn cs n0 n1 n2 D Ok Es. assert (R1 := ok_rank _ Ok). assert (R2 := ok_dims _ Ok). rewrite Es in R1, R2.
  destruct (@x86_nothing R _ R1 R2) as (out & E & S1 & N). exists out. unfold mrope_op. rewrite Es, E. cbn [rbind]. change (negb (zlen [n0; n1; n2; D] =? 4)) with false.
  change (dim4 [n0; n1; n2; D]) with (ROk (n0, n1, n2, D)). cbn [rbind]. auto.
Qed.
(** Without sections the tables keep the axis of the three coordinates, and the operator aborts. *)
Theorem C122_no_sections_refuted :
  mrope_op Arm BHSD (reals [1; 1; 1; 2] [1%R; 0%R]) (reals [3; 1; 2] (repeat 0%R 6)) (reals [3; 1; 2] (repeat 1%R 6)) = RAbort.
Proof. lazy. reflexivity. Qed.

(* ================= C123 the rotary embedding of the vision encoder ================= *)
Theorem C123_vision : forall t sn cs B S_ H D TS F Sn Cs,
  holds t [B; S_; H; D] F -> holds sn [TS; D / 2] Sn -> holds cs [TS; D / 2] Cs -> S_ <= TS -> D mod 2 = 0 ->
  returns (vision_rope_op Arm t sn cs) [B; S_; H; D] (rope_by_place BSHD (D / 2) Sn Cs F).
Proof.
  intros t sn cs B S_ H D TS F Sn Cs HT HS HC HL Ev. destruct (vision_fresh t sn cs B S_ H D TS F Sn Cs HT HS HC HL) as (out & E & V).
  eapply pairs_return; [exact E|exists [B; S_; H]; reflexivity|exact Ev|exact V].
Qed.
(** The tables of sines and cosines. *)
Theorem C123_tables : forall ang seq dim A, holds ang [seq; dim] A ->
  exists sn cs, visual_sin_cos ang = ROk (sn, cs) /\ holds sn [seq; dim] (fun idx => sin (A idx)) /\ holds cs [seq; dim] (fun idx => cos (A idx)).
Proof. exact sin_cos_ok. Qed.
(** The angle of channel d for a patch at row y and column x of the image: the first frequencies turn by y, the others by x. *)
Definition patch_angle (inv : list R) (yx : nat * nat) (d : Z) : R :=
  let k := Z.of_nat (length inv) in
  if d <? k then (INR (fst yx) * nth (Z.to_nat d) inv 0)%R else (INR (snd yx) * nth (Z.to_nat (d - k)) inv 0)%R.
(** End to end: the angles made from the grid of patches, their sines and cosines, then the operator: the channels of the
    patch at place s turn by the coordinates of the s-th patch. *)
Theorem C123_patches : forall t m g inv B H F b1 b2 b3, whole_blocks m g -> inv <> [] ->
  length b1 = (positions_of g * 2)%nat -> length b2 = (positions_of g * length inv)%nat -> length b3 = (positions_of g * (2 * length inv))%nat ->
  let n := Z.of_nat (positions_of g) in let k := Z.of_nat (length inv) in
  holds t [B; n; H; 4 * k] F ->
  exists ang sn cs, patch_angles (fun i f => INR i * f)%R m [g] inv (positions_of g) b1 b2 b3 = ROk ang /\
    visual_sin_cos (reals [n; 2 * k] ang) = ROk (sn, cs) /\
    returns (vision_rope_op Arm t sn cs) [B; n; H; 4 * k] (spun_by_place BSHD (2 * k) (fun s => patch_angle inv (nth (Z.to_nat s) (patch_cells m g) (0, 0)%nat)) F).
Proof.
  intros t m g inv B H F b1 b2 b3 Hw Hi H1 H2 H3 n k HT.
  assert (E := C99_angles (fun i f => INR i * f)%R m g inv b1 b2 b3 Hw Hi H1 H2 H3).
  set (ang := flat_map (fun yx => map (Rmult (INR (fst yx))) inv ++ map (Rmult (INR (snd yx))) inv) (patch_cells m g)) in *.
  assert (LC : length (patch_cells m g) = positions_of g). { destruct g as [[gt gh] gw]. destruct (C99_order m gt gh gw Hw) as [L _]. rewrite L. unfold positions_of. reflexivity. }
  assert (Va : forall s d, (s < positions_of g)%nat -> (d < 2 * length inv)%nat -> nth_error ang (s * (2 * length inv) + d) = Some (patch_angle inv (nth s (patch_cells m g) (0, 0)%nat) (Z.of_nat d))).
  { rewrite <- LC. unfold ang. clear. induction (patch_cells m g) as [|c cs IH]; intros s d Hs Hd; cbn [length] in Hs; [lia|]. cbn [flat_map].
    assert (L : length (map (Rmult (INR (fst c))) inv ++ map (Rmult (INR (snd c))) inv) = (2 * length inv)%nat) by (rewrite app_length, !map_length; lia).
    destruct s as [|s].
    - rewrite nth_error_app1 by (rewrite L; lia). cbn [nth Nat.mul Nat.add]. unfold patch_angle. cbv zeta. destruct (Z.of_nat d <? Z.of_nat (length inv)) eqn:Q.
      + rewrite nth_error_app1 by (rewrite map_length; lia). rewrite nth_error_map. rewrite Nat2Z.id. rewrite (nth_error_nth' inv 0%R) by lia. reflexivity.
      + rewrite nth_error_app2 by (rewrite map_length; lia). rewrite nth_error_map, map_length. replace (Z.to_nat (Z.of_nat d - Z.of_nat (length inv))) with (d - length inv)%nat by lia.
        rewrite (nth_error_nth' inv 0%R) by lia. reflexivity.
    - rewrite nth_error_app2 by (rewrite L; nia). rewrite L. replace (S s * (2 * length inv) + d - 2 * length inv)%nat with (s * (2 * length inv) + d)%nat by nia.
      rewrite IH by lia. reflexivity. }
  assert (La : length ang = (positions_of g * (2 * length inv))%nat).
  { rewrite <- LC. unfold ang. clear. induction (patch_cells m g) as [|c cs IH]; [reflexivity|]. cbn [flat_map]. rewrite !app_length, !map_length, IH. cbn [length]. nia. }
  assert (K2 : Z.of_nat (2 * length inv) = 2 * k) by (unfold k; lia).
  assert (HA : holds (reals [n; 2 * k] ang) [n; 2 * k] (reals_at [n; 2 * k] ang)).
  { apply reals_holds; [cbn; lia|repeat constructor; unfold n, k; lia|]. unfold zlen, product. cbn [fold_right]. unfold n, k. lia. }
  destruct (table_reals (positions_of g) (2 * length inv) ang _ La Va) as [_ T]. rewrite K2 in T. fold n in T.
  destruct (sin_cos_ok _ _ _ _ HA) as (sn & cs & E2 & S1 & S2). exists ang, sn, cs. split; [exact E|]. split; [exact E2|].
  assert (Hf : 4 * k / 2 = 2 * k) by (replace (4 * k) with (2 * k * 2) by ring; apply Z.div_mul; lia).
  rewrite <- Hf in S1, S2.
  destruct (C123_vision t sn cs B n H (4 * k) n F _ _ HT S1 S2 ltac:(lia)) as (out & E3 & Q1 & Q2 & Q3 & Q4).
  { replace (4 * k) with (2 * k * 2) by ring. apply Z.mod_mul. lia. }
  exists out. do 4 (split; [assumption|]). intros idx Hidx. rewrite Q4 by exact Hidx. f_equal. rewrite Hf.
  apply (by_place_angles BSHD (2 * k) _ _ _ F idx B H n (4 * k)); [exact Hidx|unfold k; lia|]. intros s d Hs Hd.
  replace (4 * k / 2) with (2 * k) in * by (symmetry; exact Hf). rewrite T by lia. rewrite Z2Nat.id by lia. auto.
Qed.
(** So the scores between two patches depend only on how far apart they lie. *)
Theorem C123_relative : forall D inv y x y' x' dy dx q k, let h := 2 * Z.of_nat (length inv) in 2 * h <= D ->
  inner D (spun h (patch_angle inv (y + dy, x + dx)%nat) q) (spun h (patch_angle inv (y' + dy, x' + dx)%nat) k) =
  inner D (spun h (patch_angle inv (y, x)) q) (spun h (patch_angle inv (y', x')) k).
Proof.
  intros D inv y x y' x' dy dx q k h HD. rewrite !spun_inner by (unfold h; lia). unfold inner. apply total_ext. intros d Hd. apply in_range in Hd. f_equal.
  apply spun_ext; [|reflexivity|lia]. intros j Hj. unfold patch_angle. cbv zeta. cbn [fst snd]. destruct (j <? _); rewrite !plus_INR; ring.
Qed.
Theorem C123_odd_refuted : forall t sn cs B S_ H D TS F Sn Cs,
  holds t [B; S_; H; D] F -> holds sn [TS; D / 2] Sn -> holds cs [TS; D / 2] Cs -> S_ <= TS -> D mod 2 = 1 ->
  exists out, vision_rope_op Arm t sn cs = ROk out /\ forall i j k, in_shape [B; S_; H; D] [i; j; k; D - 1] -> elem out [i; j; k; D - 1] = None.
Proof.
  intros t sn cs B S_ H D TS F Sn Cs HT HS HC HL Od. destruct (vision_fresh t sn cs B S_ H D TS F Sn Cs HT HS HC HL) as (out & E & _ & _ & _ & V).
  exists out. split; [exact E|]. intros i j k Hi. rewrite V by exact Hi. cbn [last]. assert (M := Z.div_mod D 2 ltac:(lia)). replace (D - 1 <? 2 * (D / 2)) with false by lia. reflexivity.
Qed.
Theorem C123_x86_refuted : forall L t sn cs n0 n1 n2 D, tensor_ok t -> x_shape t = [n0; n1; n2; D] ->
  returns_nothing (vision_rope_op (X86 L) t sn cs) [n0; n1; n2; D].
Proof.
  intros L t sn cs n0 n1 n2 D Ok Es. assert (R1 := ok_rank _ Ok). assert (R2 := ok_dims _ Ok). rewrite Es in R1, R2.
  destruct (@x86_nothing R _ R1 R2) as (out & E & S1 & N). exists out. unfold vision_rope_op. rewrite Es, E. cbn [rbind]. change (negb (zlen [n0; n1; n2; D] =? 4)) with false.
  change (dim4 [n0; n1; n2; D]) with (ROk (n0, n1, n2, D)). cbn [rbind]. auto.
Qed.
(** Tables with a column per channel, as the language model's operators take them, are accepted and misread: token 1
    gets the second half of token 0's row. *)
Theorem C123_wide_tables_refuted : exists out,
  vision_rope_op Arm (reals [1; 2; 1; 2] [1%R; 0%R; 1%R; 0%R]) (reals [2; 2] [2%R; 2%R; 3%R; 3%R]) (reals [2; 2] [0%R; 0%R; 0%R; 0%R]) = ROk out /\
  elem out [0; 1; 0; 1] = Some (1 * 2 + 0 * 0)%R /\ rope_by_place BSHD 1 (reals_at [2; 2] [2%R; 2%R; 3%R; 3%R]) (fun _ => 0%R) (reals_at [1; 2; 1; 2] [1%R; 0%R; 1%R; 0%R]) [0; 1; 0; 1] = (1 * 3 + 0 * 0)%R.
Proof. eexists. split; [lazy; reflexivity|]. split; [lazy; reflexivity|]. unfold rope_by_place, rotated. cbn. reflexivity. Qed.

(** Non-contiguous activations are accepted and read as if they were dense. *)
Theorem C123_view_refuted : exists out,
  vision_rope_op Arm (mkTns (mkV [1; 2; 1; 2] [4; 1; 1; 2] 0) (mkBuf 4 (fun i => nth_error [1%R; 2%R; 3%R; 4%R] (Z.to_nat i)))) (reals [2; 1] [0%R; 0%R]) (reals [2; 1] [1%R; 1%R]) = ROk out /\
  elem out [0; 0; 0; 1] = Some (1 * 0 + 2 * 1)%R /\
  elem (mkTns (mkV [1; 2; 1; 2] [4; 1; 1; 2] 0) (mkBuf 4 (fun i => nth_error [1%R; 2%R; 3%R; 4%R] (Z.to_nat i)))) [0; 0; 0; 1] = Some 3%R.
Proof. eexists. split; [lazy; reflexivity|]. split; lazy; reflexivity. Qed.
(** Cases that meet the hypotheses: two tokens, one frequency per axis. *)
Example C122_example : exists sn cs out,
  mrope (fun f p => f * IZR p)%R sin [0; 3; 0; 1; 0; 2]%Z 2 [1%R; 1%R; 1%R] [1; 1; 1]%nat (repeat 0%R 36) (repeat 0%R 12) = ROk sn /\
  mrope (fun f p => f * IZR p)%R cos [0; 3; 0; 1; 0; 2]%Z 2 [1%R; 1%R; 1%R] [1; 1; 1]%nat (repeat 0%R 36) (repeat 0%R 12) = ROk cs /\
  mrope_op Arm BHSD (reals [1; 1; 2; 6] [1%R; 1%R; 1%R; 0%R; 0%R; 0%R; 1%R; 1%R; 1%R; 0%R; 0%R; 0%R]) (reals [2; 6] sn) (reals [2; 6] cs) = ROk out /\
  elem out [0; 0; 1; 0] = Some (cos 3) /\ elem out [0; 0; 1; 1] = Some (cos 1) /\ elem out [0; 0; 1; 5] = Some (sin 2).
Proof.
  set (x := reals [1; 1; 2; 6] [1%R; 1%R; 1%R; 0%R; 0%R; 0%R; 1%R; 1%R; 1%R; 0%R; 0%R; 0%R]).
  assert (HT : dense_rows x [1; 1; 2; 6] (reals_at [1; 1; 2; 6] [1%R; 1%R; 1%R; 0%R; 0%R; 0%R; 1%R; 1%R; 1%R; 0%R; 0%R; 0%R])).
  { apply contiguous_dense. unfold x. holds_reals. }
  destruct (C122_positions BHSD x 2 [0; 3; 0; 1; 0; 2]%Z [1%R; 1%R; 1%R] 1 1 1 1 1 _ (repeat 0%R 36) (repeat 0%R 12) (repeat 0%R 36) (repeat 0%R 12)
    eq_refl eq_refl eq_refl eq_refl eq_refl eq_refl HT) as (sn & cs & E1 & E2 & out & E3 & _ & _ & _ & V).
  exists sn, cs, out. split; [exact E1|]. split; [exact E2|]. split; [exact E3|].
  split; [|split]; (rewrite V by (repeat constructor; lia)); f_equal; unfold spun_by_place, spun, rotated, axis_angle, place, reals_at; cbn; rewrite ?Rmult_1_l, ?Rmult_0_l, ?Rminus_0_r, ?Rplus_0_r; reflexivity.
Qed.
Lemma C122_hypotheses : exists lay (t sn cs : tns R) B H S D TS TD F Sn Cs,
  dense_rows t (activation_shape lay B H S D) F /\ dense_rows sn [TS; TD] Sn /\ dense_rows cs [TS; TD] Cs /\ S <= TS /\ D / 2 <= TD /\ D mod 2 = 0 /\ 0 < B /\ 0 < H /\ 0 < S /\ 0 < D.
Proof.
  exists BHSD, (reals [1; 1; 2; 2] [1%R; 2%R; 3%R; 4%R]), (reals [2; 2] [1%R; 2%R; 3%R; 4%R]), (reals [2; 2] [1%R; 2%R; 3%R; 4%R]), 1, 1, 2, 2, 2, 2.
  do 3 eexists. split; [apply contiguous_dense; holds_reals|]. split; [apply contiguous_dense; holds_reals|]. split; [apply contiguous_dense; holds_reals|]. repeat split; vm_compute; congruence.
Qed.
Lemma C122_odd_hypotheses : exists lay (t sn cs : tns R) B H S D TS TD F Sn Cs,
  dense_rows t (activation_shape lay B H S D) F /\ dense_rows sn [TS; TD] Sn /\ dense_rows cs [TS; TD] Cs /\ S <= TS /\ D / 2 <= TD /\ D mod 2 = 1 /\ in_shape (activation_shape lay B H S D) [0; 0; 1; D - 1].
Proof.
  exists BHSD, (reals [1; 1; 2; 1] [1%R; 2%R]), (reals [2; 2] [1%R; 2%R; 3%R; 4%R]), (reals [2; 2] [1%R; 2%R; 3%R; 4%R]), 1, 1, 2, 1, 2, 2.
  do 3 eexists. split; [apply contiguous_dense; holds_reals|]. split; [apply contiguous_dense; holds_reals|]. split; [apply contiguous_dense; holds_reals|].
  split; [lia|]. split; [vm_compute; congruence|]. split; [reflexivity|]. repeat constructor; lia.
Qed.
Example C123_example : exists ang sn cs out,
  patch_angles (fun i f => INR i * f)%R 1 [(1, 1, 2)%nat] [1%R] 2 (repeat 0%nat 4) (repeat 0%R 2) (repeat 0%R 4) = ROk ang /\
  visual_sin_cos (reals [2; 2] ang) = ROk (sn, cs) /\
  vision_rope_op Arm (reals [1; 2; 1; 4] [1%R; 1%R; 0%R; 0%R; 1%R; 1%R; 0%R; 0%R]) sn cs = ROk out /\
  elem out [0; 1; 0; 0] = Some 1%R /\ elem out [0; 1; 0; 1] = Some (cos 1) /\ elem out [0; 1; 0; 3] = Some (sin 1).
Proof.
  set (x := reals [1; 2; 1; 4] [1%R; 1%R; 0%R; 0%R; 1%R; 1%R; 0%R; 0%R]).
  assert (HT : holds x [1; 2; 1; 4] (reals_at [1; 2; 1; 4] [1%R; 1%R; 0%R; 0%R; 1%R; 1%R; 0%R; 0%R])) by (unfold x; holds_reals).
  assert (HW : whole_blocks 1 (1, 1, 2)%nat).
  { unfold whole_blocks. do 4 (split; [lia|]). split; [exists 1%nat|exists 2%nat]; reflexivity. }
  destruct (C123_patches x 1 (1, 1, 2)%nat [1%R] 1 1 _ (repeat 0%nat 4) (repeat 0%R 2) (repeat 0%R 4) HW ltac:(discriminate) eq_refl eq_refl eq_refl HT) as (ang & sn & cs & E1 & E2 & out & E3 & _ & _ & _ & V).
  exists ang, sn, cs, out. split; [exact E1|]. split; [exact E2|]. split; [exact E3|].
  split; [|split]; (rewrite V by (repeat constructor; lia)); f_equal; unfold spun_by_place, spun, rotated, patch_angle, place, reals_at; cbn; rewrite ?Rmult_1_l, ?Rmult_0_l, ?Rminus_0_r, ?Rplus_0_r, ?cos_0; reflexivity.
Qed.
Lemma C123_hypotheses : exists (t sn cs : tns R) B S_ H D TS F Sn Cs,
  holds t [B; S_; H; D] F /\ holds sn [TS; D / 2] Sn /\ holds cs [TS; D / 2] Cs /\ S_ <= TS /\ D mod 2 = 0 /\ 0 < B /\ 0 < S_ /\ 0 < H /\ 0 < D.
Proof.
  exists (reals [1; 2; 1; 2] [1%R; 2%R; 3%R; 4%R]), (reals [2; 1] [1%R; 2%R]), (reals [2; 1] [1%R; 2%R]), 1, 2, 1, 2, 2.
  do 3 eexists. change (2 / 2) with 1. split; [holds_reals|]. split; [holds_reals|]. split; [holds_reals|]. repeat split; vm_compute; congruence.
Qed.
Print Assumptions C122_mrope.
Print Assumptions C122_positions.
Print Assumptions C122_shift.
Print Assumptions C122_odd_refuted.
Print Assumptions C122_x86_refuted.
Print Assumptions C122_no_sections_refuted.
Print Assumptions C123_vision.
Print Assumptions C123_tables.
Print Assumptions C123_patches.
Print Assumptions C123_relative.
Print Assumptions C123_odd_refuted.
Print Assumptions C123_x86_refuted.
Print Assumptions C123_wide_tables_refuted.
Print Assumptions C123_view_refuted.
