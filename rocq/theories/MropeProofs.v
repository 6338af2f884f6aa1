(** Proofs about the rotary embeddings of the vision-language models. *)
From Coq Require Import Reals Lra Psatz.
From Verif Require Import Base DTypeModel ParamModel ParamSpec ParamProofs TensorModel TensorSpec TensorProofs TensorSplit
  OpsModel OpsSpec OpsProofs OpsIndex OpsSum MatModel MatSpec MatProofs MatKernel MatOps ExpModel ExpProofs
  AttnModel AttnSpec AttnProofs AttnOps NumModel NumSpec NumProofs NumNorm RopeModel RopeSpec RopeProofs RopeOps RopeTables RopeMath
  MropeModel MropeSpec.
Local Open Scope Z_scope.

(** A table of two axes seen with a batch axis of stride 0. *)
Definition batched (B : Z) (T : tns R) : tns R :=
  mkTns (mkV (B :: x_shape T) (0 :: x_stride T) (x_offset T)) (x_buf T).
Lemma batched_address B T b idx : address (x_view (batched B T)) (b :: idx) = address (x_view T) idx.
Proof. unfold address, batched. cbn [x_view v_offset v_stride combine map fold_right fst snd]. change (v_offset (x_view T)) with (x_offset T). change (v_stride (x_view T)) with (x_stride T). ring. Qed.
Lemma batched_dense B T TS TD V : 0 <= B -> dense_rows T [TS; TD] V -> dense_rows (batched B T) [B; TS; TD] (fun idx => V (tl idx)).
Proof.
  intros HB [h1 h2 h3 h4]. constructor.
  - cbn. rewrite h1. reflexivity.
  - destruct h2 as [R1 R2 R3 R4]. rewrite h1 in *. constructor.
    + change (x_shape (batched B T)) with (B :: x_shape T). rewrite h1. cbn. lia.
    + change (x_shape (batched B T)) with (B :: x_shape T). change (x_stride (batched B T)) with (0 :: x_stride T). rewrite h1. cbn [length] in *. lia.
    + change (x_shape (batched B T)) with (B :: x_shape T). rewrite h1. constructor; auto.
    + change (x_shape (batched B T)) with (B :: x_shape T). rewrite h1. intros idx Hi. destruct idx as [|b idx]; [inversion Hi|]. apply in_shape_cons in Hi. destruct Hi as [_ Hi].
      rewrite batched_address. apply R4. exact Hi.
  - change (x_stride (batched B T)) with (0 :: x_stride T). assert (E := ok_stride _ h2). rewrite h1 in E. destruct (x_stride T) as [|s st]; [discriminate E|exact h3].
  - intros idx Hi. destruct idx as [|b idx]; [inversion Hi|]. apply in_shape_cons in Hi. destruct Hi as [_ Hi]. unfold elem. rewrite batched_address. cbn [tl]. apply h4. exact Hi.
Qed.

(** What the loops leave in a fresh output: the turned pairs; a last column without partner is not written. *)
Definition turned_pairs (lay : layout) (shape : list Z) (half : Z) (Sn Cs F : list Z -> R) (out : tns R) : Prop :=
  x_shape out = shape /\ tensor_ok out /\ owns_storage out /\
  forall idx, in_shape shape idx -> elem out idx = if last idx 0 <? 2 * half then Some (rope_by_place lay half Sn Cs F idx) else None.

Section Fresh.
Context (lay : layout) (t sn cs : tns R) (B H S D TS TD : Z) (F Sn Cs : list Z -> R).
Hypothesis HT : dense_rows t (activation_shape lay B H S D) F.
Hypothesis HS : dense_rows sn [TS; TD] Sn.
Hypothesis HC : dense_rows cs [TS; TD] Cs.
Hypothesis HTab : S <= TS /\ D / 2 <= TD.
Let shape := activation_shape lay B H S D.
Let ov := mkV shape (default_strides shape) 0.
Let o0 : buf R := mkBuf (product shape) (fun _ => None).
Let half := D / 2.
Let n1 := match lay with BHSD => H | BSHD => S end.
Let n2 := match lay with BHSD => S | BSHD => H end.
Let pos (i j k : Z) : list Z := match lay with BHSD => [k] | BSHD => [j] end.

Lemma fresh_pairs : exists o,
  zloop B (fun i => zloop n1 (fun j => zloop n2 (fun k o => rotate_row Arm false (x_buf t) (address (x_view t) [i; j; k; 0]) (address ov [i; j; k; 0]) half
     (x_buf sn) (address (x_view sn) (pos i j k ++ [0])) (x_buf cs) (address (x_view cs) (pos i j k ++ [0])) o))) o0 = ROk o /\
  turned_pairs lay shape half Sn Cs F (mkTns ov o).
Proof using HT HS HC HTab.
  destruct (dims_nonneg lay t B H S D F HT) as (DB & DH & DS & DD).
  assert (Hh : 0 <= half /\ 2 * half <= D). { unfold half. assert (M := Z.div_mod D 2 ltac:(lia)). assert (N := Z.mod_pos_bound D 2 ltac:(lia)). lia. }
  assert (R1 := ok_rank _ (dr_ok _ _ _ HT)). assert (R2 := ok_dims _ (dr_ok _ _ _ HT)). rewrite (dr_shape _ _ _ HT) in R1, R2. fold shape in R1, R2.
  assert (L4 : length shape = 4%nat) by (unfold shape, activation_shape; destruct lay; reflexivity).
  assert (V1 : v_shape ov = shape) by reflexivity.
  assert (V2 : length (v_stride ov) = 4%nat) by (cbn [v_stride ov]; rewrite default_strides_length; exact L4).
  assert (V3 : last (v_stride ov) 0 = 1) by (cbn [v_stride ov]; apply default_strides_last; intro Q; rewrite Q in L4; discriminate).
  assert (V4 : forall idx, in_shape shape idx -> 0 <= address ov idx < b_len o0).
  { intros idx Hi. unfold ov. rewrite default_address by (apply in_shape_length; auto). cbn [b_len o0]. apply ravel_bounds; auto. }
  assert (V5 : forall i j, in_shape shape i -> in_shape shape j -> address ov i = address ov j -> i = j).
  { intros i j Hi Hj. unfold ov. rewrite !default_address by (apply in_shape_length; auto). apply ravel_inj; auto. }
  assert (VI : false = true -> ov = x_view t /\ o0 = x_buf t) by discriminate.
  assert (HS3 := batched_dense B sn TS TD Sn DB HS). assert (HC3 := batched_dense B cs TS TD Cs DB HC).
  assert (HT3 : B <= B /\ S <= TS /\ half <= TD) by (unfold half; lia).
  destruct (pass1 Arm lay half false t (batched B sn) (batched B cs) B H S D B TS TD F (fun idx => Sn (tl idx)) (fun idx => Cs (tl idx)) HT HS3 HC3 Hh HT3 ov o0 V1 V2 V3 V4 V5 VI) as (o & E & C).
  exists o. split.
  - rewrite <- E. unfold n1, n2, pos. clear. destruct lay; apply zloop_ext; intros i s1 _; apply zloop_ext; intros j s2 _; apply zloop_ext; intros k s3 _; cbn [app]; rewrite !batched_address; reflexivity.
  - split; [reflexivity|]. assert (LO : b_len o = product shape) by (rewrite (c_len _ _ _ _ C); reflexivity).
    destruct (owner_ok shape o R1 R2 LO) as [O1 O2]. split; [exact O1|]. split; [exact O2|].
    intros idx Hi. unfold elem. cbn [x_view x_buf].
    assert (GV : cell_value ov (rope lay half (fun idx => Sn (tl idx)) (fun idx => Cs (tl idx)) F) (address ov idx) = Some (rope_by_place lay half Sn Cs F idx)).
    { rewrite cell_value_at.
      - f_equal. unfold rope, rope_by_place, token, place. unfold shape, activation_shape in Hi. assert (LI := in_shape_length _ _ Hi).
        destruct idx as [|i [|j [|k [|d [|? ?]]]]]; try (destruct lay; discriminate LI). destruct lay; reflexivity.
      - rewrite V1. exact R2.
      - exact Hi.
      - intros q Hq EQ. apply V5; auto. }
    assert (SE : shape = [B; n1; n2; D]) by (unfold shape, n1, n2; destruct lay; reflexivity).
    assert (OA : forall i j k d, address ov [i; j; k; d] = address ov [i; j; k; 0] + d) by (intros; apply (address_row ov [i; j; k] d); auto).
    rewrite SE in Hi. assert (LI := in_shape_length _ _ Hi). destruct idx as [|i [|j [|k [|d [|? ?]]]]]; try discriminate LI.
    assert (Hi' := Hi). apply in_shape_cons in Hi. destruct Hi as [Hi1 Hi]. apply in_shape_cons in Hi. destruct Hi as [Hi2 Hi]. apply in_shape_cons in Hi. destruct Hi as [Hi3 Hi]. apply in_shape_cons in Hi. destruct Hi as [Hi4 _].
    cbn [last]. destruct (d <? 2 * half) eqn:Q.
    + rewrite <- GV. apply (c_set _ _ _ _ C). exists i, j, k. do 3 (split; [assumption|]). rewrite (OA i j k d). unfold segment. apply Z.ltb_lt in Q. revert Q Hi4. generalize (address ov [i; j; k; 0]). generalize half. clear. intros; lia.
    + rewrite (c_other _ _ _ _ C); [reflexivity|]. intros (i' & j' & k' & A1 & A2 & A3 & Sg). unfold segment in Sg. rewrite (OA i j k d) in Sg.
      fold n1 in A2. fold n2 in A3.
      assert (EQ : [i; j; k; d] = [i'; j'; k'; address ov [i; j; k; 0] + d - address ov [i'; j'; k'; 0]]).
      { apply V5; [rewrite SE; exact Hi'|rewrite SE|].
        - revert Sg A1 A2 A3 Hh. generalize (address ov [i; j; k; 0]) (address ov [i'; j'; k'; 0]). generalize half n1 n2. clear. intros. repeat constructor; lia.
        - rewrite (OA i' j' k'), (OA i j k d). ring. }
      assert (EI : i = i') by congruence. assert (EJ : j = j') by congruence. assert (EK : k = k') by congruence. rewrite EI, EJ, EK in Sg.
      apply Z.ltb_ge in Q. revert Q Sg. generalize (address ov [i'; j'; k'; 0]). generalize half. clear. intros; lia.
Qed.

Theorem mrope_fresh : exists out, mrope_op Arm lay t sn cs = ROk out /\ turned_pairs lay shape half Sn Cs F out.
Proof using HT HS HC HTab.
  destruct fresh_pairs as (o & E & V). exists (mkTns ov o). split; [|exact V].
  destruct (dims_nonneg lay t B H S D F HT) as (DB & DH & DS & DD).
  assert (R1 := ok_rank _ (dr_ok _ _ _ HT)). assert (R2 := ok_dims _ (dr_ok _ _ _ HT)). rewrite (dr_shape _ _ _ HT) in R1, R2. fold shape in R1, R2.
  assert (E1 : forall i j k, offsetted (x_view t) [i; j; k; 0] = ROk (address (x_view t) [i; j; k; 0])).
  { intros i j k. apply offsetted_address. change (v_shape (x_view t)) with (x_shape t). rewrite (dr_shape _ _ _ HT). destruct lay; reflexivity. }
  assert (E2 : forall i j k, offsetted ov [i; j; k; 0] = ROk (address ov [i; j; k; 0])).
  { intros i j k. apply offsetted_address. cbn [v_shape ov]. unfold shape. destruct lay; reflexivity. }
  assert (E3 : forall k, offsetted (x_view sn) [k; 0] = ROk (address (x_view sn) [k; 0])).
  { intros k. apply offsetted_address. change (v_shape (x_view sn)) with (x_shape sn). rewrite (dr_shape _ _ _ HS). reflexivity. }
  assert (E4 : forall k, offsetted (x_view cs) [k; 0] = ROk (address (x_view cs) [k; 0])).
  { intros k. apply offsetted_address. change (v_shape (x_view cs)) with (x_shape cs). rewrite (dr_shape _ _ _ HC). reflexivity. }
  unfold mrope_op. rewrite (dr_shape _ _ _ HT). fold shape. rewrite fresh_ok by auto. cbn [rbind x_view x_buf].
  assert (SE : shape = [B; n1; n2; D]) by (unfold shape, n1, n2; destruct lay; reflexivity).
  assert (D4 : dim4 shape = ROk (B, n1, n2, D)) by (rewrite SE; reflexivity).
  assert (L4 : zlen shape =? 4 = true) by (rewrite SE; reflexivity). rewrite L4, D4. cbn [negb rbind]. rewrite Z.quot_div_nonneg by lia. fold half ov o0.
  assert (X : match lay with
    | BHSD => zloop B (fun n => zloop n1 (fun h => zloop n2 (fun s o =>
        do ao <- offsetted (x_view t) [n; h; s; 0]; do oo <- offsetted ov [n; h; s; 0]; do so <- offsetted (x_view sn) [s; 0]; do co <- offsetted (x_view cs) [s; 0];
        rotate_row Arm false (x_buf t) ao oo half (x_buf sn) so (x_buf cs) co o))) o0
    | BSHD => zloop B (fun n => zloop n1 (fun s => zloop n2 (fun h o =>
        do ao <- offsetted (x_view t) [n; s; h; 0]; do oo <- offsetted ov [n; s; h; 0]; do so <- offsetted (x_view sn) [s; 0]; do co <- offsetted (x_view cs) [s; 0];
        rotate_row Arm false (x_buf t) ao oo half (x_buf sn) so (x_buf cs) co o))) o0 end = ROk o).
  { rewrite <- E. unfold pos. clear - E1 E2 E3 E4. destruct lay; apply zloop_ext; intros i s1 _; apply zloop_ext; intros j s2 _; apply zloop_ext; intros k s3 _; rewrite E1, E2; cbn [rbind app]; rewrite E3, E4; reflexivity. }
  rewrite X. reflexivity.
Qed.
End Fresh.

Lemma x86_nothing {X} shape : (1 <= length shape <= 16)%nat -> Forall (fun d => 0 <= d) shape ->
  exists out : tns X, fresh_tensor shape = ROk out /\ x_shape out = shape /\ forall idx, in_shape shape idx -> elem out idx = None.
Proof.
  intros R1 R2. rewrite fresh_ok by auto. eexists. split; [reflexivity|]. split; [reflexivity|]. intros idx Hi. reflexivity.
Qed.

(** Addresses of a dense tensor of four axes. *)
Lemma contiguous_row (t : tns R) B S_ H D F b s h : holds t [B; S_; H; D] F ->
  x_offset t + (b * S_ * H * D + s * H * D + h * D) = address (x_view t) [b; s; h; 0].
Proof.
  intros [h1 h2 h3 h4]. apply contiguous_strides in h3. unfold address. change (v_offset (x_view t)) with (x_offset t). change (v_stride (x_view t)) with (x_stride t).
  rewrite h3, h1. cbn [default_strides combine map fold_right fst snd]. rewrite !default_strides_cons. cbn [combine map fold_right fst snd]. unfold product. cbn [fold_right]. ring.
Qed.
Lemma contiguous_row2 (t : tns R) A B F s : holds t [A; B] F -> x_offset t + s * B = address (x_view t) [s; 0].
Proof.
  intros [h1 h2 h3 h4]. apply contiguous_strides in h3. unfold address. change (v_offset (x_view t)) with (x_offset t). change (v_stride (x_view t)) with (x_stride t).
  rewrite h3, h1. rewrite !default_strides_cons. cbn [combine map fold_right fst snd]. unfold product. cbn [fold_right]. ring.
Qed.

Theorem vision_fresh t sn cs B S_ H D TS F Sn Cs : holds t [B; S_; H; D] F -> holds sn [TS; D / 2] Sn -> holds cs [TS; D / 2] Cs -> S_ <= TS ->
  exists out, vision_rope_op Arm t sn cs = ROk out /\ turned_pairs BSHD [B; S_; H; D] (D / 2) Sn Cs F out.
Proof.
  intros HT HS HC HL. assert (HT' := contiguous_dense _ _ _ HT). assert (HS' := contiguous_dense _ _ _ HS). assert (HC' := contiguous_dense _ _ _ HC).
  destruct (fresh_pairs BSHD t sn cs B H S_ D TS (D / 2) F Sn Cs HT' HS' HC' ltac:(lia)) as (o & E & V).
  eexists. split; [|exact V]. clear V.
  destruct (dims_nonneg BSHD t B H S_ D F HT') as (DB & DH & DS & DD).
  assert (R1 := ok_rank _ (h_ok _ _ _ HT)). assert (R2 := ok_dims _ (h_ok _ _ _ HT)). rewrite (h_shape _ _ _ HT) in R1, R2.
  unfold vision_rope_op. rewrite (h_shape _ _ _ HT). rewrite fresh_ok by auto. cbn [rbind x_view x_buf].
  change (dim4 [B; S_; H; D]) with (ROk (B, S_, H, D)). change (negb (zlen [B; S_; H; D] =? 4)) with false. cbn [rbind]. rewrite Z.quot_div_nonneg by lia.
  cbn [activation_shape] in E. cbv zeta.
  match goal with |- rbind ?X _ = _ => assert (EX : X = ROk o); [|rewrite EX; reflexivity] end.
  rewrite <- E. clear E. apply zloop_ext; intros b s1 _; apply zloop_ext; intros s s2 _; apply zloop_ext; intros h s3 _. cbn [app].
  rewrite (contiguous_row t B S_ H D F b s h HT), (contiguous_row2 sn TS (D / 2) Sn s HS), (contiguous_row2 cs TS (D / 2) Cs s HC).
  f_equal. rewrite default_address by reflexivity. unfold x_offset. cbn [x_view v_offset ravel product fold_right]. ring.
Qed.

Theorem sin_cos_ok ang seq dim A : holds ang [seq; dim] A ->
  exists sn cs, visual_sin_cos ang = ROk (sn, cs) /\ holds sn [seq; dim] (fun idx => sin (A idx)) /\ holds cs [seq; dim] (fun idx => cos (A idx)).
Proof.
  intros HA. assert (D1 := ok_dims _ (h_ok _ _ _ HA)). rewrite (h_shape _ _ _ HA) in D1.
  assert (N1 : 0 <= seq) by (inversion D1; auto). assert (N2 : 0 <= dim) by (inversion D1 as [|? ? ? D2]; inversion D2; auto).
  assert (LD : forall i j, 0 <= i < seq -> 0 <= j < dim -> loadv (x_buf ang) (x_offset ang + (i * dim + j)) = ROk (A [i; j])).
  { intros i j Hi Hj. assert (I : in_shape [seq; dim] [i; j]) by (repeat constructor; lia).
    assert (E : x_offset ang + (i * dim + j) = address (x_view ang) [i; j]).
    { destruct HA as [h1 h2 h3 h4]. apply contiguous_strides in h3. unfold address. change (v_offset (x_view ang)) with (x_offset ang). change (v_stride (x_view ang)) with (x_stride ang).
      rewrite h3, h1. rewrite !default_strides_cons. cbn [combine map fold_right fst snd]. unfold product. cbn [fold_right]. ring. }
    rewrite E. assert (V := h_elem _ _ _ HA _ I). assert (Bd := ok_inside _ (h_ok _ _ _ HA) [i; j]). rewrite (h_shape _ _ _ HA) in Bd. specialize (Bd I).
    unfold loadv, load. replace ((0 <=? address (x_view ang) [i; j]) && (address (x_view ang) [i; j] <? b_len (x_buf ang))) with true by lia.
    unfold elem in V. rewrite V. reflexivity. }
  unfold visual_sin_cos. rewrite (h_shape _ _ _ HA). change (vget [seq; dim] 0) with (ROk seq). change (vget [seq; dim] 1) with (ROk dim). cbn [rbind].
  assert (Rk : (1 <= length [seq; dim] <= 16)%nat) by (cbn; lia). rewrite !fresh_ok by auto. cbn [rbind x_view x_buf]. unfold x_offset at 1 3. cbn [x_view v_offset].
  set (ov := mkV [seq; dim] (default_strides [seq; dim]) 0). set (s0 := mkBuf (product [seq; dim]) (fun _ : Z => @None R)).
  set (G := fun f d => Some (f (A [d / dim; d mod dim])) : option R).
  assert (SP : forall i j, 0 <= j < dim -> (i * dim + j) / dim = i /\ (i * dim + j) mod dim = j).
  { intros i j Hj. split; [symmetry; apply Z.div_unique with j; lia|symmetry; apply Z.mod_unique with i; lia]. }
  destruct (changes2_loop (G sin) (G cos) seq (fun i d => i * dim <= d < i * dim + dim)
    (fun i => zloop dim (fun j (st : buf R * buf R) =>
      do v <- loadv (x_buf ang) (x_offset ang + (i * dim + j));
      do x <- store (fst st) (0 + (i * dim + j)) (Some (sin v));
      do y <- store (snd st) (0 + (i * dim + j)) (Some (cos v));
      ROk (x, y))) (s0, s0)) as ([o1 o2] & E & C1 & C2).
  - intros i j d Hi Hj P1 P2. nia.
  - intros i s1 Hi L1 L2. cbn [fst snd] in L1, L2.
    destruct (changes2_loop (G sin) (G cos) dim (fun j d => d = i * dim + j)
      (fun j (st : buf R * buf R) =>
      do v <- loadv (x_buf ang) (x_offset ang + (i * dim + j));
      do x <- store (fst st) (0 + (i * dim + j)) (Some (sin v));
      do y <- store (snd st) (0 + (i * dim + j)) (Some (cos v));
      ROk (x, y)) s1) as (s2 & E & C1 & C2).
    + intros; lia.
    + intros j s2 Hj L3 L4. rewrite LD by auto. cbn [rbind]. rewrite Z.add_0_l. destruct (SP i j Hj) as [Q1 Q2].
      assert (Bd : 0 <= i * dim + j < product [seq; dim]) by (unfold product; cbn [fold_right]; nia).
      destruct (changes_store (G sin) (fst s2) (i * dim + j) (Some (sin (A [i; j])))) as (x & Ex & Cx).
      { rewrite L3, L1. exact Bd. } { unfold G. rewrite Q1, Q2. reflexivity. }
      destruct (changes_store (G cos) (snd s2) (i * dim + j) (Some (cos (A [i; j])))) as (y & Ey & Cy).
      { rewrite L4, L2. exact Bd. } { unfold G. rewrite Q1, Q2. reflexivity. }
      rewrite Ex. cbn [rbind]. rewrite Ey. cbn [rbind]. exists (x, y). split; [reflexivity|]. split; [eapply changes_iff; [|exact Cx]|eapply changes_iff; [|exact Cy]]; (intro d; split; auto).
    + exists s2. split; [exact E|]. split; [eapply changes_iff; [|exact C1]|eapply changes_iff; [|exact C2]]; (intro d; split; [intros (j & Hj & ->); lia|intro Hd; exists (d - i * dim); lia]).
  - match goal with |- context [rbind ?X _] => change X with (zloop seq (fun i => zloop dim (fun j (st : buf R * buf R) => do v <- loadv (x_buf ang) (x_offset ang + (i * dim + j)); do x <- store (fst st) (0 + (i * dim + j)) (Some (sin v)); do y <- store (snd st) (0 + (i * dim + j)) (Some (cos v)); ROk (x, y))) (s0, s0)) end.
    rewrite E. cbn [rbind fst snd]. exists (mkTns ov o1), (mkTns ov o2). split; [reflexivity|].
    assert (Fin : forall f o, changes (G f) (fun d => exists i, 0 <= i < seq /\ i * dim <= d < i * dim + dim) s0 o -> holds (mkTns ov o) [seq; dim] (fun idx => f (A idx))).
    { intros f o C. assert (LO : b_len o = product [seq; dim]) by (rewrite (c_len _ _ _ _ C); reflexivity).
      destruct (owner_ok [seq; dim] o Rk D1 LO) as [O1 O2]. constructor; [reflexivity|exact O1|apply default_strides_row_major|].
      intros idx Hi. unfold elem. cbn [x_view x_buf]. unfold ov. rewrite default_address by (apply in_shape_length; auto).
      destruct idx as [|i [|j [|? ?]]]; try (apply in_shape_length in Hi; discriminate Hi). apply in_shape_cons in Hi. destruct Hi as [Hi Hj]. apply in_shape_cons in Hj. destruct Hj as [Hj _].
      assert (EA : ravel [seq; dim] [i; j] = i * dim + j) by (cbn [ravel product fold_right]; unfold product; cbn [fold_right]; ring). rewrite EA.
      rewrite (c_set _ _ _ _ C); [|exists i; lia]. unfold G. destruct (SP i j Hj) as [-> ->]. reflexivity. }
    split; [apply Fin; exact C1|apply Fin; exact C2].
Qed.

(** Inner products of turned rows. *)
Lemma spun_inner half D th th' x y : 0 <= half -> 2 * half <= D ->
  inner D (spun half th x) (spun half th' y) = inner D (spun half (fun d => th d - th' d)%R x) y.
Proof.
  intros H1 H2. unfold inner. rewrite !(total_pairs half D) by auto. f_equal.
  - apply total_ext. intros d Hd. apply in_range in Hd. unfold spun. repeat (rewrite (rotated_second half _ _ _ d) by auto). repeat (rewrite (rotated_first half _ _ _ d) by auto).
    rewrite sin_minus, cos_minus. rewrite !(Z.add_comm half d). ring.
  - apply total_ext. intros d Hd. apply in_range in Hd. unfold spun. repeat (rewrite rotated_rest by lia). reflexivity.
Qed.
Lemma spun_ext half th th' x x' d : (forall j, 0 <= j < half -> th j = th' j) -> (forall j, x j = x' j) -> 0 <= d -> spun half th x d = spun half th' x' d.
Proof. intros H1 H2 Hd. unfold spun. apply rotated_ext; auto. intros j Hj. rewrite H1 by auto. auto. Qed.
Lemma by_place_angles lay half Sn Cs th F idx B H S D :
  in_shape (activation_shape lay B H S D) idx -> half <= D ->
  (forall s d, 0 <= s < S -> 0 <= d < half -> Sn [s; d] = sin (th s d) /\ Cs [s; d] = cos (th s d)) ->
  rope_by_place lay half Sn Cs F idx = spun_by_place lay half th F idx.
Proof.
  intros Hi Hh HT. unfold rope_by_place, spun_by_place, spun.
  assert (LI := in_shape_length _ _ Hi). destruct idx as [|i [|j [|k [|d [|? ?]]]]]; try (destruct lay; discriminate LI).
  assert (P : 0 <= place lay [i; j; k; d] < S /\ 0 <= d).
  { destruct lay; cbn [activation_shape place] in *; apply in_shape_cons in Hi; destruct Hi as [_ Hi]; apply in_shape_cons in Hi; destruct Hi as [Hi1 Hi]; apply in_shape_cons in Hi; destruct Hi as [Hi2 Hi]; apply in_shape_cons in Hi; destruct Hi as [Hi3 _]; lia. }
  cbn [last]. apply rotated_ext; auto; [|tauto]. intros q Hq. apply HT; tauto.
Qed.
