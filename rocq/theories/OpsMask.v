(** Proofs about the CPU operators, part 3: padding, causal masks, masked scatter. *)
From Verif Require Import Base DTypeModel ParamModel ParamSpec ParamProofs TensorModel TensorSpec TensorProofs TensorSplit
  OpsModel OpsSpec OpsProofs OpsIndex.
Local Open Scope Z_scope.

(* ---------------- padding ---------------- *)
Lemma decode_ravel os : forall c, in_shape os c -> decode (default_strides os) (ravel os c) = c.
Proof.
  induction os as [|d ds IH]; intros c H; [inversion H; reflexivity|].
  destruct c as [|i r]; [inversion H|]. apply in_shape_cons in H as [Hi Hr].
  rewrite default_strides_cons. destruct ds as [|d2 ds2].
  - inversion Hr; subst. cbn [default_strides decode ravel]. cbn. f_equal. lia.
  - assert (B := ravel_bounds _ _ Hr). assert (E := IH r Hr).
    remember (d2 :: ds2) as ds. cbn [ravel].
    destruct (default_strides ds) as [|s0 sl] eqn:ES; [assert (L := default_strides_length ds); rewrite ES in L; subst ds; discriminate L|].
    cbn [decode]. rewrite Z.quot_div_nonneg, Z.rem_mod_nonneg by nia.
    rewrite Z.div_add_l, Z.div_small, Z.add_0_r by lia.
    rewrite Z.add_comm, Z.mod_add, Z.mod_small by lia. f_equal. exact E.
Qed.
Lemma decode_unravel os i : Forall (fun d => 0 <= d) os -> 0 <= i < product os -> decode (default_strides os) i = unravel os i.
Proof. intros H Hi. destruct (unravel_spec os i H Hi) as [A B]. rewrite <- B at 1. apply decode_ravel; auto. Qed.

Lemma nth_map_seq {X} (f : nat -> X) D n d : (n < D)%nat -> nth n (map f (seq 0 D)) d = f n.
Proof. intro H. rewrite (nth_indep _ d (f 0%nat)) by (rewrite map_length, seq_length; auto). rewrite map_nth, seq_nth by auto. reflexivity. Qed.
Lemma rev_seq_map {X} (f : nat -> X) D : rev (map f (seq 0 D)) = map (fun i => f (D - 1 - i)%nat) (seq 0 D).
Proof.
  apply (nth_ext _ _ (f 0%nat) (f 0%nat)); [rewrite rev_length, !map_length; reflexivity|].
  intros n Hn. rewrite rev_length, map_length, seq_length in Hn.
  rewrite rev_nth by (rewrite map_length, seq_length; auto). rewrite map_length, seq_length.
  rewrite !nth_map_seq by lia. f_equal. lia.
Qed.
Lemma minus_seq f (n : nat) : forall k oc, length oc = n ->
  map (fun p => snd p - f (fst p)) (combine (seq k n) oc) = minus oc (map f (seq k n)).
Proof.
  induction n as [|n IH]; intros k [|c oc] H; cbn [length] in H; try lia; [reflexivity|].
  cbn [seq combine map fst snd]. unfold minus in *. cbn [combine map fst snd]. f_equal. apply IH. lia.
Qed.
Lemma plus_seq f g (n : nat) : forall k sh, length sh = n ->
  map (fun p => snd p + f (fst p) + g (fst p)) (combine (seq k n) sh) = plus (plus sh (map f (seq k n))) (map g (seq k n)).
Proof.
  induction n as [|n IH]; intros k [|c sh] H; cbn [length] in H; try lia; [reflexivity|].
  cbn [seq combine map fst snd]. unfold plus in *. cbn [combine map fst snd]. f_equal. apply IH. lia.
Qed.
Lemma pad_out_shape_spec shape pad :
  pad_out_shape shape pad = plus (plus shape (pads_before (length shape) pad)) (pads_after (length shape) pad).
Proof.
  unfold pad_out_shape, pads_before, pads_after. rewrite !rev_seq_map.
  rewrite (plus_seq (fun i => pad_low (length shape) i pad) (fun i => pad_high (length shape) i pad)) by auto. reflexivity.
Qed.

Lemma reflect_spec x s : 1 <= s -> pads PadReflect s x (reflect_index x s).
Proof.
  intro Hs. unfold pads, reflect_index. destruct (s =? 1) eqn:Q.
  - replace (s <=? 1) with true by lia. split; [lia|reflexivity].
  - replace (s <=? 1) with false by lia. cbv zeta.
    set (P := 2 * (s - 1)). assert (HP : 0 < P) by lia.
    rewrite Z.rem_mod_nonneg by lia.
    assert (M := Z.mod_pos_bound (Z.abs x) P HP). assert (D := Z_div_mod_eq_full (Z.abs x) P).
    set (r := Z.abs x mod P) in *. set (q := Z.abs x / P) in *.
    destruct (s <=? r) eqn:R.
    + split; [lia|]. destruct (Z.le_gt_cases 0 x).
      * exists (q + 1). right. nia.
      * exists (- q - 1). left. nia.
    + split; [lia|]. destruct (Z.le_gt_cases 0 x).
      * exists q. left. nia.
      * exists (- q). right. nia.
Qed.
Lemma circular_spec x s : 1 <= s -> pads PadCircular s x (circular_index x s).
Proof.
  intro Hs. unfold pads, circular_index. destruct (s <=? 1) eqn:Q.
  - split; [lia|]. exists x. assert (s = 1) as -> by lia. lia.
  - cbv zeta. assert (D := Z.quot_rem' x s). assert (B := Z.rem_bound_abs x s ltac:(lia)).
    destruct (Z.rem x s <? 0) eqn:R.
    + split; [lia|]. exists (Z.quot x s - 1). nia.
    + split; [lia|]. exists (Z.quot x s). nia.
Qed.
Lemma replicate_spec x s : 1 <= s -> pads PadReplicate s x (replicate_index x s).
Proof.
  intro Hs. unfold pads, replicate_index. destruct (s <=? 1) eqn:Q; split; lia.
Qed.

Lemma pad_coords_spec mode : forall shape xs, length xs = length shape ->
  (mode <> PadConstant -> Forall (fun s => 1 <= s) shape) ->
  match pad_coords mode xs shape with
  | Some ic => pads_from mode shape xs ic
  | None => mode = PadConstant /\ forall ic, ~ pads_from mode shape xs ic
  end.
Proof.
  induction shape as [|s ss IH]; intros [|x xs] H Hpos; cbn [length] in H; try lia; [constructor|].
  cbn [pad_coords]. specialize (IH xs ltac:(lia)).
  assert (IH' := IH (fun N => Forall_inv_tail (Hpos N))). clear IH.
  assert (C : match pad_coord mode x s with Some c => pads mode s x c | None => mode = PadConstant /\ forall c, ~ pads mode s x c end).
  { destruct mode; cbn [pad_coord].
    - destruct ((x <? 0) || (s <=? x)) eqn:Q; [split; auto; intros c [H1 H2]; lia|]. split; [lia|reflexivity].
    - apply reflect_spec. apply (Forall_inv (Hpos ltac:(discriminate))).
    - apply replicate_spec. apply (Forall_inv (Hpos ltac:(discriminate))).
    - apply circular_spec. apply (Forall_inv (Hpos ltac:(discriminate))). }
  destruct (pad_coord mode x s) as [c|].
  - destruct (pad_coords mode xs ss) as [cs|]; [constructor; auto|].
    destruct IH' as [Hm Hn]. split; auto. intros ic P. inversion P; subst. eapply Hn; eauto.
  - destruct C as [Hm Hn]. split; auto. intros ic P. inversion P; subst. eapply Hn; eauto.
Qed.
Lemma pads_from_in_shape mode shape xs ic : pads_from mode shape xs ic -> in_shape shape ic.
Proof. induction 1 as [|s x c ss xs cs H P IH]; [constructor|]. apply in_shape_cons. split; [apply H|exact IH]. Qed.
Lemma minus_length a b : length a = length b -> length (minus a b) = length a.
Proof. intro H. unfold minus. rewrite map_length, combine_length. lia. Qed.
Lemma plus_length a b : length a = length b -> length (plus a b) = length a.
Proof. intro H. unfold plus. rewrite map_length, combine_length. lia. Qed.
Lemma before_length D pad : length (pads_before D pad) = D.
Proof. unfold pads_before. rewrite rev_length, map_length, seq_length. auto. Qed.
Lemma after_length D pad : length (pads_after D pad) = D.
Proof. unfold pads_after. rewrite rev_length, map_length, seq_length. auto. Qed.

Theorem pad_correct {A} mode (value : A) pad (x : tns A) :
  tensor_ok x -> contiguous x -> (mode <> PadConstant -> Forall (fun s => 1 <= s) (x_shape x)) ->
  let D := length (x_shape x) in
  let before := pads_before D pad in
  let oshape := plus (plus (x_shape x) before) (pads_after D pad) in
  Forall (fun d => 0 <= d) oshape ->
  exists out, pad_op mode value pad x = ROk out /\
    x_shape out = oshape /\ tensor_ok out /\ owns_storage out /\
    forall idx, in_shape oshape idx ->
      (exists src, pads_from mode (x_shape x) (minus idx before) src /\ elem out idx = elem x src) \/
      (mode = PadConstant /\ (forall src, ~ pads_from mode (x_shape x) (minus idx before) src) /\ elem out idx = Some value).
Proof.
  intros Ox Cx Hpos D before oshape Hos. unfold pad_op. cbv zeta. rewrite pad_out_shape_spec. fold D before oshape.
  assert (Los : length oshape = D).
  { unfold oshape, before. rewrite !plus_length; rewrite ?plus_length; rewrite ?before_length, ?after_length; auto. }
  assert (Hr : (1 <= length oshape <= 16)%nat) by (rewrite Los; apply Ox).
  rewrite fresh_ok by auto. cbn [rbind x_buf x_view].
  set (F := fun idx => match pad_coords mode (minus idx before) (x_shape x) with Some ic => elem x ic | None => Some value end).
  rewrite numel_product.
  match goal with |- context [zloop (product oshape) ?f ?b] =>
    destruct (good_loop (at_pos oshape F) (product oshape) (fun i => eq i) f b (product oshape) eq_refl) as (o & E & G) end.
  { intros i b Hi Hb. rewrite decode_unravel by auto.
    destruct (unravel_spec oshape i Hos Hi) as [I1 I2]. set (oc := unravel oshape i) in *.
    assert (Loc : length oc = D) by (rewrite (in_shape_length _ _ I1); auto).
    rewrite (minus_seq (fun i => pad_low D i pad)) by auto.
    assert (EB : map (fun i => pad_low D i pad) (seq 0 D) = before) by (unfold before, pads_before; rewrite rev_seq_map; reflexivity).
    rewrite EB.
    assert (C := pad_coords_spec mode (x_shape x) (minus oc before)).
    rewrite minus_length in C by (unfold before; rewrite before_length; auto). specialize (C Loc Hpos).
    remember (at_pos oshape F) as GF eqn:EGF. assert (EF : GF i = F oc) by (rewrite EGF; reflexivity). unfold F in EF.
    destruct (pad_coords mode (minus oc before) (x_shape x)) as [ic|].
    - assert (IC := pads_from_in_shape _ _ _ _ C).
      assert (EA := contiguous_address x _ Cx (in_shape_length _ _ IC)).
      rewrite dot_ravel by (apply in_shape_length; auto). rewrite <- EA.
      apply good_copy1; [apply Ox; auto|lia|]. rewrite EF. reflexivity.
    - apply good_store; [lia|]. rewrite EF. reflexivity. }
  rewrite E. cbn [rbind]. eexists. split; [reflexivity|].
  destruct (produces_good oshape F _ o Hr Hos G) as (P1 & P2 & P3 & P4); [intros p Hp; exists p; auto|].
  split; [exact P1|]. split; [exact P2|]. split; [exact P3|].
  intros idx Hi. rewrite P4 by auto.
  assert (C := pad_coords_spec mode (x_shape x) (minus idx before)).
  rewrite minus_length in C by (unfold before; rewrite before_length, (in_shape_length _ _ Hi); auto).
  specialize (C ltac:(rewrite (in_shape_length _ _ Hi); auto) Hpos). unfold F.
  destruct (pad_coords mode (minus idx before) (x_shape x)) as [ic|]; [left; eauto|right; tauto].
Qed.

(* ---------------- causal masks ---------------- *)
Lemma fill_good {A} (G : Z -> option A) m d n (o : buf A) :
  (0 < n -> 0 <= d /\ d + n <= b_len o) -> (forall k, 0 <= k < n -> Some m = G (d + k)) ->
  exists o', fill m d n o = ROk o' /\ good G (fun p => d <= p < d + n) o o'.
Proof.
  intros Hd H. unfold fill.
  destruct (good_loop G n (fun k => eq (d + k)) (fun k o => store o (d + k) (Some m)) o (b_len o) eq_refl) as (o' & E & Q).
  { intros k b Hk Hb. apply good_store; [lia|]. auto. }
  exists o'. split; auto. eapply good_weaken; [|exact Q]. intros p Hp. exists (p - d). split; lia.
Qed.

Section MaskDims.
Context {A : Type}.
Variables (x : tns A) (B H S D : Z).
Hypothesis Ox : tensor_ok x.
Hypothesis Cx : contiguous x.
Hypothesis Sx : x_shape x = [B; H; S; D].
Lemma mask_dims : 0 <= B /\ 0 <= H /\ 0 <= S /\ 0 <= D.
Proof using Ox Sx.
  assert (Q := ok_dims _ Ox). rewrite Sx in Q. inversion Q as [|? ? Q1 Q2]; subst. inversion Q2 as [|? ? Q3 Q4]; subst.
  inversion Q4 as [|? ? Q5 Q6]; subst. inversion Q6; subst. auto.
Qed.
Lemma os_product : product [B; H; S; D] = B * H * S * D.
Proof using. rewrite !product_cons. change (product []) with 1. ring. Qed.
Lemma mask_in p : 0 <= p < B * H * S * D -> 0 <= x_offset x + p < b_len (x_buf x).
Proof using Ox Cx Sx. intro Hp. assert (Q := contiguous_inside x p Ox Cx). rewrite Sx in Q. rewrite os_product in Q. lia. Qed.
Lemma mask_block b h : 0 <= b < B -> 0 <= h < H -> 0 <= (b * H + h) * (S * D) /\ (b * H + h) * (S * D) + S * D <= B * H * S * D.
Proof using Ox Sx.
  intros Hb Hh. destruct mask_dims as (? & ? & ? & ?). assert (M : 0 <= b * H + h < B * H) by nia. set (k := b * H + h) in *.
  assert (P : 0 <= S * D) by nia. set (q := S * D) in *. replace (B * H * S * D) with (B * H * q) by (unfold q; ring). nia.
Qed.
Lemma row_block r : 0 <= r < S -> 0 <= r * D /\ r * D + D <= S * D.
Proof using Ox Sx. destruct mask_dims as (? & ? & ? & ?). nia. Qed.
Lemma mask_G m visible b h r c : 0 <= b < B -> 0 <= h < H -> 0 <= r < S -> 0 <= c < D ->
  at_pos [B; H; S; D] (masked visible m x) ((b * H + h) * (S * D) + r * D + c) =
  (if visible r c then b_at (x_buf x) (x_offset x + (b * H + h) * (S * D) + r * D + c) else Some m).
Proof using Cx Sx.
  intros Hb Hh Hr Hc.
  assert (IS : in_shape [B; H; S; D] [b; h; r; c]) by (repeat (apply in_shape_cons; split; auto); constructor).
  assert (RV : ravel [B; H; S; D] [b; h; r; c] = (b * H + h) * (S * D) + r * D + c).
  { cbn [ravel]. rewrite !product_cons. change (product []) with 1. ring. }
  rewrite <- RV, at_pos_ravel by auto. unfold masked. cbn [nth].
  destruct (visible r c); [|reflexivity]. unfold elem. rewrite contiguous_address by (auto; rewrite Sx; reflexivity).
  rewrite Sx, RV. f_equal. ring.
Qed.
End MaskDims.

Section Mask.
Context {A : Type}.
Variables (x : tns A) (m : A) (B H S D : Z) (visible : Z -> Z -> bool).
Hypothesis Ox : tensor_ok x.
Hypothesis Cx : contiguous x.
Hypothesis Sx : x_shape x = [B; H; S; D].
Let os := [B; H; S; D].
Let G := at_pos os (masked visible m x).
Let mask_in := mask_in x B H S D Ox Cx Sx.
Let mask_block := mask_block x B H S D Ox Sx.
Let mask_G := mask_G x B H S D Cx Sx m visible.

Definition mask_body ty (window : option Z) ip op r o :=
  match window, ty with
  | None, MaskFloat32 => mask_row m (x_buf x) ip op S D r o
  | None, MaskFloat16 => mask_row16 m (x_buf x) ip op S r o
  | Some w, _ => mask_row_window m w (x_buf x) ip op S r o
  end.

Theorem mask_all ty window :
  (S = 1 -> forall c, 0 <= c < D -> visible 0 c = true) ->
  (S <> 1 -> forall b h r o, 0 <= b < B -> 0 <= h < H -> 0 <= r < S -> b_len o = B * H * S * D ->
     let base := (b * H + h) * (S * D) in
     exists o', mask_body ty window (x_offset x + base) base r o = ROk o' /\
       good G (fun p => base + r * D <= p < base + r * D + D) o o') ->
  exists out, causal_mask ty window m x = ROk out /\ produces [B; H; S; D] (masked visible m x) out.
Proof.
  intros H1 Hrow. destruct (mask_dims x B H S D Ox Sx) as (DB & DH & DS & DD). unfold causal_mask. rewrite Sx. fold os.
  assert (Hos : Forall (fun d => 0 <= d) os) by (unfold os; repeat constructor; auto).
  rewrite fresh_ok by (cbn; lia). cbn [rbind].
  rewrite (vget_nth os 0 0), (vget_nth os 1 0), (vget_nth os 2 0), (vget_nth os 3 0) by (unfold zlen; cbn; lia). cbn [rbind].
  change (nth (Z.to_nat 0) os 0) with B. change (nth (Z.to_nat 1) os 0) with H.
  change (nth (Z.to_nat 2) os 0) with S. change (nth (Z.to_nat 3) os 0) with D.
  set (vw := mkV os (default_strides os) 0).
  set (g := fun b h (o : buf A) =>
    if S =? 1 then memcpy (x_buf x) (x_offset x + (b * H + h) * (S * D)) ((b * H + h) * (S * D)) D o
    else zloop S (mask_body ty window (x_offset x + (b * H + h) * (S * D)) ((b * H + h) * (S * D))) o).
  assert (ER : forall b h, ravel os [b; h; 0; 0] = (b * H + h) * (S * D)).
  { intros b h. unfold os. cbn [ravel]. rewrite !product_cons. change (product []) with 1. ring. }
  rewrite (zloop_tns B _ (fun b o => zloop H (g b) o) vw).
  2:{ intros b o. rewrite (zloop_tns H _ (g b) vw); [reflexivity|].
      intros h o'. cbn [x_view x_buf].
      assert (E1 : offsetted (x_view x) [b; h; 0; 0] = ROk (x_offset x + (b * H + h) * (S * D))).
      { assert (C := Cx). unfold contiguous in C. apply row_major_default in C. unfold x_shape, x_stride, x_offset in *.
        unfold offsetted. rewrite Sx. unfold zlen. cbn [length]. rewrite Z.eqb_refl. rewrite C, Sx. fold os.
        rewrite dot_ravel by reflexivity. rewrite ER. reflexivity. }
      assert (E2 : offsetted vw [b; h; 0; 0] = ROk ((b * H + h) * (S * D))).
      { unfold offsetted, vw. cbn [v_shape v_stride v_offset]. unfold zlen. change (length os) with 4%nat. cbn [length].
        rewrite Z.eqb_refl. rewrite dot_ravel by reflexivity. rewrite ER. reflexivity. }
      rewrite E1, E2. cbn [rbind]. unfold g, mask_body. destruct (S =? 1); reflexivity. }
  destruct (good_loop G B (fun b p => exists h q, 0 <= h < H /\ 0 <= q < S * D /\ p = (b * H + h) * (S * D) + q)
     (fun b o => zloop H (g b) o) (mkBuf (product os) (fun _ => None)) (product os) eq_refl) as (o & E & Q).
  { intros b o Hb Ho.
    destruct (good_loop G H (fun h p => exists q, 0 <= q < S * D /\ p = (b * H + h) * (S * D) + q) (g b) o (product os) Ho) as (o1 & E1 & Q1).
    { intros h o1 Hh Ho1. unfold os in Ho1. rewrite os_product in Ho1. unfold g.
      assert (MB := mask_block b h Hb Hh). set (base := (b * H + h) * (S * D)) in *.
      destruct (S =? 1) eqn:QS.
      - assert (ES : S = 1) by lia.
        destruct (good_memcpy G (x_buf x) (x_offset x + base) base D o1) as (o2 & E2 & Q2).
        + intro. assert (X1 := mask_in base). assert (X2 := mask_in (base + D - 1)). nia.
        + intro. nia.
        + intros k Hk. assert (MG := mask_G b h 0 k Hb Hh ltac:(lia) Hk). rewrite H1 in MG by auto.
          fold base in MG. fold os in MG. fold G in MG. replace (base + 0 * D + k) with (base + k) in MG by lia. rewrite MG. f_equal. lia.
        + exists o2. split; auto. eapply good_weaken; [|exact Q2]. intros p (q & Hq & ->). nia.
      - destruct (good_loop G S (fun r p => base + r * D <= p < base + r * D + D) (mask_body ty window (x_offset x + base) base) o1 _ Ho1) as (o2 & E2 & Q2).
        { intros r o2 Hr Ho2. apply Hrow; auto. lia. }
        exists o2. split; auto. eapply good_weaken; [|exact Q2]. intros p (q & Hq & ->).
        assert (0 < D) by nia. exists (q / D). assert (DM := Z_div_mod_eq_full q D). assert (MP := Z.mod_pos_bound q D ltac:(lia)).
        split; [split; [apply Z.div_pos; lia|apply Z.div_lt_upper_bound; lia]|]. lia. }
    exists o1. split; auto. eapply good_weaken; [|exact Q1]. intros p (h & q & Hh & Hq & ->). exists h. split; auto. exists q. auto. }
  rewrite E. cbn [rbind]. eexists. split; [reflexivity|].
  eapply produces_good; eauto; [cbn; lia|].
  intros p Hp. destruct (unravel_spec os p Hos Hp) as [I1 I2]. unfold os in I1.
  destruct (unravel [B; H; S; D] p) as [|b [|h [|r [|c [|? ?]]]]] eqn:EU; try (apply in_shape_length in I1; discriminate I1).
  apply in_shape_cons in I1 as [Hb I1]. apply in_shape_cons in I1 as [Hh I1]. apply in_shape_cons in I1 as [Hr I1].
  apply in_shape_cons in I1 as [Hc _].
  exists b. split; auto. exists h, (r * D + c). split; auto. split; [nia|]. rewrite <- I2. unfold os at 2. rewrite EU.
  unfold os. cbn [ravel]. rewrite !product_cons. change (product []) with 1. ring.
Qed.
End Mask.

Theorem causal_mask_correct {A} (x : tns A) m B H S D :
  tensor_ok x -> contiguous x -> x_shape x = [B; H; S; D] -> S - 1 <= D ->
  exists out, causal_mask MaskFloat32 None m x = ROk out /\ produces [B; H; S; D] (masked (causal S D) m x) out.
Proof.
  intros Ox Cx Sx HSD. apply mask_all; auto.
  - intros -> c Hc. unfold causal. lia.
  - intros HS b h r o Hb Hh Hr Ho base. cbn [mask_body]. unfold mask_row.
    assert (MB := mask_block x B H S D Ox Sx b h Hb Hh). assert (RB := row_block x B H S D Ox Sx r Hr). fold base in MB.
    set (cc := D - S + r + 1). unfold memcpy_size. replace (cc <? 0) with false by lia.
    set (G := at_pos [B; H; S; D] (masked (causal S D) m x)).
    assert (GG : forall c, 0 <= c < D -> G (base + r * D + c) = (if causal S D r c then b_at (x_buf x) (x_offset x + base + r * D + c) else Some m))
      by (intros c Hc; apply mask_G; auto).
    destruct (good_memcpy G (x_buf x) (x_offset x + base + r * D) (base + r * D) cc o) as (o1 & E1 & Q1).
    + intro. assert (X1 := mask_in x B H S D Ox Cx Sx (base + r * D)). assert (X2 := mask_in x B H S D Ox Cx Sx (base + r * D + cc - 1)). lia.
    + intro. lia.
    + intros k Hk. rewrite GG by lia. replace (causal S D r k) with true by (unfold causal; lia). reflexivity.
    + rewrite E1. cbn [rbind]. assert (L1 := g_len _ _ _ _ Q1).
      destruct (fill_good G m (base + r * D + cc) (Z.max (D - cc) 0) o1) as (o2 & E2 & Q2).
      * intro. lia.
      * intros k Hk. rewrite <- Z.add_assoc, GG by lia. replace (causal S D r (cc + k)) with false by (unfold causal; lia). reflexivity.
      * exists o2. split; auto. eapply good_weaken; [|eapply good_trans; eauto]. cbn beta. intros p Hp. lia.
Qed.

Theorem causal_mask_fp16_correct {A} (x : tns A) m B H S :
  tensor_ok x -> contiguous x -> x_shape x = [B; H; S; S] ->
  exists out, causal_mask MaskFloat16 None m x = ROk out /\ produces [B; H; S; S] (masked (causal S S) m x) out.
Proof.
  intros Ox Cx Sx. apply mask_all; auto.
  - intros -> c Hc. unfold causal. lia.
  - intros HS b h r o Hb Hh Hr Ho base. cbn [mask_body]. unfold mask_row16. cbv zeta.
    assert (MB := mask_block x B H S S Ox Sx b h Hb Hh). assert (RB := row_block x B H S S Ox Sx r Hr). fold base in MB.
    set (G := at_pos [B; H; S; S] (masked (causal S S) m x)).
    assert (GG : forall c, 0 <= c < S -> G (base + r * S + c) = (if causal S S r c then b_at (x_buf x) (x_offset x + base + r * S + c) else Some m))
      by (intros c Hc; apply mask_G; auto).
    destruct (good_memcpy G (x_buf x) (x_offset x + base + r * S) (base + r * S) (r + 1) o) as (o1 & E1 & Q1).
    + intro. assert (X1 := mask_in x B H S S Ox Cx Sx (base + r * S)). assert (X2 := mask_in x B H S S Ox Cx Sx (base + r * S + (r + 1) - 1)). lia.
    + intro. lia.
    + intros k Hk. rewrite GG by lia. replace (causal S S r k) with true by (unfold causal; lia). reflexivity.
    + rewrite E1. cbn [rbind]. assert (L1 := g_len _ _ _ _ Q1).
      destruct (fill_good G m (base + r * S + (r + 1)) (S - (r + 1)) o1) as (o2 & E2 & Q2).
      * intro. lia.
      * intros k Hk. rewrite <- Z.add_assoc, GG by lia. replace (causal S S r (r + 1 + k)) with false by (unfold causal; lia). reflexivity.
      * exists o2. split; auto. eapply good_weaken; [|eapply good_trans; eauto]. cbn beta. intros p Hp. lia.
Qed.

Theorem causal_mask_window_correct {A} ty (x : tns A) m w B H S :
  tensor_ok x -> contiguous x -> x_shape x = [B; H; S; S] -> 1 <= w ->
  exists out, causal_mask ty (Some w) m x = ROk out /\ produces [B; H; S; S] (masked (causal_window w) m x) out.
Proof.
  intros Ox Cx Sx Hw. apply mask_all; auto.
  - intros -> c Hc. unfold causal_window. lia.
  - intros HS b h r o Hb Hh Hr Ho base. cbn [mask_body]. unfold mask_row_window. cbv zeta.
    assert (MB := mask_block x B H S S Ox Sx b h Hb Hh). assert (RB := row_block x B H S S Ox Sx r Hr). fold base in MB.
    set (G := at_pos [B; H; S; S] (masked (causal_window w) m x)).
    assert (GG : forall c, 0 <= c < S -> G (base + r * S + c) = (if causal_window w r c then b_at (x_buf x) (x_offset x + base + r * S + c) else Some m))
      by (intros c Hc; apply mask_G; auto).
    set (st := Z.max 0 (r - w + 1)). assert (Hst : 0 <= st <= r) by lia.
    unfold memcpy_size. replace (r - st + 1 <? 0) with false by lia.
    destruct (good_memcpy G (x_buf x) (x_offset x + base + r * S + st) (base + r * S + st) (r - st + 1) o) as (o1 & E1 & Q1).
    + intro. assert (X1 := mask_in x B H S S Ox Cx Sx (base + r * S + st)). assert (X2 := mask_in x B H S S Ox Cx Sx (base + r * S + st + (r - st + 1) - 1)). lia.
    + intro. lia.
    + intros k Hk. rewrite <- !Z.add_assoc, (Z.add_assoc base), GG by lia. replace (causal_window w r (st + k)) with true by (unfold causal_window; lia).
      f_equal. lia.
    + rewrite E1. cbn [rbind]. assert (L1 := g_len _ _ _ _ Q1).
      destruct (fill_good G m (base + r * S) st o1) as (o2 & E2 & Q2).
      * intro. lia.
      * intros k Hk. rewrite GG by lia. replace (causal_window w r k) with false by (unfold causal_window; lia). reflexivity.
      * rewrite E2. cbn [rbind]. assert (L2 := g_len _ _ _ _ Q2).
        destruct (fill_good G m (base + r * S + (r + 1)) (S - (r + 1)) o2) as (o3 & E3 & Q3).
        -- intro. lia.
        -- intros k Hk. rewrite <- Z.add_assoc, GG by lia. replace (causal_window w r (r + 1 + k)) with false by (unfold causal_window; lia). reflexivity.
        -- exists o3. split; auto. eapply good_weaken; [|eapply good_trans; [eapply good_trans; eauto|eauto]]. cbn beta. intros p Hp. lia.
Qed.

(** With fewer columns than rows minus one, a row size is negative. *)
Theorem causal_mask_narrow {A} (x : tns A) m B H S D :
  tensor_ok x -> x_shape x = [B; H; S; D] -> 0 < B -> 0 < H -> D < S - 1 ->
  causal_mask MaskFloat32 None m x = RUB.
Proof.
  intros Ox Sx HB HH HS. destruct (mask_dims x B H S D Ox Sx) as (_ & _ & DS & DD). unfold causal_mask. rewrite Sx.
  rewrite fresh_ok by (cbn; lia). cbn [rbind].
  rewrite (vget_nth [B; H; S; D] 0 0), (vget_nth _ 1 0), (vget_nth _ 2 0), (vget_nth _ 3 0) by (unfold zlen; cbn; lia). cbn [rbind].
  change (nth (Z.to_nat 0) [B; H; S; D] 0) with B. change (nth (Z.to_nat 1) [B; H; S; D] 0) with H.
  change (nth (Z.to_nat 2) [B; H; S; D] 0) with S. change (nth (Z.to_nat 3) [B; H; S; D] 0) with D.
  assert (G : forall b h t, v_shape (x_view t) = [B; H; S; D] ->
     (do ip <- offsetted (x_view x) [b; h; 0; 0];
      do op <- offsetted (x_view t) [b; h; 0; 0];
      do o <- (if S =? 1 then memcpy (x_buf x) ip op D (x_buf t)
             else zloop S (fun r o => mask_row m (x_buf x) ip op S D r o) (x_buf t));
      ROk (mkTns (x_view t) o)) = RUB).
  { intros b h t Ht. unfold x_shape in Sx. unfold offsetted. rewrite Sx, Ht. unfold zlen. cbn [length]. rewrite Z.eqb_refl. cbn [rbind].
    replace (S =? 1) with false by lia. rewrite (zloop_ub (fun _ => True) S _ 0); auto; [lia| |].
    - intros i o Hi _. unfold mask_row, memcpy_size. destruct (D - S + i + 1 <? 0); cbn [rbind]; auto.
      destruct (memcpy_ok_or_ub (x_buf x) (v_offset (x_view x) + dot [b; h; 0; 0] (v_stride (x_view x)) + i * D)
        (v_offset (x_view t) + dot [b; h; 0; 0] (v_stride (x_view t)) + i * D) (D - S + i + 1) o) as [->|(o' & ->)]; cbn [rbind]; auto.
      unfold fill. match goal with |- zloop ?n ?f ?o = _ \/ _ => destruct (zloop_ok_or_ub n f o) as [->|(o2 & ->)]; auto end.
      { intros j o2 Hj. unfold store. destruct ((0 <=? _) && _); eauto. }
      right. eauto.
    - intros o _. unfold mask_row, memcpy_size. replace (D - S + 0 + 1 <? 0) with true by lia. reflexivity. }
  apply (zloop_ub (fun t => v_shape (x_view t) = [B; H; S; D]) B _ 0); [lia| | |reflexivity].
  - intros b t Hb Ht. left. apply (zloop_ub (fun t => v_shape (x_view t) = [B; H; S; D]) H _ 0); [lia| | |auto].
    + intros h t' Hh Ht'. left. apply G; auto.
    + intros t' Ht'. apply G; auto.
  - intros t Ht. apply (zloop_ub (fun t => v_shape (x_view t) = [B; H; S; D]) H _ 0); [lia| | |auto].
    + intros h t' Hh Ht'. left. apply G; auto.
    + intros t' Ht'. apply G; auto.
Qed.

(* ---------------- masked scatter ---------------- *)
(** [s] can be broadcast to [r]. *)
Definition fits (s r : list Z) : Prop :=
  (length s <= length r)%nat /\
  forall k, (k < length r)%nat -> extent_from_right s k = 1 \/ extent_from_right s k = extent_from_right r k.
Lemma is_broadcast_fits shapes r s : is_broadcast shapes r -> In s shapes -> fits s r.
Proof. intros (H1 & _ & H3) Hin. split; [apply H1; auto|]. intros k Hk. apply H3; auto. Qed.
Lemma fits_nth s r i : fits s r -> (i < length r)%nat -> nth i (pad_shape (length r) s) 0 = 1 \/ nth i (pad_shape (length r) s) 0 = nth i r 0.
Proof. intros [L H] Hi. rewrite pad_nth by auto. rewrite op_r_nth by auto. apply H. lia. Qed.
Lemma pad_self r : pad_shape (length r) r = r.
Proof. unfold pad_shape. rewrite Nat.sub_diag. reflexivity. Qed.
Lemma ms_broadcast_fits r s : fits s r -> ms_broadcast r s = r.
Proof.
  intro F. assert (L := proj1 F). unfold ms_broadcast. replace (Nat.max (length r) (length s)) with (length r) by lia.
  rewrite pad_self. assert (N := fun i => fits_nth s r i F).
  assert (Lp := pad_length (length r) s L). set (q := pad_shape (length r) s) in *. clearbody q. clear F L.
  revert q Lp N. induction r as [|d ds IH]; intros [|e q] Lp N; cbn [length] in Lp; try lia; [reflexivity|].
  cbn [combine map]. f_equal.
  - destruct (N 0%nat ltac:(cbn; lia)) as [E|E]; cbn [nth] in E; destruct (d =? e) eqn:Q; destruct (d =? 1) eqn:Q2; destruct (e =? 1) eqn:Q3; lia.
  - apply IH; [lia|]. intros i Hi. apply (N (S i)). cbn [length]. lia.
Qed.
Lemma fits_tail s r idx : fits s r -> in_shape r idx ->
  let tail := skipn (length idx - length s) idx in length tail = length s /\
  forall k, (k < length s)%nat -> 0 <= nth k tail 0 /\ (nth k s 0 = 1 \/ nth k tail 0 < nth k s 0).
Proof.
  intros F I tail. assert (Li := in_shape_length _ _ I). assert (L := proj1 F).
  split; [unfold tail; rewrite skipn_length; lia|]. intros k Hk. unfold tail. rewrite nth_skipn_add.
  assert (B := in_shape_nth _ _ (length idx - length s + k) I ltac:(lia)).
  destruct (fits_nth s r (length idx - length s + k)%nat F ltac:(lia)) as [E|E];
    unfold pad_shape in E; rewrite app_nth2, repeat_length in E by (rewrite repeat_length; lia);
    replace (length idx - length s + k - (length r - length s))%nat with k in E by lia; lia.
Qed.
Lemma ms_pos_spec s r idx : fits s r -> in_shape r idx ->
  ms_pos s idx = ravel s (broadcast_index s idx) /\ in_shape s (broadcast_index s idx).
Proof.
  intros F I. destruct (fits_tail s r idx F I) as [Lt Ht].
  set (tail := skipn (length idx - length s) idx) in *.
  assert (G : map (fun p => Z.rem (fst p) (snd p)) (combine tail s) = broadcast_index s idx /\ in_shape s (broadcast_index s idx)).
  { unfold broadcast_index. fold tail. clearbody tail. clear F I. revert tail Lt Ht. induction s as [|d s IH]; intros [|i tail] Lt Ht; cbn [length] in Lt; try lia; [split; [reflexivity|constructor]|].
    cbn [combine map fst snd]. destruct (IH tail ltac:(lia)) as [E1 E2].
    { intros k Hk. apply (Ht (S k)). cbn [length]. lia. }
    assert (H0 := Ht 0%nat ltac:(cbn; lia)). cbn [nth] in H0.
    assert (Z.rem i d = if d =? 1 then 0 else i).
    { destruct (d =? 1) eqn:Q; [assert (d = 1) as -> by lia; apply Z.rem_1_r|]. apply Z.rem_small. lia. }
    split; [f_equal; auto|]. apply in_shape_cons. split; [destruct (d =? 1) eqn:Q; lia|auto]. }
  destruct G as [G1 G2]. split; auto.
  assert (Q : ms_pos s idx = dot (map (fun p => Z.rem (fst p) (snd p)) (combine tail s)) (default_strides s)).
  { unfold ms_pos. destruct s as [|d [|? ?]]; [reflexivity| |unfold tail; destruct d as [|[?|?|]|]; reflexivity]. destruct (Z.eq_dec d 1) as [->|N].
    - destruct tail as [|i [|? ?]]; try discriminate Lt. cbn. rewrite Z.rem_1_r. reflexivity.
    - unfold tail. destruct d as [|[p|p|]|]; try reflexivity. lia. }
  rewrite Q, G1, dot_ravel by (apply in_shape_length; auto). reflexivity.
Qed.

Theorem masked_scatter_correct {A} (dst : tns A) mask (src : tns A) :
  tensor_ok dst -> contiguous dst -> tensor_ok mask -> contiguous mask -> tensor_ok src -> contiguous src ->
  is_broadcast [x_shape dst; x_shape mask; x_shape src] (x_shape dst) ->
  (forall idx, in_shape (x_shape mask) idx -> elem mask idx <> None) ->
  exists out, masked_scatter dst mask src = ROk out /\ x_view out = x_view dst /\ b_len (x_buf out) = b_len (x_buf dst) /\
    forall idx, in_shape (x_shape dst) idx ->
      elem out idx = if match elem mask (broadcast_index (x_shape mask) idx) with Some v => v =? 0 | None => true end
                     then elem dst idx else elem src (broadcast_index (x_shape src) idx).
Proof.
  intros Od Cd Om Cm Os Cs HB Hm. unfold masked_scatter.
  assert (Fm := is_broadcast_fits _ _ (x_shape mask) HB ltac:(cbn; auto)).
  assert (Fs := is_broadcast_fits _ _ (x_shape src) HB ltac:(cbn; auto)).
  assert (Fd := is_broadcast_fits _ _ (x_shape dst) HB ltac:(cbn; auto)).
  rewrite (ms_broadcast_fits _ _ Fm), (ms_broadcast_fits _ _ Fs). cbv zeta. rewrite numel_product.
  set (ds := x_shape dst) in *.
  set (F := fun idx => if match elem mask (broadcast_index (x_shape mask) idx) with Some v => v =? 0 | None => true end
                     then elem dst idx else elem src (broadcast_index (x_shape src) idx)).
  set (G := fun p => at_pos ds F (p - x_offset dst)).
  assert (Dd : Forall (fun d => 0 <= d) ds) by apply Od.
  match goal with |- context [zloop (product ds) ?f ?b] =>
    destruct (good_loop G (product ds) (fun i p => p = x_offset dst + i /\ match elem mask (broadcast_index (x_shape mask) (unravel ds i)) with Some v => v <> 0 | None => False end)
      f b (b_len (x_buf dst)) eq_refl) as (o & E & Q) end.
  { intros i b Hi Hb. destruct (unravel_spec ds i Dd Hi) as [I1 I2]. set (idx := unravel ds i) in *.
    destruct (ms_pos_spec _ _ idx Fm I1) as [M1 M2]. destruct (ms_pos_spec _ _ idx Fs I1) as [S1 S2].
    destruct (ms_pos_spec _ _ idx Fd I1) as [D1 D2].
    assert (BD : broadcast_index ds idx = idx) by (rewrite broadcast_index_full by (apply in_shape_length; auto); apply bidx_id; auto).
    rewrite BD, I2 in D1.
    assert (EM : elem mask (broadcast_index (x_shape mask) idx) = b_at (x_buf mask) (x_offset mask + ms_pos (x_shape mask) idx)).
    { unfold elem. rewrite contiguous_address by (auto; apply in_shape_length; auto). rewrite M1. reflexivity. }
    assert (ES : elem src (broadcast_index (x_shape src) idx) = b_at (x_buf src) (x_offset src + ms_pos (x_shape src) idx)).
    { unfold elem. rewrite contiguous_address by (auto; apply in_shape_length; auto). rewrite S1. reflexivity. }
    assert (IM : 0 <= x_offset mask + ms_pos (x_shape mask) idx < b_len (x_buf mask)).
    { apply contiguous_inside; auto. rewrite M1. apply ravel_bounds; auto. }
    assert (IS : 0 <= x_offset src + ms_pos (x_shape src) idx < b_len (x_buf src)).
    { apply contiguous_inside; auto. rewrite S1. apply ravel_bounds; auto. }
    assert (ID : 0 <= x_offset dst + i < b_len (x_buf dst)) by (apply contiguous_inside; auto).
    rewrite load_ok by auto. rewrite <- EM. cbn [rbind].
    assert (NN := Hm _ M2). destruct (elem mask (broadcast_index (x_shape mask) idx)) as [v|] eqn:EV; [|congruence].
    destruct (v =? 0) eqn:QV; cbn [negb].
    - exists b. split; auto. eapply good_weaken; [|apply good_refl]. cbn beta. intros p [_ Hv]. lia.
    - rewrite D1. destruct (good_copy1 G (x_buf src) (x_offset src + ms_pos (x_shape src) idx) (x_offset dst + i) b) as (b' & E' & Q'); auto; [lia| |].
      + rewrite <- ES. unfold G, at_pos. replace (x_offset dst + i - x_offset dst) with i by lia. fold idx. unfold F. rewrite EV, QV. reflexivity.
      + exists b'. split; auto. eapply good_weaken; [|exact Q']. cbn beta. intros p [-> _]. reflexivity. }
  rewrite E. cbn [rbind]. eexists. split; [reflexivity|]. cbn [x_view x_buf].
  split; [reflexivity|]. split; [apply Q|]. intros idx I.
  fold (F idx). unfold elem at 1. cbn [x_view x_buf].
  rewrite contiguous_address by (auto; apply in_shape_length; auto). fold ds.
  assert (RB := ravel_bounds _ _ I). set (p := ravel ds idx) in *.
  assert (EG : G (x_offset dst + p) = F idx).
  { unfold G. replace (x_offset dst + p - x_offset dst) with p by lia. apply at_pos_ravel. auto. }
  assert (EU : unravel ds p = idx) by (apply unravel_ravel; auto).
  destruct (elem mask (broadcast_index (x_shape mask) idx)) as [v|] eqn:EV.
  2:{ destruct (ms_pos_spec _ _ idx Fm I) as [_ M2]. destruct (Hm _ M2). exact EV. }
  destruct (v =? 0) eqn:QV.
  - assert (EF : F idx = elem dst idx) by (unfold F; rewrite EV, QV; reflexivity).
    destruct (g_old _ _ _ _ Q (x_offset dst + p)) as [H|H]; rewrite H; [|exact EG].
    rewrite EF. unfold elem. rewrite contiguous_address by (auto; apply in_shape_length; auto). reflexivity.
  - rewrite <- EG. apply (g_set _ _ _ _ Q). exists p. split; auto. split; auto. rewrite EU, EV. lia.
Qed.
