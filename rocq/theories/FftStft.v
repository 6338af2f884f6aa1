(** The short-time transform. *)
From Coq Require Import Reals Lra.
From Verif Require Import Base DTypeModel ParamModel ParamSpec TensorModel TensorSpec TensorProofs OpsModel MatModel MatSpec MatProofs MatKernel AttnSpec AttnProofs NumSpec RopeOps InterpProofs InterpOps FftModel FftSpec FftProofs FftBits FftRadix FftBluestein.
Local Open Scope Z_scope.

Add Ring cx_ring_inst4 : cx_ring.

(** A fresh tensor of which the elements in P have been written. *)
Record written {A} (shape : list Z) (F : list Z -> A) (P : list Z -> Prop) (out : tns A) : Prop := {
  wr_view : x_view out = mkV shape (default_strides shape) 0;
  wr_len : b_len (x_buf out) = product shape;
  wr_set : forall idx, in_shape shape idx -> P idx -> b_at (x_buf out) (ravel shape idx) = Some (F idx);
}.
Lemma written_weaken {A} shape (F : list Z -> A) (P Q : list Z -> Prop) out : (forall idx, in_shape shape idx -> Q idx -> P idx) -> written shape F P out -> written shape F Q out.
Proof. intros H [h1 h2 h3]. constructor; auto. Qed.
Lemma written_store {A} shape (F : list Z -> A) P out idx v : Forall (fun d => 0 <= d) shape -> written shape F P out -> in_shape shape idx -> v = F idx ->
  exists out', at_store out idx (Some v) = ROk out' /\ written shape F (fun j => P j \/ j = idx) out'.
Proof.
  intros HD [h1 h2 h3] Hi ->. assert (LI := in_shape_length _ _ Hi). assert (B := ravel_bounds shape idx Hi).
  unfold at_store, offsetted. rewrite h1. cbn [v_shape v_offset v_stride]. unfold zlen. rewrite LI, Z.eqb_refl. cbn [rbind].
  rewrite dot_ravel by exact LI. rewrite Z.add_0_l. unfold store. replace ((0 <=? ravel shape idx) && (ravel shape idx <? b_len (x_buf out))) with true by lia.
  cbn [rbind]. eexists. split; [reflexivity|]. constructor; cbn [x_view x_buf b_len b_at]; auto.
  intros j Hj [Pj| ->].
  - destruct (Z.eqb_spec (ravel shape j) (ravel shape idx)) as [E|E]; [|apply h3; assumption].
    apply ravel_inj in E; auto. subst j. reflexivity.
  - rewrite Z.eqb_refl. reflexivity.
Qed.
Lemma written_returns {A} shape (F : list Z -> A) out : (1 <= length shape <= 16)%nat -> Forall (fun d => 0 <= d) shape ->
  written shape F (fun _ => True) out -> returns (ROk out) shape F.
Proof.
  intros R1 R2 [h1 h2 h3]. destruct out as [v b]. cbn [x_view x_buf] in *. subst v. eexists. split; [reflexivity|]. split; [reflexivity|].
  destruct (owner_ok shape b R1 R2 h2) as [O1 O2]. split; [exact O1|]. split; [exact O2|].
  intros idx Hi. unfold elem. cbn [x_view x_buf]. rewrite (default_address shape idx) by (apply in_shape_length; auto). apply h3; auto.
Qed.
Lemma written_fresh {A} shape (F : list Z -> A) : (1 <= length shape <= 16)%nat -> exists out, fresh_tensor shape = ROk out /\ written shape F (fun _ => False) out.
Proof.
  intro R1. rewrite fresh_ok by exact R1. eexists. split; [reflexivity|]. constructor; [reflexivity|reflexivity|]. intros idx _ [].
Qed.

(** The options. *)
Definition mode_of (o : stft_options) : pad_mode :=
  if o_center o then match o_pad o with PReflect => PReflect | PConstant => PConstant | _ => PReflect end else o_pad o.
Lemma validated_ok o : 1 <= o_n o -> validated o = ROk (mkStft (o_n o) (hop_of o) (win_of o) (o_center o) (mode_of o)).
Proof.
  intro H. unfold validated. replace (0 <? o_n o) with true by lia. cbn [negb]. f_equal. unfold hop_of, win_of, mode_of. f_equal.
  destruct (o_win o =? 0); [reflexivity|]. destruct (Z.ltb_spec (o_n o) (o_win o)); lia.
Qed.
Lemma win_bounds o : 1 <= o_n o -> 0 <= o_win o -> 1 <= win_of o <= o_n o.
Proof. intros. unfold win_of. destruct (Z.eqb_spec (o_win o) 0); lia. Qed.

(** Padding. *)
Lemma extended_inner o len x p : 0 <= p - margin o < len -> extended o len x p = x (p - margin o).
Proof. intro H. unfold extended. cbv zeta. replace ((0 <=? p - margin o) && (p - margin o <? len)) with true by lia. reflexivity. Qed.
Lemma extended_outer o len x p : ~ (0 <= p - margin o < len) ->
  extended o len x p = match o_pad o with PConstant => 0%R | _ => if p - margin o <? 0 then x (- (p - margin o)) else x (2 * (len - 1) - (p - margin o)) end.
Proof. intro H. unfold extended. cbv zeta. replace ((0 <=? p - margin o) && (p - margin o <? len)) with false by lia. reflexivity. Qed.
Lemma pad_signal_ok o (t : tns R) B len shape F x : 1 <= o_n o -> 0 <= len ->
  (shape = [len] /\ B = 1 \/ shape = [B; len] /\ 1 <= B) -> x_shape t = shape -> (forall i, 0 <= i < len -> loadv (x_buf t) (x_offset t + i) = ROk (x i)) ->
  (mirrors o = true -> o_n o / 2 < len) -> F = extended o len x ->
  exists p, pad_signal t (mkStft (o_n o) (hop_of o) (win_of o) (o_center o) (mode_of o)) = ROk p /\ vector p (len + 2 * margin o) F.
Proof.
  intros Hn Hl HS ES HX HM ->. unfold pad_signal.
  assert (SL : signal_length t = ROk len) by (unfold signal_length; rewrite ES; destruct HS as [[-> _]|[-> _]]; reflexivity).
  rewrite SL. cbn [rbind o_center o_pad o_n]. rewrite Z.quot_div_nonneg by lia. assert (HH : 0 <= o_n o / 2) by (apply Z.div_pos; lia).
  unfold margin. destruct (o_center o) eqn:EC.
  - set (h := o_n o / 2) in *. assert (MG : margin o = h) by (unfold margin; rewrite EC; reflexivity).
    destruct (changes_loop (fun d => Some (extended o len x d)) len (fun i d => d = h + i)
      (fun i (p : buf R) => do x <- loadv (x_buf t) (x_offset t + i); store p (h + i) (Some x)) (mkBuf (len + 2 * h) (fun _ => Some 0%R))) as (p & E & C).
    { intros; lia. }
    { intros i b Hi LB OB. cbn [b_len] in LB. rewrite (HX i Hi). cbn [rbind].
      destruct (changes_store (fun d => Some (extended o len x d)) b (h + i) (Some (x i))) as (b' & E' & C'); [lia| |exists b'; split; [exact E'|revert C'; apply changes_iff; intro d; split; intro; congruence]].
      rewrite extended_inner by lia. do 2 f_equal. lia. }
    assert (LP := c_len _ _ _ _ C). cbn [b_len] in LP.
    assert (VI : forall d, h <= d < h + len -> b_at p d = Some (extended o len x d)) by (intros d Hd; apply (c_set _ _ _ _ C); exists (d - h); lia).
    run E.
    destruct (zloop_inv (fun i (b : buf R) => b_len b = len + 2 * h /\ forall d, (0 <= d < i \/ h <= d < h + len + i) -> b_at b d = Some (extended o len x d)) h
      (match mode_of o with
       | PReflect => fun i (p : buf R) => do x <- loadv (x_buf t) (x_offset t + (h - i)); do p <- store p i (Some x); do y <- loadv (x_buf t) (x_offset t + (len - 2 - i)); store p (h + len + i) (Some y)
       | _ => fun i (p : buf R) => do p <- store p i (Some 0%R); store p (h + len + i) (Some 0%R)
       end) p) as (q & Eq & Q1 & Q2).
    + lia.
    + split; [exact LP|]. intros d Hd. apply VI. lia.
    + intros i b Hi [B1 B2].
      assert (ST : forall u v : R, u = extended o len x i -> v = extended o len x (h + len + i) ->
        exists s', (do p <- store b i (Some u); store p (h + len + i) (Some v)) = ROk s' /\ b_len s' = len + 2 * h /\
          forall d, (0 <= d < i + 1 \/ h <= d < h + len + (i + 1)) -> b_at s' d = Some (extended o len x d)).
      { intros u v -> ->. unfold store at 1. replace ((0 <=? i) && (i <? b_len b)) with true by lia. cbn [rbind]. unfold store. cbn [b_len].
        replace ((0 <=? h + len + i) && (h + len + i <? b_len b)) with true by lia. eexists. split; [reflexivity|]. split; [exact B1|].
        intros d Hd. cbn [b_at]. destruct (Z.eqb_spec d (h + len + i)) as [->|N1]; [reflexivity|]. destruct (Z.eqb_spec d i) as [->|N2]; [reflexivity|].
        apply B2. lia. }
      assert (LOW : extended o len x i = match o_pad o with PConstant => 0%R | _ => x (h - i) end).
      { rewrite extended_outer by lia. rewrite MG. replace (i - h <? 0) with true by lia. replace (- (i - h)) with (h - i) by ring. reflexivity. }
      assert (HIGH : extended o len x (h + len + i) = match o_pad o with PConstant => 0%R | _ => x (len - 2 - i) end).
      { rewrite extended_outer by lia. rewrite MG. replace (h + len + i - h <? 0) with false by lia.
        replace (2 * (len - 1) - (h + len + i - h)) with (len - 2 - i) by ring. reflexivity. }
      unfold mirrors in HM. rewrite EC in HM. cbn [andb] in HM. unfold mode_of. rewrite EC.
      destruct (o_pad o) eqn:EP; try (specialize (HM eq_refl); rewrite (HX (h - i)) by lia; cbn [rbind]; rewrite (HX (len - 2 - i)) by lia; cbn [rbind]; apply ST; congruence).
      apply ST; congruence.
    + exists q. split.
      * destruct (mode_of o); exact Eq.
      * split; [exact Q1|]. intros d Hd. apply Q2. lia.
  - rewrite Z.mul_0_r, Z.add_0_r.
    destruct (changes_loop (fun d => Some (extended o len x d)) len (fun i d => i = d)
      (fun i (p : buf R) => do x <- loadv (x_buf t) (x_offset t + i); store p i (Some x)) (mkBuf len (fun _ => Some 0%R))) as (p & E & C).
    { intros; congruence. }
    { intros i b Hi LB OB. cbn [b_len] in LB. rewrite (HX i Hi). cbn [rbind].
      apply (changes_store (fun d => Some (extended o len x d))); [lia|].
      assert (MG : margin o = 0) by (unfold margin; rewrite EC; reflexivity).
      rewrite extended_inner by lia. do 2 f_equal. lia. }
    exists p. split; [exact E|]. split; [rewrite (c_len _ _ _ _ C); reflexivity|]. intros i Hi. apply (c_set _ _ _ _ C). exists i. split; [lia|reflexivity].
Qed.

(** One frame. *)
Lemma frame_ok o (padded : buf R) (window : tns R) plen x w f : 1 <= o_n o <= 2 ^ 30 -> 0 <= o_win o <= o_n o -> 0 <= f * o_hop o ->
  f * o_hop o + o_win o <= plen -> vector padded plen x ->
  (forall i, 0 <= i < o_win o -> loadv (x_buf window) (x_offset window + i) = ROk (w i)) ->
  exists y, frame o padded window f = ROk y /\
    vector y (o_n o) (fun k => csum (o_win o) (fun i => cmul (real (x (f * o_hop o + i) * w i)) (root (o_n o) (- (i * k))))).
Proof.
  intros Hn Hw Hs HE [V1 V2] HW. unfold frame. cbv zeta.
  set (g := fun i => if i <? o_win o then (x (f * o_hop o + i)%Z * w i)%R else 0%R).
  destruct (changes_loop (fun d => Some (g d)) (o_win o) (fun i d => i = d)
    (fun i (input : buf R) =>
      do v <- (if f * o_hop o + i <? b_len padded then
                 do x <- loadv padded (f * o_hop o + i);
                 do w <- loadv (x_buf window) (x_offset window + i);
                 ROk (x * w)%R
               else ROk 0%R);
      store input i (Some v)) (mkBuf (o_n o) (fun _ => Some 0%R))) as (inp & E & C).
  { intros; congruence. }
  { intros i b Hi LB OB. cbn [b_len] in LB. replace (f * o_hop o + i <? b_len padded) with true by lia.
    rewrite (loadv_at padded _ (x (f * o_hop o + i))) by (try lia; apply V2; lia). cbn [rbind]. rewrite (HW i Hi). cbn [rbind].
    apply (changes_store (fun d => Some (g d))); [lia|]. unfold g. replace (i <? o_win o) with true by lia. reflexivity. }
  run E.
  assert (VI : vector inp (o_n o) g).
  { split; [rewrite (c_len _ _ _ _ C); reflexivity|]. intros i Hi. destruct (Z_lt_le_dec i (o_win o)) as [l|l].
    - apply (c_set _ _ _ _ C). exists i. split; [lia|reflexivity].
    - rewrite (c_other _ _ _ _ C) by (intros (j & Hj & ->); lia). unfold g. replace (i <? o_win o) with false by lia. reflexivity. }
  destruct (forward_fft_ok inp (o_n o) (mkBuf (o_n o) (fun _ => Some c0)) g Hn VI eq_refl) as (y & Ey & Y1 & Y2).
  exists y. split; [exact Ey|]. split; [exact Y1|]. intros k Hk. rewrite Y2 by exact Hk. f_equal. unfold dft.
  replace (o_n o) with (o_win o + (o_n o - o_win o)) at 1 by ring. rewrite csum_app by lia.
  rewrite (csum_zero _ (o_n o - o_win o)).
  2: { intros i Hi. unfold g. replace (o_win o + i <? o_win o) with false by lia. change (real 0) with c0. ring. }
  transitivity (csum (o_win o) (fun j => cmul (real (g j)) (root (o_n o) (- (j * k))))); [ring|].
  apply csum_ext. intros i Hi. unfold g. replace (i <? o_win o) with true by lia. reflexivity.
Qed.

Theorem stft_ok o (t window : tns R) B len shape x w : 1 <= o_n o <= 2 ^ 30 -> 0 <= o_win o -> 1 <= hop_of o -> 0 <= len ->
  (shape = [len] /\ B = 1 \/ shape = [B; len] /\ 1 <= B) -> x_shape t = shape -> (forall i, 0 <= i < len -> loadv (x_buf t) (x_offset t + i) = ROk (x i)) ->
  holds window [win_of o] (fun idx => w (nth 0 idx 0)) ->
  win_of o <= len + 2 * margin o -> (mirrors o = true -> o_n o / 2 < len) ->
  returns (stft_op o t window) [B; o_n o / 2 + 1; frame_count o len] (at3 c0 (fun _ k f => stft o len x w k f)).
Proof.
  intros Hn Hw Hh Hl HS ES HX HW HL HM. assert (WB := win_bounds o ltac:(lia) Hw). unfold stft_op. rewrite validated_ok by lia. cbn [rbind].
  set (o' := mkStft (o_n o) (hop_of o) (win_of o) (o_center o) (mode_of o)).
  assert (SL : signal_length t = ROk len) by (unfold signal_length; rewrite ES; destruct HS as [[-> _]|[-> _]]; reflexivity).
  assert (RK : (zlen (x_shape t) =? 1) || (zlen (x_shape t) =? 2) = true) by (rewrite ES; destruct HS as [[-> _]|[-> _]]; reflexivity).
  rewrite RK. cbn [negb]. rewrite (h_shape _ _ _ HW). cbn [last]. change (o_win o') with (win_of o). rewrite Z.eqb_refl. cbn [negb]. rewrite SL. cbn [rbind].
  assert (BB : (if zlen (x_shape t) =? 1 then 1 else nth 0 (x_shape t) 0) = B) by (rewrite ES; destruct HS as [[-> ->]|[-> _]]; reflexivity).
  rewrite BB. cbv zeta. change (o_center o') with (o_center o). change (o_n o') with (o_n o). change (o_hop o') with (hop_of o).
  rewrite Z.quot_div_nonneg by lia. assert (HH : 0 <= o_n o / 2) by (apply Z.div_pos; lia).
  assert (LL : (if o_center o then len + 2 * (o_n o / 2) else len) = len + 2 * margin o) by (unfold margin; destruct (o_center o); ring). rewrite LL.
  unfold quotient. replace (hop_of o =? 0) with false by lia. cbn [rbind]. rewrite Z.quot_div_nonneg by lia. fold (frame_count o len).
  assert (FC : 1 <= frame_count o len) by (unfold frame_count; assert (0 <= (len + 2 * margin o - win_of o) / hop_of o) by (apply Z.div_pos; lia); lia).
  assert (FE : forall f, 0 <= f < frame_count o len -> 0 <= f * hop_of o /\ f * hop_of o + win_of o <= len + 2 * margin o).
  { intros f Hf. split; [apply Z.mul_nonneg_nonneg; lia|]. unfold frame_count in Hf.
    assert (f <= (len + 2 * margin o - win_of o) / hop_of o) by lia.
    assert (hop_of o * ((len + 2 * margin o - win_of o) / hop_of o) <= len + 2 * margin o - win_of o) by (apply Z.mul_div_le; lia).
    assert (f * hop_of o <= (len + 2 * margin o - win_of o) / hop_of o * hop_of o) by (apply Z.mul_le_mono_nonneg_r; lia). lia. }
  assert (B1 : 1 <= B) by (destruct HS as [[_ ->]|[_ H]]; lia).
  set (shp := [B; o_n o / 2 + 1; frame_count o len]). set (V := at3 c0 (fun _ k f => stft o len x w k f)).
  assert (SD : Forall (fun d => 0 <= d) shp) by (unfold shp; repeat constructor; lia).
  destruct (written_fresh shp V) as (out & EO & WO); [cbn; lia|]. rewrite EO. cbn [rbind].
  destruct (pad_signal_ok o t B len shape _ x ltac:(lia) Hl HS ES HX HM eq_refl) as (p & EP & VP). fold o' in EP. rewrite EP. cbn [rbind].
  assert (HWL : forall i, 0 <= i < win_of o -> loadv (x_buf window) (x_offset window + i) = ROk (w i)).
  { intros i Hi. apply (load_ravel window [win_of o] (fun idx => w (nth 0 idx 0)) [i] _ HW); [repeat constructor; lia|].
    unfold ravel, product. cbn [fold_right]. ring. }
  destruct (zloop_inv (fun b out => written shp V (fun idx => nth 0 idx 0 < b) out) B (fun b => zloop (frame_count o len) (fun f out =>
      do y <- frame o' p window f;
      zloop (o_n o / 2 + 1) (fun k out => do v <- loadv y k; at_store out [b; k; f] (Some v)) out)) out) as (out' & E & W').
  - lia.
  - revert WO. apply written_weaken. intros idx Hi H0. inversion Hi; subst. cbn [nth] in H0. lia.
  - intros b o1 Hb W1.
    destruct (zloop_inv (fun f out => written shp V (fun idx => nth 0 idx 0 < b \/ nth 0 idx 0 = b /\ nth 2 idx 0 < f) out) (frame_count o len) (fun f out =>
      do y <- frame o' p window f;
      zloop (o_n o / 2 + 1) (fun k out => do v <- loadv y k; at_store out [b; k; f] (Some v)) out) o1) as (o2 & E2 & W2).
    + lia.
    + revert W1. apply written_weaken. unfold shp. intros idx Hi H0.
      inversion Hi as [|? ? ? ? ? Hi2]; subst. inversion Hi2 as [|? ? ? ? ? Hi3]; subst. inversion Hi3; subst. cbn [nth] in *. lia.
    + intros f o3 Hf W3. destruct (FE f Hf) as [F1 F2].
      destruct (frame_ok o' p window (len + 2 * margin o) (extended o len x) w f) as (y & Ey & Y1 & Y2).
      { exact Hn. } { cbn [o_win o_n o']. lia. } { exact F1. } { exact F2. } { exact VP. } { exact HWL. }
      rewrite Ey. cbn [rbind].
      destruct (zloop_inv (fun k out => written shp V (fun idx => (nth 0 idx 0 < b \/ nth 0 idx 0 = b /\ nth 2 idx 0 < f) \/ nth 0 idx 0 = b /\ nth 2 idx 0 = f /\ nth 1 idx 0 < k) out) (o_n o / 2 + 1)
         (fun k out => do v <- loadv y k; at_store out [b; k; f] (Some v)) o3) as (o4 & E4 & W4).
      * lia.
      * revert W3. apply written_weaken. unfold shp. intros idx Hi H0.
        inversion Hi as [|? ? ? ? ? Hi2]; subst. inversion Hi2 as [|? ? ? ? ? Hi3]; subst. inversion Hi3; subst. cbn [nth] in *. lia.
      * intros k o5 Hk W5. cbn [o_n o'] in Y1, Y2.
        assert (KN : 0 <= k < o_n o) by (clear - Hk Hn; Z.to_euclidean_division_equations; lia).
        erewrite loadv_at; [|lia|apply Y2; exact KN]. cbn [rbind].
        edestruct (written_store shp V) as (o6 & E6 & W6); [exact SD|exact W5| | |].
        3: { exists o6. split; [exact E6|]. revert W6. apply written_weaken. intros idx Hi H0.
          unfold shp in Hi. inversion Hi as [|i0 ? ? ? ? Hi2]; subst. inversion Hi2 as [|i1 ? ? ? ? Hi3]; subst. inversion Hi3 as [|i2 ? ? ? ? Hi4]; subst. inversion Hi4; subst.
          cbn [nth] in *. destruct (Z.eq_dec i0 b), (Z.eq_dec i1 k), (Z.eq_dec i2 f); subst; auto; left; lia. }
        { unfold shp. repeat constructor; lia. }
        reflexivity.
      * exists o4. split; [exact E4|]. revert W4. apply written_weaken. unfold shp. intros idx Hi H0.
        inversion Hi as [|? ? ? ? ? Hi2]; subst. inversion Hi2 as [|? ? ? ? ? Hi3]; subst. inversion Hi3; subst. cbn [nth] in *. lia.
    + exists o2. split; [exact E2|]. revert W2. apply written_weaken. unfold shp. intros idx Hi H0.
      inversion Hi as [|? ? ? ? ? Hi2]; subst. inversion Hi2 as [|? ? ? ? ? Hi3]; subst. inversion Hi3; subst. cbn [nth] in *. lia.
  - assert (EX := E). match goal with |- returns ?X _ _ => assert (EY : X = ROk out') by exact E; rewrite EY end.
    apply written_returns; [cbn; lia|exact SD|]. revert W'. apply written_weaken. unfold shp. intros idx Hi _. inversion Hi; subst. cbn [nth]. lia.
Qed.
