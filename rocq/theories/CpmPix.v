(** The pictures as patches. *)
From Verif Require Import Base DTypeModel ParamModel TensorModel VlModel VlProofs CpmModel CpmSpec CpmSlice.
From Verif Require AotModel AotProofs AotGraph.
From Coq Require Import ArithRing.
Local Open Scope nat_scope.

Lemma flat_len {X Y} (f : X -> list Y) k : forall l, Forall (fun x => length (f x) = k) l -> length (flat_map f l) = length l * k.
Proof. induction l as [|x l IH]; intro H; [reflexivity|]. cbn [flat_map length]. rewrite app_length, (IH (Forall_inv_tail H)), (Forall_inv H). reflexivity. Qed.
Lemma wr_nth : forall {A} (b : list A) p x, p < length b -> exists b', wr b p x = ROk b' /\ length b' = length b /\ forall q, nth_error b' q = if q =? p then Some x else nth_error b q.
Proof.
  intros A b p x H. destruct (wr_ok b p x H) as (b' & E & L & V & O). exists b'. split; [exact E|]. split; [exact L|]. intro q.
  destruct (q =? p) eqn:Q; [apply Nat.eqb_eq in Q; subst; exact V|apply O; apply Nat.eqb_neq; exact Q].
Qed.

Section Pixels.
Context {F : Type} (ofbyte : Z -> F) (sub div : F -> F -> F) (mean std : list F) (zero : F).
Notation chw := (chw ofbyte).

Lemma chw_len img : length (chw img) = i_c img * (i_h img * i_w img).
Proof.
  unfold CpmModel.chw. rewrite (flat_len _ (i_h img * i_w img)), seq_length; [reflexivity|]. apply Forall_forall. intros c _.
  rewrite (flat_len _ (i_w img)), seq_length; [reflexivity|]. apply Forall_forall. intros y _. rewrite map_length, seq_length. reflexivity.
Qed.
Lemma chw_nth img c y x : rgb img -> c < 3 -> y < i_h img -> x < i_w img ->
  nth_error (chw img) (c * (i_h img * i_w img) + (y * i_w img + x)) = option_map ofbyte (pixel img y x c) /\ pixel img y x c <> None.
Proof.
  intros [C L] Hc Hy Hx. unfold CpmModel.chw, pixel. rewrite C.
  rewrite nth_error_flat; [|apply Forall_forall; intros c' _; rewrite (flat_len _ (i_w img)), seq_length; [reflexivity|apply Forall_forall; intros y' _; rewrite map_length, seq_length; reflexivity]|apply index_bound; lia].
  rewrite nth_error_seq by lia. cbn [Nat.add].
  rewrite nth_error_flat; [|apply Forall_forall; intros y' _; rewrite map_length, seq_length; reflexivity|exact Hx].
  rewrite nth_error_seq by lia. cbn [Nat.add]. rewrite nth_error_map_seq by lia. cbn [Nat.add].
  replace ((y <? i_h img) && (x <? i_w img) && (c <? 3)) with true by lia.
  assert (B := flat3 x c 3 (i_w img) y (i_h img) Hx ltac:(lia) Hy).
  rewrite (nth_error_nth' (i_data img) 0%Z) by lia. split; [reflexivity|discriminate].
Qed.

(** normalize_tensor. *)
Definition norm (c : nat) (v : F) : F := match nth_error mean c, nth_error std c with Some m, Some s => div (sub v m) s | _, _ => v end.
Lemma normalize_ok C H W t : length t = C * (H * W) -> C <= length mean -> C <= length std ->
  exists t', normalize_tensor sub div mean std C H W t = ROk t' /\ length t' = length t /\
    forall p, p < length t -> nth_error t' p = option_map (norm (p / (H * W))) (nth_error t p).
Proof.
  intros L Lm Ls. unfold normalize_tensor.
  set (inv := fun (k : nat) (t' : list F) => length t' = length t /\ forall p, nth_error t' p = if p <? k then option_map (norm (p / (H * W))) (nth_error t p) else nth_error t p).
  destruct (AotProofs.for_up_inv (fun c t' => inv (c * (H * W)) t')
    (fun c t => do m <- rd mean c; do s <- rd std c; for_up H 0 (fun h t => for_up W 0 (fun w t => let idx := c * H * W + h * W + w in do v <- rd t idx; wr t idx (div (sub v m) s)) t) t) C 0 t) as (t' & E & I).
  - split; [reflexivity|]. intro p. reflexivity.
  - intros c s Hc Ic.
    destruct (nth_error mean c) as [m|] eqn:Em; [|apply nth_error_None in Em; lia]. destruct (nth_error std c) as [sd|] eqn:Es; [|apply nth_error_None in Es; lia].
    rewrite (rd_ok _ _ _ Em), (rd_ok _ _ _ Es). cbn [rbind].
    destruct (AotProofs.for_up_inv (fun h t' => inv (c * (H * W) + h * W) t')
      (fun h t => for_up W 0 (fun w t => let idx := c * H * W + h * W + w in do v <- rd t idx; wr t idx (div (sub v m) sd)) t) H 0 s) as (s1 & E1 & I1).
    + rewrite Nat.mul_0_l, Nat.add_0_r. exact Ic.
    + intros h s1 Hh Ih.
      destruct (AotProofs.for_up_inv (fun w t' => inv (c * (H * W) + h * W + w) t')
        (fun w t => let idx := c * H * W + h * W + w in do v <- rd t idx; wr t idx (div (sub v m) sd)) W 0 s1) as (s2 & E2 & I2).
      * rewrite Nat.add_0_r. exact Ih.
      * intros w s2 Hw Iw. cbv zeta. replace (c * H * W + h * W + w) with (c * (H * W) + (h * W + w)) by lia. destruct Iw as [Lw Vw].
        assert (B1 := index_bound h w H W ltac:(lia) ltac:(lia)). assert (B2 := index_bound c (h * W + w) C (H * W) ltac:(lia) B1).
        assert (V := Vw (c * (H * W) + (h * W + w))). rewrite <- Nat.add_assoc, Nat.ltb_irrefl in V.
        destruct (nth_error t (c * (H * W) + (h * W + w))) as [v|] eqn:Ev; [|apply nth_error_None in Ev; lia].
        rewrite (rd_ok _ _ _ V). cbn [rbind]. destruct (wr_nth s2 (c * (H * W) + (h * W + w)) (div (sub v m) sd)) as (s3 & E3 & L3 & V3); [lia|].
        exists s3. split; [exact E3|]. split; [lia|]. intro p. rewrite V3.
        destruct (p =? c * (H * W) + (h * W + w)) eqn:Ep.
        -- apply Nat.eqb_eq in Ep. subst p. replace (_ <? _) with true by lia. rewrite Ev. cbn [option_map]. rewrite div_mul_add by exact B1. unfold norm. rewrite Em, Es. reflexivity.
        -- apply Nat.eqb_neq in Ep. rewrite Vw. destruct (p <? c * (H * W) + h * W + w) eqn:Ea; destruct (p <? c * (H * W) + h * W + (w + 1)) eqn:Eb; try reflexivity; exfalso; lia.
      * exists s2. split; [exact E2|]. replace (c * (H * W) + (h + 1) * W) with (c * (H * W) + h * W + (0 + W)) by lia. exact I2.
    + exists s1. split; [exact E1|]. replace ((c + 1) * (H * W)) with (c * (H * W) + (0 + H) * W) by lia. exact I1.
  - exists t'. split; [exact E|]. destruct I as [I1 I2]. split; [exact I1|]. intros p Hp. rewrite I2. replace (p <? (0 + C) * (H * W)) with true by lia. reflexivity.
Qed.

(** reshape_by_patch. *)
Lemma reshape_ok ps C nh nw (t b : list F) : 1 <= ps -> length t = C * (nh * ps * (nw * ps)) -> length b = C * (ps * (nh * nw * ps)) ->
  exists r, reshape_by_patch ps C (nh * ps) (nw * ps) t b = ROk r /\ length r = length b /\
    forall c k y z x, c < C -> k < ps -> y < nh -> z < nw -> x < ps ->
      nth_error r (c * (ps * (nh * nw * ps)) + k * (nh * nw * ps) + (y * nw + z) * ps + x) =
      nth_error t (c * (nh * ps * (nw * ps)) + ((y * ps + k) * (nw * ps) + (z * ps + x))).
Proof.
  intros Hp Lt Lb. unfold reshape_by_patch. rewrite !ndiv_ok by lia. cbn [rbind]. rewrite !Nat.div_mul by lia. rewrite Lb, Nat.eqb_refl. cbv zeta.
  set (T := nh * nw * ps). set (I := nh * ps * (nw * ps)) in *.
  set (ws := flat_map (fun c => flat_map (fun ph => flat_map (fun pw => flat_map (fun kh =>
     copies (c * (ps * (nh * nw) * ps) + kh * (nh * nw * ps) + (ph * nw + pw) * ps) t (c * I + (ph * ps + kh) * (nw * ps) + pw * ps) ps)
     (seq 0 ps)) (seq 0 nw)) (seq 0 nh)) (seq 0 C)).
  assert (Src : forall c y k z x, c < C -> y < nh -> k < ps -> z < nw -> x < ps -> c * I + ((y * ps + k) * (nw * ps) + (z * ps + x)) < length t).
  { intros c y k z x Hc Hy Hk Hz Hx. rewrite Lt. apply index_bound; [exact Hc|]. unfold I. apply index_bound; apply index_bound; assumption. }
  assert (D : does (for_up C 0 (fun c out => for_up nh 0 (fun ph out => for_up nw 0 (fun pw out => for_up ps 0 (fun kh out =>
     memcpy out (c * (ps * (nh * nw) * ps) + kh * (nh * nw * ps) + (ph * nw + pw) * ps) t (c * (nh * ps * (nw * ps)) + (ph * ps + kh) * (nw * ps) + pw * ps) ps) out) out) out)) ws).
  { unfold ws. apply does_loop. intros c Hc. apply does_loop. intros ph Hh. apply does_loop. intros pw Hw. apply does_loop. intros kh Hk.
    apply does_memcpy. assert (X := Src c ph kh pw (ps - 1) ltac:(lia) ltac:(lia) ltac:(lia) ltac:(lia) ltac:(lia)). fold I. lia. }
  assert (In1 : forall p v, In (p, v) ws <-> exists c y z k x, c < C /\ y < nh /\ z < nw /\ k < ps /\ x < ps /\
     p = c * (ps * T) + (k * T + ((y * nw + z) * ps + x)) /\ nth_error t (c * I + ((y * ps + k) * (nw * ps) + (z * ps + x))) = Some v).
  { intros p v. unfold ws. rewrite in_loop. split.
    - intros (c & Hc & X). apply in_loop in X as (y & Hy & X). apply in_loop in X as (z & Hz & X). apply in_loop in X as (k & Hk & X). apply copies_in in X as (x & Hx & -> & V).
      exists c, y, z, k, x. do 5 (split; [lia|]). split; [unfold T; ring|]. rewrite <- V. f_equal. lia.
    - intros (c & y & z & k & x & Hc & Hy & Hz & Hk & Hx & -> & V). exists c. split; [lia|]. apply in_loop. exists y. split; [lia|]. apply in_loop. exists z. split; [lia|].
      apply in_loop. exists k. split; [lia|]. apply copies_in. exists x. split; [exact Hx|]. split; [unfold T; ring|]. rewrite <- V. f_equal. lia. }
  assert (Bd : forall k y z x, y < nh -> z < nw -> k < ps -> x < ps -> (y * nw + z) * ps + x < T /\ k * T + ((y * nw + z) * ps + x) < ps * T).
  { intros k y z x Hy Hz Hk Hx. assert (A : (y * nw + z) * ps + x < T) by (unfold T; apply index_bound; [apply index_bound; assumption|exact Hx]). split; [exact A|]. apply index_bound; assumption. }
  destruct (put_all_ok ws b) as (r & E & Lr & V & _).
  - intros p v X. apply In1 in X as (c & y & z & k & x & Hc & Hy & Hz & Hk & Hx & -> & _). rewrite Lb. fold T. apply index_bound; [exact Hc|apply Bd; assumption].
  - intros p v v' X X'. apply In1 in X as (c & y & z & k & x & Hc & Hy & Hz & Hk & Hx & -> & Vv). apply In1 in X' as (c' & y' & z' & k' & x' & Hc' & Hy' & Hz' & Hk' & Hx' & Ep & Vv').
    destruct (Bd k y z x Hy Hz Hk Hx) as [B1 B2]. destruct (Bd k' y' z' x' Hy' Hz' Hk' Hx') as [B1' B2'].
    assert (c = c') by (apply (f_equal (fun q => q / (ps * T))) in Ep; rewrite !div_mul_add in Ep by assumption; exact Ep). subst c'.
    apply (f_equal (fun q => q mod (ps * T))) in Ep. rewrite !mod_mul_add in Ep by assumption.
    assert (k = k') by (apply (f_equal (fun q => q / T)) in Ep; rewrite !div_mul_add in Ep by assumption; exact Ep). subst k'.
    apply (f_equal (fun q => q mod T)) in Ep. rewrite !mod_mul_add in Ep by assumption.
    assert (y * nw + z = y' * nw + z') by (apply (f_equal (fun q => q / ps)) in Ep; rewrite !div_mul_add in Ep by assumption; exact Ep).
    assert (x = x') by (apply (f_equal (fun q => q mod ps)) in Ep; rewrite !mod_mul_add in Ep by assumption; exact Ep). subst x'.
    assert (y = y') by (apply (f_equal (fun q => q / nw)) in H; rewrite !div_mul_add in H by assumption; exact H). subst y'.
    assert (z = z') by lia. subst z'. congruence.
  - exists r. split; [apply D; exact E|]. split; [rewrite Lr; exact Lb|]. intros c k y z x Hc Hk Hy Hz Hx. fold T I.
    assert (S := Src c y k z x Hc Hy Hk Hz Hx). destruct (nth_error t (c * I + ((y * ps + k) * (nw * ps) + (z * ps + x)))) as [v|] eqn:Ev; [|apply nth_error_None in Ev; lia].
    replace (c * (ps * T) + k * T + (y * nw + z) * ps + x) with (c * (ps * T) + (k * T + ((y * nw + z) * ps + x))) by lia.
    apply V. apply In1. exists c, y, z, k, x. auto 10.
Qed.

(** One picture. *)
Lemma process_one_ok ps junk img nh nw : rgb img -> 1 <= ps -> i_h img = nh * ps -> i_w img = nw * ps -> 3 <= length mean -> 3 <= length std ->
  (forall n, length (junk n) = n) ->
  exists r, process_one ofbyte sub div mean std ps junk img = ROk ((nh * nw * ps, r), (nh, nw)) /\ length r = 3 * (ps * (nh * nw * ps)) /\
    forall c k y z x, c < 3 -> k < ps -> y < nh -> z < nw -> x < ps ->
      nth_error r (c * (ps * (nh * nw * ps)) + k * (nh * nw * ps) + (y * nw + z) * ps + x) =
        option_map (fun v => norm c (ofbyte v)) (pixel img (y * ps + k) (z * ps + x) c) /\ pixel img (y * ps + k) (z * ps + x) c <> None.
Proof.
  intros R Hp Eh Ew Lm Ls J. assert (C := proj1 R). unfold process_one.
  destruct (normalize_ok 3 (i_h img) (i_w img) (chw img)) as (t & Et & Lt & Vt); [rewrite chw_len, C; reflexivity|exact Lm|exact Ls|].
  rewrite C, Et. cbn [rbind]. rewrite !ndiv_ok by lia. cbn [rbind]. rewrite chw_len, C in Lt, Vt.
  assert (A : i_h img / ps = nh) by (rewrite Eh; apply Nat.div_mul; lia). assert (B : i_w img / ps = nw) by (rewrite Ew; apply Nat.div_mul; lia). rewrite A, B.
  destruct (reshape_ok ps 3 nh nw t (junk (3 * (ps * (nh * nw * ps)))) Hp) as (r & Er & Lr & Vr); [rewrite Lt, Eh, Ew; reflexivity|apply J|].
  rewrite <- Eh, <- Ew in Er. rewrite Er. cbn [rbind]. exists r. split; [reflexivity|]. split; [rewrite Lr; apply J|].
  intros c k y z x Hc Hk Hy Hz Hx. assert (H1 := index_bound y k nh ps Hy Hk). assert (H2 := index_bound z x nw ps Hz Hx).
  destruct (chw_nth img c (y * ps + k) (z * ps + x) R Hc ltac:(lia) ltac:(lia)) as [E1 E2]. split; [|exact E2].
  rewrite Vr by assumption. rewrite <- Eh, <- Ew. assert (Bi := index_bound (y * ps + k) (z * ps + x) (i_h img) (i_w img) ltac:(lia) ltac:(lia)).
  rewrite Vt by (apply index_bound; [exact Hc|exact Bi]). rewrite E1, div_mul_add by exact Bi. destruct (pixel img (y * ps + k) (z * ps + x) c); reflexivity.
Qed.

(** The batch. *)
Lemma widest_from : forall (ts : list (nat * list F)) m, m <= fold_left (fun m t => if m <? fst t then fst t else m) ts m /\
  forall t, In t ts -> fst t <= fold_left (fun m t => if m <? fst t then fst t else m) ts m.
Proof.
  induction ts as [|t ts IH]; intro m; cbn [fold_left]; [split; [lia|intros t []]|]. destruct (IH (if m <? fst t then fst t else m)) as [A B].
  destruct (m <? fst t) eqn:E; (split; [lia|]); intros u [<-|Hu]; try (apply B; exact Hu); lia.
Qed.
Lemma widest_ge ts t : In t ts -> fst t <= widest (F := F) ts.
Proof. intro H. apply widest_from, H. Qed.
Lemma batch_ok C ps (ts : list (nat * list F)) : Forall (fun t => length (snd t) = C * (ps * fst t)) ts ->
  exists out, pixel_values zero C ps ts = ROk out /\ length out = length ts * C * ps * widest ts /\
    forall b t c k x, nth_error ts b = Some t -> c < C -> k < ps -> x < widest ts ->
      nth_error out (((b * C + c) * ps + k) * widest ts + x) = if x <? fst t then nth_error (snd t) ((c * ps + k) * fst t + x) else Some zero.
Proof.
  intro Fl. unfold pixel_values. set (W := widest ts) in *.
  set (ws := flat_map (fun b => match nth_error ts b with Some t => flat_map (fun c => flat_map (fun p =>
     copies (b * C * ps * W + c * ps * W + p * W) (snd t) (c * ps * fst t + p * fst t) (fst t)) (seq 0 ps)) (seq 0 C) | None => [] end) (seq 0 (length ts))).
  assert (Src : forall t c k, In t ts -> c < C -> k < ps -> (c * ps + k) * fst t + fst t <= length (snd t)).
  { intros t c k Ht Hc Hk. rewrite Forall_forall in Fl. rewrite (Fl t Ht). assert (A := index_bound c k C ps Hc Hk).
    replace ((c * ps + k) * fst t + fst t) with ((c * ps + k + 1) * fst t) by lia. replace (C * (ps * fst t)) with (C * ps * fst t) by lia. apply Nat.mul_le_mono_r. lia. }
  assert (D : does (for_up (length ts) 0 (fun b out => do t <- rd ts b; for_up C 0 (fun c out => for_up ps 0 (fun p out =>
     memcpy out (b * C * ps * W + c * ps * W + p * W) (snd t) (c * ps * fst t + p * fst t) (fst t)) out) out)) ws).
  { unfold ws. apply does_loop. intros b Hb. destruct (nth_error ts b) as [t|] eqn:Et; [|apply nth_error_None in Et; lia].
    eapply does_ext; [intro o; rewrite (rd_ok _ _ _ Et); reflexivity|]. apply does_loop. intros c Hc. apply does_loop. intros k Hk. apply does_memcpy.
    assert (S := Src t c k (nth_error_In _ _ Et) ltac:(lia) ltac:(lia)). lia. }
  assert (In1 : forall p v, In (p, v) ws <-> exists b t c k x, nth_error ts b = Some t /\ c < C /\ k < ps /\ x < fst t /\
     p = ((b * C + c) * ps + k) * W + x /\ nth_error (snd t) ((c * ps + k) * fst t + x) = Some v).
  { intros p v. unfold ws. rewrite in_loop. split.
    - intros (b & Hb & X). destruct (nth_error ts b) as [t|] eqn:Et; [|destruct X]. apply in_loop in X as (c & Hc & X). apply in_loop in X as (k & Hk & X). apply copies_in in X as (x & Hx & -> & V).
      exists b, t, c, k, x. split; [exact Et|]. do 3 (split; [lia|]). split; [ring|]. rewrite <- V. f_equal. ring.
    - intros (b & t & c & k & x & Et & Hc & Hk & Hx & -> & V). exists b. split; [assert (Y : nth_error ts b <> None) by congruence; apply nth_error_Some in Y; lia|]. rewrite Et.
      apply in_loop. exists c. split; [lia|]. apply in_loop. exists k. split; [lia|]. apply copies_in. exists x. split; [exact Hx|]. split; [ring|]. rewrite <- V. f_equal. ring. }
  assert (Inj : forall b c k x b' c' k' x', c < C -> k < ps -> x < W -> c' < C -> k' < ps -> x' < W ->
     ((b * C + c) * ps + k) * W + x = ((b' * C + c') * ps + k') * W + x' -> b = b' /\ c = c' /\ k = k' /\ x = x').
  { intros b c k x b' c' k' x' Hc Hk Hx Hc' Hk' Hx' E.
    assert (E1 := f_equal (fun q => q mod W) E). cbv beta in E1. rewrite !mod_mul_add in E1 by assumption. apply (f_equal (fun q => q / W)) in E. rewrite !div_mul_add in E by assumption.
    assert (E2 := f_equal (fun q => q mod ps) E). cbv beta in E2. rewrite !mod_mul_add in E2 by assumption. apply (f_equal (fun q => q / ps)) in E. rewrite !div_mul_add in E by assumption.
    assert (E3 := f_equal (fun q => q mod C) E). cbv beta in E3. rewrite !mod_mul_add in E3 by assumption. apply (f_equal (fun q => q / C)) in E. rewrite !div_mul_add in E by assumption. auto. }
  assert (Wd : forall b t, nth_error ts b = Some t -> fst t <= W) by (intros b t Et; apply widest_ge; eapply nth_error_In; exact Et).
  destruct (put_all_ok ws (repeat zero (length ts * C * ps * W))) as (out & E & Lo & V & O).
  - intros p v X. apply In1 in X as (b & t & c & k & x & Et & Hc & Hk & Hx & -> & _). rewrite repeat_length. assert (Y : nth_error ts b <> None) by congruence. apply nth_error_Some in Y.
    apply index_bound; [|specialize (Wd b t Et); lia]. apply index_bound; [apply index_bound; assumption|exact Hk].
  - intros p v v' X X'. apply In1 in X as (b & t & c & k & x & Et & Hc & Hk & Hx & -> & Vv). apply In1 in X' as (b' & t' & c' & k' & x' & Et' & Hc' & Hk' & Hx' & Ep & Vv').
    assert (Y := Wd b t Et). assert (Y' := Wd b' t' Et'). destruct (Inj b c k x b' c' k' x' Hc Hk ltac:(lia) Hc' Hk' ltac:(lia) Ep) as (-> & -> & -> & ->). congruence.
  - exists out. split; [apply D; exact E|]. split; [rewrite Lo; apply repeat_length|]. intros b t c k x Et Hc Hk Hx. destruct (x <? fst t) eqn:Ex.
    + assert (S := Src t c k (nth_error_In _ _ Et) Hc Hk). destruct (nth_error (snd t) ((c * ps + k) * fst t + x)) as [v|] eqn:Ev; [|apply nth_error_None in Ev; lia].
      apply V. apply In1. exists b, t, c, k, x. split; [exact Et|]. split; [exact Hc|]. split; [exact Hk|]. split; [lia|]. auto.
    + rewrite O.
      * assert (Y : nth_error ts b <> None) by congruence. apply nth_error_Some in Y. assert (Z : ((b * C + c) * ps + k) * W + x < length ts * C * ps * W).
        { apply index_bound; [|exact Hx]. apply index_bound; [apply index_bound; assumption|exact Hk]. }
        rewrite (nth_error_nth' _ zero) by (rewrite repeat_length; exact Z). f_equal. apply nth_repeat.
      * intros v X. apply In1 in X as (b' & t' & c' & k' & x' & Et' & Hc' & Hk' & Hx' & Ep & _). assert (Y' := Wd b' t' Et').
        destruct (Inj b c k x b' c' k' x' Hc Hk Hx Hc' Hk' ltac:(lia) Ep) as (-> & -> & -> & ->). rewrite Et in Et'. injection Et' as ->. lia.
Qed.
End Pixels.
