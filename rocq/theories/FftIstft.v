(** The inverse of the short-time transform. *)
From Coq Require Import Reals Lra.
From Verif Require Import Base DTypeModel ParamModel ParamSpec TensorModel TensorSpec TensorProofs OpsModel MatModel MatSpec MatProofs MatKernel AttnSpec AttnProofs NumSpec NumSoftmax RopeOps InterpProofs InterpOps FftModel FftSpec FftProofs FftBits FftRadix FftBluestein FftStft.
Local Open Scope Z_scope.

Add Ring cx_ring_inst5 : cx_ring.

Lemma load_spectrum_ok n (t : tns cx) B frames (X : Z -> Z -> Z -> cx) b f (data : buf cx) : 1 <= n -> 0 <= b < B -> 0 <= f < frames ->
  holds t [B; n / 2 + 1; frames] (at3 c0 X) -> b_len data = n ->
  exists data', load_spectrum n (n / 2 + 1) b f t data = ROk data' /\ vector data' n (whole_spectrum n (fun k => X b k f)).
Proof.
  intros Hn Hb Hf HT HL. unfold load_spectrum. assert (HH : 0 <= n / 2 /\ n - (n / 2 + 1) <= n / 2 /\ n / 2 + 1 <= n) by (clear - Hn; Z.to_euclidean_division_equations; lia).
  destruct (changes_loop (fun d => Some (X b d f)) (n / 2 + 1) (fun i d => i = d)
    (fun k (data : buf cx) => do v <- at_load t [b; k; f]; do v <- need v; store data k (Some v)) data) as (d1 & E1 & C1).
  { intros; congruence. }
  { intros k d Hk LB OB. rewrite at_load_ok.
    2: apply (h_ok _ _ _ HT).
    2: { rewrite (h_shape _ _ _ HT). repeat constructor; lia. }
    rewrite (h_elem _ _ _ HT) by (repeat constructor; lia). cbn [rbind need at3].
    apply (changes_store (fun d => Some (X b d f))); [lia|reflexivity]. }
  run E1.
  destruct (zloop_inv (fun i (d : buf cx) => b_len d = n /\ forall k, 0 <= k < n / 2 + 1 + i -> b_at d k = Some (whole_spectrum n (fun k => X b k f) k)) (n - (n / 2 + 1))
    (fun i (data : buf cx) => let k := n / 2 + 1 + i in do v <- loadv data (n - k); store data k (Some (conj v))) d1) as (d2 & E2 & L2 & V2).
  - lia.
  - split; [rewrite (c_len _ _ _ _ C1); exact HL|]. intros k Hk. rewrite (c_set _ _ _ _ C1) by (exists k; lia). unfold whole_spectrum. replace (k <=? n / 2) with true by lia. reflexivity.
  - intros i d Hi [L V]. cbv zeta. rewrite (loadv_at d (n - (n / 2 + 1 + i)) (X b (n - (n / 2 + 1 + i)) f)).
    2: lia.
    2: { rewrite V by lia. unfold whole_spectrum. replace (n - (n / 2 + 1 + i) <=? n / 2) with true by lia. reflexivity. }
    cbn [rbind]. unfold store. replace ((0 <=? n / 2 + 1 + i) && (n / 2 + 1 + i <? b_len d)) with true by lia.
    eexists. split; [reflexivity|]. split; [exact L|]. intros k Hk. cbn [b_at]. destruct (Z.eqb_spec k (n / 2 + 1 + i)) as [->|N].
    + unfold whole_spectrum. replace (n / 2 + 1 + i <=? n / 2) with false by lia. reflexivity.
    + apply V. lia.
  - exists d2. split; [exact E2|]. split; [exact L2|]. intros k Hk. apply V2. lia.
Qed.

(** Values in a piece of a buffer. *)
Definition piece {A} (b : buf A) (at_ len : Z) (v : Z -> A) : Prop := forall p, 0 <= p < len -> b_at b (at_ + p) = Some (v p).
Definition elsewhere {A} (b b' : buf A) (at_ len : Z) : Prop := b_len b' = b_len b /\ forall d, ~ (at_ <= d < at_ + len) -> b_at b' d = b_at b d.
Definition within (start win p : Z) (g : Z -> R) : R := if (0 <=? p - start) && (p - start <? win) then g (p - start) else 0%R.
Lemma elsewhere_refl {A} (b : buf A) at_ len : elsewhere b b at_ len. Proof. split; auto. Qed.
Lemma elsewhere_trans {A} (b b1 b2 : buf A) at_ len : elsewhere b b1 at_ len -> elsewhere b1 b2 at_ len -> elsewhere b b2 at_ len.
Proof. intros [L1 E1] [L2 E2]. split; [congruence|]. intros d Hd. rewrite E2, E1; auto. Qed.

Lemma overlap_add_ok start win limit at_ (y : buf cx) (window : tns R) (o e : buf R) (Y : Z -> cx) w v ev :
  0 <= start -> 0 <= win -> 0 <= at_ -> at_ + limit <= b_len o -> b_len e = limit -> (forall i, 0 <= i < win -> loadv y i = ROk (Y i)) ->
  (forall i, 0 <= i < win -> loadv (x_buf window) (x_offset window + i) = ROk (w i)) ->
  piece o at_ limit v -> piece e 0 limit ev ->
  exists o' e', overlap_add start win limit at_ y window (o, e) = ROk (o', e') /\ elsewhere o o' at_ limit /\ b_len e' = limit /\
    piece o' at_ limit (fun p => (v p + within start win p (fun i => fst (Y i) * w i))%R) /\
    piece e' 0 limit (fun p => (ev p + within start win p (fun i => w i * w i))%R).
Proof.
  intros Hs Hw Ha Hl HE HY HW PO PE. unfold overlap_add.
  destruct (zloop_inv (fun i (st : buf R * buf R) => elsewhere o (fst st) at_ limit /\ b_len (snd st) = limit /\
    piece (fst st) at_ limit (fun p => (v p + within start i p (fun i => fst (Y i) * w i))%R) /\
    piece (snd st) 0 limit (fun p => (ev p + within start i p (fun i => w i * w i))%R)) win
    (fun i (st : buf R * buf R) =>
    let p := start + i in
    if p <? limit then
      do v <- loadv y i;
      do w <- loadv (x_buf window) (x_offset window + i);
      do o <- loadv (fst st) (at_ + p);
      do o <- store (fst st) (at_ + p) (Some (o + fst v * w)%R);
      do e <- loadv (snd st) p;
      do e <- store (snd st) p (Some (e + w * w)%R);
      ROk (o, e)
    else ROk st) (o, e)) as ([o' e'] & E & H).
  - exact Hw.
  - cbn [fst snd]. split; [apply elsewhere_refl|]. split; [exact HE|].
    assert (Z0 : forall p g, within start 0 p g = 0%R) by (intros; unfold within; replace ((0 <=? p - start) && (p - start <? 0)) with false by lia; reflexivity).
    split; intros p Hp; rewrite Z0, Rplus_0_r; [apply PO|apply PE]; exact Hp.
  - intros i [b1 b2] Hi ([L1 E1] & L2 & P1 & P2). cbn [fst snd] in *. cbv zeta.
    assert (NEW : forall g, within start (i + 1) (start + i) g = g i) by (intro g; unfold within; replace ((0 <=? start + i - start) && (start + i - start <? i + 1)) with true by lia; f_equal; ring).
    assert (OLD : forall g, within start i (start + i) g = 0%R) by (intro g; unfold within; replace ((0 <=? start + i - start) && (start + i - start <? i)) with false by lia; reflexivity).
    assert (SAME : forall g p, p <> start + i -> within start (i + 1) p g = within start i p g) by (intros g p Np; unfold within; replace (p - start <? i + 1) with (p - start <? i) by lia; reflexivity).
    destruct (Z.ltb_spec (start + i) limit) as [LT|GE].
    + rewrite (HY i Hi). cbn [rbind]. rewrite (HW i Hi). cbn [rbind].
      rewrite (loadv_at b1 (at_ + (start + i)) (v (start + i)%Z)) by (try lia; rewrite P1 by lia; rewrite OLD, Rplus_0_r; reflexivity). cbn [rbind].
      unfold store at 1. replace ((0 <=? at_ + (start + i)) && (at_ + (start + i) <? b_len b1)) with true by lia. cbn [rbind].
      rewrite (loadv_at b2 (start + i) (ev (start + i)%Z)) by (try lia; specialize (P2 (start + i) ltac:(lia)); rewrite Z.add_0_l in P2; rewrite P2, OLD, Rplus_0_r; reflexivity). cbn [rbind].
      unfold store. replace ((0 <=? start + i) && (start + i <? b_len b2)) with true by lia. cbn [rbind].
      eexists. split; [reflexivity|]. cbn [fst snd]. split; [|split; [exact L2|split]].
      * split; [exact L1|]. intros d Hd. cbn [b_at]. replace (d =? at_ + (start + i)) with false by lia. apply E1, Hd.
      * intros p Hp. cbn [b_at]. destruct (Z.eqb_spec (at_ + p) (at_ + (start + i))) as [Ep|Np].
        -- replace p with (start + i) by lia. rewrite NEW. reflexivity.
        -- rewrite SAME by lia. apply P1, Hp.
      * intros p Hp. cbn [b_at]. rewrite Z.add_0_l. destruct (Z.eqb_spec p (start + i)) as [->|Np].
        -- rewrite NEW. reflexivity.
        -- rewrite SAME by lia. apply (P2 p Hp).
    + eexists. split; [reflexivity|]. cbn [fst snd]. split; [split; assumption|]. split; [exact L2|].
      split; intros p Hp; rewrite SAME by lia; [apply P1|apply P2]; exact Hp.
  - cbn [fst snd] in H. exists o', e'. split; [exact E|exact H].
Qed.
Lemma overlap_0 hop win g p : overlap hop win 0 g p = 0%R.
Proof. reflexivity. Qed.
Lemma overlap_succ hop win f g p : 0 <= f -> overlap hop win (f + 1) g p = (overlap hop win f g p + within (f * hop) win p (g f))%R.
Proof.
  intro Hf. unfold overlap. rewrite range_succ by exact Hf. rewrite total_app. f_equal. unfold total_over. cbn [map fold_right].
  rewrite Rplus_0_r. reflexivity.
Qed.

Lemma envelope_divide_ok len at_ (o e : buf R) v ev : 0 <= len -> 0 <= at_ -> at_ + len <= b_len o -> b_len e = len -> piece o at_ len v -> piece e 0 len ev ->
  exists o', envelope_divide len at_ (o, e) = ROk o' /\ elsewhere o o' at_ len /\
    piece o' at_ len (fun p => if Rlt_dec tiny (ev p) then (v p / ev p)%R else v p).
Proof.
  intros Hn Ha Hl HE PO PE. unfold envelope_divide. cbn [fst snd].
  destruct (zloop_inv (fun i (b : buf R) => elsewhere o b at_ len /\ piece b at_ len (fun p => if p <? i then (if Rlt_dec tiny (ev p) then (v p / ev p)%R else v p) else v p)) len
    (fun i o => do e <- loadv e i; if Rlt_dec tiny e then do v <- loadv o (at_ + i); store o (at_ + i) (Some (v / e)%R) else ROk o) o) as (o' & E & EL & P).
  - exact Hn.
  - split; [apply elsewhere_refl|]. intros p Hp. replace (p <? 0) with false by lia. apply PO, Hp.
  - intros i b Hi [[L1 E1] P1]. rewrite (loadv_at e i (ev i)) by (try lia; apply (PE i Hi)). cbn [rbind].
    destruct (Rlt_dec tiny (ev i)) as [T|T] eqn:ET.
    + rewrite (loadv_at b (at_ + i) (v i)) by (try lia; rewrite P1 by lia; replace (i <? i) with false by lia; reflexivity). cbn [rbind].
      unfold store. replace ((0 <=? at_ + i) && (at_ + i <? b_len b)) with true by lia. eexists. split; [reflexivity|]. split.
      * split; [exact L1|]. intros d Hd. cbn [b_at]. replace (d =? at_ + i) with false by lia. apply E1, Hd.
      * intros p Hp. cbn [b_at]. destruct (Z.eqb_spec (at_ + p) (at_ + i)) as [Ep|Np].
        -- replace p with i by lia. replace (i <? i + 1) with true by lia. rewrite ET. reflexivity.
        -- rewrite P1 by exact Hp. replace (p <? i + 1) with (p <? i) by lia. reflexivity.
    + eexists. split; [reflexivity|]. split; [split; assumption|]. intros p Hp. rewrite P1 by exact Hp. destruct (Z.eq_dec p i) as [->|Np].
      * replace (i <? i) with false by lia. replace (i <? i + 1) with true by lia. rewrite ET. reflexivity.
      * replace (p <? i + 1) with (p <? i) by lia. reflexivity.
  - exists o'. split; [exact E|]. split; [exact EL|]. intros p Hp. rewrite P by exact Hp. replace (p <? len) with true by lia. reflexivity.
Qed.

Section Istft.
Context (o : stft_options) (t : tns cx) (window : tns R) (B frames : Z) (X : Z -> Z -> Z -> cx) (w : Z -> R).
Hypothesis Hn : 1 <= o_n o <= 2 ^ 30.
Hypothesis Hw : 1 <= win_of o <= o_n o.
Hypothesis Hh : 1 <= hop_of o.
Hypothesis HB : 0 <= B.
Hypothesis HF : 1 <= frames.
Hypothesis HT : holds t [B; o_n o / 2 + 1; frames] (at3 c0 X).
Hypothesis HWL : forall i, 0 <= i < win_of o -> loadv (x_buf window) (x_offset window + i) = ROk (w i).

Definition synth (b f i : Z) : R := (fst (idft (o_n o) (whole_spectrum (o_n o) (fun k => X b k f)) i) * w i)%R.
Lemma spectra_ok b limit at_ (out env : buf R) (data : buf cx) : 0 <= b < B -> 0 <= limit -> 0 <= at_ -> at_ + limit <= b_len out -> b_len env = limit -> b_len data = o_n o ->
  piece out at_ limit (fun _ => 0%R) -> piece env 0 limit (fun _ => 0%R) ->
  exists data' out' env',
    zloop frames (fun f (s : buf cx * (buf R * buf R)) =>
        do data <- load_spectrum (o_n o) (o_n o / 2 + 1) b f t (fst s);
        do data <- inverse_fft (o_n o) data;
        do st <- overlap_add (f * hop_of o) (win_of o) limit at_ data window (snd s);
        ROk (data, st)) (data, (out, env)) = ROk (data', (out', env')) /\
    b_len data' = o_n o /\ elsewhere out out' at_ limit /\ b_len env' = limit /\
    piece out' at_ limit (overlap (hop_of o) (win_of o) frames (synth b)) /\
    piece env' 0 limit (energy o frames w).
Proof.
  intros Hb Hl Ha HO HE HD PO PE.
  destruct (zloop_inv (fun f (s : buf cx * (buf R * buf R)) => b_len (fst s) = o_n o /\ elsewhere out (fst (snd s)) at_ limit /\ b_len (snd (snd s)) = limit /\
    piece (fst (snd s)) at_ limit (overlap (hop_of o) (win_of o) f (synth b)) /\
    piece (snd (snd s)) 0 limit (energy o f w)) frames
    (fun f (s : buf cx * (buf R * buf R)) =>
        do data <- load_spectrum (o_n o) (o_n o / 2 + 1) b f t (fst s);
        do data <- inverse_fft (o_n o) data;
        do st <- overlap_add (f * hop_of o) (win_of o) limit at_ data window (snd s);
        ROk (data, st)) (data, (out, env))) as ([d' [o' e']] & E & H).
  - lia.
  - cbn [fst snd]. split; [exact HD|]. split; [apply elsewhere_refl|]. split; [exact HE|]. split; [exact PO|exact PE].
  - intros f [d [o1 e1]] Hf (D1 & EL & L1 & P1 & P2). cbn [fst snd] in *.
    destruct (load_spectrum_ok (o_n o) t B frames X b f d ltac:(lia) Hb Hf HT D1) as (d1 & E1 & V1). rewrite E1. cbn [rbind].
    destruct (inverse_fft_ok (o_n o) d1 _ Hn V1) as (d2 & E2 & L2 & V2). rewrite E2. cbn [rbind].
    destruct (overlap_add_ok (f * hop_of o) (win_of o) limit at_ d2 window o1 e1 (idft (o_n o) (whole_spectrum (o_n o) (fun k => X b k f))) w
      (overlap (hop_of o) (win_of o) f (synth b)) (energy o f w)) as (o2 & e2 & E3 & EL2 & L3 & P3 & P4).
    + apply Z.mul_nonneg_nonneg; lia.
    + lia.
    + exact Ha.
    + rewrite (proj1 EL). exact HO.
    + exact L1.
    + intros i Hi. apply loadv_at; [lia|]. apply V2. lia.
    + exact HWL.
    + exact P1.
    + exact P2.
    + rewrite E3. cbn [rbind]. eexists. split; [reflexivity|]. cbn [fst snd]. split; [exact L2|]. split; [exact (elsewhere_trans _ _ _ _ _ EL EL2)|]. split; [exact L3|]. split.
      * intros p Hp. rewrite overlap_succ by lia. apply P3, Hp.
      * intros p Hp. unfold energy. rewrite overlap_succ by lia. apply P4, Hp.
  - cbn [fst snd] in H. exists d', o', e'. split; [exact E|exact H].
Qed.
End Istft.

(** Rows of the output, one per batch. *)
Lemma rows_ok {S} (B len : Z) (V : Z -> Z -> R) (inv : S -> Prop) (body : Z -> S * buf R -> res (S * buf R)) s0 : 0 <= B -> 0 <= len -> inv s0 ->
  (forall b s (out : buf R), 0 <= b < B -> inv s -> b_len out = B * len ->
     exists s' out', body b (s, out) = ROk (s', out') /\ inv s' /\ elsewhere out out' (b * len) len /\ piece out' (b * len) len (V b)) ->
  forall v0, exists s' out', zloop B body (s0, mkBuf (B * len) v0) = ROk (s', out') /\ b_len out' = B * len /\
    forall b p, 0 <= b < B -> 0 <= p < len -> b_at out' (b * len + p) = Some (V b p).
Proof.
  intros HB HL I0 HS v0.
  destruct (zloop_inv (fun i (s : S * buf R) => inv (fst s) /\ b_len (snd s) = B * len /\ forall b p, 0 <= b < i -> 0 <= p < len -> b_at (snd s) (b * len + p) = Some (V b p)) B body (s0, mkBuf (B * len) v0)) as ([s' out'] & E & _ & L & P).
  - exact HB.
  - cbn [fst snd]. split; [exact I0|]. split; [reflexivity|]. intros; lia.
  - intros i [s out] Hi (I & L & P). cbn [fst snd] in *. destruct (HS i s out Hi I L) as (s' & out' & E & I' & [L' E'] & P'). exists (s', out'). split; [exact E|].
    cbn [fst snd]. split; [exact I'|]. split; [congruence|]. intros b p Hb Hp. destruct (Z.eq_dec b i) as [->|N]; [apply P', Hp|].
    rewrite E'; [apply P; lia|]. assert ((b + 1) * len <= i * len) by (apply Z.mul_le_mono_nonneg_r; lia). lia.
  - cbn [fst snd] in *. exists s', out'. split; [exact E|]. split; assumption.
Qed.
Lemma rows_returns B len V (out : buf R) : 0 <= B -> 0 <= len -> b_len out = B * len -> (forall b p, 0 <= b < B -> 0 <= p < len -> b_at out (b * len + p) = Some (V b p)) ->
  returns (ROk (mkTns (mkV [B; len] (default_strides [B; len]) 0) out)) [B; len] (at2 0%R V).
Proof.
  intros HB HL LO HV. apply written_returns; [cbn; lia|repeat constructor; lia|]. constructor; [reflexivity| |].
  - cbn [x_buf]. rewrite LO. unfold product. cbn [fold_right]. ring.
  - intros idx Hi _. inversion Hi as [|b ? ? ? Hb Hi2]; subst. inversion Hi2 as [|p ? ? ? Hp Hi3]; subst. inversion Hi3; subst. cbn [x_buf at2].
    replace (ravel [B; len] [b; p]) with (b * len + p) by (unfold ravel, product; cbn [fold_right]; ring). apply HV; assumption.
Qed.

Lemma istft_common o (t : tns cx) (window : tns R) B frames X w len V : 1 <= o_n o <= 2 ^ 30 -> 0 <= o_win o -> 0 <= B -> 0 <= len ->
  holds t [B; o_n o / 2 + 1; frames] (at3 c0 X) -> holds window [win_of o] (fun idx => w (nth 0 idx 0)) ->
  len = istft_length (mkStft (o_n o) (hop_of o) (win_of o) (o_center o) (mode_of o)) frames ->
  (let o' := mkStft (o_n o) (hop_of o) (win_of o) (o_center o) (mode_of o) in
   let spectra b limit at_ (out env : buf R) data :=
      zloop frames (fun f (s : buf cx * (buf R * buf R)) =>
        do data <- load_spectrum (o_n o) (o_n o / 2 + 1) b f t (fst s);
        do data <- inverse_fft (o_n o) data;
        do st <- overlap_add (f * hop_of o) (win_of o) limit at_ data window (snd s);
        ROk (data, st)) (data, (out, env)) in
   forall b (s : buf cx * buf R), 0 <= b < B -> b_len (fst s) = o_n o -> b_len (snd s) = B * len ->
   exists d' out', (match mode_of o, o_center o with
      | PSame, false =>
          let padding := Z.quot (win_of o - hop_of o) 2 in
          let final := frames * hop_of o in
          if 1 <? Z.abs (len - final) then RAbort
          else
            let full := (frames - 1) * hop_of o + win_of o in
            let z := mkBuf full (fun _ => Some 0%R) in
            do st <- spectra b full 0 z z (fst s);
            do tmp <- envelope_divide full 0 (snd st);
            do o <- memcpy tmp padding (b * len) final (snd s);
            ROk (fst st, o)
      | _, _ =>
          do o <- zloop len (fun i o => store o (b * len + i) (Some 0%R)) (snd s);
          do st <- spectra b len (b * len) o (mkBuf len (fun _ => Some 0%R)) (fst s);
          do o <- envelope_divide len (b * len) (snd st);
          ROk (fst st, o)
      end) = ROk (d', out') /\ b_len d' = o_n o /\ elsewhere (snd s) out' (b * len) len /\ piece out' (b * len) len (V b)) ->
  returns (istft_op o t window) [B; len] (at2 0%R V).
Proof.
  intros Hn Hw HB HL HT HW HLen HS. unfold istft_op. rewrite validated_ok by lia. cbn [rbind]. cbv zeta in HS.
  rewrite (h_shape _ _ _ HT), (h_shape _ _ _ HW). change ((zlen [B; o_n o / 2 + 1; frames] =? 3)) with true. cbn [orb negb last]. cbn [o_win]. rewrite Z.eqb_refl. cbn [negb].
  cbn [nth]. cbv zeta. rewrite <- HLen. rewrite fresh_ok by (cbn; lia). cbn [rbind x_view x_buf o_n o_hop o_win o_center o_pad].
  assert (PR : product [B; len] = B * len) by (unfold product; cbn [fold_right]; ring). rewrite PR.
  match goal with |- returns (rbind (zloop B ?body (?d0, _)) _) _ _ =>
    destruct (rows_ok B len V (fun d : buf cx => b_len d = o_n o) body d0) with (v0 := fun _ : Z => @None R) as (s' & out' & E & L & P) end.
  - exact HB.
  - exact HL.
  - reflexivity.
  - intros b s out Hb Hs LO.
    assert (OF : offsetted (mkV [B; len] (default_strides [B; len]) 0) [b; 0] = ROk (b * len)).
    { unfold offsetted. cbn [v_shape v_offset v_stride]. change (zlen [b; 0] =? zlen [B; len]) with true. cbn [rbind].
      rewrite dot_ravel by reflexivity. f_equal. unfold ravel, product. cbn [fold_right]. ring. }
    rewrite OF. cbn [rbind]. destruct (HS b (s, out) Hb Hs LO) as (d' & out' & E & Q). exists d', out'. split; [exact E|exact Q].
  - match goal with |- returns (rbind ?Y _) _ _ => assert (EX : Y = ROk (s', out')) by exact E; rewrite EX end. cbn [rbind snd].
    apply rows_returns; assumption.
Qed.

Theorem istft_ok o (t : tns cx) (window : tns R) B frames X w : 1 <= o_n o <= 2 ^ 30 -> 0 <= o_win o -> 1 <= hop_of o -> 0 <= B -> 1 <= frames ->
  o_center o = true \/ o_pad o <> PSame ->
  holds t [B; o_n o / 2 + 1; frames] (at3 c0 X) -> holds window [win_of o] (fun idx => w (nth 0 idx 0)) ->
  returns (istft_op o t window) [B; (frames - 1) * hop_of o + o_n o - 2 * margin o] (at2 0%R (fun b => istft o frames (X b) w)).
Proof.
  intros Hn Hw Hh HB HF HM HT HW. assert (WB := win_bounds o ltac:(lia) Hw).
  assert (H2 : 0 <= o_n o - 2 * margin o) by (unfold margin; destruct (o_center o); [clear - Hn; Z.to_euclidean_division_equations; lia|lia]).
  assert (FH : 0 <= (frames - 1) * hop_of o) by (apply Z.mul_nonneg_nonneg; lia).
  set (len := (frames - 1) * hop_of o + o_n o - 2 * margin o) in *.
  assert (HL : 0 <= len) by (unfold len; lia).
  assert (HWL : forall i, 0 <= i < win_of o -> loadv (x_buf window) (x_offset window + i) = ROk (w i)).
  { intros i Hi. apply (load_ravel window [win_of o] (fun idx => w (nth 0 idx 0)) [i] _ HW); [repeat constructor; lia|].
    unfold ravel, product. cbn [fold_right]. ring. }
  apply (istft_common o t window B frames X w len); auto.
  - unfold istft_length. cbn [o_n o_hop o_win o_center o_pad]. unfold len, margin. destruct (o_center o) eqn:EC.
    + rewrite Z.quot_div_nonneg by lia. ring.
    + unfold mode_of. rewrite EC. destruct HM as [HM|HM]; [discriminate|]. destruct (o_pad o); try (ring); congruence.
  - cbv zeta. intros b [d out] Hb HD LO. cbn [fst snd] in *.
    assert (BL : 0 <= b * len /\ b * len + len <= b_len out).
    { rewrite LO. split; [apply Z.mul_nonneg_nonneg; lia|]. replace (b * len + len) with ((b + 1) * len) by ring. apply Z.mul_le_mono_nonneg_r; lia. }
    destruct (changes_loop (fun _ : Z => Some 0%R) len (fun i e => e = b * len + i) (fun i (o : buf R) => store o (b * len + i) (Some 0%R)) out) as (z & EZ & CZ).
    { intros; lia. }
    { intros i b1 Hi LB OB. destruct (changes_store (fun _ : Z => Some 0%R) b1 (b * len + i) (Some 0%R)) as (b2 & E2 & C2); [lia|reflexivity|].
      exists b2. split; [exact E2|]. revert C2. apply changes_iff. intro; split; intro; congruence. }
    assert (EL0 : elsewhere out z (b * len) len).
    { split; [apply (c_len _ _ _ _ CZ)|]. intros e He. apply (c_other _ _ _ _ CZ). intros (i & Hi & ->). lia. }
    destruct (spectra_ok o t window B frames X w Hn WB Hh HF HT HWL b len (b * len) z (mkBuf len (fun _ => Some 0%R)) d) as (d' & o1 & e1 & E1 & D1 & EL1 & L1 & P1 & P2).
    { exact Hb. } { exact HL. } { lia. } { rewrite (proj1 EL0). lia. } { reflexivity. } { exact HD. }
    { intros p Hp. apply (c_set _ _ _ _ CZ). exists p. lia. } { intros p Hp. reflexivity. }
    destruct (envelope_divide_ok len (b * len) o1 e1 _ _ HL ltac:(lia) ltac:(rewrite (proj1 EL1), (proj1 EL0); lia) L1 P1 P2) as (o2 & E2 & EL2 & P3).
    exists d', o2. split; [|split; [exact D1|split; [exact (elsewhere_trans _ _ _ _ _ EL0 (elsewhere_trans _ _ _ _ _ EL1 EL2))|exact P3]]].
    assert (GOAL : (do o0 <- zloop len (fun i o0 => store o0 (b * len + i) (Some 0%R)) out;
          do st <- zloop frames (fun f (s : buf cx * (buf R * buf R)) =>
        do data <- load_spectrum (o_n o) (o_n o / 2 + 1) b f t (fst s);
        do data <- inverse_fft (o_n o) data;
        do st <- overlap_add (f * hop_of o) (win_of o) len (b * len) data window (snd s);
        ROk (data, st)) (d, (o0, mkBuf len (fun _ => Some 0%R)));
          do o0 <- envelope_divide len (b * len) (snd st);
          ROk (fst st, o0)) = ROk (d', o2)).
    { rewrite EZ. cbn [rbind].
      match goal with |- rbind ?Y _ = _ => assert (EX : Y = ROk (d', (o1, e1))) by exact E1; rewrite EX end. cbn [rbind fst snd]. rewrite E2. reflexivity. }
    unfold mode_of. destruct (o_center o) eqn:EC; [destruct (o_pad o); exact GOAL|].
    destruct HM as [HM|HM]; [discriminate|]. destruct (o_pad o); try exact GOAL. congruence.
Qed.

Lemma memcpy_piece (src dst : buf R) s d n v : 0 <= s -> 0 <= d -> 0 <= n -> s + n <= b_len src -> d + n <= b_len dst -> piece src s n v ->
  exists dst', memcpy src s d n dst = ROk dst' /\ elsewhere dst dst' d n /\ piece dst' d n v.
Proof.
  intros Hs Hd Hn H1 H2 P. unfold memcpy.
  destruct (changes_loop (fun e => Some (v (e - d))) n (fun i e => e = d + i) (fun k => copy1 src (s + k) (d + k)) dst) as (b' & E & C).
  - intros; lia.
  - intros i b1 Hi LB OB. unfold copy1, load. replace ((0 <=? s + i) && (s + i <? b_len src)) with true by lia. cbn [rbind]. rewrite (P i Hi).
    destruct (changes_store (fun e => Some (v (e - d))) b1 (d + i) (Some (v i))) as (b2 & E2 & C2); [lia|do 2 f_equal; ring|].
    exists b2. split; [exact E2|]. revert C2. apply changes_iff. intro; split; intro; congruence.
  - exists b'. split; [exact E|]. split.
    + split; [apply (c_len _ _ _ _ C)|]. intros e He. apply (c_other _ _ _ _ C). intros (i & Hi & ->). lia.
    + intros p Hp. rewrite (c_set _ _ _ _ C) by (exists p; lia). do 2 f_equal. ring.
Qed.
Theorem istft_same_ok o (t : tns cx) (window : tns R) B frames X w : 1 <= o_n o <= 2 ^ 30 -> 0 <= o_win o -> 1 <= hop_of o -> 0 <= B -> 1 <= frames ->
  o_center o = false -> o_pad o = PSame -> win_of o = o_n o -> (exists m, 0 <= m /\ win_of o = hop_of o + 2 * m) ->
  holds t [B; o_n o / 2 + 1; frames] (at3 c0 X) -> holds window [win_of o] (fun idx => w (nth 0 idx 0)) ->
  returns (istft_op o t window) [B; frames * hop_of o] (at2 0%R (fun b p => istft o frames (X b) w ((win_of o - hop_of o) / 2 + p))).
Proof.
  intros Hn Hw Hh HB HF EC EP EW (m & Hm & Em) HT HW. assert (WB := win_bounds o ltac:(lia) Hw).
  assert (FH : 0 <= (frames - 1) * hop_of o) by (apply Z.mul_nonneg_nonneg; lia).
  set (len := frames * hop_of o) in *. assert (HL : 0 <= len) by (apply Z.mul_nonneg_nonneg; lia).
  assert (LE : len = (frames - 1) * hop_of o + hop_of o) by (unfold len; ring).
  assert (HWL : forall i, 0 <= i < win_of o -> loadv (x_buf window) (x_offset window + i) = ROk (w i)).
  { intros i Hi. apply (load_ravel window [win_of o] (fun idx => w (nth 0 idx 0)) [i] _ HW); [repeat constructor; lia|].
    unfold ravel, product. cbn [fold_right]. ring. }
  assert (PD : (win_of o - hop_of o) / 2 = m) by (rewrite Em; replace (hop_of o + 2 * m - hop_of o) with (m * 2) by ring; apply Z.div_mul; lia).
  assert (PQ : Z.quot (win_of o - hop_of o) 2 = m) by (rewrite Z.quot_div_nonneg by lia; exact PD). rewrite PD.
  assert (MO : mode_of o = PSame) by (unfold mode_of; rewrite EC; exact EP).
  apply (istft_common o t window B frames X w len); auto.
  - unfold istft_length. cbn [o_n o_hop o_win o_center o_pad]. rewrite EC, MO, PQ. lia.
  - cbv zeta. rewrite MO, EC, PQ. fold len. intros b [d out] Hb HD LO. cbn [fst snd] in *. replace (len - len) with 0 by ring. change (1 <? Z.abs 0) with false. cbv iota.
    assert (BL : 0 <= b * len /\ b * len + len <= b_len out).
    { rewrite LO. split; [apply Z.mul_nonneg_nonneg; lia|]. replace (b * len + len) with ((b + 1) * len) by ring. apply Z.mul_le_mono_nonneg_r; lia. }
    set (full := (frames - 1) * hop_of o + win_of o) in *. assert (F0 : 0 <= full) by (unfold full; lia).
    set (z := mkBuf full (fun _ => Some 0%R)).
    destruct (spectra_ok o t window B frames X w Hn WB Hh HF HT HWL b full 0 z z d) as (d' & o1 & e1 & E1 & D1 & EL1 & L1 & P1 & P2).
    { exact Hb. } { exact F0. } { lia. } { cbn [b_len z]. lia. } { reflexivity. } { exact HD. } { intros p Hp; reflexivity. } { intros p Hp; reflexivity. }
    assert (LO1 : b_len o1 = full) by exact (proj1 EL1).
    destruct (envelope_divide_ok full 0 o1 e1 _ _ F0 ltac:(lia) ltac:(lia) L1 P1 P2) as (o2 & E2 & EL2 & P3).
    assert (LO2 : b_len o2 = full) by (rewrite (proj1 EL2); exact LO1).
    destruct (memcpy_piece o2 out m (b * len) len (fun p => istft o frames (X b) w (m + p))) as (o3 & E3 & EL3 & P4).
    { lia. } { lia. } { lia. } { unfold full in LO2. lia. } { lia. }
    { intros p Hp. assert (Q := P3 (m + p) ltac:(unfold full; lia)). rewrite Z.add_0_l in Q. exact Q. }
    exists d', o3. split; [|split; [exact D1|split; [exact EL3|exact P4]]].
    match goal with |- rbind ?Y _ = _ => assert (EX : Y = ROk (d', (o1, e1))) by exact E1; rewrite EX end. cbn [rbind fst snd]. rewrite E2. cbn [rbind]. rewrite E3. reflexivity.
Qed.

(** Analysis followed by synthesis. *)
Lemma whole_spectrum_real n (g : Z -> R) X k : 1 <= n -> 0 <= k < n -> (forall k, 0 <= k <= n / 2 -> X k = dft n (fun j => real (g j)) k) ->
  whole_spectrum n X k = dft n (fun j => real (g j)) k.
Proof.
  intros Hn Hk HX. unfold whole_spectrum. destruct (Z.leb_spec k (n / 2)) as [l|l]; [apply HX; lia|].
  rewrite HX by (clear - Hn Hk l; Z.to_euclidean_division_equations; lia). apply dft_real_symmetric. lia.
Qed.
Lemma stft_dft o len x w k f : 1 <= win_of o <= o_n o ->
  stft o len x w k f = dft (o_n o) (fun i => real (if i <? win_of o then extended o len x (f * hop_of o + i) * w i else 0)) k.
Proof.
  intro HW. unfold stft, dft. match goal with |- _ = csum _ ?g => replace (csum (o_n o) g) with (csum (win_of o + (o_n o - win_of o)) g) by (f_equal; ring) end. rewrite csum_app by lia.
  rewrite (csum_zero _ (o_n o - win_of o)).
  2: { intros i Hi. replace (win_of o + i <? win_of o) with false by lia. change (real 0) with c0. ring. }
  match goal with |- ?a = _ => transitivity (cadd a c0); [ring|] end. f_equal. apply csum_ext. intros i Hi. replace (i <? win_of o) with true by lia. reflexivity.
Qed.
Theorem istft_stft o o2 frames len x w p : 1 <= o_n o -> 1 <= win_of o <= o_n o -> o_n o2 = o_n o -> hop_of o2 = hop_of o -> win_of o2 = win_of o -> (tiny < energy o2 frames w p)%R ->
  istft o2 frames (stft o len x w) w p = extended o len x p.
Proof.
  intros Hn HW E1 E2 E3 HE. unfold istft. cbv zeta. destruct (Rlt_dec tiny (energy o2 frames w p)) as [_|N]; [|contradiction].
  assert (TP : (0 < tiny)%R) by (unfold tiny; lra).
  assert (V : overlap (hop_of o2) (win_of o2) frames (fun f i => (fst (idft (o_n o2) (whole_spectrum (o_n o2) (fun k => stft o len x w k f)) i) * w i)%R) p
     = (extended o len x p * energy o2 frames w p)%R).
  { unfold energy, overlap. rewrite <- total_mul. apply total_ext. intros f Hf. rewrite E1, E2, E3.
    destruct ((0 <=? p - f * hop_of o) && (p - f * hop_of o <? win_of o)) eqn:E; [|ring].
    rewrite (idft_ext _ _ (dft (o_n o) (fun i => real (if i <? win_of o then extended o len x (f * hop_of o + i) * w i else 0)))).
    2: { intros k Hk. apply whole_spectrum_real; [exact Hn|exact Hk|]. intros j Hj. apply stft_dft, HW. }
    rewrite idft_dft by lia. replace (p - f * hop_of o <? win_of o) with true by lia. cbn [fst real].
    replace (f * hop_of o + (p - f * hop_of o)) with p by ring. ring. }
  rewrite V. field. lra.
Qed.

(** "same" with an odd difference of window and hop: the last sample is never written. *)
Theorem istft_same_odd o (t : tns cx) (window : tns R) frames X w : 1 <= o_n o <= 2 ^ 30 -> 0 <= o_win o -> 1 <= hop_of o -> 1 <= frames ->
  o_center o = false -> o_pad o = PSame -> win_of o = o_n o -> (exists m, 0 <= m /\ win_of o = hop_of o + 2 * m + 1) ->
  holds t [1; o_n o / 2 + 1; frames] (at3 c0 X) -> holds window [win_of o] (fun idx => w (nth 0 idx 0)) ->
  exists out, istft_op o t window = ROk out /\ x_shape out = [1; frames * hop_of o + 1] /\ elem out [0; frames * hop_of o] = None.
Proof.
  intros Hn Hw Hh HF EC EP EW (m & Hm & Em) HT HW. assert (WB := win_bounds o ltac:(lia) Hw).
  assert (FH : 0 <= (frames - 1) * hop_of o) by (apply Z.mul_nonneg_nonneg; lia).
  assert (HWL : forall i, 0 <= i < win_of o -> loadv (x_buf window) (x_offset window + i) = ROk (w i)).
  { intros i Hi. apply (load_ravel window [win_of o] (fun idx => w (nth 0 idx 0)) [i] _ HW); [repeat constructor; lia|].
    unfold ravel, product. cbn [fold_right]. ring. }
  assert (PQ : Z.quot (win_of o - hop_of o) 2 = m) by (rewrite Z.quot_div_nonneg by lia; rewrite Em; replace (hop_of o + 2 * m + 1 - hop_of o) with (1 + m * 2) by ring; rewrite Z.div_add by lia; reflexivity).
  assert (MO : mode_of o = PSame) by (unfold mode_of; rewrite EC; exact EP).
  set (final := frames * hop_of o). assert (LE : final = (frames - 1) * hop_of o + hop_of o) by (unfold final; ring).
  assert (HLen : istft_length (mkStft (o_n o) (hop_of o) (win_of o) (o_center o) (mode_of o)) frames = final + 1).
  { unfold istft_length. cbn [o_n o_hop o_win o_center o_pad]. rewrite EC, MO, PQ. lia. }
  unfold istft_op. rewrite validated_ok by lia. cbn [rbind].
  rewrite (h_shape _ _ _ HT), (h_shape _ _ _ HW). change (zlen [1; o_n o / 2 + 1; frames] =? 3) with true. cbn [orb negb last o_win]. rewrite Z.eqb_refl. cbn [negb nth]. cbv zeta.
  rewrite HLen. rewrite fresh_ok by (cbn; lia). cbn [rbind x_view x_buf o_n o_hop o_win o_center o_pad].
  unfold zloop at 1. change (Z.to_nat 1) with 1%nat. cbn [loop rbind].
  change (offsetted (mkV [1; final + 1] (default_strides [1; final + 1]) 0) [Z.of_nat 0; 0]) with (ROk (0 + dot [0; 0] (default_strides [1; final + 1]))). cbn [rbind].
  rewrite dot_ravel by reflexivity. replace (0 + ravel [1; final + 1] [0; 0]) with 0 by (unfold ravel, product; cbn [fold_right]; ring).
  rewrite MO, EC, PQ. cbn [fst snd]. fold final. replace (final + 1 - final) with 1 by ring. change (1 <? Z.abs 1) with false. cbv iota.
  set (full := (frames - 1) * hop_of o + win_of o) in *. assert (F0 : 0 <= full) by (unfold full; lia).
  set (z := mkBuf full (fun _ => Some 0%R)).
  destruct (spectra_ok o t window 1 frames X w Hn WB Hh HF HT HWL 0 full 0 z z (mkBuf (o_n o) (fun _ => Some c0))) as (d' & o1 & e1 & E1 & D1 & EL1 & L1 & P1 & P2).
  { lia. } { exact F0. } { lia. } { cbn [b_len z]. lia. } { reflexivity. } { reflexivity. } { intros p Hp; reflexivity. } { intros p Hp; reflexivity. }
  assert (LO1 : b_len o1 = full) by exact (proj1 EL1).
  destruct (envelope_divide_ok full 0 o1 e1 _ _ F0 ltac:(lia) ltac:(lia) L1 P1 P2) as (o2 & E2 & EL2 & P3).
  assert (LO2 : b_len o2 = full) by (rewrite (proj1 EL2); exact LO1).
  assert (PR : product [1; final + 1] = final + 1) by (unfold product; cbn [fold_right]; ring).
  destruct (memcpy_piece o2 (mkBuf (product [1; final + 1]) (fun _ => None)) m 0 final (fun p => istft o frames (X 0) w (m + p))) as (o3 & E3 & EL3 & P4).
  { lia. } { lia. } { lia. } { unfold full in LO2. lia. } { cbn [b_len]. lia. }
  { intros p Hp. assert (Q := P3 (m + p) ltac:(unfold full; lia)). rewrite Z.add_0_l in Q. exact Q. }
  match goal with |- exists q, rbind (rbind ?Y _) _ = _ /\ _ => assert (EX : Y = ROk (d', (o1, e1))) by exact E1; rewrite EX end. cbn [rbind fst snd]. rewrite E2. cbn [rbind].
  rewrite E3. cbn [rbind snd]. eexists. split; [reflexivity|]. split; [reflexivity|].
  unfold elem. cbn [x_view x_buf]. rewrite default_address by reflexivity.
  replace (ravel [1; final + 1] [0; final]) with final by (unfold ravel, product; cbn [fold_right]; ring).
  rewrite (proj2 EL3) by lia. reflexivity.
Qed.
