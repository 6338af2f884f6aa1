(** Properties C129 - C133: Fourier transforms, the short-time transform and its inverse. *)
From Coq Require Import Reals Lra.
From Verif Require Import Base DTypeModel ParamModel ParamSpec TensorModel TensorSpec TensorProofs OpsModel OpsIndex MatModel MatSpec MatProofs AttnSpec AttnProofs NumSpec RopeOps InterpProofs InterpOps PropertiesAttn FftModel FftSpec FftProofs FftBits FftRadix FftBluestein FftStft FftIstft.
Local Open Scope Z_scope.

(* ------------------------------------------------------------------ *)
(** ** C129: the fast transforms are the discrete Fourier transform *)

(** Sizes up to 2^30: the code computes with int. *)
Theorem C129_forward : forall n (input : buf R) (out : buf cx) (x : Z -> R), 1 <= n <= 2 ^ 30 -> vector input n x -> b_len out = n ->
  exists y, forward_fft input n out = ROk y /\ vector y n (dft n (fun j => real (x j))).
Proof. intros. apply forward_fft_ok; assumption. Qed.
Theorem C129_inverse : forall n (data : buf cx) (x : Z -> cx), 1 <= n <= 2 ^ 30 -> vector data n x ->
  exists y, inverse_fft n data = ROk y /\ vector y n (idft n x).
Proof. intros. apply inverse_fft_ok; assumption. Qed.
(** Bluestein's algorithm also on the sizes where radix 2 is used. *)
Theorem C129_bluestein : forall n (data : buf cx) (x : Z -> cx) inverse, 1 <= n <= 2 ^ 30 -> vector data n x ->
  exists y, fft_bluestein (loadv data) n n inverse = ROk y /\ vector y n (if inverse then idft n x else dft n x).
Proof.
  intros n data x inverse Hn [V1 V2]. destruct (fft_bluestein_ok (loadv data) n inverse x Hn) as (y & E & V).
  - intros i Hi. apply loadv_at; [lia|]. apply V2, Hi.
  - exists y. split; [exact E|]. destruct V as [A B]. split; [exact A|]. intros i Hi. rewrite B by exact Hi. unfold transform. destruct inverse; reflexivity.
Qed.
(** The DFT of (1, 2) is (3, -1). *)
Definition two : buf R := mkBuf 2 (fun i => if i =? 0 then Some 1%R else Some 2%R).
Example C129_example : exists y, forward_fft two 2 (mkBuf 2 (fun _ => None)) = ROk y /\ b_at y 0 = Some (3, 0)%R /\ b_at y 1 = Some (-1, 0)%R.
Proof.
  destruct (C129_forward 2 two (mkBuf 2 (fun _ => None)) (fun i => if i =? 0 then 1%R else 2%R)) as (y & E & V1 & V2).
  - lia.
  - split; [reflexivity|]. intros i Hi. cbn [b_at two]. destruct (i =? 0); reflexivity.
  - reflexivity.
  - exists y. split; [exact E|].
    assert (S2 : forall f, csum 2 f = cadd (f 0) (f 1)).
    { intro f. change 2 with (0 + 1 + 1). rewrite !csum_succ by lia. rewrite csum_0 by lia. cbn [Z.add]. destruct (f 0), (f 1). unfold cadd, c0. cbn [fst snd]. f_equal; ring. }
    assert (H1 : root 2 (-1) = copp c1).
    { change (-1) with (1 + 2 * -1). rewrite root_period by lia. change 2 with (2 * 1). apply root_half. lia. }
    rewrite (V2 0), (V2 1) by lia. unfold dft. rewrite !S2. change (- (0 * 0)) with 0. change (- (1 * 0)) with 0. change (- (0 * 1)) with 0. change (- (1 * 1)) with (-1). rewrite H1, root_0. change (0 =? 0) with true. change (1 =? 0) with false. cbv iota. unfold cadd, cmul, real, c1, copp. cbn [fst snd].
    split; do 2 f_equal; ring.
Qed.

(* ------------------------------------------------------------------ *)
(** ** C130: the inverse transform restores the signal *)

Theorem C130_round_trip : forall n (input : buf R) (out : buf cx) (x : Z -> R), 1 <= n <= 2 ^ 30 -> vector input n x -> b_len out = n ->
  exists y z, forward_fft input n out = ROk y /\ inverse_fft n y = ROk z /\ vector z n (fun i => real (x i)).
Proof.
  intros n input out x Hn V HO. destruct (C129_forward n input out x Hn V HO) as (y & E & Y). destruct (C129_inverse n y _ Hn Y) as (z & EZ & Z1 & Z2).
  exists y, z. split; [exact E|]. split; [exact EZ|]. split; [exact Z1|]. intros i Hi. rewrite Z2 by exact Hi. f_equal. apply idft_dft; lia.
Qed.
Lemma C130_hypotheses : vector (mkBuf 5 (fun i => Some (IZR i))) 5 (fun i => IZR i) /\ b_len (mkBuf 5 (fun _ => Some c0)) = 5 /\ is_power_of_2 5 = false.
Proof. split; [split; [reflexivity|auto]|]. split; reflexivity. Qed.
(** The first n/2 + 1 bins determine the others. *)
Theorem C130_half_is_enough : forall n (x : Z -> R) k, 1 <= n -> 0 <= k < n ->
  whole_spectrum n (dft n (fun j => real (x j))) k = dft n (fun j => real (x j)) k.
Proof. intros n x k Hn Hk. apply whole_spectrum_real; auto. Qed.

(* ------------------------------------------------------------------ *)
(** ** C131: the short-time transform *)

Lemma signal_loads (t : tns R) len x : is_signal t len x ->
  exists shape, (shape = [len] /\ 1 = 1 \/ shape = [1; len] /\ 1 <= 1) /\ x_shape t = shape /\ 0 <= len /\ forall i, 0 <= i < len -> loadv (x_buf t) (x_offset t + i) = ROk (x i).
Proof.
  intros [H|H].
  - exists [len]. split; [left; split; reflexivity|]. split; [apply (h_shape _ _ _ H)|].
    assert (D := ok_dims _ (h_ok _ _ _ H)). rewrite (h_shape _ _ _ H) in D. split; [exact (Forall_inv D)|].
    intros i Hi. apply (load_ravel t [len] _ [i] _ H); [repeat constructor; lia|]. unfold ravel, product. cbn [fold_right]. ring.
  - exists [1; len]. split; [right; split; [reflexivity|lia]|]. split; [apply (h_shape _ _ _ H)|].
    assert (D := ok_dims _ (h_ok _ _ _ H)). rewrite (h_shape _ _ _ H) in D. split; [exact (Forall_inv (Forall_inv_tail D))|].
    intros i Hi. apply (load_ravel t [1; len] _ [0; i] _ H); [repeat constructor; lia|]. unfold ravel, product. cbn [fold_right]. ring.
Qed.
(** One signal: every bin of every frame. *)
Theorem C131_stft : forall o (t window : tns R) len x w, 1 <= o_n o <= 2 ^ 30 -> 0 <= o_win o -> 1 <= hop_of o ->
  is_signal t len x -> is_window window (win_of o) w -> win_of o <= len + 2 * margin o -> (mirrors o = true -> o_n o / 2 < len) ->
  returns (stft_op o t window) [1; o_n o / 2 + 1; frame_count o len] (at3 c0 (fun _ k f => stft o len x w k f)).
Proof.
  intros o t window len x w Hn Hw Hh HS HW HL HM. destruct (signal_loads t len x HS) as (shape & H1 & H2 & H3 & H4).
  apply (stft_ok o t window 1 len shape x w Hn Hw Hh H3 H1 H2 H4 HW HL HM).
Qed.
Definition centred : stft_options := mkStft 4 0 0 true PReflect.
Example C131_example : returns (stft_op centred (reals [5] [1; 2; 3; 4; 5]%R) (reals [4] [1; 1; 1; 1]%R)) [1; 3; 6]
   (at3 c0 (fun _ k f => stft centred 5 (fun i => reals_at [5] [1; 2; 3; 4; 5]%R [i]) (fun i => reals_at [4] [1; 1; 1; 1]%R [i]) k f))
  /\ extended centred 5 (fun i => reals_at [5] [1; 2; 3; 4; 5]%R [i]) 0 = 3%R /\ extended centred 5 (fun i => reals_at [5] [1; 2; 3; 4; 5]%R [i]) 8 = 3%R.
Proof.
  split; [|split; reflexivity].
  apply (C131_stft centred (reals [5] [1; 2; 3; 4; 5]%R) (reals [4] [1; 1; 1; 1]%R) 5 (fun i => reals_at [5] [1; 2; 3; 4; 5]%R [i]) (fun i => reals_at [4] [1; 1; 1; 1]%R [i])); try (cbn; lia).
  - left. destruct (reals_holds [5] [1; 2; 3; 4; 5]%R) as [a b c d]; [cbn; lia|repeat constructor; lia|reflexivity|]. constructor; auto.
    intros idx Hi. rewrite (d idx Hi). inversion Hi as [|i ? ? ? ? Hi2]; subst. inversion Hi2; subst. reflexivity.
  - destruct (reals_holds [4] [1; 1; 1; 1]%R) as [a b c d]; [cbn; lia|repeat constructor; lia|reflexivity|]. constructor; auto.
    intros idx Hi. rewrite (d idx Hi). inversion Hi as [|i ? ? ? ? Hi2]; subst. inversion Hi2; subst. reflexivity.
Qed.
(** With several signals, every row of the result is the transform of the first signal. *)
Theorem C131_rows_refuted : forall o (t window : tns R) B len F w, 1 <= o_n o <= 2 ^ 30 -> 0 <= o_win o -> 1 <= hop_of o -> 1 <= B ->
  holds t [B; len] F -> is_window window (win_of o) w -> win_of o <= len + 2 * margin o -> (mirrors o = true -> o_n o / 2 < len) ->
  returns (stft_op o t window) [B; o_n o / 2 + 1; frame_count o len] (at3 c0 (fun b k f => stft o len (fun i => F [0; i]) w k f)).
Proof.
  intros o t window B len F w Hn Hw Hh HB HT HW HL HM.
  assert (D := ok_dims _ (h_ok _ _ _ HT)). rewrite (h_shape _ _ _ HT) in D. assert (D2 := Forall_inv (Forall_inv_tail D)). cbn beta in D2.
  apply (stft_ok o t window B len [B; len] (fun i => F [0; i]) w Hn Hw Hh D2); auto.
  - apply (h_shape _ _ _ HT).
  - intros i Hi. apply (load_ravel t [B; len] _ [0; i] _ HT); [repeat constructor; lia|]. unfold ravel, product. cbn [fold_right]. ring.
Qed.
Theorem C131_batch_refuted : exists o (t window : tns R) F w out v, holds t [2; 1] F /\ is_window window 1 w /\
  stft_op o t window = ROk out /\ elem out [1; 0; 0] = Some v /\ v = (1, 0)%R /\ stft o 1 (fun i => F [1; i]) w 0 0 = (2, 0)%R.
Proof.
  set (o := mkStft 1 1 1 false PConstant). set (F := reals_at [2; 1] [1; 2]%R). set (w := fun _ : Z => 1%R).
  assert (HT : holds (reals [2; 1] [1; 2]%R) [2; 1] F) by holds_reals.
  assert (HW : is_window (reals [1] [1]%R) 1 w).
  { destruct (reals_holds [1] [1]%R) as [a b c d]; [cbn; lia|repeat constructor; lia|reflexivity|]. constructor; auto.
    intros idx Hi. rewrite (d idx Hi). inversion Hi as [|i ? ? ? Hb Hi2]; subst. inversion Hi2; subst. replace i with 0 by lia. reflexivity. }
  destruct (C131_rows_refuted o (reals [2; 1] [1; 2]%R) (reals [1] [1]%R) 2 1 F w) as (out & E & _ & _ & _ & V); try (cbn; lia); [exact HT|exact HW|].
  assert (S1 : forall f, csum 1 f = f 0). { intro f. change 1 with (0 + 1). rewrite csum_succ by lia. rewrite csum_0 by lia. destruct (f 0). unfold cadd, c0. cbn [fst snd]. f_equal; ring. }
  assert (VAL : forall x : Z -> R, stft o 1 x w 0 0 = real (x 0)).
  { intro x. unfold stft. change (win_of o) with 1. rewrite S1. change (0 * hop_of o + 0) with 0. change (- (0 * 0)) with 0. rewrite root_0.
    change (extended o 1 x 0) with (x 0). unfold w, cmul, c1, real. cbn [fst snd]. f_equal; ring. }
  exists o, (reals [2; 1] [1; 2]%R), (reals [1] [1]%R), F, w, out, (stft o 1 (fun i => F [0; i]) w 0 0).
  split; [exact HT|]. split; [exact HW|]. split; [exact E|]. split; [apply (V [1; 0; 0]); cbn; repeat constructor; lia|].
  rewrite !VAL. split; reflexivity.
Qed.
Lemma zloop_ok_or_ub {S} n (body : Z -> S -> res S) s : (forall i s, body i s = RUB \/ exists s', body i s = ROk s') -> zloop n body s = RUB \/ exists s', zloop n body s = ROk s'.
Proof.
  intro H. unfold zloop. induction (Z.to_nat n) as [|m IH]; cbn [loop]; [right; eauto|]. destruct IH as [->|(s' & ->)]; cbn [rbind]; [left; reflexivity|apply H].
Qed.
(** Mirror padding of a signal that is too short reads beyond its end. *)
Theorem C131_short_signal_refuted : forall o (t window : tns R) len, 1 <= o_n o -> 0 <= o_win o -> 1 <= hop_of o -> mirrors o = true -> 1 <= len <= o_n o / 2 ->
  x_shape t = [len] -> owns_storage t -> x_shape window = [win_of o] -> stft_op o t window = RUB.
Proof.
  intros o t window len Hn Hw Hh HM HL ES OS EW. unfold stft_op. rewrite validated_ok by lia. cbn [rbind]. rewrite ES, EW. cbn [zlen length Z.of_nat Z.eqb orb negb last o_win o_hop o_n o_center]. 
  unfold zlen. cbn [length Z.of_nat]. change (Z.pos (Pos.of_succ_nat 0) =? 1) with true. cbn [orb negb]. rewrite Z.eqb_refl. cbn [negb].
  assert (SL : signal_length t = ROk len) by (unfold signal_length; rewrite ES; reflexivity). rewrite SL. cbn [rbind]. unfold quotient. replace (hop_of o =? 0) with false by lia. cbn [rbind].
  rewrite fresh_ok by (cbn; lia). cbn [rbind].
  assert (PU : pad_signal t (mkStft (o_n o) (hop_of o) (win_of o) (o_center o) (mode_of o)) = RUB).
  { unfold mirrors in HM. apply andb_prop in HM. destruct HM as [EC HP]. unfold pad_signal. rewrite SL. cbn [rbind o_center o_pad o_n]. rewrite EC.
    assert (MO : mode_of o = PReflect) by (unfold mode_of; rewrite EC; destruct (o_pad o); congruence). rewrite MO.
    rewrite Z.quot_div_nonneg by lia. set (h := o_n o / 2) in *.
    assert (BL : b_len (x_buf t) = len) by (rewrite (os_len _ OS), ES; unfold product; cbn [fold_right]; ring).
    rewrite (os_offset _ OS).
    assert (BAD : forall p : buf R, (do p <- ROk p; zloop h (fun i p => do x <- loadv (x_buf t) (0 + (h - i)); do p <- store p i (Some x); do y <- loadv (x_buf t) (0 + (len - 2 - i)); store p (h + len + i) (Some y)) p) = RUB).
    { intro p. cbn [rbind]. apply (zloop_ub (fun p : buf R => True) h _ 0); [lia| | |exact I].
      - intros i s Hi _. unfold loadv, load, store.
        destruct ((0 <=? 0 + (h - i)) && (0 + (h - i) <? b_len (x_buf t))); cbn [rbind]; [|left; reflexivity].
        destruct (b_at (x_buf t) (0 + (h - i))); cbn [need rbind]; [|left; reflexivity].
        destruct ((0 <=? i) && (i <? b_len s)); cbn [rbind]; [|left; reflexivity].
        destruct ((0 <=? 0 + (len - 2 - i)) && (0 + (len - 2 - i) <? b_len (x_buf t))); cbn [rbind]; [|left; reflexivity].
        destruct (b_at (x_buf t) (0 + (len - 2 - i))); cbn [need rbind]; [|left; reflexivity].
        cbn [b_len]. destruct ((0 <=? h + len + i) && (h + len + i <? b_len s)); cbn [rbind]; [right; eexists; split; [reflexivity|exact I]|left; reflexivity].
      - intros s _. unfold loadv, load. replace ((0 <=? 0 + (h - 0)) && (0 + (h - 0) <? b_len (x_buf t))) with false by lia. reflexivity. }
    match goal with |- rbind ?Z0 _ = _ => destruct (zloop_ok_or_ub len (fun i (p : buf R) => do x <- loadv (x_buf t) (0 + i); store p (h + i) (Some x)) (mkBuf (len + 2 * h) (fun _ => Some 0%R))) as [EZ|(p & EZ)];
      [|assert (EX : Z0 = RUB) by exact EZ; rewrite EX; reflexivity|assert (EX : Z0 = ROk p) by exact EZ; rewrite EX; exact (BAD p)] end.
    intros i s. unfold loadv, load, store. destruct ((0 <=? 0 + i) && (0 + i <? b_len (x_buf t))); cbn [rbind]; [|left; reflexivity].
    destruct (b_at (x_buf t) (0 + i)); cbn [need rbind]; [|left; reflexivity].
    destruct ((0 <=? h + i) && (h + i <? b_len s)); [right; eauto|left; reflexivity]. }
  rewrite PU. reflexivity.
Qed.

(** With the default hop, a transform of fewer than 4 points divides by zero. *)
Theorem C131_default_hop_refuted : forall o (t window : tns R) len, 1 <= o_n o < 4 -> 0 <= o_win o -> o_hop o = 0 ->
  x_shape t = [len] -> x_shape window = [win_of o] -> stft_op o t window = RUB.
Proof.
  intros o t window len Hn Hw Hh ES EW. unfold stft_op. rewrite validated_ok by lia. cbn [rbind o_win o_hop o_n o_center].
  assert (RK : (zlen (x_shape t) =? 1) || (zlen (x_shape t) =? 2) = true) by (rewrite ES; reflexivity). rewrite RK, EW. cbn [negb last]. rewrite Z.eqb_refl. cbn [negb].
  assert (SL : signal_length t = ROk len) by (unfold signal_length; rewrite ES; reflexivity). rewrite SL. cbn [rbind].
  assert (H0 : hop_of o = 0) by (unfold hop_of; rewrite Hh; cbn [Z.eqb]; apply Z.div_small; lia). rewrite H0. reflexivity.
Qed.

(* ------------------------------------------------------------------ *)
(** ** C132: the inverse short-time transform *)

Theorem C132_istft : forall o (t : tns cx) (window : tns R) B frames X w, 1 <= o_n o <= 2 ^ 30 -> 0 <= o_win o -> 1 <= hop_of o -> 0 <= B -> 1 <= frames ->
  o_center o = true \/ o_pad o <> PSame ->
  holds t [B; o_n o / 2 + 1; frames] (at3 c0 X) -> is_window window (win_of o) w ->
  returns (istft_op o t window) [B; (frames - 1) * hop_of o + o_n o - 2 * margin o] (at2 0%R (fun b => istft o frames (X b) w)).
Proof. intros. apply istft_ok; assumption. Qed.
(** "same": the result is trimmed by half the difference of window and hop. *)
Theorem C132_same : forall o (t : tns cx) (window : tns R) B frames X w, 1 <= o_n o <= 2 ^ 30 -> 0 <= o_win o -> 1 <= hop_of o -> 0 <= B -> 1 <= frames ->
  o_center o = false -> o_pad o = PSame -> win_of o = o_n o -> (exists m, 0 <= m /\ win_of o = hop_of o + 2 * m) ->
  holds t [B; o_n o / 2 + 1; frames] (at3 c0 X) -> is_window window (win_of o) w ->
  returns (istft_op o t window) [B; frames * hop_of o] (at2 0%R (fun b p => istft o frames (X b) w ((win_of o - hop_of o) / 2 + p))).
Proof. intros. apply istft_same_ok; assumption. Qed.
(** ... but if that difference is odd, the last sample is never written. *)
Theorem C132_same_odd_refuted : forall o (t : tns cx) (window : tns R) frames X w, 1 <= o_n o <= 2 ^ 30 -> 0 <= o_win o -> 1 <= hop_of o -> 1 <= frames ->
  o_center o = false -> o_pad o = PSame -> win_of o = o_n o -> (exists m, 0 <= m /\ win_of o = hop_of o + 2 * m + 1) ->
  holds t [1; o_n o / 2 + 1; frames] (at3 c0 X) -> is_window window (win_of o) w ->
  exists out, istft_op o t window = ROk out /\ x_shape out = [1; frames * hop_of o + 1] /\ elem out [0; frames * hop_of o] = None.
Proof. intros o t window frames X w. intros. apply (istft_same_odd o t window frames X w); assumption. Qed.
(** ... and a window shorter than the transform by two samples or more is rejected. *)
Theorem C132_same_window_refuted : forall o (t : tns cx) (window : tns R) bins frames, 1 <= o_n o -> 0 <= o_win o -> 1 <= hop_of o <= win_of o ->
  o_center o = false -> o_pad o = PSame -> win_of o + 2 <= o_n o -> x_shape t = [1; bins; frames] -> x_shape window = [win_of o] ->
  istft_op o t window = RAbort.
Proof.
  intros o t window bins frames Hn Hw Hh EC EP EN ES EW. unfold istft_op. rewrite validated_ok by lia. cbn [rbind]. rewrite ES, EW.
  change (zlen [1; bins; frames] =? 3) with true. cbn [orb negb last o_win]. rewrite Z.eqb_refl. cbn [negb nth]. cbv zeta.
  assert (MO : mode_of o = PSame) by (unfold mode_of; rewrite EC; exact EP).
  set (len := istft_length (mkStft (o_n o) (hop_of o) (win_of o) (o_center o) (mode_of o)) frames).
  rewrite fresh_ok by (cbn; lia). cbn [rbind x_view x_buf o_n o_hop o_win o_center o_pad].
  unfold zloop at 1. change (Z.to_nat 1) with 1%nat. cbn [loop rbind].
  change (offsetted (mkV [1; len] (default_strides [1; len]) 0) [Z.of_nat 0; 0]) with (ROk (0 + dot [0; 0] (default_strides [1; len]))). cbn [rbind].
  rewrite MO, EC. replace (1 <? Z.abs (len - frames * hop_of o)) with true; [reflexivity|].
  unfold len, istft_length. cbn [o_n o_hop o_win o_center o_pad]. rewrite EC, MO. rewrite Z.quot_div_nonneg by lia.
  assert (2 * ((win_of o - hop_of o) / 2) <= win_of o - hop_of o) by (apply Z.mul_div_le; lia). lia.
Qed.

(* ------------------------------------------------------------------ *)
(** ** C133: analysis followed by synthesis *)

Lemma returns_is {A} (r : res (tns A)) shape F : returns r shape F -> exists out, r = ROk out /\ holds out shape F.
Proof.
  intros (out & E & S & O1 & O2 & V). exists out. split; [exact E|]. constructor; auto. apply (os_layout _ O2).
Qed.
Lemma holds_ext {A} (t : tns A) shape F G : (forall idx, in_shape shape idx -> F idx = G idx) -> holds t shape F -> holds t shape G.
Proof. intros H [a b c d]. constructor; auto. intros idx Hi. rewrite <- H by exact Hi. apply d, Hi. Qed.
Lemma round_trip_gen : forall o (t window : tns R) len x w, 1 <= o_n o <= 2 ^ 30 -> 0 <= o_win o -> 1 <= hop_of o ->
  o_center o = true \/ o_pad o <> PSame ->
  is_signal t len x -> is_window window (win_of o) w -> win_of o <= len + 2 * margin o -> (mirrors o = true -> o_n o / 2 < len) ->
  exists y out, stft_op o t window = ROk y /\ istft_op o y window = ROk out /\
    x_shape out = [1; (frame_count o len - 1) * hop_of o + o_n o - 2 * margin o] /\
    forall p, in_shape (x_shape out) [0; p] -> (tiny < energy o (frame_count o len) w p)%R -> elem out [0; p] = Some (extended o len x p).
Proof.
  intros o t window len x w Hn Hw Hh HC HS HW HL HM. assert (WB := win_bounds o ltac:(lia) Hw).
  destruct (returns_is _ _ _ (C131_stft o t window len x w Hn Hw Hh HS HW HL HM)) as (y & Ey & Y).
  assert (FC : 1 <= frame_count o len) by (unfold frame_count; assert (0 <= (len + 2 * margin o - win_of o) / hop_of o) by (apply Z.div_pos; lia); lia).
  destruct (C132_istft o y window 1 (frame_count o len) (fun _ k f => stft o len x w k f) w Hn Hw Hh ltac:(lia) FC HC Y HW) as (out & Eo & S & _ & _ & V).
  exists y, out. split; [exact Ey|]. split; [exact Eo|]. split; [exact S|]. intros p Hp HE. rewrite S in Hp. rewrite (V [0; p] Hp). cbn [at2]. f_equal.
  apply istft_stft; auto. lia.
Qed.
(** Without padding the signal is restored wherever the windows have energy. *)
Theorem C133_round_trip : forall o (t window : tns R) len x w, 1 <= o_n o <= 2 ^ 30 -> 0 <= o_win o -> 1 <= hop_of o ->
  o_center o = false -> o_pad o <> PSame -> is_signal t len x -> is_window window (win_of o) w -> win_of o <= len ->
  exists y out, stft_op o t window = ROk y /\ istft_op o y window = ROk out /\
    x_shape out = [1; (frame_count o len - 1) * hop_of o + o_n o] /\
    forall p, in_shape (x_shape out) [0; p] -> p < len -> (tiny < energy o (frame_count o len) w p)%R -> elem out [0; p] = Some (x p).
Proof.
  intros o t window len x w Hn Hw Hh EC EP HS HW HL. assert (MG : margin o = 0) by (unfold margin; rewrite EC; reflexivity).
  destruct (round_trip_gen o t window len x w Hn Hw Hh (or_intror EP) HS HW ltac:(lia)) as (y & out & E1 & E2 & S & V).
  { unfold mirrors. rewrite EC. discriminate. }
  exists y, out. split; [exact E1|]. split; [exact E2|]. rewrite MG in S. split; [rewrite S; do 2 f_equal; ring|].
  intros p Hp Pl HE. rewrite (V p Hp HE). f_equal. rewrite extended_inner; [f_equal; lia|]. rewrite S in Hp.
  inversion Hp as [|? ? ? ? _ Hp2]; subst. inversion Hp2; subst. lia.
Qed.
(** Every sample that a frame covers with a window value of at least 1/1000 has enough energy. *)
Theorem C133_energy : forall o frames w p f, 0 <= f < frames -> 0 <= p - f * hop_of o < win_of o -> (1 / 1000 <= Rabs (w (p - f * hop_of o)%Z))%R ->
  (tiny < energy o frames w p)%R.
Proof.
  intros o frames w p f Hf Hp HV. unfold energy, overlap.
  apply Rlt_le_trans with ((fun f => if (0 <=? p - f * hop_of o) && (p - f * hop_of o <? win_of o) then (w (p - f * hop_of o)%Z * w (p - f * hop_of o)%Z)%R else 0%R) f).
  - cbv beta. replace ((0 <=? p - f * hop_of o) && (p - f * hop_of o <? win_of o)) with true by lia. set (v := w (p - f * hop_of o)) in *.
    assert (Q : (v * v = Rabs v * Rabs v)%R) by (rewrite <- Rabs_mult; symmetry; apply Rabs_pos_eq; apply Rle_0_sqr).
    rewrite Q. assert (1 / 1000 * (1 / 1000) <= Rabs v * Rabs v)%R by (apply Rmult_le_compat; lra). unfold tiny. lra.
  - apply (NumSoftmax.total_term (range frames) (fun f => if (0 <=? p - f * hop_of o) && (p - f * hop_of o <? win_of o) then (w (p - f * hop_of o)%Z * w (p - f * hop_of o)%Z)%R else 0%R) f).
    + intros k _. destruct ((0 <=? p - k * hop_of o) && (p - k * hop_of o <? win_of o)); [apply Rle_0_sqr|lra].
    + apply in_range. exact Hf.
Qed.
(** "same" synthesis of an unpadded analysis: the middle of the signal. *)
Theorem C133_same : forall o (t window : tns R) len x w, 1 <= o_n o <= 2 ^ 30 -> 0 <= o_win o -> 1 <= hop_of o ->
  o_center o = false -> o_pad o = PSame -> win_of o = o_n o -> (exists m, 0 <= m /\ win_of o = hop_of o + 2 * m) ->
  is_signal t len x -> is_window window (win_of o) w -> win_of o <= len ->
  exists y out, stft_op o t window = ROk y /\ istft_op o y window = ROk out /\ x_shape out = [1; frame_count o len * hop_of o] /\
    forall p, in_shape (x_shape out) [0; p] -> (tiny < energy o (frame_count o len) w ((win_of o - hop_of o) / 2 + p))%R ->
      elem out [0; p] = Some (x ((win_of o - hop_of o) / 2 + p)).
Proof.
  intros o t window len x w Hn Hw Hh EC EP EW EM HS HW HL. assert (WB := win_bounds o ltac:(lia) Hw). assert (MG : margin o = 0) by (unfold margin; rewrite EC; reflexivity).
  destruct (returns_is _ _ _ (C131_stft o t window len x w Hn Hw Hh HS HW ltac:(lia) ltac:(unfold mirrors; rewrite EC; discriminate))) as (y & Ey & Y).
  assert (FC : 1 <= frame_count o len) by (unfold frame_count; assert (0 <= (len + 2 * margin o - win_of o) / hop_of o) by (apply Z.div_pos; lia); lia).
  destruct (C132_same o y window 1 (frame_count o len) (fun _ k f => stft o len x w k f) w Hn Hw Hh ltac:(lia) FC EC EP EW EM Y HW) as (out & Eo & S & _ & _ & V).
  exists y, out. split; [exact Ey|]. split; [exact Eo|]. split; [exact S|]. intros p Hp HE. rewrite S in Hp. rewrite (V [0; p] Hp). cbn [at2]. f_equal.
  rewrite (istft_stft o o _ len x w) by (auto; lia). destruct EM as (m & Hm & Em).
  assert (PD : (win_of o - hop_of o) / 2 = m) by (rewrite Em; replace (hop_of o + 2 * m - hop_of o) with (m * 2) by ring; apply Z.div_mul; lia). rewrite PD.
  rewrite extended_inner; [f_equal; lia|]. inversion Hp as [|? ? ? ? _ Hp2]; subst. inversion Hp2 as [|? ? ? ? Hb _]; subst. split; [lia|].
  assert (frame_count o len * hop_of o <= len - win_of o + hop_of o).
  { unfold frame_count. rewrite MG. assert (hop_of o * ((len + 2 * 0 - win_of o) / hop_of o) <= len + 2 * 0 - win_of o) by (apply Z.mul_div_le; lia). lia. }
  lia.
Qed.
(** With [center], the extension is not removed again: the result is the extended signal from its start, so it lags by n/2 samples
    and its end is missing. *)
Theorem C133_center_refuted : forall o (t window : tns R) len x w, 1 <= o_n o <= 2 ^ 30 -> 0 <= o_win o -> 1 <= hop_of o ->
  o_center o = true -> is_signal t len x -> is_window window (win_of o) w -> win_of o <= len + 2 * margin o -> (mirrors o = true -> o_n o / 2 < len) ->
  exists y out, stft_op o t window = ROk y /\ istft_op o y window = ROk out /\
    forall p, in_shape (x_shape out) [0; p] -> (tiny < energy o (frame_count o len) w p)%R -> elem out [0; p] = Some (extended o len x p).
Proof.
  intros o t window len x w Hn Hw Hh EC HS HW HL HM. destruct (round_trip_gen o t window len x w Hn Hw Hh (or_introl EC) HS HW HL HM) as (y & out & E1 & E2 & _ & V).
  exists y, out. auto.
Qed.
Lemma C133_center_witness : exists o (t window : tns R) x w y out, is_signal t 2 x /\ is_window window 2 w /\ stft_op o t window = ROk y /\ istft_op o y window = ROk out /\
  x_shape out = [1; 2] /\ x 0 = 7%R /\ elem out [0; 0] = Some 0%R /\ elem out [0; 1] = Some 7%R.
Proof.
  set (o := mkStft 2 1 2 true PConstant). set (x := fun i => reals_at [2] [7; 9]%R [i]). set (w := fun _ : Z => 1%R).
  assert (HS : is_signal (reals [2] [7; 9]%R) 2 x).
  { left. destruct (reals_holds [2] [7; 9]%R) as [a b c d]; [cbn; lia|repeat constructor; lia|reflexivity|]. constructor; auto.
    intros idx Hi. rewrite (d idx Hi). inversion Hi as [|i ? ? ? ? Hi2]; subst. inversion Hi2; subst. reflexivity. }
  assert (HW : is_window (reals [2] [1; 1]%R) 2 w).
  { destruct (reals_holds [2] [1; 1]%R) as [a b c d]; [cbn; lia|repeat constructor; lia|reflexivity|]. constructor; auto.
    intros idx Hi. rewrite (d idx Hi). inversion Hi as [|i ? ? ? Hb Hi2]; subst. inversion Hi2; subst. assert (I : i = 0 \/ i = 1) by lia. destruct I as [-> | ->]; reflexivity. }
  destruct (round_trip_gen o (reals [2] [7; 9]%R) (reals [2] [1; 1]%R) 2 x w) as (y & out & E1 & E2 & S & V); try (cbn; lia); [exact HS|exact HW|].
  exists o, (reals [2] [7; 9]%R), (reals [2] [1; 1]%R), x, w, y, out. split; [exact HS|]. split; [exact HW|]. split; [exact E1|]. split; [exact E2|]. split; [exact S|]. split; [reflexivity|].
  assert (EN : forall p, 0 <= p < 2 -> (tiny < energy o (frame_count o 2) w p)%R).
  { intros p Hp. apply (C133_energy o _ w p 0); [change (frame_count o 2) with 3; lia|change (win_of o) with 2; lia|]. unfold w. rewrite Rabs_R1. lra. }
  split; (rewrite V; [reflexivity|rewrite S; cbn; repeat constructor; lia|apply EN; lia]).
Qed.
Lemma C133_hypotheses : exists o (t window : tns R) x w, 1 <= o_n o <= 2 ^ 30 /\ 0 <= o_win o /\ 1 <= hop_of o /\ o_center o = false /\ o_pad o <> PSame /\
  is_signal t 5 x /\ is_window window (win_of o) w /\ win_of o <= 5 /\ forall p, 0 <= p < 5 -> (tiny < energy o (frame_count o 5) w p)%R.
Proof.
  exists (mkStft 3 1 0 false PConstant), (reals [1; 5] [1; 2; 3; 4; 5]%R), (reals [3] [1; 2; 1]%R), (fun i => reals_at [1; 5] [1; 2; 3; 4; 5]%R [0; i]), (fun i => reals_at [3] [1; 2; 1]%R [i]).
  split; [cbn; lia|]. split; [cbn; lia|]. split; [cbn; lia|]. split; [reflexivity|]. split; [discriminate|]. split; [|split; [|split; [cbn; lia|]]].
  - right. destruct (reals_holds [1; 5] [1; 2; 3; 4; 5]%R) as [a b c d]; [cbn; lia|repeat constructor; lia|reflexivity|]. constructor; auto.
    intros idx Hi. rewrite (d idx Hi). inversion Hi as [|i ? ? ? Hb Hi2]; subst. inversion Hi2 as [|j ? ? ? ? Hi3]; subst. inversion Hi3; subst. replace i with 0 by lia. reflexivity.
  - destruct (reals_holds [3] [1; 2; 1]%R) as [a b c d]; [cbn; lia|repeat constructor; lia|reflexivity|]. constructor; auto.
    intros idx Hi. rewrite (d idx Hi). inversion Hi as [|i ? ? ? ? Hi2]; subst. inversion Hi2; subst. reflexivity.
  - intros p Hp. apply (C133_energy _ _ _ p (Z.min p 2)); [change (frame_count (mkStft 3 1 0 false PConstant) 5) with 3; lia|change (hop_of (mkStft 3 1 0 false PConstant)) with 1; change (win_of (mkStft 3 1 0 false PConstant)) with 3; lia|].
    change (hop_of (mkStft 3 1 0 false PConstant)) with 1.
    assert (I : p - Z.min p 2 * 1 = 0 \/ p - Z.min p 2 * 1 = 1 \/ p - Z.min p 2 * 1 = 2) by lia.
    destruct I as [-> |[-> | ->]]; [change (reals_at [3] [1; 2; 1]%R [0]) with 1%R|change (reals_at [3] [1; 2; 1]%R [1]) with 2%R|change (reals_at [3] [1; 2; 1]%R [2]) with 1%R]; rewrite Rabs_pos_eq; lra.
Qed.
Print Assumptions C129_forward.
Print Assumptions C129_inverse.
Print Assumptions C129_bluestein.
Print Assumptions C130_round_trip.
Print Assumptions C130_half_is_enough.
Print Assumptions C131_stft.
Print Assumptions C131_rows_refuted.
Print Assumptions C131_batch_refuted.
Print Assumptions C131_short_signal_refuted.
Print Assumptions C131_default_hop_refuted.
Print Assumptions C132_istft.
Print Assumptions C132_same.
Print Assumptions C132_same_odd_refuted.
Print Assumptions C132_same_window_refuted.
Print Assumptions C133_round_trip.
Print Assumptions C133_energy.
Print Assumptions C133_same.
Print Assumptions C133_center_refuted.
