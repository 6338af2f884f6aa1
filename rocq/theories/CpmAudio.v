(** Audio slots. *)
From Coq Require Import Reals Lra.
From Flocq Require Import Core.
From Verif Require Import Base DTypeModel ParamModel TensorModel QuantModel VlModel VlProofs CpmModel CpmSpec CpmSlice CpmText CpmAudioModel.
From Verif Require AotModel AotProofs AotGraph.
Local Open Scope R_scope.

(** ** Frames *)
Lemma format32 m e : (Z.abs m < 2 ^ 24)%Z -> (-149 <= e)%Z -> generic_format radix2 (FLT_exp (-149) 24) (IZR m * bpow radix2 e).
Proof.
  intros Hm He. apply generic_format_FLT. exists (Float radix2 m e); [reflexivity| |exact He]. cbn [Fnum]. exact Hm.
Qed.
Lemma exact32 m e : (Z.abs m < 2 ^ 24)%Z -> (-149 <= e)%Z -> to_f32 (IZR m * bpow radix2 e) = IZR m * bpow radix2 e.
Proof. intros Hm He. unfold to_f32, nearest. apply round_generic; [apply valid_rnd_N|]. apply format32; assumption. Qed.
Lemma int32 m : (Z.abs m < 2 ^ 24)%Z -> to_f32 (IZR m) = IZR m.
Proof. intro Hm. rewrite <- (Rmult_1_r (IZR m)). change 1 with (bpow radix2 0). apply exact32; [exact Hm|lia]. Qed.
Lemma mono32 x y : x <= y -> to_f32 x <= to_f32 y.
Proof. intro H. unfold to_f32, nearest. apply round_le; auto. apply FLT_exp_valid. unfold Prec_gt_0. lia. apply valid_rnd_N. Qed.
Lemma frames_ok len : (0 <= len <= 10485760)%Z -> audio_frames len = ((len + 159) / 160)%Z.
Proof.
  intro H. unfold audio_frames. rewrite int32 by lia.
  assert (D : (len = 160 * (len / 160) + len mod 160)%Z) by (apply Z.div_mod; lia). assert (M := Z.mod_pos_bound len 160 ltac:(lia)).
  set (k := (len / 160)%Z) in *. set (r := (len mod 160)%Z) in *. assert (K : (0 <= k <= 65536)%Z) by lia.
  assert (Q : IZR len / 160 = IZR k + IZR r / 160).
  { rewrite D, plus_IZR, mult_IZR. field. }
  rewrite Q. clear Q. destruct (Z.eq_dec r 0) as [R0|R0].
  - rewrite R0. replace (IZR k + 0 / 160) with (IZR k) by field. rewrite int32 by lia. rewrite Zceil_IZR. apply Z.div_unique with (r := (159)%Z); lia.
  - assert (K2 : (k < 65536)%Z) by lia.
    replace ((len + 159) / 160)%Z with (k + 1)%Z by (apply Z.div_unique with (r := (r - 1)%Z); lia).
    apply Zceil_imp. replace (k + 1 - 1)%Z with k by lia. assert (R1 : 1 <= IZR r <= 159) by (split; apply IZR_le; lia). split.
    + apply Rlt_le_trans with (IZR (k * 256 + 1) * bpow radix2 (-8)).
      * rewrite plus_IZR, mult_IZR. change (bpow radix2 (-8)) with (/ 256). lra.
      * rewrite <- exact32 by lia. apply mono32. rewrite plus_IZR, mult_IZR. change (bpow radix2 (-8)) with (/ 256). lra.
    + rewrite <- (int32 (k + 1)) by lia. apply mono32. rewrite plus_IZR. lra.
Qed.

Local Open Scope nat_scope.
(** ** Slots *)
Lemma slots_ok f : (0 <= f)%Z -> audio_slots f = Z.max 1 ((f + 1) / 4).
Proof.
  intro H. unfold audio_slots. destruct (Z.eq_dec f 0) as [->|N]; [reflexivity|]. rewrite (Z.quot_div_nonneg (f - 1) 2) by lia.
  destruct (Z_le_gt_dec f 2) as [L|L].
  - assert (f = 1 \/ f = 2)%Z as [-> | ->] by lia; reflexivity.
  - rewrite Z.quot_div_nonneg by (Z.to_euclidean_division_equations; lia). Z.to_euclidean_division_equations; lia.
Qed.
Lemma first_end_app e : forall l j r, (forall x, In x l -> x <> e) -> first_end e j (l ++ e :: r) = Some (j + length l).
Proof.
  induction l as [|x l IH]; intros j r H; cbn [app first_end length].
  - rewrite Z.eqb_refl. f_equal. lia.
  - assert (N := H x (or_introl eq_refl)). replace (x =? e)%Z with false by lia. rewrite IH by (intros y Hy; apply H; right; exact Hy). f_equal. lia.
Qed.
Lemma audio_skip s e : forall l i r, (forall x, In x l -> x <> s) -> audio_bounds_from s e i (l ++ r) = audio_bounds_from s e (i + length l) r.
Proof.
  induction l as [|x l IH]; intros i r H; cbn [app audio_bounds_from length]; [rewrite Nat.add_0_r; reflexivity|].
  assert (N := H x (or_introl eq_refl)). replace (x =? s)%Z with false by lia. cbn [app]. rewrite IH by (intros y Hy; apply H; right; exact Hy). f_equal. lia.
Qed.
Lemma tok_audio ids bpe n pre post : tokenize ids bpe (pre ++ (Special SAudio :: unks n ++ [Special SAudioEnd]) ++ post) =
  tokenize ids bpe pre ++ ids SAudio :: repeat (ids SUnk) n ++ ids SAudioEnd :: tokenize ids bpe post.
Proof. cbn [app]. rewrite tok_special. rewrite <- app_assoc, tok_unks. cbn [app]. rewrite tok_head. reflexivity. Qed.
Lemma merge_audio_ok {R} (rows : list R) v s n more : n <= length v -> s + n <= length rows ->
  exists out, merge_audio rows [v] ((s, s + n) :: more) = ROk out /\ length out = length rows /\
    (forall k, k < n -> nth_error out (s + k) = nth_error v k) /\ (forall p, (p < s \/ s + n <= p) -> nth_error out p = nth_error rows p).
Proof.
  intros Hv Hr. unfold merge_audio. cbn [length AotModel.for_up].
  replace (rd ((s, s + n) :: more) 0) with (ROk (s, s + n)) by reflexivity. replace (rd [v] 0) with (ROk v) by reflexivity. cbn [rbind fst snd].
  replace (Nat.min (s + n - s) (length v)) with n by lia.
  assert (D := does_memcpy s v 0 n ltac:(lia)). unfold memcpy in D. cbn [Nat.add] in D.
  destruct (put_all_ok (copies s v 0 n) rows) as (out & E & Lo & V & O).
  - intros p r X. apply copies_in in X as (k & Hk & -> & _). lia.
  - intros p r r' X X'. apply copies_in in X as (k & Hk & -> & E1). apply copies_in in X' as (k' & Hk' & E2 & E3). assert (k' = k) by lia. subst k'. congruence.
  - exists out. rewrite (D rows out E). cbn [rbind]. split; [reflexivity|]. split; [exact Lo|]. split.
    + intros k Hk. destruct (nth_error v k) as [r|] eqn:Er; [|apply nth_error_None in Er; lia]. apply V. apply copies_in. exists k. auto.
    + intros p Hp. apply O. intros r X. apply copies_in in X as (k & Hk & -> & _). lia.
Qed.
(** ** Chunks *)
Lemma audio_chunks_ok per : (1 <= per)%Z -> forall n total out, (total <= out)%Z -> (total + (Z.of_nat n - 1) * per < out <= total + Z.of_nat n * per)%Z ->
  exists counts, audio_chunks n per total out = flat_map (fun c => Special SAudio :: unks c ++ [Special SAudioEnd]) counts /\ length counts = n /\
    Forall (fun c => (1 <= Z.of_nat c <= per)%Z) counts /\ (Z.of_nat (list_sum counts) = out - total)%Z.
Proof.
  intro Hp. induction n as [|n IH]; intros total out H0 H.
  - exists []. repeat split; auto. cbn. lia.
  - cbn [audio_chunks]. set (u := Z.min per (out - total)).
    destruct n as [|n].
    + assert (U : u = (out - total)%Z) by lia. exists [Z.to_nat u]. cbn [audio_chunks flat_map length list_sum fold_right]. rewrite !app_nil_r. split; [reflexivity|]. split; [reflexivity|]. split; [constructor; [lia|constructor]|]. lia.
    + assert (U : u = per). { unfold u. clear - H Hp. nia. }
      destruct (IH (total + u)%Z out) as (cs & E & L & F & Sm); [rewrite U; clear - H Hp; nia|rewrite U; lia|]. exists (Z.to_nat u :: cs). rewrite E. cbn [flat_map length list_sum fold_right]. split; [reflexivity|]. split; [lia|]. split; [constructor; [lia|exact F]|]. fold (list_sum cs). lia.
Qed.
