(** Proofs about the audio codes. *)
From Coq Require Import Reals Lra.
From Verif Require Import Base CodesModel CodesSpec.

Section Codes.
Variable draw : nat -> nat -> bool -> Z.
Variable num_vq : nat.
Variable eos : Z.
Variable cond : nat.

Lemma existsb_ends : forall fr, existsb (fun t => (t =? eos)%Z) fr = true <-> In eos fr.
Proof.
  intros fr. rewrite existsb_exists. split.
  - intros [x [I E]]. apply Z.eqb_eq in E. subst. exact I.
  - intros I. exists eos. split; [exact I|apply Z.eqb_refl].
Qed.

(** The loop with no minimum. *)
Lemma gen_spec : forall force n i frames,
  let frame := fun p => one_frame draw num_vq p force in
  let s := speech frame eos n (length frames) in
  gen_loop draw num_vq eos force 0 n i frames =
    (if (length s <? n)%nat then (frames ++ s ++ [frame (length frames + length s)%nat], true) else (frames ++ s, false)) /\
  (length s <= n)%nat.
Proof.
  intros force. induction n as [|n IH]; intros i frames; cbn [gen_loop speech].
  - split; [cbn; rewrite app_nil_r; reflexivity|reflexivity].
  - change (i <? 0)%nat with false. cbn [orb].
    destruct (in_dec Z.eq_dec eos (one_frame draw num_vq (length frames) force)) as [I|I].
    + rewrite (proj2 (existsb_ends _) I). cbn [length app Nat.ltb Nat.leb]. rewrite Nat.add_0_r. split; [reflexivity|lia].
    + replace (existsb _ _) with false by (symmetry; apply not_true_iff_false; rewrite existsb_ends; exact I).
      destruct (IH (Datatypes.S i) (frames ++ [one_frame draw num_vq (length frames) force])) as [E L].
      rewrite app_length in E, L. cbn [length] in E, L. rewrite !Nat.add_1_r in E, L. rewrite E. cbn [length].
      set (s := speech _ eos n (Datatypes.S (length frames))) in *. split; [|lia].
      change (Datatypes.S (length s) <? Datatypes.S n)%nat with (length s <? n)%nat.
      rewrite <- !app_assoc. cbn [app]. destruct (length s <? n)%nat; [|reflexivity].
      replace (length frames + Datatypes.S (length s))%nat with (Datatypes.S (length frames) + length s)%nat by lia. reflexivity.
Qed.

Lemma speech_more : forall frame n m p, (length (speech frame eos n p) <= n)%nat /\
  speech frame eos (n + m) p =
  if (length (speech frame eos n p) <? n)%nat then speech frame eos n p else speech frame eos n p ++ speech frame eos m (p + n).
Proof.
  intros frame. induction n as [|n IH]; intros m p; cbn [speech Nat.add].
  - split; [reflexivity|]. cbn. rewrite Nat.add_0_r. reflexivity.
  - destruct (in_dec Z.eq_dec eos (frame p)) as [I|I]; [split; [cbn; lia|reflexivity]|].
    destruct (IH m (Datatypes.S p)) as [L E]. split; [cbn; lia|]. rewrite E. cbn [length].
    change (Datatypes.S (length (speech frame eos n (Datatypes.S p))) <? Datatypes.S n)%nat with (length (speech frame eos n (Datatypes.S p)) <? n)%nat.
    destruct (_ <? n)%nat; [reflexivity|]. cbn [app]. replace (p + Datatypes.S n)%nat with (Datatypes.S p + n)%nat by lia. reflexivity.
Qed.
Lemma speech_clean : forall frame n p fr, In fr (speech frame eos n p) -> ~ ends eos fr.
Proof.
  intros frame. induction n as [|n IH]; intros p fr; cbn [speech]; [intros []|].
  destruct (in_dec Z.eq_dec eos (frame p)) as [I|I]; [intros []|]. intros [<-|J]; [exact I|exact (IH _ _ J)].
Qed.

(** One call. *)
Lemma gen_call : forall force n frames, (cond <= length frames)%nat ->
  let frame := fun p => one_frame draw num_vq p force in
  let s := speech frame eos n (length frames) in
  let '(ids, fs, fin) := generate draw num_vq eos cond frames force 0 n in
  ids = skipn cond frames ++ s /\ fin = (length s <? n)%nat /\ (length s <= n)%nat /\
  (fin = false -> fs = frames ++ s).
Proof.
  intros force n frames C frame s. unfold generate. destruct (gen_spec force n 0 frames) as [E L]. fold frame in E, L. fold s in E, L. rewrite E.
  destruct (length s <? n)%nat eqn:B.
  - split; [|split; [reflexivity|split; [exact L|discriminate]]].
    rewrite app_assoc, app_length. cbn [length]. replace (length (frames ++ s) + 1 - 1)%nat with (length (frames ++ s)) by lia.
    rewrite firstn_app, firstn_all, Nat.sub_diag, firstn_O, app_nil_r, skipn_app. replace (cond - length frames)%nat with 0%nat by lia. reflexivity.
  - split; [|split; [reflexivity|split; [exact L|reflexivity]]]. rewrite firstn_all, skipn_app. replace (cond - length frames)%nat with 0%nat by lia. reflexivity.
Qed.

(** A stream of calls, from [frames] with [skipn cond frames] already handed on. *)
Lemma stream_from : forall force calls frames, (cond <= length frames)%nat ->
  let frame := fun p => one_frame draw num_vq p force in
  let old := skipn cond frames in
  let r := stream draw num_vq eos cond force calls frames (length old) in
  old ++ unrepeat 4 (length old) (fst r) = snd r /\
  exists n, snd r = old ++ speech frame eos n (length frames) /\ (n <= 25 * calls)%nat /\
    (n = 25 * calls \/ length (speech frame eos n (length frames)) < n \/ 1024 < length (snd r))%nat.
Proof.
  intros force. induction calls as [|c IH]; intros frames C frame old r.
  - unfold r, old. cbn. rewrite app_nil_r. split; [reflexivity|]. exists O. cbn. rewrite app_nil_r. split; [reflexivity|]. split; [lia|left; reflexivity].
  - unfold r. cbn [stream]. assert (Q := gen_call force 25 frames C). cbv zeta in Q. fold frame in Q. fold old in Q.
    set (s := speech frame eos 25 (length frames)) in *.
    destruct (generate draw num_vq eos cond frames force 0 25) as [[ids fs] fin]. destruct Q as [Q1 [Q2 [Q3 Q4]]].
    assert (SL : skipn (Nat.min 4 (length old)) (skipn (length old - 4) ids) = s).
    { rewrite Q1, skipn_app. replace (length old - 4 - length old)%nat with 0%nat by lia. cbn [skipn]. rewrite skipn_app, skipn_length.
      replace (Nat.min 4 (length old) - (length old - (length old - 4)))%nat with 0%nat by lia. cbn [skipn].
      rewrite skipn_all2; [reflexivity|]. rewrite skipn_length. lia. }
    destruct (fin || (1024 <? length ids)%nat) eqn:B; cbn [fst snd unrepeat].
    + rewrite SL, app_nil_r. split; [symmetry; exact Q1|]. exists 25%nat. fold s. split; [exact Q1|]. split; [lia|].
      apply orb_true_iff in B. destruct B as [B|B]; [right; left; rewrite Q2 in B; apply Nat.ltb_lt; exact B|right; right; apply Nat.ltb_lt; exact B].
    + apply orb_false_iff in B. destruct B as [B1 B2]. specialize (Q4 B1). rewrite B1 in Q2. symmetry in Q2. apply Nat.ltb_ge in Q2.
      assert (LS : length s = 25%nat) by lia.
      assert (C2 : (cond <= length fs)%nat) by (rewrite Q4, app_length; lia).
      assert (O2 : skipn cond fs = ids) by (rewrite Q4, Q1, skipn_app; replace (cond - length frames)%nat with 0%nat by lia; reflexivity).
      assert (R := IH fs C2). cbv zeta in R. rewrite O2 in R. fold frame in R. destruct R as [R1 [n [R2 [R3 R4]]]].
      set (r' := stream draw num_vq eos cond force c fs (length ids)) in *.
      rewrite SL. split.
      * rewrite <- R1, Q1 at 1. rewrite Q1 at 1. rewrite app_length, <- app_assoc. reflexivity.
      * exists (25 + n)%nat. destruct (speech_more frame 25 n (length frames)) as [_ SM]. fold s in SM. rewrite LS in SM.
        change (25 <? 25)%nat with false in SM. cbv iota in SM. rewrite SM.
        replace (length frames + 25)%nat with (length fs) by (rewrite Q4, app_length, LS; reflexivity).
        split; [rewrite R2, Q1, <- app_assoc; reflexivity|]. split; [lia|]. rewrite app_length, LS. lia.
Qed.
End Codes.

(** Sampling. *)
Lemma lower_bound_le : forall l r, (lower_bound l r <= length l)%nat.
Proof. induction l as [|x l IH]; intros r; cbn; [lia|]. destruct (Rlt_dec x r); [specialize (IH r); lia|lia]. Qed.
Lemma lower_bound_spec : forall l r i, (i < lower_bound l r)%nat -> (nth i l 0 < r)%R.
Proof.
  induction l as [|x l IH]; intros r i H; cbn in *; [lia|]. destruct (Rlt_dec x r); [|lia]. destruct i as [|i]; [assumption|]. apply IH. lia.
Qed.
Lemma lower_bound_at : forall l r, (lower_bound l r < length l)%nat -> (r <= nth (lower_bound l r) l 0)%R.
Proof.
  induction l as [|x l IH]; intros r H; cbn in *; [lia|]. destruct (Rlt_dec x r); [apply IH; lia|lra].
Qed.
Lemma partial_len : forall rnd l acc, length (partial_sums rnd acc l) = length l.
Proof. intros rnd. induction l as [|x l IH]; intros acc; [reflexivity|]. cbn. rewrite IH. reflexivity. Qed.
Lemma sums_len : forall rnd l, length (sums rnd l) = length l.
Proof. intros rnd [|x l]; [reflexivity|]. cbn. rewrite partial_len. reflexivity. Qed.
Lemma partial_exact : forall l acc i, (i < length l)%nat -> nth i (partial_sums (fun x => x) acc l) 0%R = (acc + sum_to l (Datatypes.S i))%R.
Proof.
  induction l as [|x l IH]; intros acc i H; cbn [length] in H; [lia|]. destruct i as [|i]; cbn [partial_sums nth].
  - cbn. destruct l; cbn; ring.
  - rewrite IH by lia. cbn [sum_to]. ring.
Qed.
Lemma sums_exact : forall l i, (i < length l)%nat -> nth i (sums (fun x => x) l) 0%R = sum_to l (Datatypes.S i).
Proof.
  intros [|x l] i H; cbn [length] in H; [lia|]. destruct i as [|i]; cbn [sums nth].
  - cbn. destruct l; cbn; ring.
  - rewrite partial_exact by lia. cbn [sum_to]. reflexivity.
Qed.
Lemma sum_step : forall l i, (i < length l)%nat -> sum_to l (Datatypes.S i) = (sum_to l i + nth i l 0)%R.
Proof.
  induction l as [|x l IH]; intros i H; cbn [length] in H; [lia|]. destruct i as [|i].
  - cbn. destruct l; cbn; ring.
  - cbn [nth]. change (sum_to (x :: l) (Datatypes.S (Datatypes.S i))) with (x + sum_to l (Datatypes.S i))%R. rewrite IH by lia. cbn [sum_to]. ring.
Qed.
