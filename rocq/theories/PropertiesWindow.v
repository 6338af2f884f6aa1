(** C152: the text windows of the speech stream. *)
From Verif Require Import Base WindowModel WindowSpec.

Lemma prepare_len : forall t, snd (prepare t) = Nat.min (length t) 300.
Proof. intros t. unfold prepare. change reserved with 300%nat. destruct (Nat.ltb_spec (length t) 300); cbn [snd]; lia. Qed.
Lemma nth_error_repeat_lt : forall A (x : A) n i, (i < n)%nat -> nth_error (repeat x n) i = Some x.
Proof. intros A x. induction n as [|n IH]; intros i H; [lia|]. destruct i as [|i]; [reflexivity|]. cbn. apply IH. lia. Qed.

(** The decorated text up to the end of text. *)
Lemma prepare_nth : forall t p, (p < Nat.min (length t) 300 + 2 \/ (p = length t + 2 /\ length t < 300))%nat ->
  nth_error (fst (prepare t)) p = should t p.
Proof.
  intros t p H. unfold prepare, should. change reserved with 300%nat. destruct p as [|[|p]]; [destruct (length t <? 300)%nat; reflexivity|destruct (length t <? 300)%nat; reflexivity|].
  replace (Datatypes.S (Datatypes.S p) - 2)%nat with p by lia.
  destruct (Nat.ltb_spec (length t) 300) as [L|L]; cbn [fst app nth_error].
  - rewrite firstn_all2 by lia. destruct (Nat.lt_ge_cases p (length t)) as [P|P].
    + rewrite nth_error_app1 by (rewrite map_length; exact P). rewrite nth_error_map.
      destruct (nth_error t p) eqn:E; [reflexivity|]. apply nth_error_None in E. lia.
    + assert (p = length t) by lia. subst p. rewrite nth_error_app2 by (rewrite map_length; lia). rewrite map_length, Nat.sub_diag. cbn [app nth_error].
      replace (nth_error t (length t)) with (@None Z) by (symmetry; apply nth_error_None; lia). rewrite Nat.eqb_refl. reflexivity.
  - assert (P : (p < 300)%nat) by lia. rewrite nth_error_app1 by (rewrite map_length, firstn_length; lia). rewrite nth_error_map.
    destruct (nth_error (firstn 300 t) p) eqn:E; [reflexivity|]. apply nth_error_None in E. rewrite firstn_length in E. lia.
Qed.

(** A text token keeps its place when the text grows. *)
Lemma should_grow : forall t more p, (p < Nat.min (length t) 300 + 2)%nat -> should (t ++ more) p = should t p.
Proof.
  intros t more p H. unfold should. destruct p as [|[|p]]; [reflexivity|reflexivity|].
  replace (Datatypes.S (Datatypes.S p) - 2)%nat with p by lia.
  rewrite firstn_app. rewrite nth_error_app1 by (rewrite firstn_length; lia).
  destruct (nth_error (firstn 300 t) p) eqn:E; [reflexivity|]. apply nth_error_None in E. rewrite firstn_length in E. lia.
Qed.

Lemma prefill_at : forall k f t c p,
  prefill k f t c p =
  if ((fst (window k f (snd (prepare t))) <=? p) && (p <? snd (window k f (snd (prepare t)))))%nat then nth_error (fst (prepare t)) p else c p.
Proof.
  intros k f t c p. unfold prefill. destruct (prepare t) as [ids len]. cbn [fst snd]. destruct (window k f len) as [b e]. cbn [fst snd].
  destruct (Nat.ltb_spec b e); [reflexivity|]. replace ((b <=? p) && (p <? e))%nat with false by (symmetry; lia). reflexivity.
Qed.
Lemma window_begin : forall k f len, fst (window k f len) = if (k =? 0)%nat then 0%nat else (k * 10 + 2)%nat.
Proof. reflexivity. Qed.
Lemma window_open : forall k len, snd (window k false len) = Nat.min ((k + 1) * 10 + 2) 302.
Proof. intros k len. unfold window. cbn [snd]. change reserved with 300%nat. destruct (Nat.eqb_spec k 0) as [->|N]; lia. Qed.
Lemma window_last : forall k len, snd (window k true len) = (len + 3)%nat.
Proof. intros k len. unfold window. cbn [snd]. lia. Qed.
Lemma filled_S : forall text fin k, filled text fin (Datatypes.S k) = prefill (Datatypes.S k) (fin (Datatypes.S k)) (text (Datatypes.S k)) (filled text fin k).
Proof. reflexivity. Qed.
Lemma filled_O : forall text fin, filled text fin 0 = prefill 0 (fin O) (text O) (fun _ => None).
Proof. reflexivity. Qed.

Lemma open_inv : forall text fin m, grows text -> finishes fin m -> in_time text m ->
  forall k p, (k < m)%nat -> (p < Nat.min (10 * (k + 1) + 2) 302)%nat -> filled text fin k p = should (text k) p.
Proof.
  intros text fin m G [_ F] T. induction k as [|k IH]; intros p K P; assert (TK := T _ K).
  - rewrite filled_O, (F O K), prefill_at, window_begin, window_open. change (0 =? 0)%nat with true. cbv iota.
    replace ((0 <=? p) && (p <? Nat.min ((0 + 1) * 10 + 2) 302))%nat with true by (symmetry; lia).
    apply prepare_nth. left. lia.
  - rewrite filled_S, (F _ K), prefill_at, window_begin, window_open. change (Datatypes.S k =? 0)%nat with false. cbv iota.
    destruct ((Datatypes.S k * 10 + 2 <=? p) && (p <? Nat.min ((Datatypes.S k + 1) * 10 + 2) 302))%nat eqn:E.
    + apply prepare_nth. left. lia.
    + destruct (G k) as [more ->]. assert (TP := T k ltac:(lia)). rewrite should_grow by lia. apply IH; lia.
Qed.

(** C152 (partial): when the text is in time for every window, the speech model has, in
    the call that finishes, the start, the speaker, every one of the first 300 text tokens
    and the end of the text at their positions.  Missing: texts that are not in time
    (refuted below). *)
Theorem C152_text_reaches_speech_partial : forall text fin m p, grows text -> finishes fin m -> in_time text m ->
  (p < Nat.min (length (text m)) 300 + 2 \/ (p = length (text m) + 2 /\ length (text m) < 300))%nat ->
  filled text fin m p = should (text m) p.
Proof.
  intros text fin m p G F T P. destruct m as [|k].
  - rewrite filled_O, (proj1 F), prefill_at, window_begin, window_last, prepare_len. change (0 =? 0)%nat with true. cbv iota.
    replace ((0 <=? p) && (p <? Nat.min (length (text 0%nat)) 300 + 3))%nat with true by (symmetry; lia). apply prepare_nth. exact P.
  - rewrite filled_S, (proj1 F), prefill_at, window_begin, window_last, prepare_len. change (Datatypes.S k =? 0)%nat with false. cbv iota.
    destruct ((Datatypes.S k * 10 + 2 <=? p) && (p <? Nat.min (length (text (Datatypes.S k))) 300 + 3))%nat eqn:E; [apply prepare_nth; exact P|].
    assert (TK := T k ltac:(lia)). destruct (G k) as [more GK].
    assert (PP : (p < Nat.min (10 * (k + 1) + 2) 302)%nat).
    { destruct (Nat.lt_ge_cases p (Datatypes.S k * 10 + 2)) as [Q|Q]; [|exfalso; lia].
      destruct P as [P|[P1 P2]]; [lia|]. lia. }
    rewrite (open_inv text fin _ G F T k p ltac:(lia) PP). rewrite GK. symmetry. apply should_grow. lia.
Qed.

(** C152 (violated): every token of the text reaches the speech model.  Eight tokens in
    the first call and two more in the second, which is what the generator's settings give
    for one speech token per answer token: the ninth and tenth are never prefilled. *)
Definition ex_text (k : nat) : list Z := if (k =? 0)%nat then [0; 1; 2; 3; 4; 5; 6; 7]%Z else [0; 1; 2; 3; 4; 5; 6; 7; 8; 9]%Z.
Theorem C152_tokens_missed_refuted :
  ~ (forall text fin m p, grows text -> finishes fin m -> (p < Nat.min (length (text m)) 300 + 2)%nat ->
     filled text fin m p = should (text m) p).
Proof.
  intros H. specialize (H ex_text (fun k => (1 <=? k)%nat) 1%nat 10%nat).
  assert (G : grows ex_text) by (intros [|k]; [exists [8; 9]%Z; reflexivity|exists []; reflexivity]).
  specialize (H G). assert (F : finishes (fun k => (1 <=? k)%nat) 1) by (split; [reflexivity|intros k K; replace k with O by lia; reflexivity]).
  specialize (H F). assert (B : (10 < Nat.min (length (ex_text 1)) 300 + 2)%nat) by (apply Nat.ltb_lt; reflexivity). specialize (H B).
  vm_compute in H. discriminate.
Qed.

(** Every audio token attends only to text positions that have been prefilled: token j of
    call k (25 to a call, with 302 + 25 k + j tokens in the cache), the text being complete
    from call m on.  Here the text need not be in time. *)
Lemma prepare_full : forall t, length (fst (prepare t)) = 303%nat.
Proof.
  intros t. unfold prepare. change reserved with 300%nat. destruct (Nat.ltb_spec (length t) 300) as [L|L]; cbn [fst]; rewrite !app_length, map_length; cbn [length].
  - rewrite repeat_length. lia.
  - rewrite firstn_length. lia.
Qed.
Lemma prefill_keeps : forall k f t c p, (p < 303)%nat -> c p <> None -> prefill k f t c p <> None.
Proof.
  intros k f t c p P H. rewrite prefill_at. destruct (_ && _)%nat; [|exact H]. apply nth_error_Some. rewrite prepare_full. exact P.
Qed.
Lemma open_filled : forall text fin m k p, (forall j, (j < m)%nat -> fin j = false) -> (k < m)%nat ->
  (p < Nat.min (10 * (k + 1) + 2) 302)%nat -> filled text fin k p <> None.
Proof.
  intros text fin m k p F. induction k as [|k IH]; intros K P.
  - rewrite filled_O, (F _ K), prefill_at, window_begin, window_open. change (0 =? 0)%nat with true. cbv iota.
    replace ((0 <=? p) && (p <? Nat.min ((0 + 1) * 10 + 2) 302))%nat with true by (symmetry; lia).
    apply nth_error_Some. rewrite prepare_full. lia.
  - rewrite filled_S. destruct (Nat.lt_ge_cases p (Nat.min (10 * (k + 1) + 2) 302)) as [Q|Q].
    + apply prefill_keeps; [lia|]. apply IH; lia.
    + rewrite (F _ K), prefill_at, window_begin, window_open. change (Datatypes.S k =? 0)%nat with false. cbv iota.
      replace ((Datatypes.S k * 10 + 2 <=? p) && (p <? Nat.min ((Datatypes.S k + 1) * 10 + 2) 302))%nat with true by (symmetry; lia).
      apply nth_error_Some. rewrite prepare_full. lia.
Qed.
Lemma last_filled : forall text fin m p, finishes fin m -> (p < 302)%nat -> (p < Nat.min (length (text m)) 300 + 3)%nat -> filled text fin m p <> None.
Proof.
  intros text fin m p [F1 F2] P0 P. destruct m as [|k].
  - rewrite filled_O, F1, prefill_at, window_begin, window_last, prepare_len. change (0 =? 0)%nat with true. cbv iota.
    replace ((0 <=? p) && (p <? Nat.min (length (text 0%nat)) 300 + 3))%nat with true by (symmetry; lia). apply nth_error_Some. rewrite prepare_full. lia.
  - rewrite filled_S. destruct (Nat.lt_ge_cases p (Nat.min (10 * (k + 1) + 2) 302)) as [Q|Q].
    + apply prefill_keeps; [lia|]. apply (open_filled text fin (Datatypes.S k)); [exact F2|lia|exact Q].
    + rewrite F1, prefill_at, window_begin, window_last, prepare_len. change (Datatypes.S k =? 0)%nat with false. cbv iota.
      destruct (Nat.le_gt_cases (Datatypes.S k * 10 + 2) p) as [W|W].
      * replace ((Datatypes.S k * 10 + 2 <=? p) && (p <? Nat.min (length (text (Datatypes.S k))) 300 + 3))%nat with true by (symmetry; lia).
        apply nth_error_Some. rewrite prepare_full. lia.
      * exfalso. lia.
Qed.
Theorem C152_attended_is_prefilled : forall text fin m k j p, finishes fin m ->
  (forall i, (m <= i)%nat -> text i = text m) -> (j < 25)%nat -> (p < 302)%nat ->
  attended (302 + 25 * k + j) (snd (prepare (text k))) p = true -> filled text fin k p <> None.
Proof.
  intros text fin m k j p F T J P A. unfold attended in A. apply andb_true_iff in A. destruct A as [A1 A2].
  assert (V : (p < Nat.min (10 * (k + 1) + 2) 302)%nat).
  { apply negb_true_iff in A1. apply andb_false_iff in A1. destruct A1 as [A1|A1]; [|apply Nat.ltb_ge in A1; lia].
    apply Nat.leb_gt in A1. assert (D : ((302 + 25 * k + j - 300 + 50 - 1) / 50 <= k + 1)%nat).
    { apply Nat.lt_succ_r. apply Nat.div_lt_upper_bound; [lia|]. lia. }
    set (d := ((302 + 25 * k + j - 300 + 50 - 1) / 50)%nat) in *. clearbody d. lia. }
  destruct (Nat.lt_ge_cases k m) as [K|K].
  - apply (open_filled text fin m); [exact (proj2 F)|exact K|exact V].
  - rewrite (T k K) in A2. assert (M : (p < Nat.min (length (text m)) 300 + 3)%nat).
    { rewrite prepare_len in A2. unfold mask in A2. change reserved with 300%nat in A2.
      apply negb_true_iff in A2. apply andb_false_iff in A2. destruct A2 as [A2|A2]; [apply Nat.ltb_ge in A2; lia|].
      apply negb_false_iff in A2. lia. }
    assert (H := last_filled text fin m p F P M). clear A1 A2 V T. revert K. induction k as [|k IH]; intros K.
    + replace m with 0%nat in H by lia. exact H.
    + destruct (Nat.eq_dec m (Datatypes.S k)) as [<-|N]; [exact H|]. rewrite filled_S. apply prefill_keeps; [lia|]. apply IH. lia.
Qed.

(** The mask of the finishing call is exactly the places of the text. *)
Theorem C152_mask_at_the_end : forall t p, (p < 302)%nat ->
  (mask (snd (prepare t)) p = true <-> should t p <> None).
Proof.
  intros t p P. rewrite prepare_len. unfold mask, should. change reserved with 300%nat.
  destruct p as [|[|p]].
  - split; [discriminate|]. intros _. lia.
  - split; [discriminate|]. intros _. lia.
  - replace (Datatypes.S (Datatypes.S p) - 2)%nat with p by lia.
    destruct (nth_error (firstn 300 t) p) eqn:E.
    + assert (L : (p < length (firstn 300 t))%nat) by (apply nth_error_Some; congruence). rewrite firstn_length in L.
      split; [discriminate|]. intros _. lia.
    + apply nth_error_None in E. rewrite firstn_length in E. destruct (Nat.eqb_spec p (length t)) as [->|N].
      * split; [discriminate|]. intros _. lia.
      * split; [|congruence]. intros M. exfalso. lia.
Qed.

Example C152_hypotheses :
  let text := fun k => map Z.of_nat (seq 0 (Nat.min (12 * (k + 1)) 30)) in
  finishes (fun k => (2 <=? k)%nat) 2 /\ in_time text 2 /\
  filled text (fun k => (2 <=? k)%nat) 2 31%nat = Some (TText 29) /\ filled text (fun k => (2 <=? k)%nat) 2 32%nat = Some TEtts.
Proof.
  split; [split; [reflexivity|intros k K; destruct k as [|[|k]]; [reflexivity|reflexivity|lia]]|].
  split; [intros k K; rewrite map_length, seq_length; lia|]. split; reflexivity.
Qed.
Example C152_grows : grows (fun k => map Z.of_nat (seq 0 (Nat.min (12 * (k + 1)) 30))).
Proof.
  intros k. set (a := Nat.min (12 * (k + 1)) 30). exists (map Z.of_nat (seq a (Nat.min (12 * (Datatypes.S k + 1)) 30 - a))).
  rewrite <- map_app. f_equal. replace (Nat.min (12 * (Datatypes.S k + 1)) 30) with (a + (Nat.min (12 * (Datatypes.S k + 1)) 30 - a))%nat at 1 by (unfold a; lia).
  apply seq_app.
Qed.
Print Assumptions C152_text_reaches_speech_partial.
Print Assumptions C152_tokens_missed_refuted.
Print Assumptions C152_attended_is_prefilled.
Print Assumptions C152_mask_at_the_end.
