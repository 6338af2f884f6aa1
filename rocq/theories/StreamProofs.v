(** Proofs about the speech stream. *)
From Coq Require Import Reals Lra.
From Verif Require Import Base ChunkModel ChunkSpec ChunkProofs StreamModel StreamSpec.

Lemma write_run_at : forall n base v p k,
  write_run n base v p k = if ((base <=? k) && (k <? base + n))%nat then v (k - base)%nat else p k.
Proof.
  induction n as [|m IH]; intros base v p k; cbn [write_run].
  - replace ((base <=? k) && (k <? base + 0))%nat with false by (symmetry; lia). reflexivity.
  - destruct (Nat.eqb_spec k (base + m)) as [->|N].
    + replace ((base <=? base + m) && (base + m <? base + Datatypes.S m))%nat with true by (symmetry; lia). f_equal. lia.
    + rewrite IH. destruct ((base <=? k) && (k <? base + m))%nat eqn:E.
      * replace ((base <=? k) && (k <? base + Datatypes.S m))%nat with true by (symmetry; lia). reflexivity.
      * replace ((base <=? k) && (k <? base + Datatypes.S m))%nat with false by (symmetry; lia). reflexivity.
Qed.

(** Rows that write only their own L places. *)
Lemma each_row_at : forall L (row : nat -> (nat -> R) -> nat -> R) (v : nat -> nat -> R),
  (forall b p k, row b p k = if ((b * L <=? k) && (k <? b * L + L))%nat then v b (k - b * L)%nat else p k) ->
  forall n p b i, (b < n)%nat -> (i < L)%nat -> each_row n row p (b * L + i)%nat = v b i.
Proof.
  intros L row v H. induction n as [|m IH]; intros p b i B I; [lia|]. cbn [each_row]. rewrite H.
  destruct (Nat.eq_dec b m) as [->|N].
  - replace ((m * L <=? m * L + i) && (m * L + i <? m * L + L))%nat with true by (symmetry; lia). f_equal. lia.
  - assert (b * L + L <= m * L)%nat by nia.
    replace ((m * L <=? b * L + i) && (b * L + i <? m * L + L))%nat with false by (symmetry; lia). apply IH; lia.
Qed.

Lemma overlap_lengths : forall B p c ov, let o := Nat.min ov (Nat.min (w_len p) (w_len c)) in
  w_len (fst (linear_overlap_add B p c ov)) = w_len p /\
  w_len (snd (linear_overlap_add B p c ov)) = (w_len c - o)%nat.
Proof. intros B p c ov. cbn. rewrite Nat.min_assoc. split; [|reflexivity]. lia. Qed.

Lemma overlap_out : forall B p c ov b i, (b < B)%nat -> (i < w_len p)%nat ->
  let o := Nat.min ov (Nat.min (w_len p) (w_len c)) in
  let keep := (w_len p - o)%nat in
  w_at (fst (linear_overlap_add B p c ov)) (b * w_len p + i)%nat =
  if (i <? keep)%nat then w_at p (b * w_len p + i)%nat
  else fade o (i - keep) (w_at p (b * w_len p + i)%nat) (w_at c (b * w_len c + (i - keep))%nat).
Proof.
  intros B p c ov b i HB HI. cbv zeta. unfold linear_overlap_add. cbn [fst w_at w_len]. rewrite <- Nat.min_assoc.
  set (o := Nat.min ov (Nat.min (w_len p) (w_len c))). assert (HO : (o <= w_len p)%nat) by (unfold o; lia). clearbody o.
  replace (w_len p - o + o)%nat with (w_len p) by lia.
  set (v := fun b i => if (i <? w_len p - o)%nat then w_at p (b * w_len p + i)%nat
     else fade o (i - (w_len p - o)) (w_at p (b * w_len p + i)%nat) (w_at c (b * w_len c + (i - (w_len p - o)))%nat)).
  change (if (i <? w_len p - o)%nat then _ else _) with (v b i).
  apply (each_row_at (w_len p) _ v); [|exact HB|exact HI].
  intros b' q k. rewrite !write_run_at. unfold v.
  destruct ((b' * w_len p <=? k) && (k <? b' * w_len p + w_len p))%nat eqn:E.
  - destruct (k - b' * w_len p <? w_len p - o)%nat eqn:E2.
    + replace ((b' * w_len p + (w_len p - o) <=? k) && (k <? b' * w_len p + (w_len p - o) + o))%nat with false by (symmetry; lia).
      replace ((b' * w_len p <=? k) && (k <? b' * w_len p + (w_len p - o)))%nat with true by (symmetry; lia). reflexivity.
    + replace ((b' * w_len p + (w_len p - o) <=? k) && (k <? b' * w_len p + (w_len p - o) + o))%nat with true by (symmetry; lia).
      unfold fade. replace (k - b' * w_len p - (w_len p - o))%nat with (k - (b' * w_len p + (w_len p - o)))%nat by lia.
      replace (b' * w_len p + (w_len p - o + (k - (b' * w_len p + (w_len p - o)))))%nat with (b' * w_len p + (k - b' * w_len p))%nat by lia.
      destruct (1 <? o)%nat eqn:E3; [replace (o <=? 1)%nat with false by (symmetry; lia)|replace (o <=? 1)%nat with true by (symmetry; lia)]; reflexivity.
  - replace ((b' * w_len p + (w_len p - o) <=? k) && (k <? b' * w_len p + (w_len p - o) + o))%nat with false by (symmetry; lia).
    replace ((b' * w_len p <=? k) && (k <? b' * w_len p + (w_len p - o)))%nat with false by (symmetry; lia). reflexivity.
Qed.

Lemma overlap_next : forall B p c ov b i, (b < B)%nat ->
  let o := Nat.min ov (Nat.min (w_len p) (w_len c)) in
  let rl := (w_len c - o)%nat in (i < rl)%nat ->
  w_at (snd (linear_overlap_add B p c ov)) (b * rl + i)%nat = w_at c (b * w_len c + (o + i))%nat.
Proof.
  intros B p c ov b i HB. cbv zeta. unfold linear_overlap_add. cbn [snd w_at w_len]. rewrite <- Nat.min_assoc.
  set (o := Nat.min ov (Nat.min (w_len p) (w_len c))). clearbody o. intros HI.
  apply (each_row_at (w_len c - o) _ (fun b i => w_at c (b * w_len c + (o + i))%nat)); [|exact HB|exact HI].
  intros b' q k. rewrite write_run_at. reflexivity.
Qed.

(** Fading stays between the two samples and joins them without a jump. *)
Lemma fade_first : forall n a b, fade n 0 a b = a.
Proof. intros n a b. unfold fade. cbn [INR]. unfold Rdiv. rewrite Rmult_0_l. ring. Qed.
Lemma fade_last : forall n a b, (2 <= n)%nat -> fade n (n - 1) a b = b.
Proof.
  intros n a b H. unfold fade. replace (n <=? 1)%nat with false by (symmetry; lia).
  assert (INR (n - 1) <> 0)%R by (apply not_0_INR; lia). field. assumption.
Qed.
Lemma fade_between : forall n i a b lo hi, (i < n)%nat -> (lo <= a <= hi)%R -> (lo <= b <= hi)%R ->
  (lo <= fade n i a b <= hi)%R.
Proof.
  intros n i a b lo hi I A B. unfold fade.
  assert (T : (0 <= INR i / (if (n <=? 1)%nat then 1 else INR (n - 1)) <= 1)%R).
  { destruct (n <=? 1)%nat eqn:E.
    - replace i with O by lia. cbn [INR]. lra.
    - assert (0 < INR (n - 1))%R by (apply lt_0_INR; lia). assert (INR i <= INR (n - 1))%R by (apply le_INR; lia).
      assert (0 <= INR i)%R by apply pos_INR. split.
      + apply Rmult_le_pos; [assumption|]. left. apply Rinv_0_lt_compat. assumption.
      + apply (Rmult_le_reg_r (INR (n - 1))); [assumption|]. unfold Rdiv. rewrite Rmult_assoc, Rinv_l; lra. }
  cbv zeta. set (t := (INR i / _)%R) in *. clearbody t. nra.
Qed.

(** One step on lists. *)
Lemma samples_len : forall w, length (samples w) = w_len w.
Proof. intros w. unfold samples. rewrite map_length, seq_length. reflexivity. Qed.
Lemma samples_nth : forall w i, (i < w_len w)%nat -> nth i (samples w) 0%R = w_at w i.
Proof.
  intros w i H. unfold samples. rewrite (nth_indep _ 0%R (w_at w 0)) by (rewrite map_length, seq_length; exact H).
  rewrite map_nth, seq_nth by exact H. reflexivity.
Qed.

Lemma nth_first : forall n (l : list R) i, (i < n)%nat -> nth i (firstn n l) 0%R = nth i l 0%R.
Proof.
  induction n as [|n IH]; intros l i H; [lia|]. destruct l as [|x l]; [destruct i; reflexivity|]. destruct i as [|i]; [reflexivity|].
  cbn. apply IH. lia.
Qed.
Lemma nth_skip : forall n (l : list R) i, nth i (skipn n l) 0%R = nth (n + i) l 0%R.
Proof.
  induction n as [|n IH]; intros l i; [reflexivity|]. destruct l as [|x l]; [destruct i; reflexivity|]. cbn. apply IH.
Qed.

Lemma step_append : forall p w e,
  let r := linear_overlap_add 1 p w 2048 in
  append_wave (e ++ samples p) (w_len p) (samples w) =
    ((e ++ samples (fst r)) ++ samples (snd r), w_len (snd r)).
Proof.
  intros p w e r. unfold append_wave. rewrite samples_len.
  destruct (overlap_lengths 1 p w 2048) as [L1 L2]. fold r in L1, L2.
  assert (L0 : (1 * (w_len w - Nat.min 2048 (Nat.min (w_len p) (w_len w))) = w_len w - Nat.min 2048 (Nat.min (w_len p) (w_len w)))%nat) by lia.
  assert (O1 := fun i => overlap_out 1 p w 2048 0 i (Nat.lt_0_succ 0)). fold r in O1. cbv zeta in O1.
  assert (O2 := fun i => overlap_next 1 p w 2048 0 i (Nat.lt_0_succ 0)). fold r in O2. cbv zeta in O2.
  set (o := Nat.min 2048 (Nat.min (w_len p) (w_len w))) in *. assert (HO : (o <= w_len p /\ o <= w_len w)%nat) by (unfold o; lia). clearbody o. clearbody r.
  rewrite L2. f_equal. rewrite <- app_assoc. rewrite app_length, samples_len.
  rewrite firstn_app. replace (length e + w_len p - o - length e)%nat with (w_len p - o)%nat by lia.
  rewrite firstn_all2 by lia. rewrite <- app_assoc. f_equal. rewrite app_assoc. f_equal.
  - apply (nth_ext _ _ 0%R 0%R).
    + rewrite app_length, firstn_length, map_length, seq_length, !samples_len. lia.
    + intros i I. rewrite app_length, firstn_length, map_length, seq_length, samples_len in I.
      rewrite samples_nth by lia. assert (Q := O1 i ltac:(lia)). cbn [Nat.mul Nat.add] in Q. rewrite Q.
      destruct (Nat.ltb_spec i (w_len p - o)) as [J|J].
      * rewrite app_nth1 by (rewrite firstn_length, samples_len; lia).
        rewrite nth_first by lia. apply samples_nth. lia.
      * rewrite app_nth2 by (rewrite firstn_length, samples_len; lia). rewrite firstn_length, samples_len.
        replace (i - Nat.min (w_len p - o) (w_len p))%nat with (i - (w_len p - o))%nat by lia.
        set (j := (i - (w_len p - o))%nat).
        match goal with |- nth j (map ?f (seq 0 o)) _ = _ => rewrite (nth_indep _ 0%R (f O)) by (rewrite map_length, seq_length; unfold j; lia); rewrite (map_nth f) end.
        rewrite seq_nth by (unfold j; lia). cbn [Nat.add].
        rewrite app_nth2 by lia. replace (length e + w_len p - o + j - length e)%nat with i by (unfold j; lia).
        rewrite !samples_nth by (unfold j; lia). reflexivity.
  - apply (nth_ext _ _ 0%R 0%R).
    + rewrite skipn_length, !samples_len. lia.
    + intros i I. rewrite skipn_length, samples_len in I. rewrite samples_nth by lia.
      assert (Q := O2 i ltac:(lia)). cbn [Nat.mul Nat.add] in Q. rewrite Q. rewrite <- samples_nth by lia.
      apply nth_skip.
Qed.

Lemma starts_ok : forall p s, starts p s = true <-> exists b, s = p ++ b.
Proof.
  induction p as [|a p IH]; intros s; cbn [starts].
  - split; [intros _; exists s; reflexivity|reflexivity].
  - destruct s as [|c s]; [split; [discriminate|intros [b H]; discriminate]|]. rewrite andb_true_iff, Z.eqb_eq, IH. split.
    + intros [-> [b ->]]. exists b. reflexivity.
    + intros [b H]. injection H as -> ->. split; [reflexivity|exists b; reflexivity].
Qed.
Lemma find_first_none : forall s, ~ marked s -> find_first tts_eos s = None.
Proof.
  induction s as [|c s IH]; intros H; [reflexivity|]. cbn [find_first]. destruct (starts tts_eos (c :: s)) eqn:E.
  - exfalso. apply H. apply starts_ok in E. destruct E as [b E]. exists [], b. exact E.
  - rewrite IH; [reflexivity|]. intros [a [b M]]. apply H. exists (c :: a), b. rewrite M. reflexivity.
Qed.
Lemma find_last_none : forall s, ~ marked s -> find_last tts_eos s = None.
Proof.
  induction s as [|c s IH]; intros H; [reflexivity|]. cbn [find_last]. rewrite IH.
  - destruct (starts tts_eos (c :: s)) eqn:E; [|reflexivity].
    exfalso. apply H. apply starts_ok in E. destruct E as [b E]. exists [], b. exact E.
  - intros [a [b M]]. apply H. exists (c :: a), b. rewrite M. reflexivity.
Qed.

Section Stream.
Variable tok : nat -> Z.
Variable piece : Z -> bytes.
Variable eos : Z -> bool.
Variable wav : nat -> wave.
Variable tts_fin : nat -> bool.
Let adv := advance tok piece eos.
Let next := generate_next tok piece eos wav tts_fin.
Let outs := outputs tok piece eos wav tts_fin.

Fixpoint after (ga : bool) (n : nat) (s : sst) : sst :=
  match n with O => s | Datatypes.S m => after ga m (fst (next ga s)) end.
Lemma after_S : forall ga n s, after ga (Datatypes.S n) s = fst (next ga (after ga n s)).
Proof. intros ga. induction n as [|n IH]; intros s; [reflexivity|]. cbn [after] in *. rewrite <- IH. reflexivity. Qed.
Lemma outs_S : forall ga n s, outs ga (Datatypes.S n) s = outs ga n s ++ [snd (next ga (after ga n s))].
Proof.
  intros ga. induction n as [|n IH]; intros s; [reflexivity|].
  change (outs ga (Datatypes.S (Datatypes.S n)) s) with (snd (next ga s) :: outs ga (Datatypes.S n) (fst (next ga s))). rewrite IH. reflexivity.
Qed.
Lemma audio_app : forall a b, audio_of (a ++ b) = audio_of a ++ audio_of b.
Proof. intros a b. unfold audio_of. rewrite map_app, concat_app. reflexivity. Qed.
Lemma text_app : forall a b, text_of (a ++ b) = text_of a ++ text_of b.
Proof. intros a b. unfold text_of. rewrite map_app, concat_app. reflexivity. Qed.

(** One call of the speaking stream. *)
Lemma call_audio : forall s, s_fin s = false ->
  let r := next true s in
  m_fin (snd r) = false /\ s_fin (fst r) = tts_fin (s_idx s) /\ s_idx (fst r) = Datatypes.S (s_idx s) /\
  match s_prev s with
  | Some p => let q := linear_overlap_add 1 p (wav (s_idx s)) 2048 in
              m_wav (snd r) = Some (fst q) /\ s_prev (fst r) = Some (snd q)
  | None => m_wav (snd r) = None /\ s_prev (fst r) = Some (wav (s_idx s))
  end.
Proof.
  intros s F r. unfold r, next, generate_next. rewrite F. destruct (s_prev s) as [p|]; cbn [fst snd m_fin m_wav s_fin s_idx s_prev];
    (split; [reflexivity|]; split; [reflexivity|]; split; [lia|]; split; reflexivity).
Qed.

Lemma audio_inv : forall n k, ends_with tts_fin n -> (k <= n)%nat ->
  let s := after true (Datatypes.S k) sinit in
  exists p, s_prev s = Some p /\ s_idx s = Datatypes.S k /\ s_fin s = tts_fin k /\
    (forall o, In o (outs true (Datatypes.S k) sinit) -> m_fin o = false) /\
    whole_audio wav k = (audio_of (outs true (Datatypes.S k) sinit) ++ samples p, w_len p).
Proof.
  intros n k [E1 E2]. induction k as [|k IH]; intros K.
  - destruct (call_audio sinit eq_refl) as [A [B [C [D1 D2]]]].
    exists (wav O). split; [exact D2|]. split; [exact C|]. split; [exact B|]. split.
    + rewrite outs_S. cbn [outs outputs app after]. intros o [<-|[]]. exact A.
    + rewrite outs_S, audio_app. cbn [outs outputs app after audio_of map concat]. unfold audio_of. cbn [map concat]. rewrite D1. reflexivity.
  - destruct (IH ltac:(lia)) as [p [P1 [P2 [P3 [P4 P5]]]]]. cbv zeta. rewrite after_S, outs_S.
    set (s := after true (Datatypes.S k) sinit) in *. rewrite (E2 k ltac:(lia)) in P3.
    assert (Q := call_audio s P3). cbv zeta in Q. rewrite P1, P2 in Q. destruct Q as [A [B [C [D1 D2]]]].
    exists (snd (linear_overlap_add 1 p (wav (Datatypes.S k)) 2048)).
    split; [exact D2|]. split; [exact C|]. split; [exact B|]. split.
    + intros o I. apply in_app_or in I. destruct I as [I|[<-|[]]]; [exact (P4 o I)|exact A].
    + cbn [whole_audio]. rewrite P5. cbn [fst snd]. rewrite step_append. rewrite audio_app. unfold audio_of at 3. cbn [map concat]. rewrite D1.
      cbn [heard]. rewrite app_nil_r. reflexivity.
Qed.

Lemma audio_all : forall n, ends_with tts_fin n ->
  audio_of (outs true (Datatypes.S (Datatypes.S n)) sinit) = fst (whole_audio wav n) /\
  (forall o, In o (outs true (Datatypes.S n) sinit) -> m_fin o = false) /\
  exists last, outs true (Datatypes.S (Datatypes.S n)) sinit = outs true (Datatypes.S n) sinit ++ [last] /\
    m_fin last = true /\ length (heard (m_wav last)) = snd (whole_audio wav n).
Proof.
  intros n E. destruct (audio_inv n n E (le_n n)) as [p [P1 [P2 [P3 [P4 P5]]]]].
  rewrite (proj1 E) in P3.
  assert (N : snd (next true (after true (Datatypes.S n) sinit)) = mkOm [] (Some p) true).
  { unfold next, generate_next. rewrite P3, P1. reflexivity. }
  rewrite P5. split; [|split; [exact P4|]].
  - rewrite (outs_S true (Datatypes.S n)), N, audio_app. unfold audio_of at 2. cbn. rewrite app_nil_r. reflexivity.
  - exists (mkOm [] (Some p) true). split; [rewrite (outs_S true (Datatypes.S n)), N; reflexivity|]. split; [reflexivity|]. cbn [heard m_wav snd]. apply samples_len.
Qed.

(** Looping over the stream. *)
Lemma srange_run : forall n s f, (forall o, In o (outs true (Datatypes.S n) s) -> m_fin o = false) ->
  m_fin (snd (next true (after true (Datatypes.S n) s))) = true -> (n + 2 <= f)%nat ->
  srange tok piece eos wav tts_fin true f (mkSi (fst (next true s)) (m_fin (snd (next true s))) (snd (next true s))) =
  outs true (Datatypes.S n) s.
Proof.
  induction n as [|n IH]; intros s f A B F.
  - destruct f as [|[|f]]; try lia. cbn [srange si_end si_out]. rewrite (A (snd (next true s))) by (left; reflexivity).
    unfold sadvance. cbn [si_end si_st]. fold next. cbn [after] in B. cbn [si_end]. rewrite B. reflexivity.
  - destruct f as [|f]; [lia|]. cbn [srange si_end si_out]. rewrite (A (snd (next true s))) by (left; reflexivity).
    change (outs true (Datatypes.S (Datatypes.S n)) s) with (snd (next true s) :: outs true (Datatypes.S n) (fst (next true s))). f_equal.
    unfold sadvance. cbn [si_end si_st]. apply IH; [intros o I; apply A; right; exact I|exact B|lia].
Qed.

Lemma range_audio : forall n f, ends_with tts_fin n -> (n + 2 <= f)%nat ->
  srange tok piece eos wav tts_fin true f (sbegin tok piece eos wav tts_fin true) = outs true (Datatypes.S n) sinit.
Proof.
  intros n f E F. destruct (audio_all n E) as [_ [A [last [L1 [L2 _]]]]]. unfold sbegin, sadvance. cbn [si_end si_st].
  apply srange_run; [exact A| |exact F]. rewrite (outs_S true (Datatypes.S n)) in L1. apply app_inj_tail in L1. destruct L1 as [_ ->]. exact L2.
Qed.

(** Without speech there is no text either. *)
Lemma silent_text : forall n s, text_of (outs false n s) = [].
Proof.
  induction n as [|n IH]; intros s; [reflexivity|]. change (outs false (Datatypes.S n) s) with ([snd (next false s)] ++ outs false n (fst (next false s))).
  rewrite text_app, IH, app_nil_r. unfold text_of. cbn [map concat]. rewrite app_nil_r.
  unfold next, generate_next. destruct (s_fin s); reflexivity.
Qed.

Lemma firstn_more : forall (A : Type) m j (l : list A), firstn m l ++ firstn j (skipn m l) = firstn (m + j) l.
Proof. intros A. induction m as [|m IH]; intros j l; [reflexivity|]. destruct l as [|x l]; [cbn; rewrite firstn_nil; reflexivity|]. cbn. rewrite IH. reflexivity. Qed.
Lemma skipn_more : forall (A : Type) j m (l : list A), skipn j (skipn m l) = skipn (m + j) l.
Proof. intros A j. induction m as [|m IH]; intros l; [reflexivity|]. destruct l as [|x l]; [cbn; apply skipn_nil|]. cbn. apply IH. Qed.

(** The text. *)
Let chunks : list gout := read_all tok piece eos 10 5 10 gbegin.
(** What the reader has in hand, with these chunks to come. *)
Definition to_come (it : git) (rest : list gout) : Prop :=
  (rest = [] /\ o_fin (i_out it) = true) \/
  (exists f l last, rest = l ++ [last] /\ o_fin last = true /\ o_fin (i_out it) = false /\ i_end it = false /\
     rest = read_all tok piece eos 10 5 f it /\ forall o, In o l -> o_fin o = false).

Lemma gadv_end : forall it, i_end it = false -> i_end (adv it) = o_fin (i_out (adv it)).
Proof.
  intros it EN. unfold adv, advance, gadvance. rewrite EN. unfold next_chunk.
  destruct (g_fin (i_st it)); [reflexivity|]. destruct (10 <=? g_count (i_st it))%nat; [reflexivity|].
  cbn [i_end i_out o_fin negb orb]. reflexivity.
Qed.

Lemma come_step : forall it rest, to_come it rest -> rest <> [] ->
  exists o rest', rest = o :: rest' /\ i_out (adv it) = o /\ to_come (adv it) rest'.
Proof.
  intros it rest [[H _]|[f [l [last [R [LF [OF [EN [RR NF]]]]]]]]] NE; [contradiction|].
  destruct f as [|f]; [cbn in RR; rewrite RR in NE; contradiction|]. cbn [read_all] in RR. rewrite EN in RR. fold advance in RR. fold adv in RR.
  exists (i_out (adv it)), (read_all tok piece eos 10 5 f (adv it)). split; [exact RR|]. split; [reflexivity|].
  assert (GE := gadv_end it EN). rewrite RR in R. destruct l as [|x l'].
  - injection R as R1 R2. left. split; [exact R2|]. replace (i_out (adv it)) with last by (symmetry; exact R1). exact LF.
  - injection R as R1 R2. right. exists f, l', last. split; [exact R2|]. split; [exact LF|].
    assert (Q : o_fin (i_out (adv it)) = false) by (replace (i_out (adv it)) with x by (symmetry; exact R1); apply NF; left; reflexivity).
    split; [exact Q|]. split; [rewrite GE; exact Q|]. split; [reflexivity|]. intros o I. apply NF. right. exact I.
Qed.

Lemma come_start : to_come gbegin chunks.
Proof.
  destruct (read_from tok piece eos 10 5 10 gbegin [] ltac:(lia) eq_refl) as [l [last [a [h [R1 [_ [R3 [R4 _]]]]]]]].
  - apply going_start; [exact 1%nat|lia].
  - cbn. lia.
  - right. exists 10%nat, l, last. split; [exact R1|]. split; [exact R4|]. split; [reflexivity|]. split; [reflexivity|]. split; [reflexivity|].
    intros o I. exact (proj1 (R3 o I)).
Qed.

(** A call reads one more chunk, if there is one. *)
Lemma call_text : forall s dn rest, s_fin s = false -> s_spk s = true -> chunks = dn ++ rest ->
  to_come (s_it s) rest -> s_raw s = said dn -> (forall o, In o chunks -> ~ marked (o_text o)) ->
  let r := next true s in
  s_raw (fst r) = said (dn ++ firstn 1 rest) /\ to_come (s_it (fst r)) (skipn 1 rest) /\
  s_spk (fst r) = true /\ s_plen (fst r) = length (s_raw (fst r)) /\ m_text (snd r) = skipn (s_plen s) (s_raw (fst r)).
Proof.
  intros s dn rest F SP C TC RW NM r. unfold r, next, generate_next. rewrite F, SP.
  assert (NE : o_fin (i_out (s_it s)) = match rest with [] => true | _ => false end).
  { destruct TC as [[-> H]|[f [l [last [R [_ [H _]]]]]]]; [exact H|]. rewrite H, R. destruct l; reflexivity. }
  rewrite NE. destruct rest as [|x rest'].
  - cbn [negb]. change (find_first tts_eos []) with (@None nat). rewrite !app_nil_r. cbn [firstn skipn]. rewrite ?app_nil_r.
    destruct (s_prev s); cbn [fst snd s_raw s_it s_spk s_plen m_text]; rewrite <- RW; (split; [reflexivity|]; split; [exact TC|]; split; [reflexivity|]; split; reflexivity).
  - destruct (come_step _ _ TC ltac:(discriminate)) as [o [rest'' [E [O T]]]]. injection E as -> ->.
    cbn [negb]. fold adv. rewrite O. rewrite find_first_none by (apply NM; rewrite C; apply in_or_app; right; left; reflexivity).
    assert (SD : said (dn ++ firstn 1 (o :: rest'')) = s_raw s ++ o_text o).
    { rewrite RW. unfold said. cbn [firstn]. rewrite map_app, concat_app. cbn. rewrite app_nil_r. reflexivity. }
    rewrite SD. cbn [skipn].
    destruct (s_prev s); cbn [fst snd s_raw s_it s_spk s_plen m_text]; (split; [reflexivity|]; split; [exact T|]; split; [reflexivity|]; split; reflexivity).
Qed.

(** The first call reads two, as far as there are. *)
Lemma call_first : (forall o, In o chunks -> ~ marked (o_text o)) ->
  let r := next true sinit in
  s_raw (fst r) = said (firstn 2 chunks) /\ to_come (s_it (fst r)) (skipn 2 chunks) /\
  s_spk (fst r) = true /\ s_plen (fst r) = length (s_raw (fst r)) /\ m_text (snd r) = s_raw (fst r).
Proof.
  intros NM r. assert (T0 := come_start).
  assert (NE : chunks <> []).
  { destruct T0 as [[_ H]|[f [l [last [R _]]]]]; [discriminate|]. rewrite R. destruct l; discriminate. }
  destruct (come_step _ _ T0 NE) as [o [rest [E [O T]]]].
  set (s1 := mkS true (adv gbegin) (o_text o) 0 false false None 0).
  assert (Q := call_text s1 [o] rest eq_refl eq_refl E T). cbn [s_raw s1] in Q.
  specialize (Q ltac:(unfold said; cbn; rewrite app_nil_r; reflexivity) NM). cbv zeta in Q.
  assert (SM : next true sinit = next true s1).
  { unfold next, generate_next. unfold s1, sinit. cbn [s_fin s_spk s_it s_raw s_plen s_llm s_prev s_idx]. fold adv. rewrite O.
    rewrite find_last_none by (apply NM; rewrite E; left; reflexivity). reflexivity. }
  unfold r. rewrite SM. rewrite E. destruct Q as [Q1 [Q2 [Q3 [Q4 Q5]]]]. cbn [s_plen s1 skipn] in Q5.
  split; [rewrite Q1; cbn [firstn app]; reflexivity|]. split; [exact Q2|]. split; [exact Q3|]. split; [exact Q4|exact Q5].
Qed.

Lemma text_inv : forall n k, ends_with tts_fin n -> (k <= n)%nat -> (forall o, In o chunks -> ~ marked (o_text o)) ->
  let s := after true (Datatypes.S k) sinit in
  s_raw s = said (firstn (k + 2) chunks) /\ to_come (s_it s) (skipn (k + 2) chunks) /\ s_spk s = true /\ s_plen s = length (s_raw s) /\
  text_of (outs true (Datatypes.S k) sinit) = s_raw s.
Proof.
  intros n k E K NM. induction k as [|k IH].
  - destruct (call_first NM) as [A [B [C [D F]]]]. cbv zeta. rewrite outs_S. change (after true 1 sinit) with (fst (next true sinit)).
    split; [exact A|]. split; [exact B|]. split; [exact C|]. split; [exact D|]. unfold text_of. cbn [outs outputs app map concat after]. rewrite app_nil_r. exact F.
  - destruct (IH ltac:(lia)) as [A [B [C [D F]]]]. destruct (audio_inv n k E ltac:(lia)) as [p [_ [_ [P3 _]]]].
    cbv zeta. rewrite (after_S true (Datatypes.S k)), (outs_S true (Datatypes.S k)). set (s := after true (Datatypes.S k) sinit) in *.
    rewrite (proj2 E k ltac:(lia)) in P3.
    assert (Q := call_text s (firstn (k + 2) chunks) (skipn (k + 2) chunks) P3 C ltac:(symmetry; apply firstn_skipn) B A NM). cbv zeta in Q.
    destruct Q as [Q1 [Q2 [Q3 [Q4 Q5]]]].
    replace (Datatypes.S k + 2)%nat with (k + 2 + 1)%nat by lia. rewrite <- firstn_more. rewrite skipn_more in Q2.
    split; [exact Q1|]. split; [exact Q2|]. split; [exact Q3|]. split; [exact Q4|].
    rewrite text_app, F. unfold text_of. cbn [map concat]. rewrite app_nil_r, Q5, D.
    rewrite Q1, A. unfold said. rewrite map_app, concat_app. rewrite skipn_app, skipn_all, Nat.sub_diag. reflexivity.
Qed.
End Stream.
