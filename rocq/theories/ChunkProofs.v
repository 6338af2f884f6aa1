(** Proofs about chunked generation. *)
From Verif Require Import Base ChunkModel ChunkSpec.

Section Chunks.
Variable tok : nat -> Z.
Variable piece : Z -> bytes.
Variable eos : Z -> bool.
Variable max_new chunk_size : nat.
Let dec := decode piece.
Let ans := answer tok eos.

Lemma dec_app : forall a b, dec (a ++ b) = dec a ++ dec b.
Proof. intros a b. unfold dec, decode. rewrite map_app, concat_app. reflexivity. Qed.
Lemma dec_split : forall n l, dec (firstn n l) ++ dec (skipn n l) = dec l.
Proof. intros n l. rewrite <- dec_app, firstn_skipn. reflexivity. Qed.

Lemma ends_bad_ok : forall s, ends_bad s = true <-> broken_off s.
Proof.
  intros s. unfold ends_bad, broken_off. split.
  - destruct (rev s) as [|c [|b [|a r]]] eqn:E; try discriminate. intros H.
    apply andb_true_iff in H. destruct H as [H C]. apply andb_true_iff in H. destruct H as [A B].
    apply Z.eqb_eq in A, B, C. subst. exists (rev r). rewrite <- (rev_involutive s), E. cbn. rewrite <- !app_assoc. reflexivity.
  - intros [p ->]. rewrite rev_app_distr. reflexivity.
Qed.

Lemma trim_le : forall l n, (trim piece l n <= n)%nat.
Proof. intros l n. induction n as [|m IH]; [reflexivity|]. cbn [trim]. destruct (ends_bad _); lia. Qed.
Lemma trim_good : forall l n, ends_bad (dec (firstn (trim piece l n) l)) = false.
Proof.
  intros l n. induction n as [|m IH]; [reflexivity|]. cbn [trim]. destruct (ends_bad (decode piece (firstn (Datatypes.S m) l))) eqn:E; [exact IH|exact E].
Qed.
(** The tokens held back. *)
Lemma trim_held : forall l n m, (trim piece l n < m <= n)%nat -> ends_bad (dec (firstn m l)) = true.
Proof.
  intros l n m. induction n as [|n' IH]; [cbn; lia|]. cbn [trim]. destruct (ends_bad (decode piece (firstn (Datatypes.S n') l))) eqn:E.
  - intros H. destruct (Nat.eq_dec m (Datatypes.S n')) as [->|N]; [exact E|apply IH; lia].
  - intros H. lia.
Qed.
Lemma trim_all : forall l, ends_bad (dec l) = false -> check_incomplete piece l = length l.
Proof.
  intros l H. unfold check_incomplete. destruct (length l) as [|n] eqn:E; [reflexivity|]. cbn [trim]. rewrite <- E, firstn_all.
  unfold dec in H. rewrite H. reflexivity.
Qed.

Lemma sample_spec : forall n pos l e, sample tok eos n pos = (l, e) ->
  l = ans n pos /\ (length l <= n)%nat /\
  (e = false -> length l = n /\ forall t, In t l -> eos t = false) /\
  (e = true -> exists p t, l = p ++ [t] /\ eos t = true /\ forall x, In x p -> eos x = false).
Proof.
  induction n as [|m IH]; intros pos l e H; cbn in H.
  - injection H as <- <-. split; [reflexivity|]. split; [reflexivity|]. split; [split; [reflexivity|intros t []]|discriminate].
  - unfold ans. cbn [answer]. fold ans. destruct (eos (tok pos)) eqn:E.
    + injection H as <- <-. split; [reflexivity|]. split; [cbn; lia|]. split; [discriminate|]. intros _. exists [], (tok pos).
      split; [reflexivity|]. split; [exact E|intros x []].
    + destruct (sample tok eos m (Datatypes.S pos)) as [l' e'] eqn:R. cbn [fst snd] in H. injection H as <- <-.
      destruct (IH _ _ _ R) as [A [B [C D]]]. split; [rewrite A; reflexivity|]. split; [cbn; lia|]. split.
      * intros F. destruct (C F) as [C1 C2]. split; [cbn; lia|]. intros t [<-|I]; [exact E|exact (C2 t I)].
      * intros T. destruct (D T) as [p [t [D1 [D2 D3]]]]. exists (tok pos :: p), t. split; [rewrite D1; reflexivity|]. split; [exact D2|].
        intros x [<-|I]; [exact E|exact (D3 x I)].
Qed.
Lemma sample_answer : forall n pos l e k, sample tok eos n pos = (l, e) ->
  ans (n + k) pos = if e then l else l ++ ans k (pos + n).
Proof.
  induction n as [|m IH]; intros pos l e k H; cbn in H.
  - injection H as <- <-. rewrite Nat.add_0_r. reflexivity.
  - cbn [Nat.add]. unfold ans. cbn [answer]. fold ans. destruct (eos (tok pos)) eqn:E.
    + injection H as <- <-. reflexivity.
    + destruct (sample tok eos m (Datatypes.S pos)) as [l' e'] eqn:R. cbn [fst snd] in H. injection H as <- <-.
      assert (Q := IH _ _ _ k R). fold ans in Q. unfold ans in Q |- *. rewrite Q. replace (Datatypes.S pos + m)%nat with (pos + Datatypes.S m)%nat by lia.
      destruct e'; reflexivity.
Qed.

(** The state between chunks, after the text [out]: [a] are the tokens in the text. *)
Definition going (s : gst) (out : bytes) : Prop :=
  g_fin s = false /\ (g_count s < max_new)%nat /\
  exists a, out = dec a /\ ans max_new 0 = a ++ g_left s ++ ans (max_new - g_count s) (g_count s) /\
    (length a + length (g_left s) = g_count s)%nat.

Lemma chunk_step : forall s o out, (1 <= chunk_size)%nat -> going s out ->
  exists s' o', next_chunk tok piece eos max_new chunk_size s o = (s', o', true) /\
    o_tokens o' = g_count s' /\ (g_count s < g_count s' <= max_new)%nat /\
    (g_count s' - g_count s <= chunk_size)%nat /\
    (o_fin o' = false -> going s' (out ++ o_text o') /\ ends_bad (o_text o') = false) /\
    (o_fin o' = true -> g_fin s' = true /\ g_count s' = length (ans max_new 0) /\
       exists a h, ans max_new 0 = a ++ h /\ out ++ o_text o' = dec a /\
         (h = [] \/ exists p t, ans max_new 0 = p ++ [t] /\ eos t = true /\
            ~ ((3 <= length (piece t))%nat /\ ends_bad (piece t) = false))).
Proof.
  intros s o out HC [F [M [a [EO [EA EL]]]]]. unfold next_chunk. rewrite F. replace (max_new <=? g_count s)%nat with false by (symmetry; apply Nat.leb_gt; exact M).
  set (size := Nat.min (if g_first s then Nat.min chunk_size 3 else chunk_size) (max_new - g_count s)).
  assert (HS : (1 <= size <= chunk_size)%nat) by (unfold size; destruct (g_first s); lia).
  assert (HM : (size <= max_new - g_count s)%nat) by (unfold size; lia). clearbody size.
  destruct (sample tok eos size (g_count s)) as [l e] eqn:R. cbn [fst snd].
  destruct (sample_spec _ _ _ _ R) as [S1 [S2 [S3 S4]]].
  assert (SA := sample_answer _ _ _ _ (max_new - g_count s - size) R).
  replace (size + (max_new - g_count s - size))%nat with (max_new - g_count s)%nat in SA by lia.
  assert (L1 : (1 <= length l)%nat).
  { destruct e; [destruct (S4 eq_refl) as [p [t [-> _]]]; rewrite app_length; cbn; lia|destruct (S3 eq_refl) as [-> _]; lia]. }
  set (combined := g_left s ++ l). set (valid := check_incomplete piece combined).
  assert (SP : combined = firstn valid combined ++ skipn valid combined) by (symmetry; apply firstn_skipn).
  match goal with |- exists s' o', (?A, ?B, true) = _ /\ _ => exists A, B end.
  split; [reflexivity|]. cbn [o_tokens o_fin o_text g_count g_fin g_left].
  split; [reflexivity|]. split; [lia|]. split; [lia|]. split.
  - intros FN. apply orb_false_iff in FN. destruct FN as [-> FN]. cbn [orb] in *. rewrite FN. cbn [andb negb].
    destruct (S3 eq_refl) as [S5 _]. split.
    + split; [reflexivity|]. apply Nat.leb_gt in FN. split; [exact FN|]. cbn [g_left g_count].
      exists (a ++ firstn valid combined). split; [fold dec; rewrite dec_app, EO; reflexivity|]. split.
      * rewrite EA, SA, S5. replace (max_new - (g_count s + size))%nat with (max_new - g_count s - size)%nat by lia.
        rewrite <- app_assoc. f_equal. rewrite (app_assoc (firstn valid combined)), <- SP. unfold combined. rewrite <- app_assoc. reflexivity.
      * rewrite app_length, <- Nat.add_assoc, <- app_length, <- SP. unfold combined. rewrite app_length. lia.
    + apply trim_good.
  - intros FN. rewrite FN. split; [reflexivity|]. destruct e.
    + assert (AL : ans max_new 0 = a ++ combined) by (rewrite EA, SA; reflexivity).
      split; [rewrite AL; unfold combined; rewrite !app_length; lia|]. cbn [andb negb].
      exists (a ++ firstn valid combined), (skipn valid combined).
      split; [rewrite <- app_assoc, <- SP; exact AL|]. split; [fold dec; rewrite dec_app, EO; reflexivity|].
      destruct (S4 eq_refl) as [p [t [P1 [P2 _]]]].
      destruct ((3 <=? length (piece t))%nat && negb (ends_bad (piece t))) eqn:G.
      * left. apply andb_true_iff in G. destruct G as [T1 T2]. apply Nat.leb_le in T1. apply negb_true_iff in T2.
        unfold valid. rewrite trim_all; [apply skipn_all|]. unfold combined. rewrite P1.
        rewrite !dec_app. assert (DT : dec [t] = piece t) by (unfold dec, decode; cbn; apply app_nil_r). rewrite DT.
        unfold ends_bad in *. rewrite !rev_app_distr.
        assert (RL : (3 <= length (rev (piece t)))%nat) by (rewrite rev_length; exact T1).
        destruct (rev (piece t)) as [|c [|b [|a' r]]]; cbn in RL; try lia. cbn. exact T2.
      * right. exists (a ++ g_left s ++ p), t. split; [rewrite AL; unfold combined; rewrite P1, <- !app_assoc; reflexivity|]. split; [exact P2|].
        intros [T1 T2]. apply Nat.leb_le in T1. rewrite T1, T2 in G. discriminate.
    + cbn [orb] in FN. destruct (S3 eq_refl) as [S5 _]. apply Nat.leb_le in FN.
      assert (SZ : size = (max_new - g_count s)%nat) by lia.
      assert (AL : ans max_new 0 = a ++ combined) by (rewrite EA; unfold combined; rewrite S1, SZ; reflexivity).
      split; [rewrite AL; unfold combined; rewrite !app_length; lia|]. cbn [andb negb].
      exists (a ++ combined), []. split; [rewrite app_nil_r; exact AL|]. split; [|left; reflexivity].
      fold dec. rewrite dec_split, dec_app, EO. reflexivity.
Qed.

(** Reading every chunk from a state between chunks. *)
Lemma read_from : forall fuel it out, (1 <= chunk_size)%nat -> i_end it = false -> going (i_st it) out ->
  (max_new - g_count (i_st it) <= fuel)%nat ->
  exists l last a h, read_all tok piece eos max_new chunk_size fuel it = l ++ [last] /\
    (length l < max_new - g_count (i_st it))%nat /\
    (forall o, In o l -> o_fin o = false /\ ends_bad (o_text o) = false) /\ o_fin last = true /\
    o_tokens last = length (ans max_new 0) /\
    ans max_new 0 = a ++ h /\ out ++ said (l ++ [last]) = dec a /\
    (h = [] \/ exists p t, ans max_new 0 = p ++ [t] /\ eos t = true /\
            ~ ((3 <= length (piece t))%nat /\ ends_bad (piece t) = false)).
Proof.
  induction fuel as [|f IH]; intros it out HC EN G FU.
  - destruct G as [_ [G _]]. lia.
  - cbn [read_all]. rewrite EN. unfold gadvance. rewrite EN.
    destruct (chunk_step (i_st it) (i_out it) out HC G) as [s' [o' [Q [T [C [K [N Y]]]]]]]. rewrite Q.
    cbn [negb orb]. destruct (o_fin o') eqn:FN.
    + destruct (Y eq_refl) as [_ [Y1 [a [h [Y2 [Y3 Y4]]]]]]. exists [], o', a, h.
      split; [cbn [app i_out]; f_equal; destruct f; reflexivity|]. split; [cbn; lia|]. split; [intros o []|]. split; [exact FN|].
      split; [rewrite T; exact Y1|]. split; [exact Y2|]. split; [|exact Y4]. unfold said. cbn. rewrite app_nil_r. exact Y3.
    + destruct (N eq_refl) as [G' B].
      destruct (IH (mkI s' false o') (out ++ o_text o') HC eq_refl G') as [l [last [a [h [R1 [R2 [R3 [R4 [R5 [R6 [R7 R8]]]]]]]]]]].
      { cbn [i_st]. lia. }
      cbn [i_st] in R2. exists (o' :: l), last, a, h. split; [cbn [i_out]; rewrite R1; reflexivity|]. split; [cbn [length]; lia|]. split.
      { intros o [<-|I]; [split; [exact FN|exact B]|exact (R3 o I)]. }
      split; [exact R4|]. split; [exact R5|]. split; [exact R6|]. split; [|exact R8]. rewrite <- R7. unfold said. cbn [app map concat]. rewrite app_assoc. reflexivity.
Qed.

Lemma going_start : (1 <= max_new)%nat -> going ginit [].
Proof. intros H. split; [reflexivity|]. split; [cbn; lia|]. exists []. split; [reflexivity|]. split; [cbn [ginit g_left g_count app]; rewrite Nat.sub_0_r; reflexivity|reflexivity]. Qed.

(** A range-for sees the outputs one step late: the one the iterator starts with first,
    never the last. *)
Lemma range_late : forall fuel it l last, i_end it = false -> o_fin last = true ->
  read_all tok piece eos max_new chunk_size fuel it = l ++ [last] ->
  range_for tok piece eos max_new chunk_size fuel it = i_out it :: l.
Proof.
  induction fuel as [|f IH]; intros it l last EN LF R.
  - destruct l; discriminate.
  - cbn [read_all range_for] in *. rewrite EN in *. f_equal.
    assert (EE : o_fin (i_out (gadvance tok piece eos max_new chunk_size it)) = true -> i_end (gadvance tok piece eos max_new chunk_size it) = true).
    { unfold gadvance. rewrite EN. destruct (next_chunk tok piece eos max_new chunk_size (i_st it) (i_out it)) as [[s o'] has]. cbn [i_out i_end].
      intros ->. apply orb_true_r. }
    set (it' := gadvance tok piece eos max_new chunk_size it) in *.
    destruct l as [|x l'].
    + injection R as R0 R. rewrite R0 in EE. specialize (EE LF). destruct f; cbn [range_for]; rewrite ?EE; reflexivity.
    + injection R as R0 R. rewrite <- R0. clear x R0. destruct (i_end it') eqn:E2.
      * destruct f; cbn [read_all] in R; rewrite ?E2 in R; destruct l'; discriminate.
      * exact (IH it' l' last E2 LF R).
Qed.
End Chunks.
