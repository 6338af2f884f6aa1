(** pack_weights writes what unpack_weights reads. *)
From Verif Require Import Base BitsModel BitsSpec BitsProofs BitsDispatch BitsWidth BitsValues.
Open Scope Z_scope.

(** ** Sequential writers *)
Definition writes (len : Z) (f : mem * Z -> mem * Z) (P : mem -> Z -> Prop) : Prop :=
  forall m p, snd (f (m, p)) = p + len /\ only_changes m (fst (f (m, p))) p len /\
    forall m', same_bytes (fst (f (m, p))) m' p len -> P m' p.

Lemma writes_seq : forall l1 l2 f g P Q, 0 <= l1 -> 0 <= l2 ->
  writes l1 f P -> writes l2 g Q ->
  writes (l1 + l2) (fun s => g (f s)) (fun m p => P m p /\ Q m (p + l1)).
Proof.
  intros l1 l2 f g P Q H1 H2 F G m p.
  destruct (F m p) as (S1 & O1 & R1).
  assert (E : f (m, p) = (fst (f (m, p)), p + l1)) by (rewrite <- S1; apply surjective_pairing).
  revert E S1 O1 R1. generalize (fst (f (m, p))). intros M1 E S1 O1 R1. rewrite E.
  destruct (G M1 (p + l1)) as (S2 & O2 & R2).
  split; [rewrite S2; lia|]. split.
  - eapply only_trans; [eapply only_wider; [exact O1|lia|lia]|].
    eapply only_wider; [exact O2|lia|lia].
  - intros m' A. split.
    + apply R1. eapply same_before; [exact A|exact O2|lia|lia|lia].
    + apply R2. eapply same_part; [exact A|lia|lia].
Qed.

Lemma writes_none : forall f, (forall s, f s = s) -> writes 0 f (fun _ _ => True).
Proof.
  intros f H m p. rewrite H. split; [cbn; lia|]. split; [apply only_refl|]. intros. exact I.
Qed.

Lemma writes_weaken : forall len len' f g (P Q : mem -> Z -> Prop), writes len f P -> len = len' ->
  (forall s, f s = g s) -> (forall m p, P m p -> Q m p) -> writes len' g Q.
Proof.
  intros len len' f g P Q H <- E W m p. rewrite <- E. destruct (H m p) as (A & B & C).
  split; [exact A|split; [exact B|]]. intros. apply W, C. assumption.
Qed.

Lemma writes_for : forall n len f P, 0 <= n -> 0 <= len ->
  (forall i, 0 <= i < n -> writes len (f i) (P i)) ->
  writes (n * len) (zfor n f) (fun m p => forall i, 0 <= i < n -> P i m (p + i * len)).
Proof.
  intros n len f P Hn Hl H m p.
  apply (zfor_inv _ (fun i st => snd st = p + i * len /\ only_changes m (fst st) p (i * len) /\
    forall m', same_bytes (fst st) m' p (i * len) -> forall j, 0 <= j < i -> P j m' (p + j * len)));
    [exact Hn| |].
  - split; [cbn; lia|]. split; [apply only_refl|]. intros. lia.
  - intros j [M q] Hj (S1 & O1 & R1). cbn [fst snd] in *. subst q.
    assert (0 <= j * len) by nia.
    destruct (H j Hj M (p + j * len)) as (S2 & O2 & R2).
    split; [etransitivity; [exact S2|lia]|]. split.
    + eapply only_trans; [eapply only_wider; [exact O1|lia|lia]|].
      eapply only_wider; [exact O2|lia|lia].
    + intros m' A i Hi. destruct (Z.eq_dec i j) as [->|N].
      * apply R2. eapply same_part; [exact A|lia|lia].
      * apply R1; [|lia]. eapply same_before; [exact A|exact O2|lia|lia|lia].
Qed.

(** ** Words *)
Lemma load_store : forall m p w m', word w ->
  same_bytes (store32 m p w) m' p 4 -> load32 m' p = w.
Proof.
  intros m p w m' W A. unfold load32.
  assert (R : forall i, 0 <= i < 4 -> m' (p + i) = u8 (Z.shiftr w (8 * i))).
  { intros i Hi. rewrite (A (p + i)) by lia. unfold store32.
    rewrite (rd_hit 4 m p _ (p + i) i) by lia. reflexivity. }
  pose proof (R 0 ltac:(lia)) as R0. replace (p + 0) with p in R0 by lia.
  rewrite R0, (R 1), (R 2), (R 3) by lia. unfold word in W. unfold u8.
  rewrite !Z.shiftr_div_pow2 by lia.
  change (2 ^ (8 * 0)) with 1. change (2 ^ (8 * 1)) with 256.
  change (2 ^ (8 * 2)) with 65536. change (2 ^ (8 * 3)) with 16777216.
  change (2 ^ 8) with 256. change (2 ^ 16) with 65536. change (2 ^ 24) with 16777216.
  change (2 ^ 32) with 4294967296 in W.
  clear - W. Z.to_euclidean_division_equations. lia.
Qed.
Lemma writes_word : forall w, word w ->
  writes 4 (fun st : mem * Z => let (m, p) := st in (store32 m p w, p + 4)) (fun m p => load32 m p = w).
Proof.
  intros w W m p. cbn [fst snd]. split; [reflexivity|]. split.
  - apply vst_only; lia.
  - intros m' A. eapply load_store; [exact W|exact A].
Qed.
Lemma writes_words : forall nr w, 0 <= nr -> (forall j, 0 <= j < nr -> word (w j)) ->
  writes (nr * 4) (put_column_words nr w)
    (fun m p => forall j, 0 <= j < nr -> load32 m (p + j * 4) = w j).
Proof.
  intros nr w H W. unfold put_column_words.
  apply (writes_for nr 4 (fun j (st : mem * Z) => let (m, p) := st in (store32 m p (w j), p + 4))
    (fun j m p => load32 m p = w j)); [exact H|lia|].
  intros i Hi. apply writes_word. apply W. exact Hi.
Qed.
Lemma pattern_word : forall x, word (pattern32 x).
Proof. intros. unfold word, pattern32. apply Z.mod_pos_bound. reflexivity. Qed.
Lemma signed_pattern : forall x, -2 ^ 31 <= x < 2 ^ 31 -> signed32 (pattern32 x) = x.
Proof.
  unfold signed32, pattern32. change (2 ^ 31) with 2147483648. change (2 ^ 32) with 4294967296.
  intros. Z.to_euclidean_division_equations. lia.
Qed.
Lemma s8_fits : forall x, fits 8 x -> s8 x = x.
Proof. unfold fits, s8. intros. cbn in H. Z.to_euclidean_division_equations. lia. Qed.

Lemma rounds_exact : forall a b, 0 < b -> 0 <= a -> a mod b = 0 -> rounds a b = a / b.
Proof. unfold rounds. intros. Z.to_euclidean_division_equations. nia. Qed.

Section Weights.
  Variables nbit nr kr sr : Z.
  Variables n k group_size : Z.
  Hypothesis (W : 1 <= nbit <= 8) (Nr : 0 < nr) (Kr : 0 < kr) (Sr : 0 < sr) (D : kr mod sr = 0).
  Hypothesis (Count : kr * nr = 32 \/ kr * nr = 64 \/ kr * nr = 128).
  Hypothesis (Gs : 0 < group_size) (Gk : k mod group_size = 0) (Gr : group_size mod kr = 0).
  Hypothesis (K8 : k mod 8 = 0) (K : 0 < k).
  Variables (weights scales : Z -> Z) (zeros bias : option (Z -> Z)).
  Hypothesis (Fit : forall i, 0 <= i < n * k -> fits nbit (weights i)).

  Let gpk := k / group_size.
  Let chunk := nbit * nr * kr / 8.

  Lemma chunk_8 : chunk * 8 = nbit * nr * kr.
  Proof using Count.
    unfold chunk. clear - Count. replace (nbit * nr * kr) with (nbit * (kr * nr)) by ring.
    destruct Count as [->|[->| ->]]; Z.to_euclidean_division_equations; lia.
  Qed.
  Lemma chunk_count : chunk = nbit * (kr * nr) / 8.
  Proof using. unfold chunk. f_equal. ring. Qed.
  Lemma chunk_pos : 0 <= chunk.
  Proof using W Nr Kr. unfold chunk. clear - W Nr Kr. apply Z.div_pos; [|lia]. nia. Qed.

  (** The weight in column [j] of the tile at [n_idx], position [c]. *)
  Definition weight_at (n_idx j c : Z) : Z :=
    if n_idx + j <? n then weights ((n_idx + j) * k + c) else 0.

  Definition chunk_ok (n_idx pos : Z) (m : mem) (p : Z) : Prop :=
    forall j t, 0 <= j < nr -> 0 <= t < kr ->
    unpack_values (fun _ => 0) (unpack_buffer nbit (kr * nr) m p) nr kr sr (kr * j + t)
    = weight_at n_idx j (pos + t).

  Lemma weight_fits : forall n_idx j c, 0 <= n_idx -> 0 <= j -> 0 <= c < k ->
    fits nbit (weight_at n_idx j c).
  Proof using Fit W.
    clear - Fit W. intros n_idx j c Hn Hj Hc. unfold weight_at. destruct (n_idx + j <? n) eqn:E.
    - apply Fit. assert ((n_idx + j) * k + c < n * k) by nia. nia.
    - unfold fits. assert (0 < 2 ^ (nbit - 1)) by (apply Z.pow_pos_nonneg; lia). lia.
  Qed.

  (** The gathered buffer and the column sums of one round. *)
  Definition gather (n_idx pos : Z) (sums : Z -> Z) : (Z -> Z) * (Z -> Z) :=
    zfor nr (fun j (bs : (Z -> Z) * (Z -> Z)) =>
        let (buffer, sums) := bs in
        if n_idx + j <? n then
          let buffer := copy buffer (kr * j) weights ((n_idx + j) * k + pos) kr in
          (buffer, fun i => if i =? j then sums i + compute_sum buffer (kr * j) kr else sums i)
        else (buffer, sums)) (fun _ => 0, sums).

  Lemma gather_ok : forall n_idx pos sums,
    let r := gather n_idx pos sums in
    (forall j t, 0 <= j < nr -> 0 <= t < kr -> fst r (kr * j + t) = weight_at n_idx j (pos + t)) /\
    (forall j, 0 <= j < nr ->
       snd r j = sums j + sum_below (Z.to_nat kr) (fun t => weight_at n_idx j (pos + t))).
  Proof using Nr Kr.
    clear - Nr Kr. intros n_idx pos sums r.
    assert (I : (forall j t, 0 <= j < nr -> 0 <= t < kr -> fst r (kr * j + t) = weight_at n_idx j (pos + t)) /\
      (forall x, kr * nr <= x -> fst r x = 0) /\
      (forall j, 0 <= j < nr ->
         snd r j = sums j + sum_below (Z.to_nat kr) (fun t => weight_at n_idx j (pos + t))) /\
      (forall j, nr <= j -> snd r j = sums j)).
    2:{ destruct I as (A & _ & B & _). split; assumption. }
    unfold r, gather.
    apply (zfor_inv _ (fun i r =>
      (forall j t, 0 <= j < i -> 0 <= t < kr -> fst r (kr * j + t) = weight_at n_idx j (pos + t)) /\
      (forall x, kr * i <= x -> fst r x = 0) /\
      (forall j, 0 <= j < i ->
         snd r j = sums j + sum_below (Z.to_nat kr) (fun t => weight_at n_idx j (pos + t))) /\
      (forall j, i <= j -> snd r j = sums j))); [lia| |].
    - split; [intros; lia|]. split; [reflexivity|]. split; [intros; lia|reflexivity].
    - clear r. intros i [b s] Hi (A & B & C & E). cbn [fst snd] in *.
      destruct (n_idx + i <? n) eqn:V; cbv zeta; cbn [fst snd].
      + assert (CB : forall t, 0 <= t < kr ->
          copy b (kr * i) weights ((n_idx + i) * k + pos) kr (kr * i + t) = weight_at n_idx i (pos + t)).
        { intros t Ht. unfold copy.
          replace ((kr * i <=? kr * i + t) && (kr * i + t <? kr * i + kr)) with true by (symmetry; lia).
          unfold weight_at. rewrite V. f_equal. lia. }
        split; [|split; [|split]].
        * intros j t Hj Ht. destruct (Z.eq_dec j i) as [->|N]; [apply CB; exact Ht|].
          unfold copy. assert (kr * j + t < kr * i) by nia.
          replace ((kr * i <=? kr * j + t) && (kr * j + t <? kr * i + kr)) with false by (symmetry; lia).
          apply A; lia.
        * intros x Hx. unfold copy.
          replace ((kr * i <=? x) && (x <? kr * i + kr)) with false by (symmetry; lia).
          apply B. lia.
        * intros j Hj. destruct (j =? i) eqn:EJ; [|apply C; lia].
          assert (j = i) by lia. subst j. rewrite E by lia. f_equal.
          rewrite compute_sum_is by lia. apply sum_below_ext. intros t Ht. apply CB. lia.
        * intros j Hj. replace (j =? i) with false by (symmetry; lia). apply E. lia.
      + split; [|split; [|split]].
        * intros j t Hj Ht. destruct (Z.eq_dec j i) as [->|N]; [|apply A; lia].
          unfold weight_at. rewrite V. apply B. lia.
        * intros x Hx. apply B. lia.
        * intros j Hj. destruct (Z.eq_dec j i) as [->|N]; [|apply C; lia].
          rewrite E by lia.
          assert (Z0 : sum_below (Z.to_nat kr) (fun t => weight_at n_idx i (pos + t)) = 0).
          { unfold weight_at. rewrite V. clear. induction (Z.to_nat kr) as [|u IH]; [reflexivity|].
            cbn [sum_below]. lia. }
          rewrite Z0. lia.
        * intros j Hj. apply E. lia.
  Qed.

  Lemma chunk_written : forall n_idx k_idx i m p sums,
    0 <= n_idx -> 0 <= k_idx + i -> k_idx + i + kr <= k ->
    exists m1 sums1,
      pack_chunk nbit nr kr sr n k weights n_idx k_idx i (m, p, sums) = (m1, p + chunk, sums1) /\
      only_changes m m1 p chunk /\
      (forall m', same_bytes m1 m' p chunk -> chunk_ok n_idx (k_idx + i) m' p) /\
      (forall j, 0 <= j < nr ->
        sums1 j = sums j + sum_below (Z.to_nat kr) (fun t => weight_at n_idx j (k_idx + i + t))).
  Proof using W Nr Kr Sr D Count Fit.
    clear Gs Gk Gr K8 K gpk scales zeros bias. intros n_idx k_idx i m p sums H1 H2 H3.
    destruct (gather_ok n_idx (k_idx + i) sums) as (B & S).
    unfold pack_chunk. fold (gather n_idx (k_idx + i) sums). fold chunk.
    destruct (gather n_idx (k_idx + i) sums) as [buf sums1]. cbn [fst snd] in *.
    set (pv := pack_values (fun _ => 0) buf nr kr sr).
    exists (pack_buffer nbit (kr * nr) m p pv), sums1.
    assert (FB : forall a, 0 <= a < nr * kr -> fits nbit (buf a)).
    { intros a Ha. assert (E := Z.div_mod a kr ltac:(lia)). assert (M := Z.mod_pos_bound a kr Kr).
      assert (0 <= a / kr < nr).
      { split; [apply Z.div_pos; lia|apply Z.div_lt_upper_bound; lia]. }
      rewrite E, B by lia. apply weight_fits; lia. }
    assert (FP : forall a, 0 <= a < kr * nr -> fits nbit (pv a)).
    { intros a Ha. apply (pack_values_from nr kr sr Nr Sr Kr D (fun _ => 0) buf (fits nbit) FB). lia. }
    destruct (buffer_round nbit (kr * nr) m p pv W Count FP) as (O & R).
    rewrite <- chunk_count in O, R.
    split; [reflexivity|]. split; [exact O|]. split; [|exact S].
    intros m' A j t Hj Ht. specialize (R m' A).
    rewrite (values_round nr kr sr Nr Sr Kr D (fun _ => 0) (fun _ => 0) buf).
    - apply B; assumption.
    - intros a Ha. rewrite R by lia. reflexivity.
    - nia.
  Qed.

  Lemma chunks_written : forall n_idx g m p,
    0 <= n_idx -> 0 <= g < gpk ->
    exists m1 sums1,
      zfor (rounds group_size kr)
        (fun c st => pack_chunk nbit nr kr sr n k weights n_idx (g * group_size) (c * kr) st)
        ((m, p), fun _ => 0) = (m1, p + group_size / kr * chunk, sums1) /\
      only_changes m m1 p (group_size / kr * chunk) /\
      (forall m', same_bytes m1 m' p (group_size / kr * chunk) ->
         forall c, 0 <= c < group_size / kr ->
           chunk_ok n_idx (g * group_size + c * kr) m' (p + c * chunk)) /\
      (forall j, 0 <= j < nr ->
        sums1 j = sum_below (Z.to_nat group_size) (fun t => weight_at n_idx j (g * group_size + t))).
  Proof using W Nr Kr Sr D Count Fit Gs Gk Gr K.
    clear K8 scales zeros bias. intros n_idx g m p H1 H2. rewrite rounds_exact by lia.
    assert (EG := Z.div_mod group_size kr ltac:(lia)). rewrite Gr, Z.add_0_r in EG.
    assert (EK := Z.div_mod k group_size ltac:(lia)). rewrite Gk, Z.add_0_r in EK. fold gpk in EK.
    set (rs := group_size / kr) in *.
    assert (RS : 0 <= rs) by (apply Z.div_pos; lia).
    assert (CP := chunk_pos).
    pose (P := fun (i : Z) (st : mem * Z * (Z -> Z)) =>
      let '(m1, q, sums1) := st in
      q = p + i * chunk /\ only_changes m m1 p (i * chunk) /\
      (forall m', same_bytes m1 m' p (i * chunk) ->
         forall c, 0 <= c < i -> chunk_ok n_idx (g * group_size + c * kr) m' (p + c * chunk)) /\
      (forall j, 0 <= j < nr ->
        sums1 j = sum_below (Z.to_nat (i * kr)) (fun t => weight_at n_idx j (g * group_size + t)))).
    assert (I : P rs (zfor rs
        (fun c st => pack_chunk nbit nr kr sr n k weights n_idx (g * group_size) (c * kr) st)
        ((m, p), fun _ => 0))).
    { apply zfor_inv; [exact RS| |].
      - unfold P. split; [lia|]. split; [apply only_refl|]. split; [intros; lia|reflexivity].
      - intros i [[m1 q] sums1] Hi (-> & O & R & S).
        assert (G1 : 0 <= g * group_size) by nia.
        assert (G2 : g * group_size + group_size <= k) by (rewrite EK; nia).
        assert (G3 : 0 <= i * kr) by nia.
        assert (G4 : i * kr + kr <= group_size) by (rewrite EG; nia).
        assert (G5 : 0 <= i * chunk) by nia.
        destruct (chunk_written n_idx (g * group_size) (i * kr) m1 (p + i * chunk) sums1)
          as (m2 & sums2 & E & O2 & R2 & S2); [lia|lia|lia|].
        rewrite E. unfold P. split; [lia|]. split; [|split].
        + eapply only_trans; [eapply only_wider; [exact O|lia|lia]|].
          eapply only_wider; [exact O2|lia|lia].
        + intros m' A c Hc. destruct (Z.eq_dec c i) as [->|N].
          * apply R2. eapply same_part; [exact A|lia|lia].
          * apply R; [|lia]. eapply same_before; [exact A|exact O2|lia|lia|lia].
        + intros j Hj. rewrite S2, S by exact Hj.
          replace (Z.to_nat ((i + 1) * kr)) with (Z.to_nat (i * kr) + Z.to_nat kr)%nat by lia.
          rewrite sum_below_app. f_equal. apply sum_below_ext. intros t Ht.
          rewrite Z2Nat.id by lia. f_equal. lia. }
    unfold P in I. destruct (zfor rs _ _) as [[m1 q] sums1].
    destruct I as (-> & O & R & S). exists m1, sums1. split; [reflexivity|].
    split; [exact O|]. split; [exact R|]. intros j Hj. rewrite S by exact Hj.
    replace (rs * kr) with group_size by lia. reflexivity.
  Qed.

  (** The size of one group, of one tile. *)
  Let zlen := if given zeros then nr * 4 else 0.
  Let blen := if given bias then nr * 4 else 0.
  Let group := group_size / kr * chunk + (nr * 4 + (nr * 4 + zlen)).
  Let tile := gpk * group + blen.

  Hypothesis (Scales : forall i, 0 <= i < n * gpk -> word (scales i)).
  Hypothesis (Zeros : forall z, zeros = Some z -> forall i, 0 <= i < n * gpk -> fits 8 (z i)).
  Hypothesis (Bias : forall b, bias = Some b -> forall i, 0 <= i < n -> word (b i)).

  Definition scale_at (n_idx j g : Z) : Z :=
    if n_idx + j <? n then scales ((n_idx + j) * gpk + g) else 0.
  Definition zero_at (z : Z -> Z) (n_idx j g : Z) : Z :=
    if n_idx + j <? n then z ((n_idx + j) * gpk + g) else 0.

  Definition group_ok (n_idx g : Z) (m : mem) (p : Z) : Prop :=
    (forall c, 0 <= c < group_size / kr -> chunk_ok n_idx (g * group_size + c * kr) m (p + c * chunk)) /\
    (forall j, 0 <= j < nr ->
       load32 m (p + group_size / kr * chunk + j * 4) = scale_at n_idx j g) /\
    (forall j, 0 <= j < nr ->
       load32 m (p + group_size / kr * chunk + nr * 4 + j * 4) =
       pattern32 (sum_below (Z.to_nat group_size) (fun t => weight_at n_idx j (g * group_size + t)))) /\
    (forall z, zeros = Some z -> forall j, 0 <= j < nr ->
       load32 m (p + group_size / kr * chunk + nr * 4 + nr * 4 + j * 4) =
       pattern32 (zero_at z n_idx j g)).

  Lemma gpk_pos : 0 <= gpk.
  Proof using Gs K. unfold gpk. clear - Gs K. apply Z.div_pos; lia. Qed.
  Lemma rs_pos : 0 <= group_size / kr.
  Proof using Gs Kr. clear - Gs Kr. apply Z.div_pos; lia. Qed.
  Lemma zlen_pos : 0 <= zlen.
  Proof using Nr. unfold zlen. clear - Nr. destruct (given zeros); lia. Qed.
  Lemma group_pos : 0 <= group.
  Proof using W Nr Kr Gs.
    assert (A := zlen_pos). assert (B := chunk_pos). assert (C := rs_pos).
    unfold group. revert A B C. generalize zlen chunk (group_size / kr). clear - Nr. intros z c r A B C.
    assert (0 <= r * c) by (apply Z.mul_nonneg_nonneg; assumption). lia.
  Qed.

  Lemma scale_word : forall n_idx j g, 0 <= n_idx -> 0 <= j -> 0 <= g < gpk -> word (scale_at n_idx j g).
  Proof using Scales.
    intros n_idx j g H1 H2 H3. unfold scale_at. destruct (n_idx + j <? n) eqn:E.
    - apply Scales. revert H3 E. generalize gpk. clear - H1 H2. intros. nia.
    - clear. unfold word. lia.
  Qed.

  Lemma group_written : forall n_idx g, 0 <= n_idx -> 0 <= g < gpk ->
    writes group (pack_group nbit nr kr sr n k group_size weights scales zeros n_idx g)
      (group_ok n_idx g).
  Proof using W Nr Kr Sr D Count Fit Gs Gk Gr K Scales.
    clear K8 Bias Zeros tile blen bias. intros n_idx g H1 H2 m p.
    destruct (chunks_written n_idx g m p H1 H2) as (m1 & sums1 & E & O & R & S).
    unfold pack_group. rewrite E. fold gpk.
    assert (CP := chunk_pos). assert (RP := rs_pos). assert (ZP := zlen_pos).
    set (cl := group_size / kr * chunk) in *. assert (CL : 0 <= cl) by (unfold cl; nia).
    assert (T : writes (nr * 4 + (nr * 4 + zlen))
      (fun st => let st := put_column_words nr
         (fun j => if n_idx + j <? n then scales ((n_idx + j) * gpk + g) else 0) st in
       let st := put_column_words nr (fun j => pattern32 (sums1 j)) st in
       match zeros with
       | Some z => put_column_words nr
           (fun j => pattern32 (if n_idx + j <? n then z ((n_idx + j) * gpk + g) else 0)) st
       | None => st
       end)
      (fun m p => (forall j, 0 <= j < nr -> load32 m (p + j * 4) = scale_at n_idx j g) /\
        (forall j, 0 <= j < nr -> load32 m (p + nr * 4 + j * 4) = pattern32 (sums1 j)) /\
        (forall z, zeros = Some z -> forall j, 0 <= j < nr ->
          load32 m (p + nr * 4 + nr * 4 + j * 4) = pattern32 (zero_at z n_idx j g)))).
    { assert (T1 := writes_words nr (fun j => if n_idx + j <? n then scales ((n_idx + j) * gpk + g) else 0)
        ltac:(lia) (fun j Hj => scale_word n_idx j g H1 (proj1 Hj) H2)).
      assert (T2 := writes_words nr (fun j => pattern32 (sums1 j)) ltac:(lia)
        (fun j _ => pattern_word (sums1 j))).
      assert (N4 : 0 <= nr * 4) by lia. assert (N8 : 0 <= nr * 4 + nr * 4) by lia.
      unfold zlen. clear zlen ZP group. destruct zeros as [z|]; cbn [given].
      - assert (T3 := writes_words nr
          (fun j => pattern32 (if n_idx + j <? n then z ((n_idx + j) * gpk + g) else 0)) ltac:(lia)
          (fun j _ => pattern_word _)).
        assert (T23 := writes_seq _ _ _ _ _ _ N4 N4 T2 T3).
        assert (T123 := writes_seq _ _ _ _ _ _ N4 N8 T1 T23).
        eapply writes_weaken; [exact T123|reflexivity|intros; reflexivity|].
        cbv beta. intros m0 p0 (A & B & C). split; [exact A|]. split; [exact B|].
        intros z' [= <-] j Hj. exact (C j Hj).
      - assert (T12 := writes_seq _ _ _ _ _ _ N4 N4 T1 T2).
        eapply writes_weaken; [exact T12|rewrite Z.add_0_r; reflexivity|intros; reflexivity|].
        cbv beta. intros m0 p0 (A & B). split; [exact A|]. split; [exact B|]. discriminate. }
    destruct (T m1 (p + cl)) as (S3 & O3 & R3). cbv zeta in S3, O3, R3 |- *.
    unfold group. split; [rewrite S3; lia|]. split.
    - eapply only_trans; [eapply only_wider; [exact O|lia|lia]|].
      eapply only_wider; [exact O3|lia|lia].
    - intros m' A.
      destruct (R3 m') as (A1 & A2 & A3); [eapply same_part; [exact A|lia|lia]|].
      unfold group_ok. fold cl. split; [|split; [exact A1|split; [|exact A3]]].
      + apply R. eapply same_before; [exact A|exact O3|lia|lia|lia].
      + intros j Hj. rewrite A2 by exact Hj. rewrite S by exact Hj. reflexivity.
  Qed.

  Definition bias_at (b : Z -> Z) (n_idx j : Z) : Z :=
    if n_idx + j <? n then b (n_idx + j) else 0.
  Definition tile_ok (n_idx : Z) (m : mem) (p : Z) : Prop :=
    (forall g, 0 <= g < gpk -> group_ok n_idx g m (p + g * group)) /\
    (forall b, bias = Some b -> forall j, 0 <= j < nr ->
       load32 m (p + gpk * group + j * 4) = bias_at b n_idx j).

  Lemma tile_pos : 0 <= tile.
  Proof using W Nr Kr Gs K.
    assert (A := gpk_pos). assert (B := group_pos). unfold tile, blen.
    revert A B. generalize gpk group. clear - Nr. intros x y A B.
    assert (0 <= x * y) by (apply Z.mul_nonneg_nonneg; assumption). destruct (given bias); lia.
  Qed.

  Lemma tile_written : forall n_idx, 0 <= n_idx ->
    writes tile (pack_tile nbit nr kr sr n k group_size weights scales zeros bias n_idx) (tile_ok n_idx).
  Proof using W Nr Kr Sr D Count Fit Gs Gk Gr K Scales Bias.
    clear K8 Zeros. intros n_idx H.
    assert (GP := gpk_pos). assert (GO := group_pos).
    assert (T1 := writes_for gpk group
      (fun g => pack_group nbit nr kr sr n k group_size weights scales zeros n_idx g)
      (group_ok n_idx) GP GO (fun g Hg => group_written n_idx g H Hg)).
    assert (G0 : 0 <= gpk * group) by nia.
    unfold tile_ok, tile, blen. clear tile blen. destruct bias as [b|] eqn:EB; cbn [given].
    - assert (BW : forall j, 0 <= j < nr -> word (if n_idx + j <? n then b (n_idx + j) else 0)).
      { intros j Hj. destruct (n_idx + j <? n) eqn:E.
        - apply (Bias b eq_refl). revert E. clear - H Hj. lia.
        - clear. unfold word. lia. }
      assert (N0 : 0 <= nr) by (clear - Nr; lia). assert (N4 : 0 <= nr * 4) by (clear - Nr; lia).
      assert (T2 := writes_words nr (fun j => if n_idx + j <? n then b (n_idx + j) else 0) N0 BW).
      assert (T12 := writes_seq (gpk * group) (nr * 4) _ _ _ _ G0 N4 T1 T2).
      eapply writes_weaken; [exact T12|reflexivity|intros; reflexivity|].
      cbv beta. intros m p (A & B). split; [exact A|]. intros b' [= <-] j Hj. exact (B j Hj).
    - eapply writes_weaken; [exact T1|rewrite Z.add_0_r; reflexivity|intros; reflexivity|].
      cbv beta. intros m p A. split; [exact A|]. discriminate.
  Qed.

  (** The model's size of a tile is the advertised one. *)
  Lemma tile_size :
    tile = nr * packed_weights_size_per_n k group_size nbit (given zeros) (given bias).
  Proof using Count Gs Gk Gr K8 Kr.
    clear Scales Zeros Bias Fit D Sr weights scales n sr.
    unfold packed_weights_size_per_n. cbv zeta. fold gpk. unfold tile, group, zlen, blen.
    assert (C8 := chunk_8). clearbody chunk.
    assert (EG := Z.div_mod group_size kr ltac:(lia)). rewrite Gr, Z.add_0_r in EG.
    assert (EK := Z.div_mod k group_size ltac:(lia)). rewrite Gk, Z.add_0_r in EK. fold gpk in EK.
    assert (E8 := Z.div_mod k 8 ltac:(lia)). rewrite K8, Z.add_0_r in E8.
    assert (X : gpk * (group_size / kr * chunk) = nr * (k / 8 * nbit)).
    { apply Z.mul_reg_r with 8; [lia|].
      transitivity (gpk * (group_size / kr) * (chunk * 8)); [ring|]. rewrite C8.
      transitivity (nbit * nr * (gpk * (kr * (group_size / kr)))); [ring|]. rewrite <- EG.
      transitivity (nbit * nr * (8 * (k / 8))); [|ring]. rewrite <- E8.
      transitivity (nbit * nr * (group_size * gpk)); [ring|]. rewrite <- EK. ring. }
    rewrite !Z.mul_add_distr_l, X. destruct (given zeros), (given bias); ring.
  Qed.

  Theorem weights_written : 0 <= n ->
    writes (rounds n nr * tile)
      (zfor (rounds n nr) (fun t st =>
         pack_tile nbit nr kr sr n k group_size weights scales zeros bias (t * nr) st))
      (fun m p => forall t, 0 <= t < rounds n nr -> tile_ok (t * nr) m (p + t * tile)).
  Proof using W Nr Kr Sr D Count Fit Gs Gk Gr K Scales Bias.
    clear K8 Zeros. intros N.
    apply (writes_for (rounds n nr) tile
      (fun t st => pack_tile nbit nr kr sr n k group_size weights scales zeros bias (t * nr) st)
      (fun t => tile_ok (t * nr))).
    - unfold rounds. apply Z.div_pos; lia.
    - apply tile_pos.
    - intros t Ht. apply tile_written. nia.
  Qed.
End Weights.
