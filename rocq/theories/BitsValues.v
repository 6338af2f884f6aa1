(** pack_values / unpack_values, and sums. *)
From Verif Require Import Base BitsModel BitsSpec.
Open Scope Z_scope.

Lemma upto_inv : forall (S : Type) (P : Z -> S -> Prop) k f i s,
  P i s -> (forall j s, i <= j < i + Z.of_nat k -> P j s -> P (j + 1) (f j s)) ->
  P (i + Z.of_nat k) (upto k f i s).
Proof.
  induction k as [|k IH]; intros f i s H0 Hs.
  - cbn [upto]. replace (i + Z.of_nat 0) with i by lia. exact H0.
  - cbn [upto]. replace (i + Z.of_nat (Datatypes.S k)) with (i + 1 + Z.of_nat k) by lia.
    apply IH.
    + apply Hs; [lia|exact H0].
    + intros j s' Hj. apply Hs. lia.
Qed.

Lemma zfor_inv : forall (S : Type) (P : Z -> S -> Prop) n f s, 0 <= n ->
  P 0 s -> (forall j s, 0 <= j < n -> P j s -> P (j + 1) (f j s)) -> P n (zfor n f s).
Proof.
  intros S P n f s Hn H0 Hs. unfold zfor.
  pose proof (upto_inv S P (Z.to_nat n) f 0 s H0) as U.
  rewrite Z2Nat.id in U by lia. rewrite Z.add_0_l in U. apply U.
  intros j s' Hj. apply Hs. lia.
Qed.

(** ** The set of indices an array was assigned on, and the values *)
Definition fills (a0 a : Z -> Z) (S : Z -> Prop) (v : Z -> Z) : Prop :=
  forall x, (S x /\ a x = v x) \/ (~ S x /\ a x = a0 x).

Lemma fills_none : forall a S v, (forall x, ~ S x) -> fills a a S v.
Proof. intros a S v H x. right. split; [apply H|reflexivity]. Qed.

Lemma fills_more : forall a0 a a' S T U v, fills a0 a S v -> fills a a' T v ->
  (forall x, U x <-> S x \/ T x) -> fills a0 a' U v.
Proof.
  intros a0 a a' S T U v A B E x. destruct (B x) as [(H & G)|(H & G)].
  - left. split; [apply E; right; exact H|exact G].
  - destruct (A x) as [(H' & G')|(H' & G')].
    + left. split; [apply E; left; exact H'|congruence].
    + right. split; [|congruence]. intro X. apply E in X. tauto.
Qed.

Lemma fills_copy : forall a doff src soff n v,
  (forall t, 0 <= t < n -> src (soff + t) = v (doff + t)) ->
  fills a (copy a doff src soff n) (fun x => doff <= x < doff + n) v.
Proof.
  intros a doff src soff n v H x. unfold copy.
  destruct ((doff <=? x) && (x <? doff + n)) eqn:E.
  - left. split; [lia|]. rewrite H by lia. f_equal. lia.
  - right. split; [lia|reflexivity].
Qed.

Lemma fills_assign : forall a i y v, y = v i -> fills a (assign a i y) (fun x => x = i) v.
Proof.
  intros a i y v -> x. unfold assign. destruct (x =? i) eqn:E.
  - left. split; [lia|]. f_equal. lia.
  - right. split; [lia|reflexivity].
Qed.

Lemma fills_iff : forall a a' S T v, fills a a' S v -> (forall x, S x <-> T x) -> fills a a' T v.
Proof.
  intros a a' S T v H E x. destruct (H x) as [(X & Y)|(X & Y)]; [left|right];
    (split; [|exact Y]); rewrite <- E; exact X.
Qed.

Lemma fills_zfor : forall n f a S v, 0 <= n ->
  (forall i b, 0 <= i < n -> fills b (f i b) (S i) v) ->
  fills a (zfor n f a) (fun x => exists i, 0 <= i < n /\ S i x) v.
Proof.
  intros n f a S v Hn H.
  apply (zfor_inv _ (fun i b => fills a b (fun x => exists i', 0 <= i' < i /\ S i' x) v) n f a Hn).
  - apply fills_none. intros x (i & Hi & _). lia.
  - intros j b Hj Hb. eapply fills_more; [exact Hb|apply H; exact Hj|].
    intros x. split.
    + intros (i & Hi & Hx). destruct (Z.eq_dec i j) as [->|]; [right; exact Hx|].
      left. exists i. split; [lia|exact Hx].
    + intros [(i & Hi & Hx)|Hx]; [exists i|exists j]; (split; [lia|exact Hx]).
Qed.

(** ** pack_values *)
Section Values.
  Variables nr kr sr : Z.
  Hypothesis (Nr : 0 < nr) (Sr : 0 < sr) (Kr : 0 < kr) (D : kr mod sr = 0).
  Let q := kr / sr.

  Lemma kr_q : kr = sr * q.
  Proof using D Sr. unfold q. rewrite (Z.div_mod kr sr) at 1 by lia. lia. Qed.
  Lemma q_pos : 0 < q.
  Proof using D Sr Kr. assert (E := kr_q). nia. Qed.

  (** Where the value at position [a] of the packed array comes from. *)
  Let perm (a : Z) : Z := (a / q) mod nr * kr + a / q / nr * q + a mod q.

  Lemma perm_at : forall s j t, 0 <= j < nr -> 0 <= t < q ->
    perm ((s * nr + j) * q + t) = j * kr + s * q + t.
  Proof using Nr Sr Kr D.
    intros s j t Hj Ht. assert (Q := q_pos). unfold perm.
    replace (((s * nr + j) * q + t) / q) with (s * nr + j).
    2:{ apply Z.div_unique with t; [lia|ring]. }
    replace (((s * nr + j) * q + t) mod q) with t.
    2:{ apply Z.mod_unique with (s * nr + j); [lia|ring]. }
    replace ((s * nr + j) mod nr) with j by (apply Z.mod_unique with s; [lia|ring]).
    replace ((s * nr + j) / nr) with s by (apply Z.div_unique with j; [lia|ring]).
    reflexivity.
  Qed.

  (** Every position of the packed array, every position of the values. *)
  Lemma packed_index : forall a, 0 <= a < nr * kr ->
    exists s j t, 0 <= s < sr /\ 0 <= j < nr /\ 0 <= t < q /\ a = (s * nr + j) * q + t.
  Proof using Nr Sr Kr D.
    intros a Ha. assert (Q := q_pos). assert (E := kr_q).
    exists (a / q / nr), ((a / q) mod nr), (a mod q).
    assert (E1 := Z.div_mod a q ltac:(lia)).
    assert (M1 := Z.mod_pos_bound a q Q).
    assert (E2 := Z.div_mod (a / q) nr ltac:(lia)).
    assert (M2 := Z.mod_pos_bound (a / q) nr Nr).
    split; [split|split; [exact M2|split; [exact M1|]]].
    - apply Z.div_pos; [apply Z.div_pos; lia|lia].
    - apply Z.div_lt_upper_bound; [lia|]. apply Z.div_lt_upper_bound; [lia|].
      rewrite E in Ha. nia.
    - nia.
  Qed.
  Lemma values_index : forall a, 0 <= a < nr * kr ->
    exists s j t, 0 <= s < sr /\ 0 <= j < nr /\ 0 <= t < q /\ a = j * kr + s * q + t.
  Proof using Nr Sr Kr D.
    intros a Ha. assert (Q := q_pos). assert (E := kr_q).
    exists ((a mod kr) / q), (a / kr), ((a mod kr) mod q).
    assert (E1 := Z.div_mod a kr ltac:(lia)).
    assert (M1 := Z.mod_pos_bound a kr ltac:(lia)).
    assert (E2 := Z.div_mod (a mod kr) q ltac:(lia)).
    assert (M2 := Z.mod_pos_bound (a mod kr) q Q).
    split; [split|split; [split|split; [exact M2|]]].
    - apply Z.div_pos; lia.
    - apply Z.div_lt_upper_bound; [lia|]. rewrite Z.mul_comm. lia.
    - apply Z.div_pos; lia.
    - apply Z.div_lt_upper_bound; [lia|]. rewrite Z.mul_comm. lia.
    - lia.
  Qed.
  Lemma in_values : forall s j t, 0 <= s < sr -> 0 <= j < nr -> 0 <= t < q ->
    0 <= j * kr + s * q + t < nr * kr.
  Proof using Nr Sr Kr D.
    intros s j t Hs Hj Ht. assert (Q := q_pos). assert (E := kr_q).
    assert (0 <= s * q + t < kr) by nia. nia.
  Qed.
  Lemma in_packed : forall s j t, 0 <= s < sr -> 0 <= j < nr -> 0 <= t < q ->
    0 <= (s * nr + j) * q + t < nr * kr.
  Proof using Nr Sr Kr D.
    intros s j t Hs Hj Ht. assert (Q := q_pos). assert (E := kr_q).
    assert (A : 0 <= s * nr + j < sr * nr) by nia.
    revert A. generalize (s * nr + j). intros w A. rewrite E. nia.
  Qed.

  Theorem pack_values_fills : forall packed values,
    fills packed (pack_values packed values nr kr sr) (fun a => 0 <= a < nr * kr)
      (fun a => values (perm a)).
  Proof using Nr Sr Kr D.
    intros packed values. unfold pack_values. fold q. cbv zeta.
    assert (Q := q_pos). assert (E := kr_q).
    assert (I : fills packed (fst (zfor sr (fun sr_idx st =>
         zfor nr (fun n_idx (st : (Z -> Z) * Z) =>
           let (packed, dst_idx) := st in
           (copy packed dst_idx values (n_idx * kr + sr_idx * q) q, dst_idx + q)) st) (packed, 0)))
      (fun x => 0 <= x < sr * nr * q) (fun a => values (perm a)) /\
      snd (zfor sr (fun sr_idx st =>
         zfor nr (fun n_idx (st : (Z -> Z) * Z) =>
           let (packed, dst_idx) := st in
           (copy packed dst_idx values (n_idx * kr + sr_idx * q) q, dst_idx + q)) st) (packed, 0))
      = sr * nr * q).
    { apply (zfor_inv _ (fun s st => fills packed (fst st) (fun x => 0 <= x < s * nr * q)
         (fun a => values (perm a)) /\ snd st = s * nr * q)); [lia| |].
      - split; [apply fills_none; intros x; lia|reflexivity].
      - intros s st Hs (F & P).
        replace ((s + 1) * nr * q) with ((s * nr + nr) * q) by ring.
        replace (s * nr * q) with ((s * nr + 0) * q) in F, P by ring.
        apply (zfor_inv _ (fun j st => fills packed (fst st) (fun x => 0 <= x < (s * nr + j) * q)
           (fun a => values (perm a)) /\ snd st = (s * nr + j) * q)); [lia|split; assumption|].
        intros j [pk d] Hj (F' & P'). cbn [fst snd] in *. subst d. split.
        + eapply fills_more; [exact F'|apply fills_copy|].
          * intros t Ht. cbv beta. rewrite perm_at by lia. reflexivity.
          * intros x. cbv beta.
            replace ((s * nr + (j + 1)) * q) with ((s * nr + j) * q + q) by ring.
            assert (0 <= (s * nr + j) * q) by (apply Z.mul_nonneg_nonneg; nia).
            revert H. generalize ((s * nr + j) * q). intros w Hw. lia.
        + ring. }
    destruct I as (I & _). eapply fills_iff; [exact I|].
    intros x. cbv beta. replace (sr * nr * q) with (nr * kr) by (rewrite E; ring). tauto.
  Qed.

  Theorem unpack_values_fills : forall values packed v,
    (forall s j t, 0 <= s < sr -> 0 <= j < nr -> 0 <= t < q ->
       packed ((s * nr + j) * q + t) = v (j * kr + s * q + t)) ->
    fills values (unpack_values values packed nr kr sr) (fun a => 0 <= a < nr * kr) v.
  Proof using Nr Sr Kr D.
    intros values packed v H. unfold unpack_values. fold q. cbv zeta.
    assert (Q := q_pos). assert (E := kr_q).
    assert (I : fills values (fst (zfor sr (fun sr_idx st =>
         zfor nr (fun n_idx (st : (Z -> Z) * Z) =>
           let (values, dst_idx) := st in
           (copy values (n_idx * kr + sr_idx * q) packed dst_idx q, dst_idx + q)) st) (values, 0)))
      (fun x => exists s j t, 0 <= s < sr /\ 0 <= j < nr /\ 0 <= t < q /\ x = j * kr + s * q + t) v /\
      snd (zfor sr (fun sr_idx st =>
         zfor nr (fun n_idx (st : (Z -> Z) * Z) =>
           let (values, dst_idx) := st in
           (copy values (n_idx * kr + sr_idx * q) packed dst_idx q, dst_idx + q)) st) (values, 0))
      = sr * nr * q).
    { apply (zfor_inv _ (fun s st => fills values (fst st)
         (fun x => exists s' j t, 0 <= s' < s /\ 0 <= j < nr /\ 0 <= t < q /\ x = j * kr + s' * q + t) v
         /\ snd st = s * nr * q)); [lia| |].
      - split; [apply fills_none; intros x (s' & j & t & ? & _); lia|reflexivity].
      - intros s st Hs (F & P).
        replace ((s + 1) * nr * q) with ((s * nr + nr) * q) by ring.
        replace (s * nr * q) with ((s * nr + 0) * q) in P by ring.
        assert (I : fills values (fst (zfor nr (fun n_idx (st : (Z -> Z) * Z) =>
             let (values, dst_idx) := st in
             (copy values (n_idx * kr + s * q) packed dst_idx q, dst_idx + q)) st))
           (fun x => exists s' j t, (0 <= s' < s /\ 0 <= j < nr \/ s' = s /\ 0 <= j < nr) /\
               0 <= t < q /\ x = j * kr + s' * q + t) v /\
           snd (zfor nr (fun n_idx (st : (Z -> Z) * Z) =>
             let (values, dst_idx) := st in
             (copy values (n_idx * kr + s * q) packed dst_idx q, dst_idx + q)) st)
           = (s * nr + nr) * q).
        { apply (zfor_inv _ (fun j st => fills values (fst st)
             (fun x => exists s' j' t, (0 <= s' < s /\ 0 <= j' < nr \/ s' = s /\ 0 <= j' < j) /\
               0 <= t < q /\ x = j' * kr + s' * q + t) v
             /\ snd st = (s * nr + j) * q)); [lia| |].
          - split; [|exact P]. eapply fills_iff; [exact F|]. intros x. split.
            + intros (s' & j & t & A & B & C & G). exists s', j, t. split; [left; lia|].
              split; [lia|exact G].
            + intros (s' & j & t & [A|A] & C & G); [|lia].
              exists s', j, t. split; [lia|split; [lia|split; [lia|exact G]]].
          - intros j [vs d] Hj (F' & P'). cbn [fst snd] in *. subst d. split.
            + eapply fills_more; [exact F'|apply fills_copy|].
              * intros t Ht. apply H; lia.
              * intros x. split.
                -- intros (s' & j' & t & [A|(-> & A)] & C & G).
                   ++ left. exists s', j', t. split; [left; lia|split; [lia|exact G]].
                   ++ destruct (Z.eq_dec j' j) as [->|N].
                      ** right. lia.
                      ** left. exists s, j', t. split; [right; lia|split; [lia|exact G]].
                -- intros [(s' & j' & t & A & C & G)|G].
                   ++ exists s', j', t. split; [lia|split; [lia|exact G]].
                   ++ exists s, j, (x - (j * kr + s * q)). split; [right; lia|split; lia].
            + ring. }
        destruct I as (I1 & I2). split; [|exact I2]. eapply fills_iff; [exact I1|].
        intros x. split.
        + intros (s' & j & t & A & C & G). exists s', j, t. split; [lia|split; [lia|split; [lia|exact G]]].
        + intros (s' & j & t & A & B & C & G). exists s', j, t. split; [lia|split; [lia|exact G]]. }
    destruct I as (I & _). eapply fills_iff; [exact I|]. intros x. split.
    - intros (s & j & t & A & B & C & ->). apply in_values; lia.
    - intros Hx. destruct (values_index x Hx) as (s & j & t & A & B & C & G).
      exists s, j, t. split; [lia|split; [lia|split; [lia|exact G]]].
  Qed.

  (** Each packed value is one of the values. *)
  Lemma pack_values_at : forall packed values s j t, 0 <= s < sr -> 0 <= j < nr -> 0 <= t < q ->
    pack_values packed values nr kr sr ((s * nr + j) * q + t) = values (j * kr + s * q + t).
  Proof using Nr Sr Kr D.
    intros packed values s j t Hs Hj Ht.
    destruct (pack_values_fills packed values ((s * nr + j) * q + t)) as [(_ & G)|(N & _)].
    - rewrite G. cbv beta. rewrite perm_at by lia. reflexivity.
    - exfalso. apply N. apply in_packed; assumption.
  Qed.

  Lemma values_round : forall p0 v0 values pk,
    (forall i, 0 <= i < nr * kr -> pk i = pack_values p0 values nr kr sr i) ->
    forall a, 0 <= a < nr * kr -> unpack_values v0 pk nr kr sr a = values a.
  Proof using Nr Sr Kr D.
    intros p0 v0 values pk H a Ha.
    destruct (unpack_values_fills v0 pk values) with (x := a) as [(_ & G)|(N & _)].
    - intros s j t Hs Hj Ht. rewrite H by (apply in_packed; assumption).
      apply pack_values_at; assumption.
    - exact G.
    - contradiction.
  Qed.

  Lemma pack_values_from : forall p0 values (P : Z -> Prop),
    (forall a, 0 <= a < nr * kr -> P (values a)) ->
    forall i, 0 <= i < nr * kr -> P (pack_values p0 values nr kr sr i).
  Proof using Nr Sr Kr D.
    intros p0 values P H i Hi. destruct (packed_index i Hi) as (s & j & t & A & B & C & ->).
    rewrite pack_values_at by assumption. apply H. apply in_values; assumption.
  Qed.
End Values.

(** ** compute_sum *)
Lemma sum_below_ext : forall n x y, (forall i, 0 <= i < Z.of_nat n -> x i = y i) ->
  sum_below n x = sum_below n y.
Proof.
  induction n as [|n IH]; intros x y H; [reflexivity|]. cbn [sum_below].
  rewrite (IH x y) by (intros; apply H; lia). rewrite (H (Z.of_nat n)) by lia. reflexivity.
Qed.
Lemma sum_below_app : forall a b x,
  sum_below (a + b) x = sum_below a x + sum_below b (fun i => x (Z.of_nat a + i)).
Proof.
  intros a b x. induction b as [|b IH].
  - rewrite Nat.add_0_r. cbn. lia.
  - rewrite Nat.add_succ_r. cbn [sum_below]. rewrite IH.
    rewrite Nat2Z.inj_add. lia.
Qed.
Lemma zfor_sum : forall n x s, 0 <= n -> zfor n (fun i s => s + x i) s = s + sum_below (Z.to_nat n) x.
Proof.
  intros n x s Hn.
  apply (zfor_inv _ (fun i r => r = s + sum_below (Z.to_nat i) x)); [exact Hn|cbn; lia|].
  intros j r Hj ->. replace (Z.to_nat (j + 1)) with (Datatypes.S (Z.to_nat j)) by lia.
  cbn [sum_below]. rewrite Z2Nat.id by lia. lia.
Qed.

Theorem compute_sum_is : forall vals o size, 0 <= size ->
  compute_sum vals o size = sum_below (Z.to_nat size) (fun t => vals (o + t)).
Proof.
  intros vals o size H. unfold compute_sum. cbv zeta.
  assert (E := Z.div_mod size 16 ltac:(lia)). assert (M := Z.mod_pos_bound size 16 ltac:(lia)).
  set (full := size / 16) in *.
  assert (F : 0 <= full) by (apply Z.div_pos; lia).
  assert (B : zfor full (fun b res =>
      res + zfor 16 (fun l s => s + vals (o + (16 * b + l))) 0) 0
    = sum_below (Z.to_nat (16 * full)) (fun t => vals (o + t))).
  { apply (zfor_inv _ (fun b r => r = sum_below (Z.to_nat (16 * b)) (fun t => vals (o + t))));
      [exact F|reflexivity|].
    intros b r Hb ->. rewrite zfor_sum by lia.
    replace (Z.to_nat (16 * (b + 1))) with (Z.to_nat (16 * b) + 16)%nat by lia.
    rewrite sum_below_app. f_equal. rewrite Z.add_0_l.
    apply sum_below_ext. intros i Hi. rewrite Z2Nat.id by lia. reflexivity. }
  rewrite B, zfor_sum by lia.
  replace (Z.to_nat size) with (Z.to_nat (16 * full) + Z.to_nat (size - 16 * full))%nat by lia.
  rewrite sum_below_app. f_equal. apply sum_below_ext. intros i Hi.
  rewrite (Z2Nat.id (16 * full)) by lia. reflexivity.
Qed.
