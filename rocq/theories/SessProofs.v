(** One forward pass of the session computes the reference hidden states and leaves the reference K/V bytes behind. *)
From Verif Require Import Base DTypeModel ParamModel TensorModel RadixModel RadixSpec ZenModel ZenProofs SessModel SessSpec SessAlloc.
Local Open Scope Z_scope.

Lemma nodup_app_l {X} (a b : list X) : NoDup (a ++ b) -> NoDup a.
Proof.
  induction a as [|x a IH]; intro N; [constructor|]. cbn [app] in N. inversion N as [|? ? N1 N2]; subst.
  constructor; [intro Y; apply N1, in_or_app; left; exact Y|apply IH, N2].
Qed.
Lemma nodup_app_r {X} (a b : list X) : NoDup (a ++ b) -> NoDup b.
Proof. induction a as [|x a IH]; intro N; [exact N|]. cbn [app] in N. inversion N; subst. apply IH; assumption. Qed.

Section Prefix.
Context {H : Type}.
Variable embed : Z -> H.
Variable kproj vproj : nat -> H -> Z -> list Z.
Variable mix : nat -> H -> Z -> list (list Z) -> list (list Z) -> H.
Notation hidden := (hidden embed kproj vproj mix).
Notation key_of := (key_of embed kproj vproj mix).
Notation value_of := (value_of embed kproj vproj mix).
Lemma hidden_prefix : forall j ts us i, (i < length ts)%nat -> hidden j (ts ++ us) i = hidden j ts i.
Proof.
  induction j as [|j IH]; intros ts us i Hi; cbn [SessSpec.hidden].
  - rewrite app_nth1 by exact Hi. reflexivity.
  - rewrite IH by exact Hi. f_equal; apply map_ext_in; intros q Hq; apply in_seq in Hq; rewrite IH by lia; reflexivity.
Qed.
Lemma hidden_firstn j ts n i : (i < n)%nat -> (n <= length ts)%nat -> hidden j (firstn n ts) i = hidden j ts i.
Proof. intros Hi Hn. rewrite <- (firstn_skipn n ts) at 2. symmetry. apply hidden_prefix. rewrite firstn_length. lia. Qed.
Lemma key_prefix j ts us i : (i < length ts)%nat -> key_of j (ts ++ us) i = key_of j ts i.
Proof. intro Hi. unfold SessSpec.key_of. rewrite hidden_prefix by exact Hi. reflexivity. Qed.
Lemma value_prefix j ts us i : (i < length ts)%nat -> value_of j (ts ++ us) i = value_of j ts i.
Proof. intro Hi. unfold SessSpec.value_of. rewrite hidden_prefix by exact Hi. reflexivity. Qed.

End Prefix.

Section Net.
Context {H G : Type}.
Variable L : nat.
Variable embed : Z -> H.
Variable kproj vproj : nat -> H -> Z -> list Z.
Variable mix : nat -> H -> Z -> list (list Z) -> list (list Z) -> H.
Variable logits : H -> G.
Variables (p l : Z) (tok : nat) (basep : Z -> Z) (order : nat -> zenfs -> list Z).
Notation ainv := (ainv p l tok basep).
Notation pa := (pa p l tok basep).
Notation hidden := (hidden embed kproj vproj mix).
Notation key_of := (key_of embed kproj vproj mix).
Notation value_of := (value_of embed kproj vproj mix).

Hypothesis Hp : 0 <= p.
Hypothesis Hl : 0 <= l.
Hypothesis Hord : walks_all order.
Hypothesis Hap : apart basep (2 ^ (p + l) * Z.of_nat tok).
Hypothesis HK : forall j x q, length (kproj j x q) = tok.
Hypothesis HV : forall j x q, length (vproj j x q) = tok.

(** The first [n] tokens of [ts] have their K/V bytes of layer [j] in the lanes [ka], [va]. *)
Definition good (m : memory) (held : list Z) (j : nat) (ts : list Z) (n : nat) (ka va : list Z) : Prop :=
  length ka = n /\ length va = n /\
  forall i, (i < n)%nat -> In (nth i ka 0) held /\ In (nth i va 0) held /\
    read_bytes m (pa (nth i ka 0)) tok = key_of j ts i /\ read_bytes m (pa (nth i va 0)) tok = value_of j ts i.
Definition keeps (m m' : memory) (held : list Z) : Prop :=
  forall a, In a held -> read_bytes m' (pa a) tok = read_bytes m (pa a) tok.

Lemma good_keep m m' held held' j ts n ka va : good m held j ts n ka va -> keeps m m' held -> incl held held' ->
  good m' held' j ts n ka va.
Proof.
  intros (G1 & G2 & G3) Kp In_. split; [exact G1|]. split; [exact G2|]. intros i Hi. destruct (G3 i Hi) as (A & B & C & D).
  split; [apply In_, A|]. split; [apply In_, B|]. rewrite (Kp _ A), (Kp _ B). auto.
Qed.
Lemma keeps_trans m1 m2 m3 h1 h2 : keeps m1 m2 h1 -> keeps m2 m3 h2 -> incl h1 h2 -> keeps m1 m3 h1.
Proof. intros A B I a Ha. rewrite (B a (I a Ha)). apply A, Ha. Qed.

Lemma held_nonneg c held a : ainv c held -> In a held -> 0 <= a.
Proof. intros (HI & _) Ha. apply (proj1 (held_blob _ _ a HI Ha)). Qed.

Lemma nth_combine {X Y} (xs : list X) (ys : list Y) i d e : length xs = length ys ->
  nth i (combine xs ys) (d, e) = (nth i xs d, nth i ys e).
Proof. intro E. apply combine_nth. exact E. Qed.

Lemma layer_ok j c held xs pos K V ts m n :
  ainv (c_alloc c) held -> Z.of_nat (length held) + 2 * Z.of_nat n + 2 * 2 ^ (p + l) < 2 ^ 32 + 1 ->
  length xs = n -> length pos = n -> length ts = (m + n)%nat ->
  (forall i, (i < n)%nat -> nth i xs (embed 0) = hidden j ts (m + i) /\ nth i pos 0 = Z.of_nat (m + i)) ->
  (j < length K)%nat -> (j < length V)%nat -> good (c_mem c) held j ts m (nth j K []) (nth j V []) ->
  exists c' xs' K' V' held',
    layer embed kproj vproj mix tok basep order j c xs pos K V = ROk (c', xs', K', V') /\
    c_tree c' = c_tree c /\ ainv (c_alloc c') held' /\ incl held held' /\ keeps (c_mem c) (c_mem c') held /\
    length xs' = n /\ (forall i, (i < n)%nat -> nth i xs' (embed 0) = hidden (S j) ts (m + i)) /\
    good (c_mem c') held' j ts (m + n) (nth j K' []) (nth j V' []) /\
    length K' = length K /\ length V' = length V /\
    (forall i, i <> j -> nth i K' [] = nth i K [] /\ nth i V' [] = nth i V []) /\
    length held' = (length held + 2 * n)%nat.
Proof.
  intros HA Hcap Lx Lp Lt Hx HjK HjV (G1 & G2 & G3).
  unfold layer. rewrite Lx. set (rows := combine xs pos).
  assert (Lr : length rows = n) by (unfold rows; rewrite combine_length; lia).
  destruct (alloc_rows_ok p l tok basep order Hord n c held HA Hcap)
    as (c1 & ka & va & held' & E1 & T1 & M1 & A1 & L1 & L2 & ND & IN & FR & LH).
  rewrite E1. cbn [rbind].
  assert (Ik : forall a, In a ka -> In a held') by (intros a Ha; apply IN; right; apply in_or_app; left; exact Ha).
  assert (Iv : forall a, In a va -> In a held') by (intros a Ha; apply IN; right; apply in_or_app; right; exact Ha).
  assert (Ih : incl held held') by (intros a Ha; apply IN; left; exact Ha).
  rewrite (pointers_ok p l tok basep c1 held' ka A1 Ik). cbn [rbind].
  rewrite (pointers_ok p l tok basep c1 held' va A1 Iv). cbn [rbind]. cbv zeta.
  set (fk := fun r : H * Z => kproj j (fst r) (snd r)). set (fv := fun r : H * Z => vproj j (fst r) (snd r)).
  set (ma := scatter tok (flat_map fk rows) (map pa ka) (c_mem c1)).
  set (mb := scatter tok (flat_map fv rows) (map pa va) ma).
  set (c2 := mkCache (c_tree c1) (c_alloc c1) mb (c_walks c1)).
  assert (SEP : forall a b, In a held' -> In b held' -> a <> b -> sep tok (pa a) (pa b)).
  { intros a b Ha Hb Ne. apply pa_apart; auto; eapply held_nonneg; eauto. }
  assert (Nk : forall i, (i < n)%nat -> nth i (map pa ka) 0 = pa (nth i ka 0)).
  { intros i Hi. rewrite (nth_indep _ 0 (pa 0)) by (rewrite map_length; lia). apply map_nth. }
  assert (Nv : forall i, (i < n)%nat -> nth i (map pa va) 0 = pa (nth i va 0)).
  { intros i Hi. rewrite (nth_indep _ 0 (pa 0)) by (rewrite map_length; lia). apply map_nth. }
  assert (NDk : NoDup ka) by (eapply nodup_app_l; exact ND).
  assert (NDv : NoDup va) by (eapply nodup_app_r; exact ND).
  assert (KV : forall i i', (i < n)%nat -> (i' < n)%nat -> nth i ka 0 <> nth i' va 0).
  { intros i i' Hi Hi' E.
    assert (X : nth i (ka ++ va) 0 = nth (n + i') (ka ++ va) 0).
    { rewrite app_nth1 by lia. rewrite app_nth2 by lia. replace (n + i' - length ka)%nat with i' by lia. exact E. }
    apply (proj1 (NoDup_nth (ka ++ va) 0) ND) in X; rewrite ?app_length; lia. }
  destruct (scatter_spec fk tok rows (map pa ka) (c_mem c1)) as (Ra & Oa);
    [intro x; apply HK|rewrite map_length; lia| |].
  { intros i i' Hi Hi' Ne. rewrite map_length in Hi, Hi'. rewrite !Nk by lia. apply SEP; try (apply Ik, nth_In; lia).
    intro E. apply Ne. apply (proj1 (NoDup_nth ka 0) NDk); auto. }
  fold ma in Ra, Oa.
  destruct (scatter_spec fv tok rows (map pa va) ma) as (Rb & Ob);
    [intro x; apply HV|rewrite map_length; lia| |].
  { intros i i' Hi Hi' Ne. rewrite map_length in Hi, Hi'. rewrite !Nv by lia. apply SEP; try (apply Iv, nth_In; lia).
    intro E. apply Ne. apply (proj1 (NoDup_nth va 0) NDv); auto. }
  fold mb in Rb, Ob. rewrite map_length in Ra, Oa, Rb, Ob.
  assert (KEEP : keeps (c_mem c) mb held).
  { intros a Ha. rewrite Ob, Oa; [rewrite M1; reflexivity| |].
    - intros i Hi. rewrite Nk by lia. apply SEP; [apply Ik, nth_In; lia|apply Ih, Ha|].
      intro E. apply (FR (nth i ka 0)); [apply in_or_app; left; apply nth_In; lia|rewrite E; exact Ha].
    - intros i Hi. rewrite Nv by lia. apply SEP; [apply Iv, nth_In; lia|apply Ih, Ha|].
      intro E. apply (FR (nth i va 0)); [apply in_or_app; right; apply nth_In; lia|rewrite E; exact Ha]. }
  assert (RK : forall i, (i < n)%nat -> read_bytes mb (pa (nth i ka 0)) tok = key_of j ts (m + i)).
  { intros i Hi. rewrite Ob.
    - rewrite <- Nk by exact Hi. rewrite (Ra i (embed 0, 0)) by lia. unfold fk, rows. rewrite nth_combine by lia. cbn [fst snd].
      destruct (Hx i Hi) as (-> & ->). reflexivity.
    - intros i' Hi'. rewrite Nv by lia. apply SEP; [apply Iv, nth_In; lia|apply Ik, nth_In; lia|].
      intro E. symmetry in E. revert E. apply KV; lia. }
  assert (RV : forall i, (i < n)%nat -> read_bytes mb (pa (nth i va 0)) tok = value_of j ts (m + i)).
  { intros i Hi. rewrite <- Nv by exact Hi. rewrite (Rb i (embed 0, 0)) by lia. unfold fv, rows. rewrite nth_combine by lia. cbn [fst snd].
    destruct (Hx i Hi) as (-> & ->). reflexivity. }
  set (K' := upd_nth j (fun a => a ++ ka) K). set (V' := upd_nth j (fun a => a ++ va) V).
  assert (NK : nth j K' [] = nth j K [] ++ ka).
  { unfold K'. rewrite nth_upd_nth. rewrite Nat.eqb_refl. destruct (Nat.ltb_spec j (length K)); [reflexivity|lia]. }
  assert (NV : nth j V' [] = nth j V [] ++ va).
  { unfold V'. rewrite nth_upd_nth. rewrite Nat.eqb_refl. destruct (Nat.ltb_spec j (length V)); [reflexivity|lia]. }
  assert (GOOD : good mb held' j ts (m + n) (nth j K' []) (nth j V' [])).
  { rewrite NK, NV. split; [rewrite app_length; lia|]. split; [rewrite app_length; lia|]. intros i Hi.
    destruct (Nat.lt_ge_cases i m) as [Lo|Hi'].
    - rewrite !app_nth1 by lia. destruct (G3 i Lo) as (A & B & C & D).
      split; [apply Ih, A|]. split; [apply Ih, B|]. rewrite (KEEP _ A), (KEEP _ B). auto.
    - rewrite !app_nth2 by lia. rewrite G1, G2.
      assert (Ei : i = (m + (i - m))%nat) by lia. remember (i - m)%nat as q eqn:Eq. clear Eq. subst i.
      split; [apply Ik, nth_In; lia|]. split; [apply Iv, nth_In; lia|]. split; [apply RK; lia|apply RV; lia]. }
  pose proof GOOD as (W1 & W2 & W3).
  assert (IKK : forall a, In a (nth j K' []) -> In a held').
  { intros a Ha. destruct (In_nth _ _ 0 Ha) as (i & Hi & <-). apply W3. lia. }
  assert (IVV : forall a, In a (nth j V' []) -> In a held').
  { intros a Ha. destruct (In_nth _ _ 0 Ha) as (i & Hi & <-). apply W3. lia. }
  rewrite (pointers_ok p l tok basep c2 held' (nth j K' []) A1 IKK). cbn [rbind].
  rewrite (pointers_ok p l tok basep c2 held' (nth j V' []) A1 IVV). cbn [rbind].
  do 5 eexists. split; [reflexivity|]. cbn [c_tree c_alloc c_mem c2].
  split; [exact T1|]. split; [exact A1|]. split; [exact Ih|]. split; [exact KEEP|].
  rewrite !map_length, W1. split; [rewrite seq_length; reflexivity|].
  split; [|split; [exact GOOD|]].
  - intros i Hi. rewrite nth_indep with (d' := mix j (nth 0 xs (embed 0)) (nth 0 pos 0)
        (firstn (m + n - n + 0 + 1) (map (fun p0 => read_bytes mb p0 tok) (map pa (nth j K' []))))
        (firstn (m + n - n + 0 + 1) (map (fun p0 => read_bytes mb p0 tok) (map pa (nth j V' [])))))
      by (rewrite map_length, seq_length; exact Hi).
    rewrite (map_nth (fun s => mix j (nth s xs (embed 0)) (nth s pos 0)
        (firstn (m + n - n + s + 1) (map (fun p0 => read_bytes mb p0 tok) (map pa (nth j K' []))))
        (firstn (m + n - n + s + 1) (map (fun p0 => read_bytes mb p0 tok) (map pa (nth j V' []))))) (seq 0 n) 0%nat i).
    rewrite seq_nth by exact Hi. cbn [Nat.add]. destruct (Hx i Hi) as (-> & ->). cbn [SessSpec.hidden].
    replace (m + n - n + i + 1)%nat with (S (m + i)) by lia.
    assert (X : forall (addrs : list Z) (f : nat -> list Z) k, length addrs = (m + n)%nat -> (k <= m + n)%nat ->
       (forall q, (q < k)%nat -> read_bytes mb (pa (nth q addrs 0)) tok = f q) ->
       firstn k (map (fun p0 => read_bytes mb p0 tok) (map pa addrs)) = map f (seq 0 k)).
    { clear. intros addrs f k E1 E2 E3. rewrite map_map. apply nth_ext with [] [].
      - rewrite firstn_length, !map_length, seq_length. lia.
      - intros q Hq. rewrite firstn_length, map_length in Hq. assert (q < k)%nat by lia.
        assert (NF : forall (A : Type) (d : A) (ll : list A), nth q (firstn k ll) d = nth q ll d).
        { intros A d. assert (Y : (q < k)%nat) by assumption. clear - Y. revert k Y.
          induction q as [|q IH]; intros [|k] Y ll; try lia; destruct ll as [|y ll]; cbn; auto. apply IH. lia. }
        rewrite NF. rewrite nth_indep with (d' := read_bytes mb (pa 0) tok) by (rewrite map_length; lia).
        rewrite (map_nth (fun a => read_bytes mb (pa a) tok)). rewrite E3 by assumption.
        rewrite nth_indep with (d' := f 0%nat) by (rewrite map_length, seq_length; lia).
        rewrite map_nth, seq_nth by lia. reflexivity. }
    f_equal.
    + apply X; [exact W1|lia|]. intros q Hq. exact (proj1 (proj2 (proj2 (W3 q ltac:(lia))))).
    + apply X; [exact W2|lia|]. intros q Hq. exact (proj2 (proj2 (proj2 (W3 q ltac:(lia))))).
  - split; [apply length_upd_nth|]. split; [apply length_upd_nth|]. split; [|exact LH].
    intros i Ne. unfold K', V'. rewrite !nth_upd_nth. destruct (Nat.eqb_spec j i); [congruence|]. cbn [andb]. auto.
Qed.

Lemma layers_ok : forall k j0 c held xs pos K V ts m n,
  ainv (c_alloc c) held -> Z.of_nat (length held) + 2 * Z.of_nat (k * n) + 2 * 2 ^ (p + l) < 2 ^ 32 + 1 ->
  length xs = n -> length pos = n -> length ts = (m + n)%nat ->
  (forall i, (i < n)%nat -> nth i xs (embed 0) = hidden j0 ts (m + i)) ->
  (forall i, (i < n)%nat -> nth i pos 0 = Z.of_nat (m + i)) ->
  (j0 + k <= length K)%nat -> (j0 + k <= length V)%nat ->
  (forall j, (j0 <= j < j0 + k)%nat -> good (c_mem c) held j ts m (nth j K []) (nth j V [])) ->
  exists c' xs' K' V' held',
    layers embed kproj vproj mix tok basep order (seq j0 k) c xs pos K V = ROk (c', xs', K', V') /\
    c_tree c' = c_tree c /\ ainv (c_alloc c') held' /\ incl held held' /\ keeps (c_mem c) (c_mem c') held /\
    length xs' = n /\ (forall i, (i < n)%nat -> nth i xs' (embed 0) = hidden (j0 + k) ts (m + i)) /\
    (forall j, (j0 <= j < j0 + k)%nat -> good (c_mem c') held' j ts (m + n) (nth j K' []) (nth j V' [])) /\
    (forall j, ~ (j0 <= j < j0 + k)%nat -> nth j K' [] = nth j K [] /\ nth j V' [] = nth j V []) /\
    length K' = length K /\ length V' = length V /\
    length held' = (length held + 2 * (k * n))%nat.
Proof.
  induction k as [|k IH]; intros j0 c held xs pos K V ts m n HA Hcap Lx Lp Lt Hx Hq HK' HV' HG.
  - exists c, xs, K, V, held. cbn [seq layers]. split; [reflexivity|]. split; [reflexivity|]. split; [exact HA|].
    split; [apply incl_refl|]. split; [intros a _; reflexivity|]. split; [exact Lx|].
    split; [rewrite Nat.add_0_r; exact Hx|]. split; [intros j Hj; lia|]. split; [intros; split; reflexivity|].
    split; [reflexivity|]. split; [reflexivity|lia].
  - cbn [seq layers].
    destruct (layer_ok j0 c held xs pos K V ts m n) as (c1 & x1 & K1 & V1 & h1 & E1 & T1 & A1 & I1 & P1 & L1 & X1 & G1 & LK & LV & O1 & S1); auto; try lia.
    { apply HG. lia. }
    rewrite E1. cbn [rbind].
    destruct (IH (S j0) c1 h1 x1 pos K1 V1 ts m n) as (c2 & x2 & K2 & V2 & h2 & E2 & T2 & A2 & I2 & P2 & L2 & X2 & G2 & O2 & LK2 & LV2 & S2); auto; try lia.
    { intros j Hj. destruct (O1 j) as (-> & ->); [lia|]. eapply good_keep; [apply HG; lia|exact P1|exact I1]. }
    exists c2, x2, K2, V2, h2. split; [exact E2|]. split; [congruence|]. split; [exact A2|].
    split; [eapply incl_tran; eauto|]. split; [eapply keeps_trans; eauto|]. split; [exact L2|].
    split; [intros i Hi; rewrite X2 by exact Hi; f_equal; lia|].
    split; [|split; [|split; [congruence|split; [congruence|lia]]]].
    + intros j Hj. destruct (Nat.eq_dec j j0) as [->|Ne]; [|apply G2; lia].
      destruct (O2 j0) as (-> & ->); [lia|]. eapply good_keep; eauto.
    + intros j Hj. destruct (O2 j) as (-> & ->); [lia|]. apply O1. lia.
Qed.

Notation next := (next L embed kproj vproj mix logits).
(** All layers. *)
Definition ready (m : memory) (held : list Z) (ts : list Z) (n : nat) (K V : list (list Z)) : Prop :=
  length K = L /\ length V = L /\ forall j, (j < L)%nat -> good m held j ts n (nth j K []) (nth j V []).

Lemma nth_positions m n i : (i < n)%nat -> nth i (map Z.of_nat (seq m n)) 0 = Z.of_nat (m + i).
Proof.
  intro Hi. rewrite (nth_indep _ 0 (Z.of_nat 0)) by (rewrite map_length, seq_length; exact Hi).
  rewrite map_nth, seq_nth by exact Hi. reflexivity.
Qed.

Lemma nth_skipn' {X} (ll : list X) m i d : nth i (skipn m ll) d = nth (m + i) ll d.
Proof. revert m; induction ll as [|x ll IH]; intros [|m]; cbn [skipn nth Nat.add]; auto; destruct i; auto; apply IH. Qed.

Lemma forward_ok c held ts m n pos K V :
  ainv (c_alloc c) held -> Z.of_nat (length held) + 2 * Z.of_nat (L * n) + 2 * 2 ^ (p + l) < 2 ^ 32 + 1 ->
  length ts = (m + n)%nat -> (1 <= n)%nat -> ready (c_mem c) held ts m K V ->
  (n = 1%nat -> last pos 0 + 1 = Z.of_nat m) -> (n <> 1%nat -> pos = map Z.of_nat (seq m n)) ->
  exists c' K' V' held',
    forward L embed kproj vproj mix logits tok basep order c (skipn m ts) pos K V =
      ROk (c', map Z.of_nat (seq m n), K', V', next ts) /\
    c_tree c' = c_tree c /\ ainv (c_alloc c') held' /\ incl held held' /\ keeps (c_mem c) (c_mem c') held /\
    ready (c_mem c') held' ts (m + n) K' V' /\ length held' = (length held + 2 * (L * n))%nat.
Proof.
  intros HA Hcap Lt Hn (LK & LV & HG) P1 P2. unfold forward.
  assert (Ls : length (skipn m ts) = n) by (rewrite skipn_length; lia).
  assert (EP : (if (length (skipn m ts) =? 1)%nat then [last pos 0 + 1] else pos) = map Z.of_nat (seq m n)).
  { rewrite Ls. destruct (Nat.eqb_spec n 1) as [E|E]; [|auto]. rewrite P1 by exact E. rewrite E. reflexivity. }
  cbv zeta. rewrite EP.
  destruct (layers_ok L 0 c held (map embed (skipn m ts)) (map Z.of_nat (seq m n)) K V ts m n)
    as (c1 & xs & K1 & V1 & h1 & E1 & T1 & A1 & I1 & Kp & L1 & X1 & G1 & _ & LK1 & LV1 & S1); auto; try lia.
  { rewrite map_length. exact Ls. }
  { rewrite map_length, seq_length. reflexivity. }
  { intros i Hi. rewrite map_nth, nth_skipn'. reflexivity. }
  { apply nth_positions. }
  { intros j Hj. apply HG. lia. }
  rewrite E1. cbn [rbind].
  destruct (rev xs) as [|x r] eqn:R; [apply (f_equal (@length H)) in R; rewrite rev_length in R; cbn in R; lia|].
  assert (Ex : x = hidden L ts (length ts - 1)).
  { assert (Exs : xs = rev r ++ [x]) by (rewrite <- (rev_involutive xs), R; reflexivity).
    assert (Lr : length (rev r) = (n - 1)%nat) by (apply (f_equal (@length H)) in Exs; rewrite app_length in Exs; cbn [length] in Exs; lia).
    specialize (X1 (n - 1)%nat ltac:(lia)). rewrite Exs, app_nth2, Lr, Nat.sub_diag in X1 by lia. cbn [nth Nat.add] in X1.
    rewrite X1. f_equal. lia. }
  exists c1, K1, V1, h1. split; [unfold SessSpec.next; rewrite <- Ex; reflexivity|].
  split; [exact T1|]. split; [exact A1|]. split; [exact I1|]. split; [exact Kp|]. split; [|exact S1].
  split; [congruence|]. split; [congruence|]. intros j Hj. apply G1. lia.
Qed.

Lemma ready_push m held ts t K V : ready m held ts (length ts) K V -> ready m held (ts ++ [t]) (length ts) K V.
Proof.
  intros (A & B & C). split; [exact A|]. split; [exact B|]. intros j Hj. destruct (C j Hj) as (D & E & F).
  split; [exact D|]. split; [exact E|]. intros i Hi. rewrite key_prefix, value_prefix by exact Hi. auto.
Qed.

Variable eos : Z.
Notation sampled := (sampled L embed kproj vproj mix logits eos).

Lemma stream_ok (rq : request G) : forall fuel i c held ts m n pos K V,
  ainv (c_alloc c) held -> Z.of_nat (length held) + 2 * Z.of_nat (L * (n + fuel)) + 2 * 2 ^ (p + l) < 2 ^ 32 + 1 ->
  length ts = (m + n)%nat -> (1 <= n)%nat -> ready (c_mem c) held ts m K V ->
  (n = 1%nat -> last pos 0 + 1 = Z.of_nat m) -> (n <> 1%nat -> pos = map Z.of_nat (seq m n)) ->
  (1 <= fuel)%nat -> rq_max rq = Z.of_nat (i + fuel) ->
  let a := sampled (rq_sample rq) fuel i ts in
  exists c' K' V' held',
    stream L embed kproj vproj mix logits tok basep order eos eos rq fuel i c (skipn m ts) pos K V ts =
      ROk (c', K', V', ts ++ removelast a, map (fun t => (Some t, false)) (removelast a) ++ [(None, true)]) /\
    c_tree c' = c_tree c /\ ainv (c_alloc c') held' /\ incl held held' /\ keeps (c_mem c) (c_mem c') held /\
    ready (c_mem c') held' (ts ++ removelast a) (length (ts ++ removelast a)) K' V' /\
    length held' = (length held + 2 * (L * (n + length (removelast a))))%nat.
Proof.
  induction fuel as [|fuel IH]; intros i c held ts m n pos K V HA Hcap Lt Hn HR P1 P2 Hf Hm; [lia|]. intro a.
  destruct (forward_ok c held ts m n pos K V HA ltac:(nia) Lt Hn HR P1 P2)
    as (c1 & K1 & V1 & h1 & E1 & T1 & A1 & I1 & Kp & R1 & S1).
  assert (RB : forall A B (x : A) (f : A -> res B), (do y <- ROk x; f y) = f x) by reflexivity.
  assert (ES : stream L embed kproj vproj mix logits tok basep order eos eos rq (S fuel) i c (skipn m ts) pos K V ts =
    let t := rq_sample rq i (next ts) in
    let '(full1, ch) := on_token eos (rq_max rq) i ts t in
    if t =? eos then ROk (c1, K1, V1, full1, [ch])
    else do z <- stream L embed kproj vproj mix logits tok basep order eos eos rq fuel (S i) c1 [t] (map Z.of_nat (seq m n)) K1 V1 full1;
         let '(c2, K2, V2, full2, chs) := z in ROk (c2, K2, V2, full2, ch :: chs)).
  { cbn [stream]. rewrite E1. reflexivity. }
  rewrite ES. clear ES E1. subst a. cbn [SessSpec.sampled]. cbv zeta. set (t := rq_sample rq i (next ts)).
  rewrite <- Lt in R1. unfold on_token.
  destruct (Z.eqb_spec t eos) as [Et|Et]; cbn [orb].
  - exists c1, K1, V1, h1. cbn [removelast]. rewrite app_nil_r. split; [reflexivity|].
    split; [exact T1|]. split; [exact A1|]. split; [exact I1|]. split; [exact Kp|]. split; [exact R1|]. cbn [length]. lia.
  - destruct (Z.leb_spec (rq_max rq) (Z.of_nat i + 1)) as [Le|Gt].
    + assert (fuel = O) by lia. subst fuel. cbn [stream rbind SessSpec.sampled removelast]. rewrite app_nil_r.
      exists c1, K1, V1, h1. split; [reflexivity|].
      split; [exact T1|]. split; [exact A1|]. split; [exact I1|]. split; [exact Kp|]. split; [exact R1|]. cbn [length]. lia.
    + destruct (IH (S i) c1 h1 (ts ++ [t]) (length ts) 1%nat (map Z.of_nat (seq m n)) K1 V1)
        as (c2 & K2 & V2 & h2 & E2 & T2 & A2 & I2 & Kp2 & R2 & S2); auto; try lia.
      * rewrite app_length. reflexivity.
      * apply ready_push, R1.
      * intros _. rewrite Lt. clear - Hn. destruct n as [|n]; [lia|]. rewrite seq_S, map_app. cbn [map].
        rewrite last_last. lia.
      * assert (SK : skipn (length ts) (ts ++ [t]) = [t]).
        { rewrite skipn_app, skipn_all, Nat.sub_diag. reflexivity. }
        rewrite SK in E2. rewrite E2. cbn [rbind].
        set (b := sampled (rq_sample rq) fuel (S i) (ts ++ [t])) in *.
        assert (Nb : b <> []).
        { unfold b. destruct fuel as [|fuel]; [lia|]. cbn [SessSpec.sampled]. cbv zeta. destruct (_ =? eos); discriminate. }
        assert (Rb : removelast (t :: b) = t :: removelast b).
        { destruct b; [congruence|reflexivity]. }
        rewrite Rb. exists c2, K2, V2, h2. rewrite <- app_assoc in E2, R2 |- *. cbn [app] in R2 |- *.
        split; [reflexivity|]. split; [congruence|]. split; [exact A2|].
        split; [eapply incl_tran; eauto|]. split; [eapply keeps_trans; eauto|]. split; [exact R2|].
        rewrite S2, S1. cbn [length]. nia.
Qed.
End Net.
