(** Whole sessions: the cache only ever holds reference K/V bytes, so replies are the reference replies. *)
From Verif Require Import Base DTypeModel ParamModel TensorModel RadixModel RadixSpec RadixProofs RadixHist ZenModel ZenProofs SessModel SessSpec SessAlloc SessProofs.
Local Open Scope Z_scope.

Lemma find_token_le t : forall s, (find_token t s <= length s)%nat.
Proof. induction s as [|x s IH]; cbn [find_token length]; [lia|]. destruct (x =? t); lia. Qed.
Lemma resize_firstn n s : (n <= length s)%nat -> resize n s = firstn n s.
Proof. intro Hn. unfold resize. replace (n - length s)%nat with O by lia. apply app_nil_r. Qed.
Lemma nth_firstn_lt {X} (ll : list X) n i d : (i < n)%nat -> nth i (firstn n ll) d = nth i ll d.
Proof. revert n i; induction ll as [|x ll IH]; intros [|n] [|i] Hi; cbn; auto; try lia. apply IH. lia. Qed.

Lemma nth_layer_lists f L cs j : (j < L)%nat -> nth j (layer_lists f L cs) [] = map (fun c => nth j (f c) 0) cs.
Proof.
  intro Hj. unfold layer_lists.
  set (F := fun j => map (fun c => nth j (f c) 0) cs).
  rewrite nth_indep with (d' := F 0%nat) by (rewrite map_length, seq_length; exact Hj).
  rewrite map_nth, seq_nth by exact Hj. reflexivity.
Qed.
Lemma nth_columns n K V i : (i < n)%nat ->
  nth_error (columns n K V) i = Some (mkCol (map (fun r => nth i r 0) K) (map (fun r => nth i r 0) V)).
Proof.
  intro Hi. unfold columns. rewrite nth_error_map.
  assert (E : nth_error (seq 0 n) i = Some i).
  { rewrite (nth_error_nth' (seq 0 n) 0%nat) by (rewrite seq_length; exact Hi). rewrite seq_nth by exact Hi. reflexivity. }
  rewrite E. reflexivity.
Qed.
Lemma nth_map_col (i : nat) (K : list (list Z)) j : (j < length K)%nat -> nth j (map (fun r => nth i r 0) K) 0 = nth i (nth j K []) 0.
Proof.
  intro Hj. rewrite nth_indep with (d' := nth i [] 0) by (rewrite map_length; exact Hj).
  rewrite (map_nth (fun r => nth i r 0)). reflexivity.
Qed.

Section Net.
Context {H G : Type}.
Variable L : nat.
Variable embed : Z -> H.
Variable kproj vproj : nat -> H -> Z -> list Z.
Variable mix : nat -> H -> Z -> list (list Z) -> list (list Z) -> H.
Variable logits : H -> G.
Variables (p l : Z) (tok : nat) (basep : Z -> Z) (order : nat -> zenfs -> list Z).
Variables eos think : Z.
Notation ainv := (ainv p l tok basep).
Notation pa := (pa p l tok basep).
Notation key_of := (key_of embed kproj vproj mix).
Notation value_of := (value_of embed kproj vproj mix).
Notation ready := (ready L embed kproj vproj mix p l tok basep).
Notation keeps := (keeps p l tok basep).
Notation answer := (answer L embed kproj vproj mix logits eos).
Notation reply := (reply L embed kproj vproj mix logits eos).
Notation kept := (kept L embed kproj vproj mix logits eos think).
Notation respond := (respond L embed kproj vproj mix logits tok basep order eos eos think).
Notation serve := (serve L embed kproj vproj mix logits tok basep order eos eos think).

(** Token [i] of [ts] has its K/V bytes in the lanes of column [c]. *)
Definition col_ok (m : memory) (held : list Z) (ts : list Z) (i : nat) (c : col) : Prop :=
  forall j, (j < L)%nat -> In (nth j (ck c) 0) held /\ In (nth j (cv c) 0) held /\
    read_bytes m (pa (nth j (ck c) 0)) tok = key_of j ts i /\ read_bytes m (pa (nth j (cv c) 0)) tok = value_of j ts i.
Definition sinv (c : cache) (held : list Z) (h : list entry) : Prop :=
  ainv (c_alloc c) held /\ tree_after h (c_tree c) /\ clean_history h /\
  forall x, In x h -> e_extra x = 0 /\ length (e_vals x) = length (e_toks x) /\
    forall i cc, nth_error (e_vals x) i = Some cc -> col_ok (c_mem c) held (e_toks x) i cc.

Lemma col_keep m m' held held' ts i c : col_ok m held ts i c -> keeps m m' held -> incl held held' -> col_ok m' held' ts i c.
Proof.
  intros C Kp I j Hj. destruct (C j Hj) as (A & B & D & E).
  split; [apply I, A|]. split; [apply I, B|]. rewrite (Kp _ A), (Kp _ B). auto.
Qed.

(** What a search finds. *)
Lemma found_ok c held h q : sinv c held h -> clean_query h 0 q ->
  forall i cc, nth_error (r_addrs (RadixModel.search (c_tree c) 0 q)) i = Some cc -> col_ok (c_mem c) held q i cc.
Proof.
  intros (_ & HT & CH & HE) CQ i cc E.
  destruct (search_sizes_all h (c_tree c) 0 q HT) as (S1 & S2 & _).
  assert (Hi : (i < r_matched (RadixModel.search (c_tree c) 0 q))%nat).
  { rewrite <- S2. apply nth_error_Some. rewrite E. discriminate. }
  destruct (search_addresses h (c_tree c) 0 q i HT CH CQ Hi) as (x & c0 & (h1 & h2 & Eh & Ex & Px & _) & V0 & A0).
  rewrite E in A0. injection A0 as <-.
  assert (Hx : In x h) by (rewrite Eh; apply in_or_app; right; left; reflexivity).
  destruct (HE x Hx) as (_ & _ & HC). specialize (HC i cc V0). destruct Px as (rest & Er).
  assert (Lf : length (firstn (S i) q) = S i) by (rewrite firstn_length; lia).
  intros j Hj. destruct (HC j Hj) as (A & B & C & D). split; [exact A|]. split; [exact B|].
  assert (Lt : (i < length (firstn (S i) q))%nat) by (rewrite Lf; constructor).
  pose proof (firstn_skipn (S i) q) as FS.
  assert (KE : key_of j (e_toks x) i = key_of j q i).
  { rewrite Er. transitivity (key_of j (firstn (S i) q) i); [apply key_prefix, Lt|].
    transitivity (key_of j (firstn (S i) q ++ skipn (S i) q) i); [symmetry; apply key_prefix, Lt|]. rewrite FS. reflexivity. }
  assert (VE : value_of j (e_toks x) i = value_of j q i).
  { rewrite Er. transitivity (value_of j (firstn (S i) q) i); [apply value_prefix, Lt|].
    transitivity (value_of j (firstn (S i) q ++ skipn (S i) q) i); [symmetry; apply value_prefix, Lt|]. rewrite FS. reflexivity. }
  rewrite C, D, KE, VE. auto.
Qed.

Lemma found_ready c held h q : sinv c held h -> clean_query h 0 q ->
  let r := RadixModel.search (c_tree c) 0 q in
  ready (c_mem c) held q (r_matched r) (layer_lists ck L (r_addrs r)) (layer_lists cv L (r_addrs r)).
Proof.
  intros HI CQ r. pose proof (found_ok c held h q HI CQ) as F. fold r in F. destruct HI as (_ & HT & _).
  destruct (search_sizes_all h (c_tree c) 0 q HT) as (_ & S2 & _). fold r in S2.
  split; [unfold layer_lists; rewrite map_length; apply seq_length|].
  split; [unfold layer_lists; rewrite map_length; apply seq_length|].
  intros j Hj. rewrite !nth_layer_lists by exact Hj. split; [rewrite map_length; exact S2|]. split; [rewrite map_length; exact S2|].
  intros i Hi. destruct (nth_error (r_addrs r) i) as [cc|] eqn:E; [|apply nth_error_None in E; lia].
  pose proof (F i cc E j Hj) as X.
  assert (Y : forall f : col -> list Z, nth i (map (fun c => nth j (f c) 0) (r_addrs r)) 0 = nth j (f cc) 0).
  { intro f. rewrite nth_indep with (d' := nth j (f cc) 0) by (rewrite map_length; lia).
    rewrite (map_nth (fun c => nth j (f c) 0)). rewrite (nth_error_nth (r_addrs r) i cc E). reflexivity. }
  rewrite !Y. exact X.
Qed.

Hypothesis Hp : 0 <= p.
Hypothesis Hl : 0 <= l.
Hypothesis Hord : walks_all order.
Hypothesis Hap : apart basep (2 ^ (p + l) * Z.of_nat tok).
Hypothesis HK : forall j x q, length (kproj j x q) = tok.
Hypothesis HV : forall j x q, length (vproj j x q) = tok.

Lemma removelast_firstn' {X} (ll : list X) : removelast ll = firstn (length ll - 1) ll.
Proof.
  destruct ll as [|x ll] using rev_ind; [reflexivity|]. rewrite removelast_last, app_length. cbn [length].
  replace (length ll + 1 - 1)%nat with (length ll) by lia. rewrite firstn_app, Nat.sub_diag, firstn_O, app_nil_r, firstn_all. reflexivity.
Qed.

Lemma sampled_len (pick : nat -> G -> Z) : forall n i ts,
  (length (sampled L embed kproj vproj mix logits eos pick n i ts) <= n)%nat.
Proof. induction n as [|n IH]; intros i ts; cbn [sampled]; [reflexivity|]. cbv zeta. destruct (_ =? eos); cbn [length]; [lia|]. specialize (IH (S i)). apply le_n_S, IH. Qed.

Lemma respond_ok c held h (rq : request G) :
  sinv c held h -> 1 <= rq_max rq -> (2 <= length (rq_ids rq))%nat ->
  (forall x, In x h -> ~ prefix (removelast (rq_ids rq)) (e_toks x) /\ parts_cleanly (rq_ids rq) (e_toks x) /\
                       parts_cleanly (kept rq) (e_toks x)) ->
  Z.of_nat (length held) + 2 * Z.of_nat L * (Z.of_nat (length (rq_ids rq)) + rq_max rq) + 2 * 2 ^ (p + l) < 2 ^ 32 + 1 ->
  exists c' held' cols, respond c rq = ROk (c', reply rq) /\
    sinv c' held' (h ++ [mkEntry 0 (kept rq) cols]) /\
    (length held' = length held + 2 * (L * (length (rq_ids rq) + length (removelast (answer rq)) - r_matched (RadixModel.search (c_tree c) 0 (rq_ids rq)))))%nat.
Proof.
  intros HI Hmax Hlen Hcond Hcap. set (q := rq_ids rq) in *.
  assert (CQ : clean_query h 0 q) by (intros x Hx _; exact (proj1 (proj2 (Hcond x Hx)))).
  pose proof (found_ready c held h q HI CQ) as FR. cbv zeta in FR.
  pose proof HI as (HA & HT & CH & HE).
  destruct (search_sizes_all h (c_tree c) 0 q HT) as (S1 & S2 & _).
  set (r := RadixModel.search (c_tree c) 0 q) in *. set (m := r_matched r) in *. set (n := (length q - m)%nat).
  assert (Hn : (2 <= n)%nat).
  { destruct (Nat.lt_ge_cases 1 n) as [Y|Y]; [lia|exfalso].
    assert (Hm : (0 < m)%nat) by (unfold n in Y; lia).
    destruct (search_genuine h (c_tree c) 0 q HT CH CQ Hm) as (x & Hx & _ & (rest & Px)).
    fold r in Px. fold m in Px.
    apply (proj1 (Hcond x Hx)). rewrite removelast_firstn'.
    exists (skipn (length q - 1) (firstn m q) ++ rest). rewrite Px, app_assoc. f_equal.
    rewrite <- (firstn_skipn (length q - 1) (firstn m q)) at 1. f_equal. rewrite firstn_firstn. f_equal.
    unfold n in Y. lia. }
  assert (Emax : rq_max rq = Z.of_nat (0 + Z.to_nat (rq_max rq))) by lia.
  destruct (stream_ok L embed kproj vproj mix logits p l tok basep order Hp Hl Hord Hap HK HV eos rq (Z.to_nat (rq_max rq)) 0
    c held q m n (map Z.of_nat (seq m n)) (layer_lists ck L (r_addrs r)) (layer_lists cv L (r_addrs r)))
    as (c1 & K & V & h1 & E1 & T1 & A1 & I1 & Kp & R1 & L1); auto; try lia.
  change (sampled L embed kproj vproj mix logits eos (rq_sample rq) (Z.to_nat (rq_max rq)) 0 q) with (answer rq) in E1, R1, L1.
  unfold SessModel.respond. cbv zeta. fold q. fold r. fold m. fold n. rewrite E1. cbn [rbind].
  set (full := q ++ removelast (answer rq)) in *. set (k := find_token think full) in *.
  pose proof (find_token_le think full) as Hk. fold k in Hk.
  rewrite (resize_firstn k full Hk). fold q in full.
  assert (EK : kept rq = firstn k full) by reflexivity.
  destruct R1 as (LK & LV & RG).
  set (cols := columns k (map (resize k) K) (map (resize k) V)).
  assert (Lc : length cols = k) by (unfold cols, columns; rewrite map_length; apply seq_length).
  assert (Lk : length (firstn k full) = k) by (rewrite firstn_length; lia).
  assert (INS : exists t, insert (c_tree c1) 0 (firstn k full) cols = Some t).
  { unfold insert. destruct (firstn k full) as [|y ys] eqn:Ef; [eauto|]. rewrite Lc.
    destruct (Nat.ltb_spec k (length (y :: ys))); [lia|eauto]. }
  destruct INS as (t & INS). rewrite INS.
  exists (mkCache t (c_alloc c1) (c_mem c1) (c_walks c1)), h1, cols. split; [reflexivity|]. split.
  - split; [exact A1|]. split; [|split].
    + unfold tree_after. rewrite run_inserts_snoc. rewrite HT. cbn [e_extra e_toks e_vals]. rewrite <- T1, EK. exact INS.
    + intros g1 x g2 Eg.
      destruct g2 as [|y g2] using rev_ind.
      * apply app_inj_tail in Eg as (Eg & Ex). subst x g1. intros y Hy _. cbn [e_toks]. apply Hcond, Hy.
      * clear IHg2. assert (Eg' : h ++ [mkEntry 0 (kept rq) cols] = (g1 ++ x :: g2) ++ [y]) by (rewrite <- app_assoc; exact Eg).
        apply app_inj_tail in Eg' as (Eg' & _). exact (CH g1 x g2 Eg').
    + intros x Hx. apply in_app_or in Hx as [Hx|[<-|[]]].
      * destruct (HE x Hx) as (X1 & X2 & X3). split; [exact X1|]. split; [exact X2|].
        intros i cc Ecc. eapply col_keep; [apply X3, Ecc|exact Kp|exact I1].
      * cbn [e_extra e_toks e_vals]. rewrite EK. split; [reflexivity|]. split; [lia|]. intros i cc Ecc.
        assert (Hi : (i < k)%nat) by (rewrite <- Lc; apply nth_error_Some; rewrite Ecc; discriminate).
        unfold cols in Ecc. rewrite nth_columns in Ecc by exact Hi. injection Ecc as <-.
        intros j Hj. cbn [ck cv c_mem]. rewrite !nth_map_col by (rewrite map_length; lia).
        destruct (RG j Hj) as (G1 & G2 & G3). destruct (G3 i ltac:(lia)) as (A & B & C & D).
        assert (Y : forall M : list (list Z), length M = L -> length (nth j M []) = length full ->
                  nth i (nth j (map (resize k) M) []) 0 = nth i (nth j M []) 0).
        { intros M LM LL. rewrite nth_indep with (d' := resize k []) by (rewrite map_length; lia). rewrite map_nth.
          rewrite resize_firstn by lia. apply nth_firstn_lt, Hi. }
        rewrite !Y by auto. split; [exact A|]. split; [exact B|]. rewrite C, D.
        unfold SessSpec.key_of, SessSpec.value_of. rewrite hidden_firstn by lia. auto.
  - rewrite L1. unfold n. f_equal. f_equal. f_equal. fold q. lia.
Qed.

(** Servable requests, one after the other, from any state of the session. *)
Lemma serve_ok : forall rs before c held h,
  sinv c held h -> map e_toks h = map kept before ->
  servable L embed kproj vproj mix logits eos think (before ++ rs) ->
  Z.of_nat (length held) + lanes_needed L rs + 2 * 2 ^ (p + l) < 2 ^ 32 + 1 ->
  exists c' held' h', serve c rs = ROk (c', map reply rs) /\ sinv c' held' h' /\ map e_toks h' = map kept (before ++ rs) /\
    Z.of_nat (length held') <= Z.of_nat (length held) + lanes_needed L rs.
Proof.
  induction rs as [|rq rs IH]; intros before c held h HI Hh HS Hcap.
  - exists c, held, h. rewrite app_nil_r. cbn. split; [reflexivity|]. split; [exact HI|]. split; [exact Hh|lia].
  - destruct (HS before rq rs eq_refl) as (M1 & M2 & M3).
    cbn [lanes_needed fold_right] in Hcap |- *. fold (lanes_needed L rs) in Hcap |- *.
    assert (LN : 0 <= lanes_needed L rs).
    { assert (Hpos : forall r', In r' rs -> 1 <= rq_max r').
      { intros r' Hr. apply in_split in Hr as (a & b & ->).
        apply (HS (before ++ rq :: a) r' b). rewrite <- app_assoc. reflexivity. }
      clear - Hpos. induction rs as [|r' rs IH]; cbn [lanes_needed fold_right]; [lia|]. fold (lanes_needed L rs).
      specialize (Hpos r' (or_introl eq_refl)) as X. specialize (IH (fun r0 Hr => Hpos r0 (or_intror Hr))).
      assert (0 <= Z.of_nat L * (Z.of_nat (length (rq_ids r')) + rq_max r')) by (apply Z.mul_nonneg_nonneg; lia). lia. }
    destruct (respond_ok c held h rq) as (c1 & h1 & cols & E1 & I1 & S1); auto.
    { intros x Hx. apply M3. rewrite <- Hh. apply in_map, Hx. }
    { lia. }
    assert (LA : (length (removelast (answer rq)) <= Z.to_nat (rq_max rq))%nat).
    { rewrite removelast_firstn', firstn_length. pose proof (sampled_len (rq_sample rq) (Z.to_nat (rq_max rq)) 0 (rq_ids rq)). unfold SessSpec.answer. lia. }
    assert (LB : Z.of_nat (length h1) <= Z.of_nat (length held) + 2 * Z.of_nat L * (Z.of_nat (length (rq_ids rq)) + rq_max rq)).
    { rewrite S1. clear - LA M1. set (w := r_matched _). set (u := length (rq_ids rq)) in *. set (v := length (removelast (answer rq))) in *.
      assert (Z.of_nat (L * (u + v - w)) <= Z.of_nat L * (Z.of_nat u + rq_max rq)).
      { rewrite Nat2Z.inj_mul. apply Z.mul_le_mono_nonneg_l; lia. } lia. }
    destruct (IH (before ++ [rq]) c1 h1 (h ++ [mkEntry 0 (kept rq) cols])) as (c2 & h2 & hh & E2 & I2 & Eh & S2); auto.
    + rewrite !map_app, Hh. reflexivity.
    + rewrite <- app_assoc. exact HS.
    + lia.
    + exists c2, h2, hh. split; [cbn [SessModel.serve map]; rewrite E1; cbn [rbind]; rewrite E2; reflexivity|].
      split; [exact I2|]. split; [rewrite Eh, <- app_assoc; reflexivity|lia].
Qed.

Lemma fresh_ok mem c : fresh p l mem = Some c -> 6 <= p + l -> sinv c [] [].
Proof.
  intros E H6. unfold fresh in E. destruct (zen_init p l MAnonymous) as [z|] eqn:Ez; [|discriminate]. injection E as <-.
  destruct (zinit_inv p l z H6 Ez) as (I & E1 & E2 & E3). split.
  - split; [exact I|]. split; [exact E3|]. split; [exact E1|]. split; [exact E2|]. split; [reflexivity|].
    cbn [c_alloc pc_zen length]. unfold zen_init in Ez. destruct (_ && _ && _); [|discriminate]. injection Ez as <-. cbn [z_blobs length]. lia.
  - split; [reflexivity|]. split; [|intros x []]. intros h1 x h2 E. destruct h1; discriminate.
Qed.
End Net.

(** The protocol of a reply, whatever the cache holds. *)
Section Protocol.
Context {H G : Type}.
Variable L : nat.
Variable embed : Z -> H.
Variable kproj vproj : nat -> H -> Z -> list Z.
Variable mix : nat -> H -> Z -> list (list Z) -> list (list Z) -> H.
Variable logits : H -> G.
Variables (tok : nat) (basep : Z -> Z) (order : nat -> zenfs -> list Z).

Lemma stream_step eos (rq : request G) f i c ids pos K V full :
  stream L embed kproj vproj mix logits tok basep order eos eos rq (S f) i c ids pos K V full =
  (do y <- forward L embed kproj vproj mix logits tok basep order c ids pos K V; let '(c1, pos1, K1, V1, g) := y in
   let t := rq_sample rq i g in
   let '(full1, ch) := on_token eos (rq_max rq) i full t in
   if t =? eos then ROk (c1, K1, V1, full1, [ch])
   else do z <- stream L embed kproj vproj mix logits tok basep order eos eos rq f (S i) c1 [t] pos1 K1 V1 full1;
        let '(c2, K2, V2, full2, chs) := z in ROk (c2, K2, V2, full2, ch :: chs)).
Proof. reflexivity. Qed.
Lemma stream_protocol eos (rq : request G) : forall f i c ids pos K V full c' K' V' full' chs,
  Z.of_nat (i + S f) = rq_max rq ->
  stream L embed kproj vproj mix logits tok basep order eos eos rq (S f) i c ids pos K V full = ROk (c', K', V', full', chs) ->
  exists ts, chs = map (fun t => (Some t, false)) ts ++ [(None, true)] /\ (length ts <= f)%nat /\ ~ In eos ts /\ full' = full ++ ts.
Proof.
  induction f as [|f IH]; intros i c ids pos K V full c' K' V' full' chs Hm E; rewrite stream_step in E;
    (destruct (forward _ _ _ _ _ _ _ _ _ c ids pos K V) as [[[[[c1 p1] K1] V1] g]| | |] eqn:F; try discriminate E);
    cbn [rbind] in E; cbv zeta in E; unfold on_token in E.
  - assert (B : (rq_max rq <=? Z.of_nat i + 1) = true) by (apply Z.leb_le; lia). rewrite B, orb_true_r in E.
    assert (X : full' = full /\ chs = [(None, true)]).
    { destruct (rq_sample rq i g =? eos); cbn [rbind stream] in E; inversion E; auto. }
    destruct X as (-> & ->). exists []. rewrite app_nil_r. cbn. split; [reflexivity|]. split; [lia|]. auto.
  - assert (B : (rq_max rq <=? Z.of_nat i + 1) = false) by (apply Z.leb_gt; lia). rewrite B, orb_false_r in E.
    destruct (rq_sample rq i g =? eos) eqn:Ee.
    + inversion E; subst. exists []. rewrite app_nil_r. cbn. split; [reflexivity|]. split; [lia|]. auto.
    + destruct (stream L embed kproj vproj mix logits tok basep order eos eos rq (S f) (S i) c1 [rq_sample rq i g] p1 K1 V1 (full ++ [rq_sample rq i g]))
        as [[[[[c2 K2] V2] f2] ch2]| | |] eqn:St; try discriminate E. cbn [rbind] in E. injection E as _ _ _ <- <-.
      destruct (IH (S i) c1 _ _ _ _ _ _ _ _ _ _ ltac:(lia) St) as (ts & -> & Ht & Hn & ->).
      exists (rq_sample rq i g :: ts). split; [reflexivity|]. split; [cbn; lia|]. split.
      * intros [X|X]; [lia|auto].
      * rewrite <- app_assoc. reflexivity.
Qed.
Lemma respond_protocol eos think c (rq : request G) c' chs : 1 <= rq_max rq ->
  respond L embed kproj vproj mix logits tok basep order eos eos think c rq = ROk (c', chs) ->
  exists ts, chs = map (fun t => (Some t, false)) ts ++ [(None, true)] /\ Z.of_nat (length ts) < rq_max rq /\ ~ In eos ts.
Proof.
  intros Hm E. unfold respond in E. cbv zeta in E.
  replace (Z.to_nat (rq_max rq)) with (S (Z.to_nat (rq_max rq) - 1)) in E by lia.
  destruct (stream _ _ _ _ _ _ _ _ _ _ _ rq _ 0 c _ _ _ _ _) as [[[[[c1 K] V] f1] ch]| | |] eqn:St; try discriminate E.
  cbn [rbind] in E. destruct (insert _ _ _ _); [|discriminate]. injection E as _ <-.
  assert (Q : Z.of_nat (0 + S (Z.to_nat (rq_max rq) - 1)) = rq_max rq) by lia.
  destruct (stream_protocol eos rq _ 0 _ _ _ _ _ _ _ _ _ _ _ Q St) as (ts & E1 & E2 & E3 & _).
  exists ts. split; [exact E1|]. split; [lia|exact E3].
Qed.
End Protocol.
