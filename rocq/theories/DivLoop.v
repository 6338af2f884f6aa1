(** The element-wise loops write every element once. *)
From Verif Require Import Base DTypeModel VlModel VlProofs DivModel.
From Verif Require AotModel.
Local Open Scope nat_scope.

Lemma while_ok {S} (c : nat -> bool) step (body : nat -> S -> res S) : forall m fuel i s, m <= fuel -> (forall j, j < m -> c (i + j * step) = true) -> c (i + m * step) = false ->
  while_do fuel c step body i s = (do s' <- for_up m 0 (fun j => body (i + j * step)) s; ROk (i + m * step, s')).
Proof.
  assert (SH : forall m k s (f : nat -> S -> res S), for_up m (Datatypes.S k) f s = for_up m k (fun j => f (Datatypes.S j)) s).
  { induction m as [|m IH]; intros k s f; cbn [AotModel.for_up]; [reflexivity|]. destruct (f (Datatypes.S k) s); cbn [rbind]; auto. }
  assert (EX : forall m k s (f g : nat -> S -> res S), (forall j s, f j s = g j s) -> for_up m k f s = for_up m k g s).
  { induction m as [|m IH]; intros k s f g H; cbn [AotModel.for_up]; [reflexivity|]. rewrite H. destruct (g k s); cbn [rbind]; auto. }
  induction m as [|m IH]; intros fuel i s Hf Hc Hn.
  - cbn [Nat.mul] in *. rewrite Nat.add_0_r in *. destruct fuel; cbn [while_do AotModel.for_up rbind]; rewrite Hn; reflexivity.
  - destruct fuel as [|fuel]; [lia|]. cbn [while_do AotModel.for_up]. assert (C0 := Hc 0 ltac:(lia)). cbn [Nat.mul] in C0. rewrite Nat.add_0_r in C0. rewrite C0.
    cbn [Nat.mul]. rewrite Nat.add_0_r. destruct (body i s) as [s1| | |]; cbn [rbind]; try reflexivity. rewrite (IH fuel (i + step) s1).
    + rewrite SH. rewrite (EX m 0 s1 (fun j => body (i + step + j * step)) (fun j => body (i + Datatypes.S j * step))); [|intros j s0; f_equal; cbn [Nat.mul]; lia].
      replace (i + (step + m * step)) with (i + step + m * step) by lia. reflexivity.
    + lia.
    + intros j Hj. replace (i + step + j * step) with (i + Datatypes.S j * step) by (cbn [Nat.mul]; lia). apply Hc. lia.
    + replace (i + step + m * step) with (i + Datatypes.S m * step) by (cbn [Nat.mul]; lia). exact Hn.
Qed.

Definition block {A} (h : nat -> A) (s n : nat) : list (nat * A) := map (fun p => (p, h p)) (seq s n).
Lemma block_app {A} (h : nat -> A) s n m : block h s n ++ block h (s + n) m = block h s (n + m).
Proof. unfold block. rewrite seq_app, map_app. reflexivity. Qed.
Lemma does_seq {A} (f g : list A -> res (list A)) u v : does f u -> does g v -> does (fun b => do b <- f b; g b) (u ++ v).
Proof. intros Hf Hg b b' E. destruct (put_all_inv _ _ _ _ E) as (b1 & E1 & E2). rewrite (Hf _ _ E1). cbn [rbind]. apply Hg. exact E2. Qed.
Lemma does_blocks {A} (body : nat -> list A -> res (list A)) (h : nat -> A) s w n : (forall j, j < n -> does (body j) (block h (s + j * w) w)) ->
  does (for_up n 0 body) (block h s (n * w)).
Proof.
  intro H. assert (D := does_loop body (fun j => block h (s + j * w) w) n 0 ltac:(intros j Hj; apply H; lia)).
  replace (block h s (n * w)) with (flat_map (fun j => block h (s + j * w) w) (seq 0 n)); [exact D|]. clear.
  induction n as [|n IH]; [reflexivity|]. rewrite seq_S, flat_map_app, IH. cbn [flat_map]. rewrite app_nil_r. rewrite block_app. f_equal. cbn [Nat.mul]. lia.
Qed.

Section Loops.
Context {A : Type} (vop : A -> A -> A) (sop : A -> A -> res A) (lanes unroll : nat) (a b : list A) (h : nat -> A).
(** Vector and scalar code give [h] for the elements at [p]. *)
Definition vec_good (p : nat) : Prop := exists x y, nth_error a p = Some x /\ nth_error b p = Some y /\ vop x y = h p.
Definition scalar_good (p : nat) : Prop := exists x y, nth_error a p = Some x /\ nth_error b p = Some y /\ sop x y = ROk (h p).
Lemma vec_does p : (forall l, l < lanes -> vec_good (p + l)) -> does (vec_step vop lanes a b p) (block h p lanes).
Proof.
  intro H. unfold vec_step. replace (block h p lanes) with (block h p (lanes * 1)) by (rewrite Nat.mul_1_r; reflexivity). apply does_blocks.
  intros l Hl. destruct (H l Hl) as (x & y & Ex & Ey & Eh). unfold block. cbn [seq map]. replace (p + l * 1) with (p + l) by lia.
  eapply does_ext; [|apply does_one]. intro d. cbv beta. rewrite (rd_ok _ _ _ Ex). cbn [rbind]. rewrite (rd_ok _ _ _ Ey). cbn [rbind]. rewrite Eh. reflexivity.
Qed.
Lemma scalar_does p : scalar_good p -> does (scalar_step sop a b p) (block h p 1).
Proof.
  intros (x & y & Ex & Ey & Eh). unfold block. cbn [seq map]. eapply does_ext; [|apply does_one]. intro d. unfold scalar_step.
  rewrite (rd_ok _ _ _ Ex). cbn [rbind]. rewrite (rd_ok _ _ _ Ey). cbn [rbind]. rewrite Eh. reflexivity.
Qed.
Lemma ew_does o size : 0 < lanes -> 0 < unroll -> (forall i, i < vec_size lanes size -> vec_good (o + i)) -> (forall i, vec_size lanes size <= i < size -> scalar_good (o + i)) ->
  does (ew_loop vop sop lanes unroll a b o size) (block h o size).
Proof.
  intros Hl Hu Hv Hs. unfold ew_loop. set (vec := vec_size lanes size) in *.
  assert (V : vec = size / lanes * lanes) by reflexivity. assert (VS : vec <= size) by (rewrite V; rewrite Nat.mul_comm; apply Nat.mul_div_le; lia).
  set (w := lanes * unroll) in *. assert (W : 0 < w) by (unfold w; apply Nat.mul_pos_pos; assumption).
  set (m := vec / w). assert (M1 : m * w <= vec) by (unfold m; rewrite Nat.mul_comm; apply Nat.mul_div_le; lia).
  assert (M2 : vec < m * w + w). { assert (X := Nat.mul_succ_div_gt vec w ltac:(lia)). fold m in X. rewrite Nat.mul_comm in X. cbn [Nat.mul] in X. lia. }
  set (n := (vec - m * w) / lanes).
  assert (N : m * w + n * lanes = vec).
  { assert (X : vec - m * w = (size / lanes - m * unroll) * lanes) by (rewrite V, Nat.mul_sub_distr_r; unfold w; f_equal; lia).
    unfold n. rewrite X, Nat.div_mul by lia. rewrite <- X. lia. }
  assert (mf : m <= size). { apply Nat.le_trans with (m * w); [|lia]. rewrite <- (Nat.mul_1_r m) at 1. apply Nat.mul_le_mono_l. lia. }
  assert (nf : n <= size). { apply Nat.le_trans with (n * lanes); [|lia]. rewrite <- (Nat.mul_1_r n) at 1. apply Nat.mul_le_mono_l. lia. }
  intros d d' E.
  replace (block h o size) with (block h o (m * w) ++ block h (o + m * w) (n * lanes) ++ block h (o + vec) ((size - vec) * 1)) in E.
  2: { replace (o + vec) with (o + m * w + n * lanes) by lia. rewrite block_app. rewrite block_app. f_equal. lia. }
  destruct (put_all_inv _ _ _ _ E) as (d1 & E1 & E'). destruct (put_all_inv _ _ _ _ E') as (d2 & E2 & E3).
  (* unrolled *)
  assert (D1 : does (for_up m 0 (fun j d => for_up unroll 0 (fun u d => vec_step vop lanes a b (o + (0 + j * w + u * lanes)) d) d)) (block h o (m * w))).
  { apply does_blocks. intros j Hj. replace (block h (o + j * w) w) with (block h (o + j * w) (unroll * lanes)) by (f_equal; unfold w; lia).
    apply does_blocks. intros u Hu'. replace (o + (0 + j * w + u * lanes)) with (o + j * w + u * lanes) by lia. apply vec_does.
    intros l Hl'. replace (o + j * w + u * lanes + l) with (o + (j * w + (u * lanes + l))) by lia. apply Hv.
    assert (u * lanes + l < w) by (unfold w; rewrite (Nat.mul_comm lanes); apply index_bound; lia).
    apply Nat.lt_le_trans with (m * w); [apply index_bound; assumption|exact M1]. }
  assert (D2 : does (for_up n 0 (fun j d => vec_step vop lanes a b (o + (0 + m * w + j * lanes)) d)) (block h (o + m * w) (n * lanes))).
  { apply does_blocks. intros j Hj. replace (o + (0 + m * w + j * lanes)) with (o + m * w + j * lanes) by lia. apply vec_does.
    intros l Hl'. replace (o + m * w + j * lanes + l) with (o + (m * w + (j * lanes + l))) by lia. apply Hv.
    assert (j * lanes + l < n * lanes) by (apply index_bound; assumption). lia. }
  assert (D3 : does (for_up (size - vec) 0 (fun j d => scalar_step sop a b (o + (0 + m * w + n * lanes + j * 1)) d)) (block h (o + vec) ((size - vec) * 1))).
  { apply does_blocks. intros j Hj. replace (o + (0 + m * w + n * lanes + j * 1)) with (o + vec + j * 1) by lia. apply scalar_does. replace (o + vec + j * 1) with (o + (vec + j)) by lia. apply Hs. lia. }
  rewrite (while_ok _ w _ m).
  2: lia.
  2: { intros j Hj. assert (j * w + w <= m * w). { replace (j * w + w) with (S j * w) by (cbn [Nat.mul]; lia). apply Nat.mul_le_mono_r. lia. } apply Nat.leb_le. lia. }
  2: { apply Nat.leb_gt. lia. }
  rewrite (D1 _ _ E1). cbn [rbind fst snd]. rewrite (while_ok _ lanes _ n).
  2: lia.
  2: { intros j Hj. assert (j * lanes + lanes <= n * lanes). { replace (j * lanes + lanes) with (S j * lanes) by (cbn [Nat.mul]; lia). apply Nat.mul_le_mono_r. lia. } apply Nat.ltb_lt. lia. }
  2: { apply Nat.ltb_ge. lia. }
  rewrite (D2 _ _ E2). cbn [rbind fst snd]. rewrite (while_ok _ 1 _ (size - vec)).
  2: lia.
  2: { intros j Hj. apply Nat.ltb_lt. lia. }
  2: { apply Nat.ltb_ge. lia. }
  rewrite (D3 _ _ E3). reflexivity.
Qed.

(** ** Chunks *)
Lemma vec_of_multiple k : 0 < lanes -> vec_size lanes (k * lanes) = k * lanes.
Proof. intro H. unfold vec_size. rewrite Nat.div_mul by lia. reflexivity. Qed.
Lemma starts_ok lim step : 0 < step -> forall fuel i, lim - i <= fuel ->
  (forall s, In s (starts fuel i lim step) -> exists j, s = i + j * step /\ s < lim) /\
  (forall p, i <= p < lim -> exists s, In s (starts fuel i lim step) /\ s <= p < s + step).
Proof.
  intro Hs. induction fuel as [|fuel IH]; intros i Hf.
  - split; [intros s []|intros p Hp; lia].
  - cbn [starts]. destruct (i <? lim) eqn:E.
    + destruct (IH (i + step)) as [I1 I2]; [lia|]. split.
      * intros s [<-|I]; [exists 0; lia|]. destruct (I1 s I) as (j & -> & L). exists (S j). split; [cbn [Nat.mul]; lia|exact L].
      * intros p Hp. destruct (Nat.lt_ge_cases p (i + step)) as [L|L].
        -- exists i. split; [left; reflexivity|lia].
        -- destruct (I2 p ltac:(lia)) as (s & I & B). exists s. split; [right; exact I|exact B].
    + split; [intros s []|intros p Hp; lia].
Qed.
Lemma parallel_ok order size threads dst : 0 < lanes -> 0 < unroll -> (forall l, Permutation (order l) l) -> length dst = size ->
  (forall p, p < vec_size lanes size -> vec_good p) -> (forall p, vec_size lanes size <= p < size -> scalar_good p) ->
  parallel_ew vop sop lanes unroll order a b size threads dst = ROk (map h (seq 0 size)).
Proof.
  intros Hl Hu Ho Hd Hv Hs. unfold parallel_ew. destruct (1 <? threads) eqn:T.
  - set (vec := vec_size lanes size) in *. set (chunk := chunk_size lanes size threads). cbv zeta.
    assert (V : vec = size / lanes * lanes) by reflexivity. assert (VS : vec <= size) by (rewrite V; rewrite Nat.mul_comm; apply Nat.mul_div_le; lia).
    assert (C : exists q, chunk = q * lanes) by (eexists; reflexivity). destruct C as (q & C).
    assert (CP : 0 < vec -> 0 < chunk).
    { intro P. unfold chunk, chunk_size. fold vec. set (c := (vec + threads - 1) / threads). assert (0 < c) by (apply Nat.div_str_pos; lia).
      apply Nat.mul_pos_pos; [|exact Hl]. apply Nat.div_str_pos. lia. }
    assert (G : forall l, (forall s, In s l -> exists j, s = j * chunk /\ s < vec) ->
      does (run_chunks vop sop lanes unroll l a b chunk vec) (flat_map (fun s => block h s (Nat.min (s + chunk) vec - s)) l)).
    { induction l as [|s l IH]; intro H.
      - intros x x' E. cbn in *. exact E.
      - cbn [flat_map run_chunks]. apply does_seq; [|apply IH; intros; apply H; right; assumption]. destruct (H s (or_introl eq_refl)) as (j & Es & Lt).
        assert (MUL : exists k, Nat.min (s + chunk) vec - s = k * lanes).
        { destruct (Nat.le_ge_cases (s + chunk) vec) as [L|L].
          - rewrite Nat.min_l by exact L. exists q. lia.
          - rewrite Nat.min_r by exact L. exists (size / lanes - j * q). rewrite Nat.mul_sub_distr_r. rewrite Es, C, V. f_equal. lia. }
        destruct MUL as (k & K). apply ew_does; try assumption.
        + intros i Hi. rewrite K, vec_of_multiple in Hi by exact Hl. apply Hv. lia.
        + intros i Hi. rewrite K, vec_of_multiple in Hi by exact Hl. lia. }
    assert (S0 : (forall s, In s (starts (S size) 0 vec chunk) -> exists j, s = j * chunk /\ s < vec) /\
                 (forall p, p < vec -> exists s, In s (starts (S size) 0 vec chunk) /\ s <= p < s + chunk)).
    { destruct (Nat.eq_dec vec 0) as [Z|NZ].
      - rewrite Z. split; [intros s []|intros; lia].
      - destruct (starts_ok vec chunk (CP ltac:(lia)) (S size) 0 ltac:(lia)) as [A1 A2]. split; [exact A1|]. intros p Hp. apply A2. lia. }
    destruct S0 as [S1 S2]. set (l := order (starts (S size) 0 vec chunk)).
    assert (PL : Permutation l (starts (S size) 0 vec chunk)) by apply Ho.
    assert (DL := G l ltac:(intros s I; apply S1; apply (Permutation_in _ PL); exact I)).
    assert (WH : put_all (flat_map (fun s => block h s (Nat.min (s + chunk) vec - s)) l) dst = ROk (map h (seq 0 vec) ++ skipn vec dst)).
    { rewrite (put_block _ dst 0 vec h); [reflexivity|lia| |].
      - intros p v I. apply in_flat_map in I. destruct I as (s & _ & I). unfold block in I. apply in_map_iff in I. destruct I as (p' & Ep & I). injection Ep as <- <-. apply in_seq in I.
        exists p'. split; [lia|]. split; [lia|reflexivity].
      - intros p Hp. destruct (S2 p Hp) as (s & I & B). apply in_flat_map. exists s. split; [apply (Permutation_in _ (Permutation_sym PL)); exact I|].
        unfold block. apply in_map_iff. exists p. split; [reflexivity|]. apply in_seq. lia. }
    rewrite (DL _ _ WH). cbn [rbind]. destruct (vec <? size) eqn:VL.
    + assert (SM : size - vec < lanes). { assert (X := Nat.mul_succ_div_gt size lanes ltac:(lia)). rewrite V. rewrite Nat.mul_comm in X. cbn [Nat.mul] in X. lia. }
      assert (V0 : vec_size lanes (size - vec) = 0) by (unfold vec_size; rewrite Nat.div_small by exact SM; reflexivity).
      apply (ew_does vec (size - vec)); try assumption.
      * intros i Hi. rewrite V0 in Hi. lia.
      * intros i Hi. rewrite V0 in Hi. apply Hs. lia.
      * unfold block. rewrite (put_block _ _ vec (size - vec) (fun k => h (vec + k))).
        -- f_equal. rewrite firstn_app. rewrite map_length, seq_length, Nat.sub_diag. cbn [firstn]. rewrite app_nil_r, firstn_all2 by (rewrite map_length, seq_length; lia).
           rewrite (skipn_all2 (map h (seq 0 vec) ++ skipn vec dst)) by (rewrite app_length, map_length, seq_length, skipn_length; lia). rewrite app_nil_r.
           replace (map (fun k => h (vec + k)) (seq 0 (size - vec))) with (map h (seq vec (size - vec))).
           ++ rewrite <- map_app. f_equal. replace vec with (0 + vec) at 2 by lia. rewrite <- seq_app. f_equal. lia.
           ++ apply AotGraph.map_seq_eq. intros k Hk. reflexivity.
        -- rewrite app_length, map_length, seq_length, skipn_length. lia.
        -- intros p v I. apply in_map_iff in I. destruct I as (p' & Ep & I). injection Ep as <- <-. apply in_seq in I. exists (p' - vec). split; [lia|]. split; [lia|]. f_equal. lia.
        -- intros k Hk. apply in_map_iff. exists (vec + k). split; [reflexivity|]. apply in_seq. lia.
    + assert (vec = size) by lia. rewrite skipn_all2 by lia. rewrite app_nil_r. congruence.
  - apply (ew_does 0 size); try assumption.
    unfold block. rewrite (put_whole _ dst h).
    + rewrite Hd. reflexivity.
    + intros p v I. apply in_map_iff in I. destruct I as (p' & Ep & I). injection Ep as <- <-. apply in_seq in I. split; [lia|reflexivity].
    + intros p Hp. exists (h p). apply in_map_iff. exists p. split; [reflexivity|]. apply in_seq. lia.
Qed.
End Loops.
