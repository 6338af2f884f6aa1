(** Windows: a partition of the cells; the mask; restoring the order. *)
From Verif Require Import Base DTypeModel ParamModel TensorModel VlModel VlSpec VlProofs VlGrid VlPos VlWin.
From Verif Require AotModel AotProofs AotGraph.
Local Open Scope nat_scope.

Lemma nodup_app2 : forall {X} (a b : list X), NoDup a -> NoDup b -> (forall x, In x a -> In x b -> False) -> NoDup (a ++ b).
Proof.
  intros X a b Ha Hb D. induction Ha as [|x a Hx Ha IH]; cbn [app]; auto.
  constructor; [|apply IH; intros y I J; apply (D y); [right|]; auto]. intro I. apply in_app_or in I as [I|I]; [auto|]. apply (D x); [left|]; auto.
Qed.
Lemma nodup_loop : forall {X} (f : nat -> list X) n s, (forall i, s <= i < s + n -> NoDup (f i)) ->
  (forall i j x, s <= i < s + n -> s <= j < s + n -> In x (f i) -> In x (f j) -> i = j) -> NoDup (flat_map f (seq s n)).
Proof.
  intros X f n. induction n as [|n IH]; intros s H D; cbn [seq flat_map]; [constructor|].
  apply nodup_app2.
  - apply H. lia.
  - apply IH; [intros i Hi; apply H; lia|]. intros i j x Hi Hj. apply D; lia.
  - intros x I J. apply in_loop in J as (j & Hj & J). assert (s = j) by (apply (D s j x); auto; lia). lia.
Qed.

Section Windows.
Variables (V H W gt nwh nww : nat).
Hypothesis HV : 0 < V.
Hypothesis Hh : forall x, x < H -> x / V < nwh.
Hypothesis Hw : forall x, x < W -> x / V < nww.
Let N := gt * nwh * nww.
Let f := wnum V H W nwh nww.

Lemma in_wcells : forall t wh ww c, In c (wcells V H W t wh ww) <->
  exists y x, y < H /\ x < W /\ y / V = wh /\ x / V = ww /\ c = (t * H + y) * W + x.
Proof.
  clear Hh Hw N f. intros t wh ww c. unfold wcells. rewrite in_loop. split.
  - intros (h & H1 & I). apply in_loop in I as (w & H2 & I). unfold wcell in I.
    destruct ((wh * V + h <? H) && (ww * V + w <? W)) eqn:C; [|destruct I]. destruct I as [<-|[]].
    exists (wh * V + h), (ww * V + w). split; [lia|]. split; [lia|]. rewrite !div_mul_add by lia. auto.
  - intros (y & x & Hy & Hx & E1 & E2 & ->). exists (y mod V). assert (M1 := Nat.mod_upper_bound y V ltac:(lia)). assert (M2 := Nat.mod_upper_bound x V ltac:(lia)).
    split; [lia|]. apply in_loop. exists (x mod V). split; [lia|]. unfold wcell.
    assert (D1 : wh * V + y mod V = y) by (rewrite <- E1, Nat.mul_comm; symmetry; apply Nat.div_mod; lia).
    assert (D2 : ww * V + x mod V = x) by (rewrite <- E2, Nat.mul_comm; symmetry; apply Nat.div_mod; lia).
    rewrite D1, D2. replace ((y <? H) && (x <? W)) with true by lia. left. reflexivity.
Qed.
Lemma window_of_cell : forall t y x, y < H -> x < W -> window_of V H W ((t * H + y) * W + x) = (t, y / V, x / V).
Proof.
  clear Hh Hw N f HV. intros t y x Hy Hx. unfold window_of. assert (K1 : ((t * H + y) * W + x) / W = t * H + y) by (apply div_mul_add; auto).
  assert (K2 : ((t * H + y) * W + x) mod W = x) by (apply mod_mul_add; auto).
  rewrite (Nat.mul_comm H W), <- Nat.div_div by lia. rewrite K1, K2, div_mul_add, mod_mul_add by auto. reflexivity.
Qed.
Definition number (win : nat * nat * nat) : nat := let '(t, wh, ww) := win in (t * nwh + wh) * nww + ww.
Lemma in_wnum : forall k c, k < N -> In c (f k) -> c < gt * H * W /\ number (window_of V H W c) = k.
Proof.
  intros k c Hk I. unfold f, wnum in I. apply in_wcells in I as (y & x & Hy & Hx & E1 & E2 & ->).
  destruct (cell_ex gt nwh nww k Hk) as (t & wh & ww & Ht & Hwh & Hww & Ek).
  assert (K1 : k / nww = t * nwh + wh) by (rewrite Ek; apply div_mul_add; auto).
  assert (K2 : k mod nww = ww) by (rewrite Ek; apply mod_mul_add; auto).
  assert (K3 : k / (nwh * nww) = t). { rewrite Nat.mul_comm, <- Nat.div_div by lia. rewrite K1. apply div_mul_add. auto. }
  assert (K4 : (k / nww) mod nwh = wh) by (rewrite K1; apply mod_mul_add; auto).
  rewrite K2 in E2. rewrite K4 in E1. rewrite K3. split; [apply cell_bound3; auto|].
  rewrite window_of_cell by auto. unfold number. rewrite E1, E2. symmetry. exact Ek.
Qed.
Lemma wnum_in : forall c, c < gt * H * W -> number (window_of V H W c) < N /\ In c (f (number (window_of V H W c))).
Proof.
  intros c Hc. destruct (cell_ex gt H W c Hc) as (t & y & x & Ht & Hy & Hx & ->). rewrite window_of_cell by auto. unfold number.
  assert (Bh := Hh y Hy). assert (Bw := Hw x Hx). split; [apply cell_bound3; auto|].
  assert (Z1 : nwh <> 0) by (clear - Bh; intros ->; inversion Bh). assert (Z2 : nww <> 0) by (clear - Bw; intros ->; inversion Bw).
  set (k := (t * nwh + y / V) * nww + x / V). unfold f, wnum.
  assert (K1 : k / nww = t * nwh + y / V) by (apply div_mul_add; auto).
  assert (K2 : k mod nww = x / V) by (apply mod_mul_add; auto).
  assert (K3 : k / (nwh * nww) = t). { rewrite (Nat.mul_comm nwh), <- Nat.div_div by assumption. rewrite K1. apply div_mul_add. auto. }
  rewrite K3, K2, K1, mod_mul_add by auto. apply in_wcells. exists y, x. auto.
Qed.
Lemma number_inj : forall c c', c < gt * H * W -> c' < gt * H * W ->
  number (window_of V H W c) = number (window_of V H W c') -> window_of V H W c = window_of V H W c'.
Proof.
  intros c c' Hc Hc' E. destruct (cell_ex gt H W c Hc) as (t & y & x & Ht & Hy & Hx & ->). destruct (cell_ex gt H W c' Hc') as (t' & y' & x' & Ht' & Hy' & Hx' & ->).
  rewrite !window_of_cell in * by auto. unfold number in E.
  destruct (cell_inj nwh nww t (y / V) (x / V) t' (y' / V) (x' / V)) as (-> & -> & ->); auto.
Qed.
Lemma wnum_nodup : forall k, NoDup (f k).
Proof.
  intro k. unfold f, wnum. generalize (k / (nwh * nww)) (k / nww mod nwh) (k mod nww). intros t wh ww. unfold wcells.
  assert (Key : forall h w c, In c (wcell V H W t wh ww h w) -> wh * V + h < H /\ ww * V + w < W /\ c = (t * H + (wh * V + h)) * W + (ww * V + w)).
  { intros h w c I. unfold wcell in I. destruct ((wh * V + h <? H) && (ww * V + w <? W)) eqn:C; [|destruct I]. destruct I as [<-|[]]. repeat split; lia. }
  apply nodup_loop.
  - intros h _. apply nodup_loop.
    + intros w _. unfold wcell. destruct (_ && _); [constructor; [intros []|constructor]|constructor].
    + intros w w' c _ _ I J. destruct (Key _ _ _ I) as (A1 & A2 & A3). destruct (Key _ _ _ J) as (B1 & B2 & B3).
      destruct (cell_inj H W t (wh * V + h) (ww * V + w) t (wh * V + h) (ww * V + w')) as (_ & _ & E); auto; [congruence|lia].
  - intros h h' c _ _ I J. apply in_loop in I as (w & _ & I). apply in_loop in J as (w' & _ & J).
    destruct (Key _ _ _ I) as (A1 & A2 & A3). destruct (Key _ _ _ J) as (B1 & B2 & B3).
    destruct (cell_inj H W t (wh * V + h) (ww * V + w) t (wh * V + h') (ww * V + w')) as (_ & E & _); auto; [congruence|lia].
Qed.
Lemma windows_perm : Permutation (flat_map f (seq 0 N)) (seq 0 (gt * H * W)).
Proof.
  apply NoDup_Permutation; [apply nodup_loop|apply seq_NoDup|].
  - intros k _. apply wnum_nodup.
  - intros i j c Hi Hj I J. destruct (in_wnum i c) as [_ <-]; [lia|exact I|]. apply in_wnum; [lia|exact J].
  - intro c. rewrite in_loop, in_seq. split.
    + intros (k & Hk & I). destruct (in_wnum k c ltac:(lia) I). lia.
    + intros [_ Hc]. destruct (wnum_in c ltac:(lia)) as [B I]. eexists. split; [|exact I]. lia.
Qed.

Definition plen (k : nat) : nat := length (flat_map f (seq 0 k)).
Lemma plen_S : forall k, plen (S k) = plen k + length (f k).
Proof. intro k. unfold plen. rewrite seq_S, flat_map_app, app_length. cbn [flat_map Nat.add]. rewrite app_nil_r. reflexivity. Qed.
Lemma plen_mono : forall a b, a <= b -> plen a <= plen b.
Proof. intros a b Hab. induction Hab as [|b Hab IH]; [lia|]. rewrite plen_S. lia. Qed.
Lemma plen_at : forall n q, q < plen n -> exists k, k < n /\ plen k <= q < plen (S k) /\ In (nth q (flat_map f (seq 0 n)) 0) (f k).
Proof.
  intro n. induction n as [|n IH]; intros q Hq; [unfold plen in Hq; cbn in Hq; lia|].
  rewrite seq_S, flat_map_app. cbn [flat_map Nat.add]. rewrite app_nil_r.
  destruct (Nat.lt_ge_cases q (plen n)) as [L|L].
  - destruct (IH q L) as (k & K1 & K2 & K3). exists k. split; [lia|]. split; [exact K2|]. rewrite app_nth1 by exact L. exact K3.
  - exists n. split; [lia|]. split; [lia|]. rewrite app_nth2 by exact L. apply nth_In. rewrite plen_S in Hq. unfold plen in *. lia.
Qed.
Lemma plen_all : plen N = gt * H * W.
Proof. unfold plen. rewrite (Permutation_length windows_perm). apply seq_length. Qed.

Let wi := flat_map f (seq 0 N).
(** Position q lies in the block of its window. *)
Lemma position_window : forall q, q < gt * H * W -> nth q wi 0 < gt * H * W /\
  let k := number (window_of V H W (nth q wi 0)) in k < N /\ plen k <= q < plen (S k).
Proof.
  intros q Hq. rewrite <- plen_all in Hq. destruct (plen_at N q Hq) as (k & K1 & K2 & K3). fold wi in K3.
  destruct (in_wnum k _ K1 K3) as [B E]. split; [exact B|]. cbv zeta. rewrite E. auto.
Qed.
Lemma block_unique : forall k k' q, plen k <= q < plen (S k) -> plen k' <= q < plen (S k') -> k = k'.
Proof.
  intros k k' q A B. destruct (Nat.lt_trichotomy k k') as [L|[L|L]]; auto.
  - assert (M := plen_mono (S k) k' ltac:(lia)). lia.
  - assert (M := plen_mono (S k') k ltac:(lia)). lia.
Qed.
Lemma same_block : forall p q, p < gt * H * W -> q < gt * H * W ->
  ((exists k, k < N /\ plen k <= p < plen (S k) /\ plen k <= q < plen (S k)) <-> window_of V H W (nth p wi 0) = window_of V H W (nth q wi 0)).
Proof.
  intros p q Hp Hq. destruct (position_window p Hp) as (P1 & P2 & P3). destruct (position_window q Hq) as (Q1 & Q2 & Q3). split.
  - intros (k & _ & A & B). apply number_inj; auto. rewrite (block_unique _ _ _ P3 A), (block_unique _ _ _ Q3 B). reflexivity.
  - intro E. eexists. split; [exact P2|]. split; [exact P3|]. rewrite E. exact Q3.
Qed.

(** The mask. *)
Lemma mask_ok : forall mm b, 0 < mm -> let n := gt * H * W * mm in length b = n * n ->
  exists b', window_mask n (map (fun i => plen i * mm) (seq 0 (S N))) b = ROk b' /\ length b' = n * n /\
    forall r c, r < n -> c < n ->
      (nth_error b' (r * n + c) = Some true <-> window_of V H W (nth (r / mm) wi 0) = window_of V H W (nth (c / mm) wi 0)) /\
      (nth_error b' (r * n + c) = Some true \/ nth_error b' (r * n + c) = Some false).
Proof.
  intros mm b Hmm n Hl. unfold window_mask. replace (length b =? n * n) with true by lia. cbn [negb].
  assert (E0 : for_up (n * n) 0 (fun i b => wr b i false) b = ROk (repeat false (n * n))).
  { apply (does_loop _ (fun i => [(i, false)])); [intros i _; apply does_one|].
    apply put_list; [rewrite repeat_length; exact Hl| |].
    - intros p v I. apply in_loop in I as (i & I1 & I). destruct I as [I|[]]. injection I as <- <-.
      rewrite (nth_error_nth' _ false) by (rewrite repeat_length; lia). rewrite nth_repeat. reflexivity.
    - intros p Hp. rewrite repeat_length in Hp. exists false. apply in_loop. exists p. split; [lia|]. left. reflexivity. }
  rewrite E0. cbn [rbind]. rewrite map_length, seq_length. replace (S N - 1) with N by lia.
  set (ws := flat_map (fun i => flat_map (fun r => flat_map (fun c => [(r * n + c, true)]) (seq (plen (i - 1) * mm) (plen i * mm - plen (i - 1) * mm)))
                                         (seq (plen (i - 1) * mm) (plen i * mm - plen (i - 1) * mm))) (seq 1 N)).
  assert (Mul : forall i, i <= N -> plen i * mm <= n).
  { intros i Hi. unfold n. rewrite <- plen_all. apply Nat.mul_le_mono_r. apply plen_mono. exact Hi. }
  assert (Inw : forall p v, In (p, v) ws -> exists i r c, 1 <= i <= N /\ plen (i - 1) * mm <= r < plen i * mm /\ plen (i - 1) * mm <= c < plen i * mm /\ p = r * n + c /\ v = true).
  { intros p v I. unfold ws in I. apply in_loop in I as (i & I1 & I). apply in_loop in I as (r & I2 & I). apply in_loop in I as (c & I3 & I).
    destruct I as [I|[]]. injection I as <- <-. exists i, r, c. split; [lia|]. split; [lia|]. split; [lia|]. auto. }
  destruct (put_all_ok ws (repeat false (n * n))) as (b' & E & L & Vs & O).
  - intros p v I. destruct (Inw p v I) as (i & r & c & I1 & I2 & I3 & -> & _). rewrite repeat_length. assert (M := Mul i ltac:(lia)). apply index_bound; lia.
  - intros p v v' I J. destruct (Inw p v I) as (_ & _ & _ & _ & _ & _ & _ & ->). destruct (Inw p v' J) as (_ & _ & _ & _ & _ & _ & _ & ->). reflexivity.
  - exists b'. split; [|split; [rewrite L, repeat_length; reflexivity|]].
    + apply (does_loop _ (fun i => flat_map (fun r => flat_map (fun c => [(r * n + c, true)]) (seq (plen (i - 1) * mm) (plen i * mm - plen (i - 1) * mm)))
                                         (seq (plen (i - 1) * mm) (plen i * mm - plen (i - 1) * mm)))); [|exact E].
      intros i Hi b0 b1 E1. rewrite (rd_ok _ _ (plen (i - 1) * mm)) by (rewrite (nth_error_map_seq (fun i => plen i * mm)) by lia; reflexivity).
      cbn [rbind]. rewrite (rd_ok _ _ (plen i * mm)) by (rewrite (nth_error_map_seq (fun i => plen i * mm)) by lia; reflexivity).
      cbn [rbind]. revert b0 b1 E1. apply does_loop. intros r _. apply does_loop. intros c _. apply does_one.
    + intros r c Hr Hc.
      assert (Q : forall x, x < n -> x / mm < gt * H * W) by (intros x Hx; apply Nat.div_lt_upper_bound; [lia|unfold n in Hx; lia]).
      assert (Blk : forall k x, plen k * mm <= x < plen (S k) * mm <-> plen k <= x / mm < plen (S k)).
      { clear - Hmm. intros k x. assert (D := Nat.div_mod x mm). assert (M := Nat.mod_upper_bound x mm). set (q := x / mm) in *. clearbody q. split; intros [A B]; split.
        - apply Nat.lt_succ_r. apply (Nat.mul_lt_mono_pos_r mm); [exact Hmm|]. lia.
        - apply (Nat.mul_lt_mono_pos_r mm); [exact Hmm|]. lia.
        - assert (X := Nat.mul_le_mono_r _ _ mm A). lia.
        - assert (X : (q + 1) * mm <= plen (S k) * mm) by (apply Nat.mul_le_mono_r; lia). lia. }
      assert (Wr : In (r * n + c, true) ws <-> exists k, k < N /\ plen k <= r / mm < plen (S k) /\ plen k <= c / mm < plen (S k)).
      { split.
        - intro I. destruct (Inw _ _ I) as (i & r' & c' & I1 & I2 & I3 & Ep & _).
          assert (M := Mul i ltac:(lia)).
          assert (r = r') by (rewrite <- (div_mul_add r n c), <- (div_mul_add r' n c'), Ep by lia; reflexivity).
          assert (c = c') by (rewrite <- (mod_mul_add r n c), <- (mod_mul_add r' n c'), Ep by lia; reflexivity). subst r' c'.
          exists (i - 1). split; [lia|]. rewrite <- !Blk. replace (S (i - 1)) with i by lia. auto.
        - intros (k & K1 & K2 & K3). apply Blk in K2, K3. unfold ws. apply in_loop. exists (S k). replace (S k - 1) with k by lia. split; [lia|].
          apply in_loop. exists r. split; [lia|]. apply in_loop. exists c. split; [lia|]. left. reflexivity. }
      rewrite (same_block (r / mm) (c / mm) (Q r Hr) (Q c Hc)) in Wr.
      assert (Bp : r * n + c < n * n) by (apply index_bound; lia).
      destruct (in_dec (fun x y : nat * bool => ltac:(decide equality; [apply Bool.bool_dec|apply Nat.eq_dec])) (r * n + c, true) ws) as [I|I].
      * assert (T := Vs _ _ I). split; [split; [intros _; apply Wr; exact I|intros _; exact T]|left; exact T].
      * assert (T : nth_error b' (r * n + c) = Some false).
        { rewrite O; [|intros v J; destruct (Inw _ _ J) as (_ & _ & _ & _ & _ & _ & _ & ->); auto].
          rewrite (nth_error_nth' _ false) by (rewrite repeat_length; exact Bp). rewrite nth_repeat. reflexivity. }
        split; [|right; exact T]. split; [rewrite T; discriminate|]. intro J. apply Wr in J. contradiction.
Qed.
End Windows.

(** Restoring the order. *)
Lemma sorted_iota : forall l n, Permutation l (seq 0 n) -> (forall i j, i < j -> j < length l -> nth i l 0 <= nth j l 0) ->
  forall i, i < n -> nth i l 0 = i.
Proof.
  intros l n P S. assert (L : length l = n) by (rewrite (Permutation_length P); apply seq_length).
  assert (ND : NoDup l) by (apply (Permutation_NoDup (Permutation_sym P)); apply seq_NoDup).
  assert (Str : forall i j, i < j -> j < n -> nth i l 0 < nth j l 0).
  { intros i j Hij Hj. assert (X := S i j Hij ltac:(lia)). assert (nth i l 0 <> nth j l 0); [|lia].
    intro E. apply (proj1 (NoDup_nth l 0) ND) in E; lia. }
  assert (Lo : forall i, i < n -> i <= nth i l 0).
  { intro i. induction i as [|i IH]; intro Hi; [lia|]. assert (X := Str i (Datatypes.S i) ltac:(lia) Hi). assert (Y := IH ltac:(lia)). lia. }
  assert (Hi : forall k, k < n -> nth (n - 1 - k) l 0 <= n - 1 - k).
  { intro k. induction k as [|k IH]; intro Hk.
    - rewrite Nat.sub_0_r. assert (I : In (nth (n - 1) l 0) (seq 0 n)) by (apply (Permutation_in _ P); apply nth_In; lia). apply in_seq in I. lia.
    - assert (X := Str (n - 1 - Datatypes.S k) (n - 1 - k) ltac:(lia) ltac:(lia)). assert (Y := IH ltac:(lia)). lia. }
  intros i Hlt. assert (X := Hi (n - 1 - i) ltac:(lia)). replace (n - 1 - (n - 1 - i)) with i in X by lia. assert (Y := Lo i Hlt). lia.
Qed.
Lemma reverse_ok : forall wi rev n, Permutation wi (seq 0 n) -> sorts_by wi rev ->
  length rev = n /\ forall i, i < n -> nth i rev 0 < n /\ nth (nth i rev 0) wi 0 = i.
Proof.
  intros wi rev n Pw [Pr Sr]. assert (Lw : length wi = n) by (rewrite (Permutation_length Pw); apply seq_length).
  assert (Lr : length rev = n) by (rewrite (Permutation_length Pr), seq_length; exact Lw).
  split; [exact Lr|]. set (keys := map (fun i => nth i wi 0) rev).
  assert (Pk : Permutation keys (seq 0 n)).
  { apply (Permutation_trans (l' := wi)); [|exact Pw]. unfold keys. apply (Permutation_trans (Permutation_map _ Pr)).
    assert (E : map (fun i => nth i wi 0) (seq 0 (length wi)) = wi); [|rewrite E; apply Permutation_refl].
    apply (nth_ext _ _ 0 0); [rewrite map_length, seq_length; reflexivity|]. intros k Hk. rewrite map_length, seq_length in Hk.
    apply (AotGraph.nth_map_seq (fun i => nth i wi 0)). exact Hk. }
  assert (Nk : forall i, i < n -> nth i keys 0 = nth (nth i rev 0) wi 0).
  { intros i Hi. unfold keys. rewrite (nth_indep _ 0 (nth 0 wi 0)) by (rewrite map_length; lia). apply (map_nth (fun i => nth i wi 0)). }
  assert (Lk : length keys = n) by (unfold keys; rewrite map_length; exact Lr).
  intros i Hi. split.
  - assert (I : In (nth i rev 0) (seq 0 (length wi))) by (apply (Permutation_in _ Pr); apply nth_In; lia). apply in_seq in I. lia.
  - rewrite <- Nk by exact Hi. apply (sorted_iota keys n Pk); [|exact Hi]. intros a b Hab Hb. rewrite Lk in Hb. rewrite !Nk by lia. apply Sr; lia.
Qed.
Lemma gather_ok : forall {R} (rows : list R) idx d, Forall (fun i => i < length rows) idx -> gather rows idx = ROk (map (fun i => nth i rows d) idx).
Proof.
  intros R rows idx d Hf. induction idx as [|i idx IH]; [reflexivity|]. unfold gather in *. cbn [AotModel.map_res map].
  rewrite (rd_ok rows i (nth i rows d)) by (apply nth_error_nth'; apply (Forall_inv Hf)). cbn [rbind]. rewrite IH by apply (Forall_inv_tail Hf). reflexivity.
Qed.
