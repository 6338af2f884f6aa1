(** Property theorems C19, C20 and C39 (key/value caches). *)
From Verif Require Import Base DTypeModel ParamModel ParamSpec ParamProofs ParamMore TensorModel TensorSpec TensorProofs TensorViews PropertiesTensor KVModel KVSpec KVProofs KVSub KVDyn KVOver.
Local Open Scope Z_scope.

(** A geometry the cache is made for: kv heads, each serving [rep] query heads. *)
Definition geometry (max kv rep dim : Z) : Prop :=
  0 < kv /\ 0 < rep /\ 0 < dim < kAll /\ 0 <= max < kAll /\ kv * rep < kAll.
Definition no_logs {A} (layers : Z) : logs A := repeat ([], []) (Z.to_nat layers).

Section Wrap.
Context {A : Type}.
Variables (max kv rep dim : Z).
Hypothesis G : geometry max kv rep dim.
Local Ltac geo L := destruct G as (G1 & G2 & (G3 & G6) & (G4 & G7) & G5); apply L; auto.
Lemma g_init (z : A) layers : 0 <= layers -> static_ok max kv rep dim (static_init z max layers (kv * rep) kv dim) (no_logs layers).
Proof. intro. geo @static_init_ok. Qed.
Lemma g_run ops : forall (c : scache A) ls, static_ok max kv rep dim c ls -> ops_allowed max kv dim ls ops ->
  exists c', static_run c ops = ROk c' /\ static_ok max kv rep dim c' (logs_after ls ops).
Proof. geo @static_run_ok. Qed.
Lemma g_get (c : scache A) ls idx : static_ok max kv rep dim c ls -> 0 <= idx < Z.of_nat (length ls) ->
  let log := nth (Z.to_nat idx) ls ([], []) in
  static_cnt c idx = ROk (Z.of_nat (length (fst log))) /\
  exists ks vs, static_get c idx = ROk (ks, vs) /\ shows ks 1 (kv * rep) rep dim (fst log) /\ shows vs 1 (kv * rep) rep dim (snd log).
Proof. geo @static_get_ok. Qed.
Lemma g_update (c : scache A) ls idx k v s :
  static_ok max kv rep dim c ls -> 0 <= idx < Z.of_nat (length ls) -> 0 <= s -> kv_input kv dim s k -> kv_input kv dim s v ->
  Z.of_nat (length (fst (nth (Z.to_nat idx) ls ([], [])))) + s <= max ->
  exists c' ks vs, static_update c idx k v = ROk (c', (ks, vs)) /\
    static_ok max kv rep dim c' (logs_step ls (KvUpdate idx k v)) /\
    shows ks 1 (kv * rep) rep dim (fst (nth (Z.to_nat idx) (logs_step ls (KvUpdate idx k v)) ([], []))) /\
    shows vs 1 (kv * rep) rep dim (snd (nth (Z.to_nat idx) (logs_step ls (KvUpdate idx k v)) ([], []))).
Proof. geo @static_update_ok. Qed.
Variables (start len : Z).
Hypothesis Hst : 0 <= start <= max.
Hypothesis Hlen : 0 <= len.
Lemma g_sub_init (c : scache A) ls : static_ok max kv rep dim c ls ->
  Forall (fun l => start + len <= Z.of_nat (length (fst l))) ls ->
  sub_ok max kv rep dim start len (sub_init c start len) ls (sub_logs_init start len ls).
Proof. geo @sub_init_ok. Qed.
Lemma g_sub_run ops : forall (s : subcache A) ls slogs, sub_ok max kv rep dim start len s ls slogs ->
  sub_allowed max kv dim start len slogs ops ->
  exists s', sub_run s ops = ROk s' /\
    sub_ok max kv rep dim start len s' (fst (sub_after start len ls slogs ops)) (snd (sub_after start len ls slogs ops)).
Proof. geo @sub_run_ok. Qed.
Lemma g_sub_update (s : subcache A) ls slogs idx k v n :
  sub_ok max kv rep dim start len s ls slogs -> 0 <= idx < Z.of_nat (length slogs) -> 0 <= n -> kv_input kv dim n k -> kv_input kv dim n v ->
  start + Z.of_nat (length (fst (nth (Z.to_nat idx) slogs ([], [])))) + n <= max ->
  exists s' ks vs, sub_update s idx k v = ROk (s', (ks, vs)) /\
    sub_ok max kv rep dim start len s' (sub_parent_step start ls slogs (KvUpdate idx k v)) (sub_logs_step len slogs (KvUpdate idx k v)) /\
    shows ks 1 (kv * rep) rep dim (fst (nth (Z.to_nat idx) (sub_logs_step len slogs (KvUpdate idx k v)) ([], []))) /\
    shows vs 1 (kv * rep) rep dim (snd (nth (Z.to_nat idx) (sub_logs_step len slogs (KvUpdate idx k v)) ([], []))).
Proof. geo @sub_update_ok. Qed.
End Wrap.
Lemma logs_length {A} ops : forall ls : logs A, length (logs_after ls ops) = length ls.
Proof.
  unfold logs_after. induction ops as [|o r IH]; intro ls; cbn [fold_left]; auto.
  rewrite IH. destruct o; cbn [logs_step]; rewrite ?length_upd_nth, ?map_length; auto.
Qed.
Lemma no_logs_length {A} layers ops : 0 <= layers -> length (logs_after (@no_logs A layers) ops) = Z.to_nat layers.
Proof. intro. rewrite logs_length. apply repeat_length. Qed.

(* ------------------------------------------------------------------ *)
(** ** C19: the static cache *)

(** After every sequence of updates (of any lengths, on any layers, within the
    capacity), truncations and clears, what getKVCache returns for a layer is exactly
    the log of the rows appended to it, and getCurrentSeqCnt its length. *)
Theorem C19_history_partial : forall (A : Type) (z : A) max layers kv rep dim ops,
  geometry max kv rep dim -> 0 <= layers -> ops_allowed max kv dim (no_logs layers) ops ->
  exists c, static_run (static_init z max layers (kv * rep) kv dim) ops = ROk c /\
    forall idx, 0 <= idx < layers ->
      let log := nth (Z.to_nat idx) (logs_after (no_logs layers) ops) ([], []) in
      static_cnt c idx = ROk (Z.of_nat (length (fst log))) /\ Z.of_nat (length (fst log)) <= max /\
      exists ks vs, static_get c idx = ROk (ks, vs) /\
        shows ks 1 (kv * rep) rep dim (fst log) /\ shows vs 1 (kv * rep) rep dim (snd log).
Proof.
  intros A z max layers kv rep dim ops G Hl Ho.
  assert (I := g_init max kv rep dim G z layers Hl).
  destruct (g_run max kv rep dim G ops _ _ I Ho) as (c & E & H).
  exists c. split; [exact E|]. intros idx Hi.
  assert (Hlen := @no_logs_length A layers ops Hl).
  assert (Hi' : 0 <= idx < Z.of_nat (length (logs_after (no_logs layers) ops : logs A))) by lia.
  cbv zeta. destruct (g_get max kv rep dim G c _ idx H Hi') as [S1 S2].
  split; [exact S1|]. split; [|exact S2].
  set (log := nth (Z.to_nat idx) (logs_after (no_logs layers) ops) ([], [])).
  assert (Hn : nth_error (logs_after (no_logs layers) ops) (Z.to_nat idx) = Some log) by (apply nth_error_nth'; lia).
  destruct (Forall2_nth_error_r _ _ _ (so_layers _ _ _ _ _ _ H) _ _ Hn) as (l & _ & L). destruct L as [L1 L2 L3 _ _ _ _]. lia.
Qed.
(** Every update within the capacity, after every history, succeeds and returns the
    whole history of that layer including the new rows. *)
Theorem C19_update_returns : forall (A : Type) (z : A) max layers kv rep dim ops idx k v s,
  geometry max kv rep dim -> 0 <= layers -> ops_allowed max kv dim (no_logs layers) (ops ++ [KvUpdate idx k v]) ->
  nth 2 (x_shape k) 0 = s ->
  exists c c' ks vs, static_run (static_init z max layers (kv * rep) kv dim) ops = ROk c /\
    static_update c idx k v = ROk (c', (ks, vs)) /\
    let log := nth (Z.to_nat idx) (logs_after (no_logs layers) ops) ([], []) in
    shows ks 1 (kv * rep) rep dim (fst log ++ rows_of k) /\ shows vs 1 (kv * rep) rep dim (snd log ++ rows_of v).
Proof.
  intros A z max layers kv rep dim ops idx k v s G Hl Ho Hs.
  assert (Hsplit : forall (ls : logs A) ops o, ops_allowed max kv dim ls (ops ++ [o]) -> ops_allowed max kv dim ls ops /\ op_allowed max kv dim (logs_after ls ops) o).
  { clear. intros ls ops o. revert ls. induction ops as [|o' r IH]; intros ls H; cbn [app ops_allowed] in *; [tauto|].
    destruct H as [H1 H2]. destruct (IH _ H2) as [H3 H4]. auto. }
  destruct (Hsplit _ _ _ Ho) as [Ho1 Ho2].
  assert (I := g_init max kv rep dim G z layers Hl).
  destruct (g_run max kv rep dim G ops _ _ I Ho1) as (c & E & H).
  cbn [op_allowed] in Ho2. destruct Ho2 as (Hi & s' & Hs' & Hk & Hv & Hr).
  destruct (g_update max kv rep dim G c _ idx k v s' H Hi Hs' Hk Hv Hr) as (c' & ks & vs & E1 & _ & S1 & S2).
  exists c, c', ks, vs. split; [exact E|]. split; [exact E1|]. cbv zeta. cbn [logs_step] in S1, S2.
  rewrite nth_upd_nth, Nat.eqb_refl in S1, S2. 
  replace (Z.to_nat idx <? length (logs_after (@no_logs A layers) ops))%nat with true in S1, S2 by lia.
  cbn [andb fst snd] in S1, S2. auto.
Qed.
(** An update past the capacity is not rejected: after every history it writes
    outside the cache's storage. *)
Theorem C19_capacity_refuted : forall (A : Type) (z : A) max layers kv rep dim ops idx k v s,
  geometry max kv rep dim -> 0 <= layers -> ops_allowed max kv dim (no_logs layers) ops ->
  0 <= idx < layers -> 0 < s -> kv_input kv dim s k -> kv_input kv dim s v ->
  max < Z.of_nat (length (fst (nth (Z.to_nat idx) (logs_after (no_logs layers) ops) ([], [])))) + s ->
  exists c, static_run (static_init z max layers (kv * rep) kv dim) ops = ROk c /\ static_update c idx k v = RUB.
Proof.
  intros A z max layers kv rep dim ops idx k v s G Hl Ho Hi Hs Hk Hv Hr.
  assert (I := g_init max kv rep dim G z layers Hl).
  destruct (g_run max kv rep dim G ops _ _ I Ho) as (c & E & H).
  exists c. split; [exact E|]. apply (static_update_over max kv rep dim ltac:(apply G) ltac:(apply G) ltac:(apply G) c (logs_after (no_logs layers) ops) idx k v s); auto.
  rewrite (@no_logs_length A layers ops Hl). lia.
Qed.

(** Example data. *)
Lemma ramp_input kv dim s : 0 < kv -> 0 <= s -> 0 < dim -> kv_input kv dim s (ramp_tensor [1; kv; s; dim]).
Proof.
  intros Hkv Hs Hd. constructor.
  - apply ramp_ok; [cbn; lia|repeat constructor; lia].
  - reflexivity.
  - intros. rewrite !address_dot. unfold ramp_tensor. cbn [x_view v_offset v_stride]. rewrite !default_strides_cons. cbn [dot].
    unfold product. cbn [fold_right]. ring.
Qed.
Definition keys_of (r : res (tns Z * tns Z)) : res (list Z * list (option Z)) :=
  do x <- r; ROk (x_shape (fst x), contents (fst x)).
Definition k12 : tns Z := ramp_tensor [1; 1; 2; 2].
Definition k11 : tns Z := ramp_tensor [1; 1; 1; 2].
(** Two query heads share one kv head; two rows, then one; another layer untouched. *)
Example C19_case : let ops := [KvUpdate 1 k12 k12; KvUpdate 1 k11 k11] in
  geometry 4 1 2 2 /\ ops_allowed 4 1 2 (no_logs 2) ops /\
  keys_of (do c <- static_run (static_init 9 4 2 2 1 2) ops; static_get c 1)
    = ROk ([1; 2; 3; 2], map Some [0; 1; 2; 3; 0; 1; 0; 1; 2; 3; 0; 1]).
Proof.
  split; [unfold geometry, kAll; lia|]. split; [|vm_compute; reflexivity].
  cbn [ops_allowed op_allowed]. split; [|split; [|exact I]].
  - split; [vm_compute; intuition discriminate|]. exists 2. split; [lia|]. split; [apply ramp_input; lia|]. split; [apply ramp_input; lia|]. vm_compute; discriminate.
  - split; [vm_compute; intuition discriminate|]. exists 1. split; [lia|]. split; [apply ramp_input; lia|]. split; [apply ramp_input; lia|]. vm_compute; discriminate.
Qed.
Example C19_truncate_case :
  keys_of (do c <- static_run (static_init 9 4 1 2 1 2) [KvUpdate 0 k12 k12; KvSetCnt 1; KvUpdate 0 k12 k12]; static_get c 0)
    = ROk ([1; 2; 3; 2], map Some [0; 1; 0; 1; 2; 3; 0; 1; 0; 1; 2; 3]).
Proof. vm_compute. reflexivity. Qed.
Example C19_over_case : (do c <- static_run (static_init 9 2 1 2 1 2) [KvUpdate 0 k12 k12]; static_update c 0 k11 k11) = RUB.
Proof. vm_compute. reflexivity. Qed.
(** setCurrentSeqCnt takes any value: set forward, the cache shows rows nobody
    appended (here the initial fill, 9). *)
Theorem C19_set_forward_refuted :
  keys_of (do c <- static_run (static_init 9 4 1 1 1 2) [KvUpdate 0 k11 k11; KvSetCnt 2]; static_get c 0)
    = ROk ([1; 1; 2; 2], map Some [0; 1; 9; 9]).
Proof. vm_compute. reflexivity. Qed.
(** Values shorter than the keys are read past their end. *)
Theorem C19_short_values_refuted : static_update (static_init 9 4 1 1 1 2) 0 k12 k11 = RUB.
Proof. vm_compute. reflexivity. Qed.
(** When the number of kv heads does not divide the number of query heads, the last
    query heads show rows nobody wrote. *)
Theorem C19_uneven_heads_refuted :
  keys_of (do c <- static_run (static_init 9 1 1 3 2 1) [KvUpdate 0 (ramp_tensor [1; 2; 1; 1]) (ramp_tensor [1; 2; 1; 1])]; static_get c 0)
    = ROk ([1; 3; 1; 1], map Some [0; 1; 9]).
Proof. vm_compute. reflexivity. Qed.

(** With flash attention: preGetKVWriteLocation returns, for every state with room
    for [s] rows, a contiguous [1, s, kv * dim] window of the cache: position
    (i, h*dim+d) of the window is row cnt+i, head h, element d of the cache; no other
    row of the cache overlaps it; the counter advances by s, and getKVCache then shows
    the first cnt+s rows of the same storage. *)
Theorem C19_write_window : forall (A : Type) (c : scache A) idx l s,
  0 < sc_kv c < kAll -> 0 < sc_dim c < kAll -> 0 <= sc_max c < kAll ->
  0 <= idx -> nth_error (sc_layers c) (Z.to_nat idx) = Some l ->
  b_len (l_k l) = sc_max c * sc_kv c * sc_dim c -> b_len (l_v l) = sc_max c * sc_kv c * sc_dim c ->
  0 <= l_cnt l -> 0 <= s -> l_cnt l + s <= sc_max c ->
  exists c' k v gk gv, fa2_preget c idx s = ROk (c', (k, v)) /\
    static_cnt c' idx = ROk (l_cnt l + s) /\ fa2_get c' idx = ROk (gk, gv) /\
    (forall t, t = k \/ t = v -> x_shape t = [1; s; sc_kv c * sc_dim c] /\ tensor_ok t /\ contiguous t /\
       forall i h d, address (x_view t) [0; i; h * sc_dim c + d] = address (fa2_view c) [0; l_cnt l + i; h; d]) /\
    (forall t, t = gk \/ t = gv -> x_shape t = [1; l_cnt l + s; sc_kv c; sc_dim c] /\
       forall p h d, address (x_view t) [0; p; h; d] = address (fa2_view c) [0; p; h; d]) /\
    x_buf k = l_k l /\ x_buf gk = l_k l /\ x_buf v = l_v l /\ x_buf gv = l_v l /\
    (forall p h d p' h' d', 0 <= h < sc_kv c -> 0 <= d < sc_dim c -> 0 <= h' < sc_kv c -> 0 <= d' < sc_dim c ->
       address (fa2_view c) [0; p; h; d] = address (fa2_view c) [0; p'; h'; d'] -> p = p' /\ h = h' /\ d = d').
Proof.
  intros A c idx l s Hkv Hdim Hmax Hidx Hl Hk Hv Hc Hs Hr.
  destruct (fa2_write_location_ok c Hkv Hdim Hmax (l_k l) (l_cnt l) s Hc Hs Hr Hk) as (k & Ek & K1 & K2 & K3 & K4 & K5).
  destruct (fa2_write_location_ok c Hkv Hdim Hmax (l_v l) (l_cnt l) s Hc Hs Hr Hv) as (v & Ev & V1 & V2 & V3 & V4 & V5).
  assert (Hlt : (Z.to_nat idx < length (sc_layers c))%nat) by (apply nth_error_Some; congruence).
  unfold fa2_preget. rewrite (vget_nth _ idx l) by auto. cbn [rbind]. rewrite Ek. cbn [rbind]. rewrite Ev. cbn [rbind].
  unfold vset, zlen. replace ((0 <=? idx) && (idx <? Z.of_nat (length (sc_layers c)))) with true by lia. cbn [rbind].
  set (c' := mkSC (sc_max c) (sc_q c) (sc_kv c) (sc_dim c) (upd_nth (Z.to_nat idx) (fun _ => mkLayer (l_k l) (l_v l) (l_cnt l + s)) (sc_layers c))).
  assert (Hl' : vget (sc_layers c') idx = ROk (mkLayer (l_k l) (l_v l) (l_cnt l + s))).
  { apply vget_nth; auto. cbn [c' sc_layers]. rewrite (nth_error_nth' _ l) by (rewrite length_upd_nth; auto). rewrite nth_upd_nth, Nat.eqb_refl.
    replace (Z.to_nat idx <? length (sc_layers c))%nat with true by lia. reflexivity. }
  assert (Hview : fa2_view c' = fa2_view c) by reflexivity.
  assert (H1 : 1 < kAll) by (unfold kAll; lia).
  assert (Hg : forall b : buf A, slice (mkTns (fa2_view c') b) (fa2_rows kAll (l_cnt l + s)) =
     ROk (mkTns (mkV [1; l_cnt l + s; sc_kv c; sc_dim c] [sc_max c * (sc_kv c * sc_dim c); sc_kv c * sc_dim c; sc_dim c; 1] 0) b)).
  { intro b. unfold slice. cbn [x_view x_buf]. rewrite Hview, fa2_view_is, slice_view_fa2_upto by lia. reflexivity. }
  do 5 eexists. split; [reflexivity|]. split; [unfold static_cnt; rewrite Hl'; reflexivity|].
  split; [unfold fa2_get; rewrite Hl'; cbn [rbind l_k l_v l_cnt]; rewrite !Hg; reflexivity|].
  split; [intros t [->| ->]; auto|]. split; [|split; [auto|split; [reflexivity|split; [auto|split; [reflexivity|]]]]].
  - intros t [->| ->]; (split; [reflexivity|]; intros; rewrite (fa2_address c); rewrite address_dot; cbn [x_view v_offset v_stride dot]; ring).
  - intros p h d p' h' d' Hh Hd Hh' Hd' E. rewrite !(fa2_address c) in E.
    assert (0 <= h * sc_dim c + d < sc_kv c * sc_dim c) by nia. assert (0 <= h' * sc_dim c + d' < sc_kv c * sc_dim c) by nia.
    assert (p = p') by nia. subst p'. assert (h = h') by nia. subst h'. lia.
Qed.
Example C19_window_case : exists l, nth_error (sc_layers (static_init 9 4 1 3 3 2)) 0 = Some l /\ b_len (l_k l) = 4 * 3 * 2 /\ l_cnt l = 0.
Proof. eexists. split; [reflexivity|]. split; reflexivity. Qed.
(** Past the capacity preGetKVWriteLocation hands out memory outside the cache. *)
Definition window_of {A} (r : res (scache A * (tns A * tns A))) : res (list Z * Z * Z) :=
  do x <- r; ROk (x_shape (fst (snd x)), b_len (x_buf (fst (snd x))), address (x_view (fst (snd x))) [0; 2; 0]).
(** The window has three rows, the storage two: the third row is at offset 2. *)
Theorem C19_window_refuted : window_of (fa2_preget (static_init 9 2 1 1 1 1) 0 3) = ROk ([1; 3; 1], 2, 2).
Proof. vm_compute. reflexivity. Qed.

(* ------------------------------------------------------------------ *)
(** ** C39: the sub-cache *)

(** A sub-cache over rows [start ..] of a static cache, which already holds at least
    start + len rows in every layer: after every sequence of updates that fit and of
    clears, the sub-cache shows its own rows followed by everything appended since;
    the parent shows its rows with exactly the appended ones replaced; and the rows of
    the parent below start + len are never touched. *)
Theorem C39_history : forall (A : Type) (z : A) max layers kv rep dim ops start len sops,
  geometry max kv rep dim -> 0 <= layers -> ops_allowed max kv dim (no_logs layers) ops ->
  let ls := logs_after (no_logs layers) ops in
  0 <= start <= max -> 0 <= len -> Forall (fun l => start + len <= Z.of_nat (length (fst l))) ls ->
  let slogs := sub_logs_init start len ls in
  sub_allowed max kv dim start len slogs sops ->
  let after := sub_after start len ls slogs sops in
  exists c s, static_run (static_init z max layers (kv * rep) kv dim) ops = ROk c /\
    sub_run (sub_init c start len) sops = ROk s /\
    (forall idx, 0 <= idx < layers ->
      sub_cnt s idx = ROk (Z.of_nat (length (fst (nth (Z.to_nat idx) (snd after) ([], []))))) /\
      (exists ks vs, static_get (sb_parent s) idx = ROk (ks, vs) /\
        shows ks 1 (kv * rep) rep dim (fst (nth (Z.to_nat idx) (fst after) ([], []))) /\
        shows vs 1 (kv * rep) rep dim (snd (nth (Z.to_nat idx) (fst after) ([], [])))) /\
      (forall p, Z.of_nat p < start + len ->
        nth_error (fst (nth (Z.to_nat idx) (fst after) ([], []))) p = nth_error (fst (nth (Z.to_nat idx) ls ([], []))) p /\
        nth_error (snd (nth (Z.to_nat idx) (fst after) ([], []))) p = nth_error (snd (nth (Z.to_nat idx) ls ([], []))) p)) /\
    (forall idx k v n, 0 <= idx < layers -> 0 <= n -> kv_input kv dim n k -> kv_input kv dim n v ->
      let log := nth (Z.to_nat idx) (snd after) ([], []) in
      if start + Z.of_nat (length (fst log)) + n <=? max then
        exists s' ks vs, sub_update s idx k v = ROk (s', (ks, vs)) /\
          shows ks 1 (kv * rep) rep dim (fst log ++ rows_of k) /\ shows vs 1 (kv * rep) rep dim (snd log ++ rows_of v)
      else sub_update s idx k v = RAbort).
Proof.
  intros A z max layers kv rep dim ops start len sops G Hl Ho ls Hst Hlen Hls slogs Hso after.
  assert (I := g_init max kv rep dim G z layers Hl).
  destruct (g_run max kv rep dim G ops _ _ I Ho) as (c & E & H).
  change (static_ok max kv rep dim c ls) in H.
  assert (S0 := g_sub_init max kv rep dim G start len Hst Hlen c ls H Hls).
  destruct (g_sub_run max kv rep dim G start len Hst Hlen sops _ ls slogs S0 Hso) as (s & Es & Hs).
  fold after in Hs.
  assert (Lls : length ls = Z.to_nat layers) by (apply no_logs_length; auto).
  assert (La : length (snd after) = Z.to_nat layers /\ length (fst after) = Z.to_nat layers).
  { assert (GL : forall (sops : list (kv_op A)) l1 l2, length (fst (sub_after start len l1 l2 sops)) = length l1 /\ length (snd (sub_after start len l1 l2 sops)) = length l2).
    { clear. induction sops as [|o r IH]; intros l1 l2; cbn [sub_after]; auto. destruct (IH (sub_parent_step start l1 l2 o) (sub_logs_step len l2 o)) as [-> ->].
      destruct o; cbn [sub_parent_step sub_logs_step]; rewrite ?length_upd_nth, ?map_length; auto. }
    destruct (GL sops ls slogs) as [G6 G7]. fold after in G6, G7. rewrite G6, G7. unfold slogs, sub_logs_init. rewrite map_length. auto. }
  exists c, s. split; [exact E|]. split; [exact Es|]. split.
  - intros idx Hi. split; [|split].
    + destruct Hs as [B1 B2 B3 B4 B5]. set (log := nth (Z.to_nat idx) (snd after) ([], [])).
      assert (Hn : nth_error (snd after) (Z.to_nat idx) = Some log) by (apply nth_error_nth'; lia).
      destruct (Forall2_nth_error_r _ _ _ B5 _ _ Hn) as ([l cnt] & Hc & R). destruct R as [R1 _ _ _ _ _]. cbn [snd] in R1.
      apply nth_error_combine in Hc as [_ Hc]. cbn [snd] in Hc. unfold sub_cnt. rewrite (vget_nth _ idx cnt) by (auto; lia). rewrite R1. reflexivity.
    + apply (g_get max kv rep dim G _ _ idx (bo_parent _ _ _ _ _ _ _ _ _ Hs)). lia.
    + intros p Hp. apply sub_after_keeps; auto; try lia.
      * unfold slogs, sub_logs_init. apply Forall_map. eapply Forall_impl; [|exact Hls]. cbn beta. intros l H1. cbn [fst]. rewrite firstn_length, skipn_length. lia.
      * unfold slogs, sub_logs_init. rewrite map_length. reflexivity.
  - intros idx k v n Hi Hn Hk Hv. cbv zeta.
    destruct (start + Z.of_nat (length (fst (nth (Z.to_nat idx) (snd after) ([], [])))) + n <=? max) eqn:Eq.
    + destruct (g_sub_update max kv rep dim G start len Hst Hlen s _ _ idx k v n Hs ltac:(lia) Hn Hk Hv ltac:(lia)) as (s' & ks & vs & E1 & _ & S1 & S2).
      exists s', ks, vs. split; [exact E1|]. cbn [sub_logs_step] in S1, S2. rewrite nth_upd_nth, Nat.eqb_refl in S1, S2.
      replace (Z.to_nat idx <? length (snd after))%nat with true in S1, S2 by lia. cbn [andb fst snd] in S1, S2. auto.
    + apply (sub_update_full max kv rep dim start len s _ _ idx k v n Hs); [lia| |lia]. rewrite (ki_shape _ _ _ _ Hk). reflexivity.
Qed.
Example C39_case :
  keys_of (do c <- static_run (static_init 9 4 1 1 1 2) [KvUpdate 0 k12 k12; KvUpdate 0 k11 k11];
           do s <- sub_run (sub_init c 1 1) [KvUpdate 0 k11 k11]; do r <- sub_update s 0 k11 k11; ROk (snd r))
    = ROk ([1; 1; 3; 2], map Some [2; 3; 0; 1; 0; 1]) /\
  keys_of (do c <- static_run (static_init 9 4 1 1 1 2) [KvUpdate 0 k12 k12; KvUpdate 0 k11 k11];
           do s <- sub_run (sub_init c 1 0) [KvUpdate 0 k11 k11]; static_get (sb_parent s) 0)
    = ROk ([1; 1; 3; 2], map Some [0; 1; 0; 1; 0; 1]).
Proof. split; vm_compute; reflexivity. Qed.
Example C39_full_case : (do c <- static_run (static_init 9 2 1 1 1 2) [KvUpdate 0 k12 k12]; do r <- sub_update (sub_init c 1 1) 0 k11 k11; ROk (snd r)) = RAbort.
Proof. vm_compute. reflexivity. Qed.
(** setCurrentSeqCnt on a sub-cache is accepted and silently does nothing. *)
Theorem C39_set_count_refuted : forall (A : Type) (s : subcache A) n, sub_step s (KvSetCnt n) = ROk s.
Proof. reflexivity. Qed.

(* ------------------------------------------------------------------ *)
(** ** C20: the dynamic cache *)

(** After every sequence of updates the cache shows exactly the log; the reported
    sequence length is the number of rows of layer 0.  [rep] is the number of query
    heads per kv head (1 with flash attention, where heads are not repeated). *)
Theorem C20_history_partial : forall (A : Type) dt layers B kv rep dk dv (fa2 : bool) q (ops : list (Z * tns A * tns A)),
  dt = 0 \/ dt = 1 -> 0 < kv -> 0 < rep -> (if fa2 then rep = 1 else Z.quot q kv = rep) -> 0 < layers ->
  dyn_allowed (Z.to_nat layers) B kv dk dv rep ops ->
  let ls := logs_after (no_logs layers) (map dyn_op ops) in
  exists c, dynamic_run dt (dynamic_init layers q kv fa2) ops = ROk c /\
    dynamic_cnt c = ROk (Z.of_nat (length (fst (nth 0 ls ([], []))))) /\
    forall idx k v s s', 0 <= idx < layers -> 0 <= s -> 0 <= s' -> dyn_input B kv dk s rep k -> dyn_input B kv dv s' rep v ->
      let log := nth (Z.to_nat idx) ls ([], []) in
      exists c' ks vs, dynamic_update dt c idx k v = ROk (c', (ks, vs)) /\
        shows ks B (kv * rep) rep dk (fst log ++ rows_of k) /\ shows vs B (kv * rep) rep dv (snd log ++ rows_of v).
Proof.
  intros A dt layers B kv rep dk dv fa2 q ops Hdt Hkv Hrep Hq Hl Ho ls.
  assert (I := @dynamic_init_ok A B kv rep dk dv fa2 q layers).
  assert (Ho' : dyn_allowed (length (repeat (@nil (row A), @nil (row A)) (Z.to_nat layers))) B kv dk dv rep ops) by (rewrite repeat_length; exact Ho).
  destruct (dynamic_run_ok dt B kv rep dk dv fa2 q Hdt Hkv Hrep Hq ops _ _ I Ho') as (c & E & H).
  change (repeat ([], []) (Z.to_nat layers)) with (@no_logs A layers) in H. fold ls in H.
  assert (Lls : length ls = Z.to_nat layers) by (apply no_logs_length; lia).
  exists c. split; [exact E|]. split.
  - destruct ls as [|l0 lr]; [cbn in Lls; lia|]. apply (dynamic_cnt_ok B kv rep dk dv fa2 q c l0 lr H).
  - intros idx k v s s' Hi Hs Hs' Hk Hv. cbv zeta.
    destruct (dynamic_update_ok dt B kv rep dk dv fa2 q Hdt Hkv Hrep Hq c ls idx k v s s' H ltac:(lia) Hs Hs' Hk Hv) as (c' & ks & vs & E1 & _ & S1 & S2).
    exists c', ks, vs. split; [exact E1|]. cbn [logs_step] in S1, S2. rewrite nth_upd_nth, Nat.eqb_refl in S1, S2.
    replace (Z.to_nat idx <? length ls)%nat with true in S1, S2 by lia. cbn [andb fst snd] in S1, S2. auto.
Qed.
Example C20_case : dyn_allowed 1 1 1 2 2 2 [(0, k12, k12); (0, k11, k11)] /\
  keys_of (do c <- dynamic_run 0 (dynamic_init 1 2 1 false) [(0, k12, k12)]; do r <- dynamic_update 0 c 0 k11 k11; ROk (snd r))
    = ROk ([1; 2; 3; 2], map Some [0; 1; 2; 3; 0; 1; 0; 1; 2; 3; 0; 1]).
Proof.
  split; [|vm_compute; reflexivity].
  assert (Hd : forall s, 0 <= s -> dyn_input 1 1 2 s 2 (ramp_tensor [1; 1; s; 2])).
  { intros s Hs. constructor; [apply ramp_ok; [cbn; lia|repeat constructor; lia]|reflexivity|]. right. apply row_major_default. reflexivity. }
  constructor; [|constructor; [|constructor]]; (split; [cbn; lia|]); cbn [fst snd].
  - exists 2, 2. repeat (split; [lia|]). split; apply Hd; lia.
  - exists 1, 1. repeat (split; [lia|]). split; apply Hd; lia.
Qed.
(** An input that is not contiguous (here the two first columns of every row of a
    wider tensor) is repeated as if it were: the cache shows other elements. *)
Definition k_cols : tns Z := mkTns (mkV [1; 1; 2; 1] [4; 4; 2; 1] 0) (ramp 4).
Theorem C20_noncontiguous_refuted :
  contents k_cols = [Some 0; Some 2] /\
  keys_of (do r <- dynamic_update 0 (dynamic_init 1 2 1 false) 0 k_cols k_cols; ROk (snd r))
    = ROk ([1; 2; 2; 1], map Some [0; 1; 0; 1]).
Proof. split; vm_compute; reflexivity. Qed.
Print Assumptions C19_history_partial.
Print Assumptions C19_update_returns.
Print Assumptions C19_capacity_refuted.
Print Assumptions C19_set_forward_refuted.
Print Assumptions C19_short_values_refuted.
Print Assumptions C19_uneven_heads_refuted.
Print Assumptions C19_write_window.
Print Assumptions C19_window_refuted.
Print Assumptions C39_history.
Print Assumptions C39_set_count_refuted.
Print Assumptions C20_history_partial.
Print Assumptions C20_noncontiguous_refuted.
