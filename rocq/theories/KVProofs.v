(** Proofs about the key/value caches. *)
From Verif Require Import Base DTypeModel ParamModel ParamSpec ParamProofs ParamMore TensorModel TensorSpec TensorProofs TensorViews TensorSplit TensorConcat TensorStack TensorPermute TensorContig KVModel KVSpec.
Local Open Scope Z_scope.

Lemma in_shape4 a b c d i j k l : 0 <= i < a -> 0 <= j < b -> 0 <= k < c -> 0 <= l < d -> in_shape [a; b; c; d] [i; j; k; l].
Proof. intros. repeat (apply in_shape_cons; split; [auto|]). constructor. Qed.
Lemma in_shape4_inv a b c d idx : in_shape [a; b; c; d] idx ->
  exists i j k l, idx = [i; j; k; l] /\ 0 <= i < a /\ 0 <= j < b /\ 0 <= k < c /\ 0 <= l < d.
Proof.
  intro H. assert (L := in_shape_length _ _ H). destruct idx as [|i [|j [|k [|l [|? ?]]]]]; cbn in L; try lia.
  apply in_shape_cons in H as [H1 H]. apply in_shape_cons in H as [H2 H]. apply in_shape_cons in H as [H3 H]. apply in_shape_cons in H as [H4 _].
  exists i, j, k, l. auto.
Qed.

Lemma copy_heads_ok {A} (cv : view) (off HS M kv rep dim cnt s : Z) (src : tns A) (dst : buf A) :
  (forall h p, offsetted cv [0; h; p; 0] = ROk (off + h * HS + p * dim)) ->
  0 < kv -> 0 < rep -> 0 < dim -> 0 <= s -> 0 <= cnt -> cnt + s <= M -> M * dim <= HS -> 0 <= off ->
  off + (kv * rep - 1) * HS + M * dim <= b_len dst ->
  kv_input kv dim s src ->
  exists b', copy_heads cv kv rep dim cnt s src dst = ROk b' /\ b_len b' = b_len dst /\
    (forall h i d, 0 <= h < kv * rep -> 0 <= i < s -> 0 <= d < dim ->
       b_at b' (off + h * HS + (cnt + i) * dim + d) = elem src [0; h / rep; i; d]) /\
    (forall pos, (forall h i d, 0 <= h < kv * rep -> 0 <= i < s -> 0 <= d < dim -> pos <> off + h * HS + (cnt + i) * dim + d) ->
       b_at b' pos = b_at dst pos).
Proof.
  intros Hcv Hkv Hrep Hdim Hs Hcnt HM HHS Hoff Hlen [Hok Hsh Hrows].
  set (G := fun pos : Z =>
    let h := (pos - off) / HS in
    let p := (pos - off) mod HS / dim in
    let d := (pos - off) mod HS mod dim in
    if (0 <=? h) && (h <? kv * rep) && (cnt <=? p) && (p <? cnt + s) then elem src [0; h / rep; p - cnt; d] else b_at dst pos).
  assert (HG : forall h i d, 0 <= h < kv * rep -> 0 <= i < s -> 0 <= d < dim ->
     G (off + h * HS + (cnt + i) * dim + d) = elem src [0; h / rep; i; d] /\
     0 <= off + h * HS + (cnt + i) * dim + d < b_len dst).
  { intros h i d Hh Hi Hd.
    assert (Hy : 0 <= (cnt + i) * dim + d < M * dim) by nia.
    assert (Ediv : (off + h * HS + (cnt + i) * dim + d - off) / HS = h).
    { replace (off + h * HS + (cnt + i) * dim + d - off) with ((cnt + i) * dim + d + h * HS) by lia.
      rewrite Z.div_add by lia. rewrite Z.div_small by lia. lia. }
    assert (Emod : (off + h * HS + (cnt + i) * dim + d - off) mod HS = (cnt + i) * dim + d).
    { replace (off + h * HS + (cnt + i) * dim + d - off) with ((cnt + i) * dim + d + h * HS) by lia.
      rewrite Z.mod_add by lia. apply Z.mod_small. lia. }
    assert (Ep : ((cnt + i) * dim + d) / dim = cnt + i).
    { rewrite Z.add_comm, Z.div_add by lia. rewrite Z.div_small by lia. lia. }
    assert (Ed : ((cnt + i) * dim + d) mod dim = d).
    { rewrite Z.add_comm, Z.mod_add by lia. apply Z.mod_small. lia. }
    split.
    - unfold G. cbv zeta. rewrite Ediv, Emod, Ep, Ed.
      replace ((0 <=? h) && (h <? kv * rep) && (cnt <=? cnt + i) && (cnt + i <? cnt + s)) with true by lia.
      replace (cnt + i - cnt) with i by lia. reflexivity.
    - assert (h * HS <= (kv * rep - 1) * HS) by (apply Z.mul_le_mono_nonneg_r; nia). nia. }
  assert (HGo : forall pos, (forall h i d, 0 <= h < kv * rep -> 0 <= i < s -> 0 <= d < dim -> pos <> off + h * HS + (cnt + i) * dim + d) ->
       G pos = b_at dst pos).
  { intros pos Hne. unfold G. cbv zeta.
    destruct ((0 <=? (pos - off) / HS) && ((pos - off) / HS <? kv * rep) && (cnt <=? (pos - off) mod HS / dim) && ((pos - off) mod HS / dim <? cnt + s)) eqn:E; auto.
    exfalso. apply (Hne ((pos - off) / HS) ((pos - off) mod HS / dim - cnt) ((pos - off) mod HS mod dim)); [lia|lia|apply Z.mod_pos_bound; lia|].
    assert (E1 := Z_div_mod_eq_full (pos - off) HS). assert (E2 := Z_div_mod_eq_full ((pos - off) mod HS) dim). nia. }
  unfold copy_heads.
  destruct (good_loop G kv (fun h pos => exists r i d, 0 <= r < rep /\ 0 <= i < s /\ 0 <= d < dim /\ pos = off + (h * rep + r) * HS + (cnt + i) * dim + d)
    (fun h b =>
    zloop rep (fun r b =>
      do d <- offsetted cv [0; h * rep + r; cnt; 0];
      do s0 <- offsetted (x_view src) [0; h; 0; 0];
      memcpy (x_buf src) s0 d (s * dim) b) b) dst (b_len dst) eq_refl) as (b' & E & Gd).
  { intros h b Hh Hb.
    destruct (good_loop G rep (fun r pos => exists i d, 0 <= i < s /\ 0 <= d < dim /\ pos = off + (h * rep + r) * HS + (cnt + i) * dim + d)
      (fun r b =>
      do d <- offsetted cv [0; h * rep + r; cnt; 0];
      do s0 <- offsetted (x_view src) [0; h; 0; 0];
      memcpy (x_buf src) s0 d (s * dim) b) b (b_len dst) Hb) as (b1 & E1 & G1).
    { intros r b1 Hr Hb1. rewrite Hcv. cbn [rbind].
      assert (Eo : offsetted (x_view src) [0; h; 0; 0] = ROk (address (x_view src) [0; h; 0; 0])).
      { unfold offsetted. unfold x_shape in Hsh. rewrite Hsh. change (zlen [0; h; 0; 0] =? zlen [1; kv; s; dim]) with true.
        cbv iota. rewrite address_dot. reflexivity. }
      rewrite Eo. cbn [rbind]. set (s0 := address (x_view src) [0; h; 0; 0]) in *.
      assert (Hhq : 0 <= h * rep + r < kv * rep) by nia.
      assert (Hhr : (h * rep + r) / rep = h) by (rewrite Z.add_comm, Z.div_add by lia; rewrite Z.div_small by lia; lia).
      destruct (good_memcpy G (x_buf src) s0 (off + (h * rep + r) * HS + cnt * dim) (s * dim) b1) as (b2 & E2 & G2).
      - intro Hpos. assert (Hs1 : 0 < s) by nia. split.
        + assert (O := ok_inside _ Hok [0; h; 0; 0] ltac:(rewrite Hsh; apply in_shape4; lia)). fold s0 in O. lia.
        + assert (O := ok_inside _ Hok [0; h; s - 1; dim - 1] ltac:(rewrite Hsh; apply in_shape4; lia)).
          rewrite Hrows in O by lia. fold s0 in O. nia.
      - intro Hpos. assert (Hs1 : 0 < s) by nia. rewrite Hb1.
        destruct (HG (h * rep + r) 0 0 Hhq ltac:(lia) ltac:(lia)) as [_ B1].
        destruct (HG (h * rep + r) (s - 1) (dim - 1) Hhq ltac:(lia) ltac:(lia)) as [_ B2]. nia.
      - intros k Hk. assert (Hs1 : 0 < s) by nia.
        assert (Qk := Z_div_mod_eq_full k dim). assert (Mk := Z.mod_pos_bound k dim Hdim).
        assert (Dk : 0 <= k / dim < s) by (split; [apply Z.div_pos; lia|apply Z.div_lt_upper_bound; lia]).
        destruct (HG (h * rep + r) (k / dim) (k mod dim) Hhq Dk Mk) as [B1 _].
        replace (off + (h * rep + r) * HS + cnt * dim + k) with (off + (h * rep + r) * HS + (cnt + k / dim) * dim + k mod dim) by nia.
        rewrite B1, Hhr. unfold elem. rewrite Hrows by lia. fold s0. f_equal. lia.
      - exists b2. split; [exact E2|]. eapply good_weaken; [|exact G2]. cbn beta. intros pos (i & d & Hi & Hd & ->). nia. }
    exists b1. split; [exact E1|]. eapply good_weaken; [|exact G1]. cbn beta.
    intros pos (r & i & d & Hr & Hi & Hd & ->). exists r. split; [auto|]. exists i, d. auto. }
  exists b'. split; [exact E|]. split; [apply (g_len _ _ _ _ Gd)|]. split.
  - intros h i d Hh Hi Hd. destruct (HG h i d Hh Hi Hd) as [B1 _]. rewrite <- B1. apply (g_set _ _ _ _ Gd).
    exists (h / rep). assert (Qh := Z_div_mod_eq_full h rep). assert (Mh := Z.mod_pos_bound h rep Hrep).
    split; [split; [apply Z.div_pos; lia|apply Z.div_lt_upper_bound; lia]|].
    exists (h mod rep), i, d. replace (h / rep * rep + h mod rep) with h by lia. repeat split; auto; lia.
  - intros pos Hne. destruct (g_old _ _ _ _ Gd pos) as [H|H]; [exact H|]. rewrite H. apply HGo. auto.
Qed.

(* ---------------- lists ---------------- *)
Lemma Forall2_nth_error {X Y} (R : X -> Y -> Prop) l m : Forall2 R l m -> forall n x, nth_error l n = Some x ->
  exists y, nth_error m n = Some y /\ R x y.
Proof.
  induction 1 as [|a b l m Hab H IH]; intros [|n] x E; cbn [nth_error] in *; try discriminate.
  - injection E as <-. exists b. auto.
  - apply IH. auto.
Qed.
Lemma Forall2_nth_error_r {X Y} (R : X -> Y -> Prop) l m : Forall2 R l m -> forall n y, nth_error m n = Some y ->
  exists x, nth_error l n = Some x /\ R x y.
Proof.
  induction 1 as [|a b l m Hab H IH]; intros [|n] x E; cbn [nth_error] in *; try discriminate.
  - injection E as <-. exists a. auto.
  - apply IH. auto.
Qed.
Lemma Forall2_upd {X Y} (R : X -> Y -> Prop) l m n (f : X -> X) (g : Y -> Y) : Forall2 R l m ->
  (forall x y, nth_error l n = Some x -> nth_error m n = Some y -> R x y -> R (f x) (g y)) ->
  Forall2 R (upd_nth n f l) (upd_nth n g m).
Proof.
  intro H. revert n. induction H as [|a b l m Hab H IH]; intros [|n] Hf; cbn [upd_nth]; constructor; auto; apply IH; auto.
Qed.
Lemma Forall2_len {X Y} (R : X -> Y -> Prop) l m : Forall2 R l m -> length l = length m.
Proof. induction 1; cbn [length]; auto. Qed.
Lemma rows_of_length {A} (k : tns A) s : nth 2 (x_shape k) 0 = s -> 0 <= s -> Z.of_nat (length (rows_of k)) = s.
Proof. intros <- H. unfold rows_of. rewrite map_length, seq_length. lia. Qed.
Lemma rows_of_nth {A} (k : tns A) n x : nth_error (rows_of k) n = Some x -> x = (k, Z.of_nat n) /\ Z.of_nat n < nth 2 (x_shape k) 0.
Proof.
  intro H. unfold rows_of, row in *. assert (Hn : (n < length (seq 0%nat (Z.to_nat (nth 2%nat (x_shape k) 0%Z))))%nat).
  { rewrite <- (map_length (fun i => (k, Z.of_nat i))). apply nth_error_Some. unfold row in *; congruence. }
  rewrite seq_length in Hn. rewrite (map_nth_error (fun i => (k, Z.of_nat i)) n (seq 0%nat (Z.to_nat (nth 2%nat (x_shape k) 0))) (d := n)) in H.
  - injection H as <-. split; [reflexivity|lia].
  - rewrite (nth_error_nth' _ 0%nat) by (rewrite seq_length; auto). rewrite seq_nth by auto. reflexivity.
Qed.
Lemma vget_nth {X} (l : list X) i x : 0 <= i -> nth_error l (Z.to_nat i) = Some x -> vget l i = ROk x.
Proof. intros H E. unfold vget. replace (0 <=? i) with true by lia. rewrite E. reflexivity. Qed.

(* ---------------- the static cache ---------------- *)
(** A buffer laid out as [1, q, max, dim] (rows of a head at [off + h * HS]) holds a
    log. *)
Definition holds {A} (b : buf A) (off HS q rep dim : Z) (log : list (row A)) : Prop :=
  forall h p d k i, 0 <= h < q -> 0 <= d < dim -> nth_error log p = Some (k, i) ->
    b_at b (off + h * HS + Z.of_nat p * dim + d) = elem k [0; h / rep; i; d].

Lemma holds_append {A} (b b' : buf A) off HS M q rep dim log (k : tns A) s :
  0 < dim -> M * dim <= HS -> Z.of_nat (length log) + s <= M -> 0 <= s -> nth 2 (x_shape k) 0 = s ->
  holds b off HS q rep dim log ->
  (forall h i d, 0 <= h < q -> 0 <= i < s -> 0 <= d < dim ->
     b_at b' (off + h * HS + (Z.of_nat (length log) + i) * dim + d) = elem k [0; h / rep; i; d]) ->
  (forall pos, (forall h i d, 0 <= h < q -> 0 <= i < s -> 0 <= d < dim -> pos <> off + h * HS + (Z.of_nat (length log) + i) * dim + d) ->
     b_at b' pos = b_at b pos) ->
  holds b' off HS q rep dim (log ++ rows_of k).
Proof.
  intros Hdim HHS Hle Hs Hk Hold Hnew Hrest h p d k0 i Hh Hd Hp.
  destruct (Nat.lt_ge_cases p (length log)) as [Hlt|Hge].
  - rewrite nth_error_app1 in Hp by auto. rewrite Hrest; [apply Hold; auto|].
    intros h2 i2 d2 Hh2 Hi2 Hd2 E.
    assert (Hy1 : 0 <= Z.of_nat p * dim + d < HS) by nia.
    assert (Hy2 : 0 <= (Z.of_nat (length log) + i2) * dim + d2 < HS) by nia.
    assert (h = h2) by nia. subst h2. nia.
  - rewrite nth_error_app2 in Hp by auto. apply rows_of_nth in Hp as [Hp1 Hp2]. injection Hp1 as -> ->.
    rewrite Hk in Hp2. rewrite <- (Hnew h (Z.of_nat (p - length log)) d Hh ltac:(lia) Hd). f_equal. nia.
Qed.

Record layer_ok {A} (max q rep dim : Z) (l : layer A) (log : list (row A) * list (row A)) : Prop := {
  lo_cnt : l_cnt l = Z.of_nat (length (fst log));
  lo_cntv : length (snd log) = length (fst log);
  lo_max : l_cnt l <= max;
  lo_klen : b_len (l_k l) = q * max * dim;
  lo_vlen : b_len (l_v l) = q * max * dim;
  lo_k : holds (l_k l) 0 (max * dim) q rep dim (fst log);
  lo_v : holds (l_v l) 0 (max * dim) q rep dim (snd log);
}.

Section Static.
Context {A : Type}.
Variables (max kv rep dim : Z).
Hypothesis Hkv : 0 < kv.
Hypothesis Hrep : 0 < rep.
Hypothesis Hdim : 0 < dim.
Hypothesis Hmax : 0 <= max.
Hypothesis HmaxA : max < kAll.
Hypothesis HqA : kv * rep < kAll.
Hypothesis HdA : dim < kAll.
Let q := kv * rep.

Record static_ok (c : scache A) (ls : logs A) : Prop := {
  so_max : sc_max c = max;
  so_q : sc_q c = q;
  so_kv : sc_kv c = kv;
  so_dim : sc_dim c = dim;
  so_layers : Forall2 (layer_ok max q rep dim) (sc_layers c) ls;
}.

Lemma eager_offset (c : scache A) ls h p : static_ok c ls -> offsetted (eager_view c) [0; h; p; 0] = ROk (0 + h * (max * dim) + p * dim).
Proof.
  intros [H1 H2 H3 H4 _]. unfold offsetted, eager_view, eager_shape. cbn [v_shape v_offset v_stride].
  change (zlen [0; h; p; 0] =? zlen [1; sc_q c; sc_max c; sc_dim c]) with true. cbv iota.
  rewrite !default_strides_cons. cbn [dot]. unfold product. cbn [fold_right]. f_equal. rewrite H1, H4. ring.
Qed.
Lemma eager_address (c : scache A) ls b h p d : static_ok c ls -> address (eager_view c) [b; h; p; d] = b * (q * max * dim) + h * (max * dim) + p * dim + d.
Proof.
  intros [H1 H2 H3 H4 _]. rewrite address_dot. unfold eager_view, eager_shape. cbn [v_offset v_stride].
  rewrite !default_strides_cons. cbn [dot]. unfold product. cbn [fold_right]. rewrite H1, H2, H4. ring.
Qed.
Lemma eager_ok (c : scache A) ls (b : buf A) : static_ok c ls -> b_len b = q * max * dim -> tensor_ok (mkTns (eager_view c) b).
Proof.
  intros H Hb. assert (H' := H). destruct H' as [H1 H2 H3 H4 _]. constructor.
  - cbn. lia.
  - reflexivity.
  - change (x_shape (mkTns (eager_view c) b)) with [1; sc_q c; sc_max c; sc_dim c]. rewrite H1, H2, H4. unfold q. repeat constructor; nia.
  - change (x_shape (mkTns (eager_view c) b)) with [1; sc_q c; sc_max c; sc_dim c]. rewrite H1, H2, H4. intros idx Hi.
    apply in_shape4_inv in Hi as (i & j & k & l & -> & I1 & I2 & I3 & I4). cbn [x_buf].
    rewrite (eager_address c ls) by auto. rewrite Hb. replace i with 0 by lia.
    assert (0 <= k * dim + l < max * dim) by nia. assert (0 <= j * (max * dim) <= (q - 1) * (max * dim)) by nia. nia.
Qed.

Lemma slice_upto (c : scache A) ls (b : buf A) log : static_ok c ls -> b_len b = q * max * dim ->
  Z.of_nat (length log) <= max -> holds b 0 (max * dim) q rep dim log ->
  exists t, slice (mkTns (eager_view c) b) (upto (Z.of_nat (length log))) = ROk t /\ shows t 1 q rep dim log.
Proof.
  intros H Hb Hl Hh. assert (H' := H). destruct H' as [H1 H2 H3 H4 _].
  destruct (slice_correct (mkTns (eager_view c) b) (upto (Z.of_nat (length log)))) as (t & E & T1 & T2 & T3 & T4).
  - apply (eager_ok c ls); auto.
  - change (x_shape (mkTns (eager_view c) b)) with [1; sc_q c; sc_max c; sc_dim c]. rewrite H1, H2, H4. unfold upto, q.
    unfold kAll in *.
    repeat constructor; unfold slice_in_range, slice_lo, slice_hi, kAll; cbn [sl_start sl_end sl_step];
      change (2147483633 =? 2147483633) with true; change (2147483633 =? -1) with false; cbn [andb];
      try replace (Z.of_nat (length log) =? 2147483633) with false by lia;
      try replace (Z.of_nat (length log) <? 0) with false by lia; lia || nia.
  - exists t. split; [exact E|].
    assert (Hsh : x_shape t = [1; q; Z.of_nat (length log); dim]).
    { rewrite T3. change (x_shape (mkTns (eager_view c) b)) with [1; sc_q c; sc_max c; sc_dim c]. rewrite H1, H2, H4.
      unfold upto. cbn [combine map fst snd]. unfold slice_count, slice_lo, slice_hi, kAll in *. cbn [sl_start sl_end sl_step].
      change (2147483633 =? 2147483633) with true. change (2147483633 =? -1) with false. cbn [andb].
      replace (Z.of_nat (length log) =? 2147483633) with false by lia. replace (Z.of_nat (length log) <? 0) with false by lia.
      rewrite !Z.div_1_r. repeat f_equal; lia. }
    split; [exact Hsh|]. split; [exact T1|].
    intros b0 h p d k i Hb0 Hhh Hd Hp.
    assert (Hpl : (p < length log)%nat) by (apply nth_error_Some; congruence).
    destruct (T4 [b0; h; Z.of_nat p; d]) as (_ & _ & T5).
    { rewrite Hsh. apply in_shape4; auto; lia. }
    rewrite T5. change (x_shape (mkTns (eager_view c) b)) with [1; sc_q c; sc_max c; sc_dim c]. unfold upto. cbn [slice_source].
    unfold slice_lo, kAll. cbn [sl_start sl_step]. change (2147483633 =? 2147483633) with true. cbv iota.
    rewrite !Z.mul_1_r, !Z.add_0_l. unfold elem at 1. cbn [x_buf x_view].
    rewrite (eager_address c ls) by auto. replace b0 with 0 by lia. rewrite <- (Hh h p d k i) by auto. first [reflexivity|f_equal; lia].
Qed.

Lemma quot_q : Z.quot q kv = rep.
Proof. unfold q. rewrite Z.mul_comm. apply Z.quot_mul. lia. Qed.

Lemma static_update_ok (c : scache A) ls idx k v s :
  static_ok c ls -> 0 <= idx < Z.of_nat (length ls) -> 0 <= s -> kv_input kv dim s k -> kv_input kv dim s v ->
  Z.of_nat (length (fst (nth (Z.to_nat idx) ls ([], [])))) + s <= max ->
  exists c' ks vs, static_update c idx k v = ROk (c', (ks, vs)) /\
    static_ok c' (logs_step ls (KvUpdate idx k v)) /\
    shows ks 1 q rep dim (fst (nth (Z.to_nat idx) (logs_step ls (KvUpdate idx k v)) ([], []))) /\
    shows vs 1 q rep dim (snd (nth (Z.to_nat idx) (logs_step ls (KvUpdate idx k v)) ([], []))).
Proof.
  intros H Hidx Hs Hk Hv Hroom. assert (H' := H). destruct H' as [H1 H2 H3 H4 H5].
  set (n := Z.to_nat idx) in *. set (log := nth n ls ([], [])) in *.
  assert (Hn : nth_error ls n = Some log) by (apply nth_error_nth'; lia).
  destruct (Forall2_nth_error_r _ _ _ H5 n log Hn) as (l & Hl & L). destruct L as [L1 L2 L3 L4 L5 L6 L7].
  unfold static_update. rewrite (ki_shape _ _ _ _ Hk), (ki_shape _ _ _ _ Hv).
  change (vget [1; kv; s; dim] 1) with (ROk kv). change (vget [1; kv; s; dim] 2) with (ROk s). cbn [rbind].
  rewrite H3, Z.eqb_refl. cbn [negb]. replace (kv =? 0) with false by lia. rewrite H2, quot_q, H4.
  rewrite (vget_nth _ idx l) by (auto; lia). cbn [rbind].
  destruct (copy_heads_ok (eager_view c) 0 (max * dim) max kv rep dim (l_cnt l) s k (l_k l)) as (kb & Ek & K1 & K2 & K3);
    try lia; auto; try (intros; apply (eager_offset c ls); auto); try (rewrite ?L4; fold q; nia).
  destruct (copy_heads_ok (eager_view c) 0 (max * dim) max kv rep dim (l_cnt l) s v (l_v l)) as (vb & Ev & V1 & V2 & V3);
    try lia; auto; try (intros; apply (eager_offset c ls); auto); try (rewrite ?L5; fold q; nia).
  rewrite Ek. cbn [rbind]. rewrite Ev. cbn [rbind].
  assert (Ll : length (sc_layers c) = length ls) by (apply (Forall2_len _ _ _ H5)).
  unfold vset, zlen. replace ((0 <=? idx) && (idx <? Z.of_nat (length (sc_layers c)))) with true by lia. cbn [rbind]. fold n.
  assert (Hks : nth 2 (x_shape k) 0 = s) by (rewrite (ki_shape _ _ _ _ Hk); reflexivity).
  assert (Hvs : nth 2 (x_shape v) 0 = s) by (rewrite (ki_shape _ _ _ _ Hv); reflexivity).
  assert (Rk := rows_of_length k s Hks Hs). assert (Rv := rows_of_length v s Hvs Hs).
  assert (HK : holds kb 0 (max * dim) q rep dim (fst log ++ rows_of k)).
  { eapply (holds_append (l_k l) kb 0 (max * dim) max q rep dim (fst log) k s); auto; try lia; rewrite <- ?L1; auto. }
  assert (HV : holds vb 0 (max * dim) q rep dim (snd log ++ rows_of v)).
  { eapply (holds_append (l_v l) vb 0 (max * dim) max q rep dim (snd log) v s); auto; try lia; rewrite ?L2, <- ?L1; auto. }
  assert (Ecnt : l_cnt l + s = Z.of_nat (length (fst log ++ rows_of k))) by (rewrite app_length; lia).
  assert (Ecntv : l_cnt l + s = Z.of_nat (length (snd log ++ rows_of v))) by (rewrite app_length; lia).
  assert (Hnew : static_ok (mkSC (sc_max c) q kv dim (upd_nth n (fun _ => mkLayer kb vb (l_cnt l + s)) (sc_layers c))) (logs_step ls (KvUpdate idx k v))).
  { constructor; auto. cbn [sc_layers logs_step]. fold n. apply Forall2_upd; auto.
    intros x y Ex Ey _. rewrite Hn in Ey. injection Ey as <-. constructor; cbn [l_cnt l_k l_v fst snd]; auto.
    - rewrite !app_length. lia.
    - lia.
    - rewrite K1. auto.
    - rewrite V1. auto. }
  destruct (slice_upto c ls kb (fst log ++ rows_of k) H) as (ks & Eks & Sk); [rewrite K1; auto|lia|auto|].
  destruct (slice_upto c ls vb (snd log ++ rows_of v) H) as (vs & Evs & Sv); [rewrite V1; auto|lia|auto|].
  rewrite <- Ecnt in Eks. rewrite <- Ecntv in Evs. rewrite Eks. cbn [rbind]. rewrite Evs. cbn [rbind].
  do 3 eexists. split; [reflexivity|]. split; [exact Hnew|].
  cbn [logs_step]. fold n.
  assert (En : nth n (upd_nth n (fun l => (fst l ++ rows_of k, snd l ++ rows_of v)) ls) ([], []) = (fst log ++ rows_of k, snd log ++ rows_of v)).
  { rewrite nth_upd_nth, Nat.eqb_refl. replace (n <? length ls)%nat with true by lia. reflexivity. }
  rewrite En. cbn [fst snd]. auto.
Qed.

Lemma static_step_ok (c : scache A) ls o : static_ok c ls -> op_allowed max kv dim ls o ->
  exists c', static_step c o = ROk c' /\ static_ok c' (logs_step ls o).
Proof.
  intros H Ho. destruct o as [idx k v|n|]; cbn [op_allowed static_step] in *.
  - destruct Ho as (Hi & s & Hs & Hk & Hv & Hr).
    destruct (static_update_ok c ls idx k v s H Hi Hs Hk Hv Hr) as (c' & ks & vs & E & H' & _). rewrite E. cbn [rbind fst]. eauto.
  - eexists. split; [reflexivity|]. destruct Ho as [Hn Ha]. destruct H as [H1 H2 H3 H4 H5]. constructor; auto.
    cbn [static_set_cnt sc_layers logs_step]. clear H1 H2 H3 H4.
    induction H5 as [|l log ll lls L H5 IH]; [constructor|]. inversion Ha as [|? ? A1 A2]; subst. constructor; [|auto].
    destruct L as [L1 L2 L3 L4 L5 L6 L7]. constructor; cbn [l_cnt l_k l_v fst snd]; auto.
    + rewrite firstn_length. lia.
    + rewrite !firstn_length. lia.
    + lia.
    + intros h p d k i Hh Hd Hp. apply L6; auto.
      assert (Hpl : (p < length (firstn (Z.to_nat n) (fst log)))%nat) by (apply nth_error_Some; congruence).
      rewrite <- Hp. rewrite firstn_length in Hpl. symmetry. rewrite <- (firstn_skipn (Z.to_nat n) (fst log)) at 2.
      rewrite nth_error_app1; [auto|]. rewrite firstn_length. lia.
    + intros h p d k i Hh Hd Hp. apply L7; auto.
      assert (Hpl : (p < length (firstn (Z.to_nat n) (snd log)))%nat) by (apply nth_error_Some; congruence).
      rewrite <- Hp. rewrite firstn_length in Hpl. symmetry. rewrite <- (firstn_skipn (Z.to_nat n) (snd log)) at 2.
      rewrite nth_error_app1; [auto|]. rewrite firstn_length. lia.
  - eexists. split; [reflexivity|]. destruct H as [H1 H2 H3 H4 H5]. constructor; auto.
    cbn [static_clear static_set_cnt sc_layers logs_step]. clear H1 H2 H3 H4 Ho.
    induction H5 as [|l log ll lls L H5 IH]; [constructor|]. constructor; [|auto].
    destruct L as [L1 L2 L3 L4 L5 L6 L7]. constructor; cbn [l_cnt l_k l_v fst snd]; auto;
      intros h p d k i _ _ Hp; destruct p; discriminate.
Qed.

Lemma static_run_ok (ops : list (kv_op A)) : forall c ls, static_ok c ls -> ops_allowed max kv dim ls ops ->
  exists c', static_run c ops = ROk c' /\ static_ok c' (logs_after ls ops).
Proof.
  induction ops as [|o r IH]; intros c ls H Ho; [exists c; split; auto|].
  cbn [ops_allowed static_run] in *. destruct Ho as [Ho Hr].
  destruct (static_step_ok c ls o H Ho) as (c1 & E & H1). rewrite E. cbn [rbind].
  destruct (IH c1 _ H1 Hr) as (c2 & E2 & H2). exists c2. auto.
Qed.

Lemma static_init_ok (z : A) layers : 0 <= layers ->
  static_ok (static_init z max layers q kv dim) (repeat ([], []) (Z.to_nat layers)).
Proof.
  intro Hl. constructor; auto. unfold static_init. cbn [sc_layers].
  assert (Hb : numel [1; q; max; dim] = q * max * dim) by (rewrite numel_product; unfold product; cbn [fold_right]; ring).
  induction (Z.to_nat layers) as [|m IH]; cbn [repeat]; constructor; auto.
  constructor; cbn [l_cnt l_k l_v fst snd length b_len]; auto; intros h p d k i _ _ Hp; destruct p; discriminate.
Qed.

Lemma static_get_ok (c : scache A) ls idx : static_ok c ls -> 0 <= idx < Z.of_nat (length ls) ->
  let log := nth (Z.to_nat idx) ls ([], []) in
  static_cnt c idx = ROk (Z.of_nat (length (fst log))) /\
  exists ks vs, static_get c idx = ROk (ks, vs) /\ shows ks 1 q rep dim (fst log) /\ shows vs 1 q rep dim (snd log).
Proof.
  intros H Hidx. cbv zeta. set (n := Z.to_nat idx). set (log := nth n ls ([], [])).
  assert (Hn : nth_error ls n = Some log) by (apply nth_error_nth'; lia).
  destruct (Forall2_nth_error_r _ _ _ (so_layers _ _ H) n log Hn) as (l & Hl & L). destruct L as [L1 L2 L3 L4 L5 L6 L7].
  unfold static_cnt, static_get. rewrite (vget_nth _ idx l) by (auto; lia). cbn [rbind].
  split; [rewrite L1; reflexivity|].
  destruct (slice_upto c ls (l_k l) (fst log) H L4 ltac:(lia) L6) as (ks & Ek & Sk).
  destruct (slice_upto c ls (l_v l) (snd log) H L5 ltac:(lia) L7) as (vs & Ev & Sv).
  rewrite L2, <- L1 in Ev. rewrite <- L1 in Ek. rewrite Ek. cbn [rbind]. rewrite Ev. cbn [rbind]. eauto.
Qed.
End Static.
