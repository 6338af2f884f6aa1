(** What the static cache does past its capacity, and which parent rows a sub-cache
    leaves alone. *)
From Verif Require Import Base DTypeModel ParamModel ParamSpec ParamProofs ParamMore TensorModel TensorSpec TensorProofs TensorViews KVModel KVSpec KVProofs KVSub.
Local Open Scope Z_scope.

(** A body that keeps the length of the buffer or is undefined. *)
Definition ok_or_ub {A} (L : Z) (body : Z -> buf A -> res (buf A)) : Prop :=
  forall i b, b_len b = L -> body i b = RUB \/ exists b', body i b = ROk b' /\ b_len b' = L.
Lemma loop_ok_or_ub {A} L body n : @ok_or_ub A L body -> forall b, b_len b = L -> loop n body b = RUB \/ exists b', loop n body b = ROk b' /\ b_len b' = L.
Proof.
  intros H b Hb. induction n as [|n IH]; cbn [loop]; [right; eauto|].
  destruct IH as [->|(b' & -> & Hb')]; cbn [rbind]; [left; reflexivity|]. apply H. auto.
Qed.
Lemma loop_ub {A} L body n i : @ok_or_ub A L body -> (i < n)%nat -> (forall b, b_len b = L -> body (Z.of_nat i) b = RUB) ->
  forall b, b_len b = L -> loop n body b = RUB.
Proof.
  intros H Hi Hu b Hb. induction n as [|n IH]; [lia|]. cbn [loop].
  destruct (Nat.eq_dec i n) as [->|Hne].
  - destruct (loop_ok_or_ub L body n H b Hb) as [->|(b' & -> & Hb')]; cbn [rbind]; [reflexivity|]. apply Hu. auto.
  - rewrite IH by lia. reflexivity.
Qed.
Lemma copy1_ok_or_ub {A} (src : buf A) s d L : ok_or_ub L (fun k => copy1 src (s + k) (d + k)).
Proof.
  intros i b Hb. unfold copy1, load, store. destruct ((0 <=? s + i) && (s + i <? b_len src)); cbn [rbind]; [|left; reflexivity].
  destruct ((0 <=? d + i) && (d + i <? b_len b)); [|left; reflexivity]. right. eexists. split; [reflexivity|]. auto.
Qed.
Lemma memcpy_ub {A} (src : buf A) s d n (b : buf A) : 0 < n -> b_len b < d + n -> memcpy src s d n b = RUB.
Proof.
  intros Hn Hd. unfold memcpy, zloop. apply (loop_ub (b_len b) _ _ (Z.to_nat (n - 1)) (copy1_ok_or_ub src s d _)); auto; [lia|].
  intros b0 Hb. unfold copy1, load, store. destruct ((0 <=? s + Z.of_nat (Z.to_nat (n - 1))) && (s + Z.of_nat (Z.to_nat (n - 1)) <? b_len src)); cbn [rbind]; [|reflexivity].
  replace ((0 <=? d + Z.of_nat (Z.to_nat (n - 1))) && (d + Z.of_nat (Z.to_nat (n - 1)) <? b_len b0)) with false by lia. reflexivity.
Qed.

(** Past the capacity the copy for the last head leaves the buffer. *)
Lemma copy_heads_over {A} (cv : view) HS kv rep dim cnt s (src : tns A) (dst : buf A) :
  (forall h p, offsetted cv [0; h; p; 0] = ROk (0 + h * HS + p * dim)) ->
  0 < kv -> 0 < rep -> 0 < dim -> 0 < s -> x_shape src = [1; kv; s; dim] ->
  b_len dst < (kv * rep - 1) * HS + (cnt + s) * dim ->
  copy_heads cv kv rep dim cnt s src dst = RUB.
Proof.
  intros Hcv Hkv Hrep Hdim Hs Hsh Hlen. unfold copy_heads, zloop.
  assert (Eo : forall h, offsetted (x_view src) [0; h; 0; 0] = ROk (address (x_view src) [0; h; 0; 0])).
  { intro h. unfold offsetted. unfold x_shape in Hsh. rewrite Hsh. change (zlen [0; h; 0; 0] =? zlen [1; kv; s; dim]) with true.
    cbv iota. rewrite address_dot. reflexivity. }
  assert (Hin : forall h, ok_or_ub (b_len dst) (fun r b =>
      do d <- offsetted cv [0; h * rep + r; cnt; 0];
      do s0 <- offsetted (x_view src) [0; h; 0; 0];
      memcpy (x_buf src) s0 d (s * dim) b)).
  { intros h i b Hb. rewrite Hcv, Eo. cbn [rbind]. unfold memcpy, zloop.
    apply (loop_ok_or_ub (b_len dst) _ _ (copy1_ok_or_ub _ _ _ _)). auto. }
  apply (loop_ub (b_len dst) _ _ (Z.to_nat (kv - 1))); auto; [|lia|].
  - intros h b Hb. apply (loop_ok_or_ub (b_len dst) _ _ (Hin h)). auto.
  - intros b Hb. apply (loop_ub (b_len dst) _ _ (Z.to_nat (rep - 1)) (Hin _)); auto; [lia|].
    intros b1 Hb1. rewrite Hcv, Eo. cbn [rbind]. apply memcpy_ub; [nia|].
    rewrite !Z2Nat.id by lia. replace ((kv - 1) * rep + (rep - 1)) with (kv * rep - 1) by ring. lia.
Qed.

Section Over.
Context {A : Type}.
Variables (max kv rep dim : Z).
Hypothesis Hkv : 0 < kv.
Hypothesis Hrep : 0 < rep.
Hypothesis Hdim : 0 < dim.
Lemma static_update_over (c : scache A) ls idx k v s :
  static_ok max kv rep dim c ls -> 0 <= idx < Z.of_nat (length ls) -> 0 < s -> kv_input kv dim s k -> kv_input kv dim s v ->
  max < Z.of_nat (length (fst (nth (Z.to_nat idx) ls ([], [])))) + s ->
  static_update c idx k v = RUB.
Proof.
  intros H Hidx Hs Hk Hv Hroom. assert (H' := H). destruct H' as [H1 H2 H3 H4 H5].
  set (n := Z.to_nat idx) in *. set (log := nth n ls ([], [])) in *.
  assert (Hn : nth_error ls n = Some log) by (apply nth_error_nth'; lia).
  destruct (Forall2_nth_error_r _ _ _ H5 n log Hn) as (l & Hl & L). destruct L as [L1 L2 L3 L4 L5 L6 L7].
  unfold static_update. rewrite (ki_shape _ _ _ _ Hk), (ki_shape _ _ _ _ Hv).
  change (vget [1; kv; s; dim] 1) with (ROk kv). change (vget [1; kv; s; dim] 2) with (ROk s). cbn [rbind].
  rewrite H3, Z.eqb_refl. cbn [negb]. replace (kv =? 0) with false by lia. rewrite H2, (quot_q kv rep Hkv), H4.
  rewrite (vget_nth _ idx l) by (auto; lia). cbn [rbind].
  rewrite (copy_heads_over (eager_view c) (max * dim)); auto.
  - intros. apply (eager_offset max kv rep dim c ls). auto.
  - apply (ki_shape _ _ _ _ Hk).
  - rewrite L4. assert (max * dim < (l_cnt l + s) * dim) by (apply Z.mul_lt_mono_pos_r; lia). nia.
Qed.
End Over.

(* ---------------- rows a sub-cache cannot reach ---------------- *)
Lemma sub_after_keeps {A} start len (ops : list (kv_op A)) : 0 <= start -> 0 <= len -> forall ls slogs,
  Forall (fun l => len <= Z.of_nat (length (fst l))) slogs -> length slogs = length ls ->
  forall n p, Z.of_nat p < start + len ->
    nth_error (fst (nth n (fst (sub_after start len ls slogs ops)) ([], []))) p = nth_error (fst (nth n ls ([], []))) p /\
    nth_error (snd (nth n (fst (sub_after start len ls slogs ops)) ([], []))) p = nth_error (snd (nth n ls ([], []))) p.
Proof.
  intros Hst Hlen. induction ops as [|o r IH]; intros ls slogs Hsl Hl n p Hp; cbn [sub_after fst]; [auto|].
  assert (Hl' : length (sub_logs_step len slogs o) = length (sub_parent_step start ls slogs o)).
  { destruct o; cbn [sub_logs_step sub_parent_step]; rewrite ?length_upd_nth, ?map_length; auto. }
  assert (Hsl' : Forall (fun l => len <= Z.of_nat (length (fst l))) (sub_logs_step len slogs o)).
  { destruct o as [idx k v|m|]; cbn [sub_logs_step]; auto.
    - apply Forall_nth. intros i d0 Hi. rewrite length_upd_nth in Hi. rewrite (nth_indep _ d0 ([], [])) by (rewrite length_upd_nth; auto). rewrite nth_upd_nth.
      assert (Hx := proj1 (Forall_nth _ slogs) Hsl i ([], []) Hi).
      destruct ((Z.to_nat idx =? i)%nat && (Z.to_nat idx <? length slogs)%nat) eqn:E; cbn [fst snd]; auto.
      assert (Z.to_nat idx = i) by lia. subst i. rewrite app_length. lia.
    - apply Forall_map. eapply Forall_impl; [|exact Hsl]. cbn beta iota. intros l H1. cbn [fst]. rewrite firstn_length. lia. }
  destruct (IH _ _ Hsl' Hl' n p Hp) as [-> ->].
  destruct o as [idx k v|m|]; cbn [sub_parent_step]; auto. rewrite nth_upd_nth.
  destruct ((Z.to_nat idx =? n)%nat && (Z.to_nat idx <? length ls)%nat) eqn:E; auto. cbn [fst snd].
  assert (Z.to_nat idx = n) by lia. subst n.
  assert (Hx := proj1 (Forall_nth _ slogs) Hsl (Z.to_nat idx) ([], []) ltac:(lia)). cbn beta in Hx.
  rewrite !overwrite_nth.
  set (at_ := (Z.to_nat start + length (fst (nth (Z.to_nat idx) slogs ([], []))))%nat) in *.
  replace (at_ <=? p)%nat with false by (unfold at_; lia). cbn [andb].
  assert (Hnone : forall X (l : list X), (if (p <? length l)%nat then nth_error l p else None) = nth_error l p).
  { intros X l. destruct (p <? length l)%nat eqn:E2; auto. symmetry. apply nth_error_None. lia. }
  rewrite !Hnone. auto.
Qed.
