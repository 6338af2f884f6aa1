(** The buffers of a runner keep their sizes over any successful calls. *)
From Verif Require Import Base DTypeModel ParamModel TensorModel GenModel SessModel SessSpec SessProofs AotModel AotSpec AotProofs AotGraph AotRun.
Local Open Scope nat_scope.

Lemma rbind_ok {A B} (x : res A) (k : A -> res B) r : rbind x k = ROk r -> exists a, x = ROk a /\ k a = ROk r.
Proof. destruct x; cbn; try discriminate. eauto. Qed.

Lemma update_key_len g a n u sel b o b' : update_key g a n u sel b o = ROk b' -> length b' = length b.
Proof.
  unfold update_key. destruct sel as [|s sel].
  - apply for_up_len. intros i c c'. apply copy_len.
  - cbv zeta. apply for_up_len. intros i c c'. apply for_up_len. intros j d d'. apply copy_len.
Qed.
Lemma update_selected_len w n out : forall sel cnt wp rp b b', update_selected w n sel cnt wp rp out b = ROk b' -> length b' = length b.
Proof.
  induction sel as [|s sel IH]; intros cnt wp rp b b' E; cbn [update_selected] in E; [injection E as <-; reflexivity|].
  apply rbind_ok in E. destruct E as (b1 & E1 & E). assert (H : length b1 = length b) by (destruct s; [eapply copy_len, E1|congruence]).
  cbv zeta in E. destruct (_ =? n); [congruence|]. apply IH in E. lia.
Qed.
Lemma update_value_len g a n u sel b o b' : update_value g a n u sel b o = ROk b' -> length b' = length b.
Proof.
  unfold update_value. destruct sel as [|s sel].
  - apply for_up_len. intros i c c'. apply copy_len.
  - apply for_up_len. intros i c c'. apply update_selected_len.
Qed.

Section Net.
Context {X : Type}.
Variable g : config.
Variable embed : Z -> X.
Variable kproj vproj : nat -> X -> Z -> list Z.
Variable mix : nat -> X -> Z -> list (list Z) -> list (list Z) -> X.
Variable logits : X -> list Z.
Variable is_eos : Z -> bool.
Notation sized := (sized g).

Lemma rearrange_sized a m m' : a = c_A g \/ a = 1 -> sized m -> rearrange g a m = ROk m' -> sized m' /\ m_cur m' = a.
Proof.
  intros Ha (S1 & S2 & S3 & S4 & S5) E. unfold rearrange in E. destruct (Nat.eqb_spec (m_cur m) a) as [Q|Q].
  - injection E as <-. split; [split; auto|exact Q].
  - cbv zeta in E. apply rbind_ok in E. destruct E as (k & Ek & E). apply rbind_ok in E. destruct E as (v & Ev & E). injection E as <-.
    apply map_res_inv in Ek. apply map_res_inv in Ev. split; [|reflexivity].
    split; [|split; [|split; [exact S3|split; [exact S4|exact Ha]]]]; cbn [m_kin m_vin].
    + eapply lens_f2; [exact S1|]. eapply forall2_impl; [|exact Ek]. cbn. intros. eapply rearrange_rows_len; eauto.
    + eapply lens_f2; [exact S2|]. eapply forall2_impl; [|exact Ev]. cbn. intros. eapply rearrange_rows_len; eauto.
Qed.

Lemma update_sized a n u sel m m' : sized m -> update_cache g a n u sel m = ROk m' -> sized m' /\ m_cur m' = m_cur m.
Proof.
  intros (S1 & S2 & S3 & S4 & S5) E. unfold update_cache in E. destruct (negb _); [discriminate|].
  apply rbind_ok in E. destruct E as (k & Ek & E). apply rbind_ok in E. destruct E as (v & Ev & E). injection E as <-.
  apply map_res_inv in Ek. apply map_res_inv in Ev. split; [|reflexivity].
  pose proof (lens_len _ _ _ S1). pose proof (lens_len _ _ _ S2). pose proof (lens_len _ _ _ S3). pose proof (lens_len _ _ _ S4).
  split; [|split; [|split; [exact S3|split; [exact S4|exact S5]]]]; cbn [m_kin m_vin].
  - eapply lens_f2; [exact S1|]. eapply comb_len; [| |exact Ek]; [|congruence]. cbn. intros. eapply update_key_len; eauto.
  - eapply lens_f2; [exact S2|]. eapply comb_len; [| |exact Ev]; [|congruence]. cbn. intros. eapply update_value_len; eauto.
Qed.

Lemma g_layers_sized a pos mask : forall kin vin kout vout l xs xs2 kos vos,
  length vin = length kin -> length kout = length kin -> length vout = length kin ->
  g_layers g embed kproj vproj mix a l xs pos mask kin vin kout vout = ROk (xs2, kos, vos) ->
  map (@length Z) kos = map (@length Z) kout /\ map (@length Z) vos = map (@length Z) vout.
Proof.
  induction kin as [|kb kin IH]; intros [|vb vin] [|ko kout] [|vo vout] l xs xs2 kos vos H1 H2 H3 E; cbn in H1, H2, H3; try lia; cbn [g_layers] in E.
  - injection E as _ <- <-. auto.
  - destruct (g_layer _ _ _ _ _ _ _ _ _ _ _ _) as ((xs1, ks), vs).
    apply rbind_ok in E. destruct E as (ko1 & E1 & E). apply rbind_ok in E. destruct E as (vo1 & E2 & E).
    apply rbind_ok in E. destruct E as (((ys, kos'), vos') & E3 & E). injection E as _ <- <-.
    apply IH in E3; [|lia|lia|lia]. destruct E3 as (-> & ->) || destruct E3 as (Q1 & Q2).
    all: cbn [map]; try rewrite (put_len _ _ _ _ E1), (put_len _ _ _ _ E2); try rewrite Q1, Q2; auto.
Qed.

Lemma execute_sized a ids pos mask m m' out : sized m -> execute g embed kproj vproj mix logits a ids pos mask m = ROk (m', out) ->
  sized m' /\ m_cur m' = m_cur m.
Proof.
  intros (S1 & S2 & S3 & S4 & S5) E. unfold execute in E. apply rbind_ok in E. destruct E as (((xs, ko), vo) & E1 & E). injection E as <- _.
  pose proof (lens_len _ _ _ S1). pose proof (lens_len _ _ _ S2). pose proof (lens_len _ _ _ S3). pose proof (lens_len _ _ _ S4).
  apply g_layers_sized in E1; [|congruence|congruence|congruence]. destruct E1 as (Q1 & Q2). split; [|reflexivity].
  split; [exact S1|]. split; [exact S2|]. unfold lens. cbn [m_kout m_vout m_cur]. rewrite Q1, Q2. split; [exact S3|]. split; [exact S4|exact S5].
Qed.

Lemma prefill_loop_sized : forall fuel toks p c mask m out m' out', sized m ->
  prefill_loop g embed kproj vproj mix logits fuel toks p c mask m out = ROk (m', out') -> sized m'.
Proof.
  induction fuel as [|f IH]; intros toks p c mask m out m' out' SZ E; cbn [prefill_loop] in E; (destruct (p <? length toks); [|injection E as <- _; exact SZ]).
  - discriminate.
  - cbv zeta in E. apply rbind_ok in E. destruct E as ((m1, o1) & E1 & E). apply rbind_ok in E. destruct E as (m2 & E2 & E).
    apply rbind_ok in E. destruct E as (k1 & _ & E). apply rbind_ok in E. destruct E as (k2 & _ & E).
    apply execute_sized in E1; [|exact SZ]. apply update_sized in E2; [|apply E1]. eapply IH; [apply E2|exact E].
Qed.

Lemma decode_sized : forall n t c mask m m' ts, sized m ->
  decode g embed kproj vproj mix logits is_eos n t c mask m = ROk (m', ts) -> sized m'.
Proof.
  induction n as [|n IH]; intros t c mask m m' ts SZ E; cbn [decode] in E; [injection E as <- _; exact SZ|]. destruct (_ <=? c); [injection E as <- _; exact SZ|].
  apply rbind_ok in E. destruct E as ((m1, o1) & E1 & E). apply rbind_ok in E. destruct E as (m2 & E2 & E). apply rbind_ok in E. destruct E as (k1 & _ & E).
  apply execute_sized in E1; [|exact SZ]. apply update_sized in E2; [|apply E1]. cbv zeta in E. destruct (is_eos _); [injection E as <- _; apply E2|].
  apply rbind_ok in E. destruct E as ((m3, us) & E3 & E). injection E as <- _. eapply IH; [apply E2|exact E3].
Qed.

Lemma run_sized pm po tm toks n m m' ts : sized m -> run g embed kproj vproj mix logits is_eos pm po tm toks n m = ROk (m', ts) -> sized m'.
Proof.
  intros SZ E. unfold run in E. apply rbind_ok in E. destruct E as ((m1, t0) & E1 & E). apply rbind_ok in E. destruct E as ((m2, us) & E2 & E). injection E as <- _.
  unfold prefill in E1. apply rbind_ok in E1. destruct E1 as (m0 & F0 & E1). apply rbind_ok in E1. destruct E1 as (k1 & _ & E1).
  apply rbind_ok in E1. destruct E1 as (k2 & _ & E1). apply rbind_ok in E1. destruct E1 as ((ma, oa) & F1 & E1).
  destruct (nth_error oa _); [|discriminate]. injection E1 as <- _.
  unfold generate_tokens in E2. apply rbind_ok in E2. destruct E2 as (mb & F2 & E2). apply rbind_ok in E2. destruct E2 as (kb & _ & E2).
  eapply decode_sized; [|exact E2]. eapply rearrange_sized; [right; reflexivity| |exact F2].
  eapply prefill_loop_sized; [|exact F1]. eapply rearrange_sized; [left; reflexivity|exact SZ|exact F0].
Qed.

Lemma reached_sized m : reached g embed kproj vproj mix logits is_eos m -> sized m.
Proof. intro R. induction R as [|m pm po tm toks n m' ts R IH L1 L2 E]; [apply init_sized|eapply run_sized; eauto]. Qed.
End Net.
