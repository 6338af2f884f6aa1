(** Whole calls of the runner. *)
From Verif Require Import Base DTypeModel ParamModel TensorModel GenModel SessModel SessSpec SessProofs AotModel AotSpec AotProofs AotGraph.
Local Open Scope nat_scope.

Definition lens (L k : nat) (l : list (list Z)) : Prop := map (@length Z) l = repeat k L.
Lemma lens_len L k l : lens L k l -> length l = L.
Proof. intro H. apply (f_equal (@length nat)) in H. rewrite map_length, repeat_length in H. exact H. Qed.
Lemma lens_nth L k l j : lens L k l -> j < L -> length (nth j l []) = k.
Proof.
  intros H Hj. pose proof (lens_len L k l H) as Ll. unfold lens in H.
  rewrite <- (map_nth (@length Z)). rewrite H. rewrite nth_indep with (d' := k) by (rewrite repeat_length; exact Hj). apply nth_repeat.
Qed.
Lemma lens_in L k l b : lens L k l -> In b l -> length b = k.
Proof. intros H Hb. apply (in_map (@length Z)) in Hb. rewrite H in Hb. apply repeat_spec in Hb. exact Hb. Qed.
Lemma lens_f2 L k l m : lens L k l -> Forall2 (fun a b => length b = length a) l m -> lens L k m.
Proof.
  unfold lens. intros H F. rewrite <- H. clear H. induction F as [|x y l m E F IH]; [reflexivity|]. cbn [map]. rewrite E, IH. reflexivity.
Qed.
Lemma lens_repeat L k b : length b = k -> lens L k (repeat b L).
Proof. intro H. unfold lens. induction L as [|L IH]; cbn; [reflexivity|]. rewrite H, IH. reflexivity. Qed.
Lemma forall2_impl {A B} (P Q : A -> B -> Prop) l m : (forall x y, P x y -> Q x y) -> Forall2 P l m -> Forall2 Q l m.
Proof. intros H F. induction F; constructor; auto. Qed.

Lemma comb_len (P : list Z * list Z -> list Z -> Prop) b o k0 : (forall bo b', P bo b' -> length b' = length (fst bo)) ->
  length b = length o -> Forall2 P (combine b o) k0 -> Forall2 (fun x y => length y = length x) b k0.
Proof.
  intro HP. revert o k0. induction b as [|x b IH]; intros [|y o] k0 H3 F; cbn in H3; try lia; cbn [combine] in F.
  - inversion F. constructor.
  - inversion F as [|? ? ? ? F1 F2]; subst. constructor; [apply (HP _ _ F1)|]. eapply IH; [|exact F2]. lia.
Qed.

Section Net.
Context {X : Type}.
Variable g : config.
Variable embed : Z -> X.
Variable kproj vproj : nat -> X -> Z -> list Z.
Variable mix : nat -> X -> Z -> list (list Z) -> list (list Z) -> X.
Variable logits : X -> list Z.
Variable is_eos : Z -> bool.
Notation hidden := (hidden embed kproj vproj mix).
Notation key_of := (key_of embed kproj vproj mix).
Notation value_of := (value_of embed kproj vproj mix).
Notation kholds := (kholds g embed kproj vproj mix).
Notation vholds := (vholds g embed kproj vproj mix).
Notation C := (c_C g).
Notation A := (c_A g).
Notation L := (c_L g).
Notation HD := (c_H g * c_D g).
Notation execute := (execute g embed kproj vproj mix logits).
Notation best := (best g embed kproj vproj mix logits).
Notation continue_ := (continue_ g embed kproj vproj mix logits is_eos).

Definition sized (m : manager) : Prop :=
  lens L (HD * max_cache_len g) (m_kin m) /\ lens L (HD * max_cache_len g) (m_vin m) /\
  lens L (HD * max_ar_len g) (m_kout m) /\ lens L (HD * max_ar_len g) (m_vout m) /\ (m_cur m = A \/ m_cur m = 1).
Definition hold (S n : nat) (ts : list Z) (m : manager) : Prop :=
  forall l, l < L -> kholds S n l ts (nth l (m_kin m) []) /\ vholds S n l ts (nth l (m_vin m) []).

Lemma init_sized : sized (init_cache g).
Proof. repeat split; try (apply lens_repeat, repeat_length). left. reflexivity. Qed.

Lemma hold_prefix S n ts us m : n <= length ts -> hold S n ts m -> hold S n (ts ++ us) m.
Proof.
  intros Hn H l Hl. destruct (H l Hl) as (K & V). split.
  - intros r t Hr Ht. rewrite K by auto. rewrite key_prefix by lia. reflexivity.
  - intros h t d Hh Ht Hd. rewrite V by auto. rewrite value_prefix by lia. reflexivity.
Qed.

Section Geometry.
Hypothesis Hg : geometry g.

Lemma num_le a : a = A \/ a = 1 -> cache_num g a <= max_cache_len g /\ C - a <= max_cache_len g /\ a <= max_ar_len g.
Proof.
  destruct Hg as (H2 & H1 & HA). intro Ha. unfold cache_num, max_cache_len, max_ar_len.
  destruct (Nat.eqb_spec a C), (Nat.eqb_spec A C); destruct Ha; subst; lia.
Qed.

Lemma rearrange_ok a m : sized m -> a = A \/ a = 1 ->
  exists m', rearrange g a m = ROk m' /\ sized m' /\ m_cur m' = a /\
    (m_cur m = a -> m' = m) /\
    forall ts n, m_cur m <> a -> n <= cache_num g (m_cur m) -> n <= C - a -> hold (cache_num g (m_cur m)) n ts m -> hold (C - a) n ts m'.
Proof.
  intros (S1 & S2 & S3 & S4 & S5) Ha. unfold rearrange. destruct (Nat.eqb_spec (m_cur m) a) as [E|E].
  - exists m. split; [reflexivity|]. split; [split; auto|]. split; [exact E|]. split; [reflexivity|]. intros; congruence.
  - destruct (num_le (m_cur m) S5) as (N1 & _). destruct (num_le a Ha) as (_ & N2 & _).
    set (src := cache_num g (m_cur m)) in *. set (dst := C - a) in *. cbv zeta.
    destruct (map_res_ok (rearrange_rows (c_D g * c_H g) 1 src dst) (fun b b' => length b' = length b /\
       forall r j, r < HD -> j < src -> j < dst -> nth (r * dst + j) b' 0%Z = nth (r * src + j) b 0%Z) (m_kin m)) as (k & Ek & Fk).
    { intros b Hb. pose proof (lens_in _ _ _ _ S1 Hb) as Lb.
      destruct (rearrange_rows_spec (c_D g * c_H g) 1 src dst b) as (b' & E1 & E2 & E3).
      - rewrite Lb, Nat.mul_1_r, (Nat.mul_comm (c_D g)). apply Nat.mul_le_mono_l, N1.
      - rewrite Lb, Nat.mul_1_r, (Nat.mul_comm (c_D g)). apply Nat.mul_le_mono_l, N2.
      - exists b'. split; [exact E1|]. split; [exact E2|]. intros r j Hr H1 H2. specialize (E3 r j). rewrite !Nat.mul_1_r in E3.
        rewrite (Nat.mul_comm (c_D g)) in E3. apply E3; auto. }
    destruct (map_res_ok (rearrange_rows (c_H g) (c_D g) src dst) (fun b b' => length b' = length b /\
       forall r j, r < c_H g -> j < src * c_D g -> j < dst * c_D g -> nth (r * (dst * c_D g) + j) b' 0%Z = nth (r * (src * c_D g) + j) b 0%Z) (m_vin m)) as (v & Ev & Fv).
    { intros b Hb. pose proof (lens_in _ _ _ _ S2 Hb) as Lb.
      destruct (rearrange_rows_spec (c_H g) (c_D g) src dst b) as (b' & E1 & E2 & E3).
      - rewrite Lb. clear - N1. rewrite (Nat.mul_comm src), Nat.mul_assoc. apply Nat.mul_le_mono_l, N1.
      - rewrite Lb. clear - N2. rewrite (Nat.mul_comm dst), Nat.mul_assoc. apply Nat.mul_le_mono_l, N2.
      - exists b'. auto. }
    rewrite Ek. cbn [rbind]. rewrite Ev. cbn [rbind]. eexists. split; [reflexivity|]. split; [|split; [reflexivity|split; [congruence|]]].
    + split; [|split; [|split; [exact S3|split; [exact S4|exact Ha]]]]; cbn [m_kin m_vin].
      * eapply lens_f2; [exact S1|]. eapply forall2_impl; [|exact Fk]. cbn. tauto.
      * eapply lens_f2; [exact S2|]. eapply forall2_impl; [|exact Fv]. cbn. tauto.
    + intros ts n _ Hn1 Hn2 HH l Hl. destruct (HH l Hl) as (K & V). cbn [m_kin m_vin].
      apply forall2_nth in Fk. destruct Fk as (_ & Fk). apply forall2_nth in Fv. destruct Fv as (_ & Fv).
      destruct (Fk l [] []) as (_ & Fk'); [rewrite (lens_len _ _ _ S1); exact Hl|].
      destruct (Fv l [] []) as (_ & Fv'); [rewrite (lens_len _ _ _ S2); exact Hl|]. split.
      * intros r t Hr Ht. rewrite Fk' by lia. apply K; auto.
      * intros h t d Hh Ht Hd. replace ((h * dst + t) * c_D g + d) with (h * (dst * c_D g) + (t * c_D g + d)) by (clear; nia).
        rewrite Fv'; [|exact Hh|clear - Ht Hn1 Hd; nia|clear - Ht Hn2 Hd; nia].
        replace (h * (src * c_D g) + (t * c_D g + d)) with ((h * src + t) * c_D g + d) by (clear; nia). apply V; auto.
Qed.

Lemma update_ok a n u m ts : sized m -> m_cur m = a -> u <= a -> n + u <= cache_num g a -> hold (cache_num g a) n ts m ->
  (forall l, l < L ->
     (forall r s, r < HD -> s < u -> nth (r * a + s) (nth l (m_kout m) []) 0%Z = nth r (key_of l ts (n + s)) 0%Z) /\
     (forall h s d, h < c_H g -> s < u -> d < c_D g -> nth ((h * a + s) * c_D g + d) (nth l (m_vout m) []) 0%Z = nth (h * c_D g + d) (value_of l ts (n + s)) 0%Z)) ->
  exists m', update_cache g a n u [] m = ROk m' /\ sized m' /\ m_cur m' = a /\ hold (cache_num g a) (n + u) ts m'.
Proof.
  intros (S1 & S2 & S3 & S4 & S5) Ec Hu Hn HH HO. unfold update_cache. rewrite Ec, Nat.eqb_refl. cbn [negb].
  assert (Ha : a = A \/ a = 1) by (rewrite <- Ec; exact S5).
  destruct (num_le a Ha) as (N1 & _ & N3). set (S := cache_num g a) in *.
  destruct (map_res_ok (fun bo => update_key g a n u [] (fst bo) (snd bo)) (fun bo b' => length b' = length (fst bo) /\
     forall r j, r < HD -> j < S -> nth (r * S + j) b' 0%Z = if (n <=? j) && (j <? n + u) then nth (r * a + (j - n)) (snd bo) 0%Z else nth (r * S + j) (fst bo) 0%Z)
     (combine (m_kin m) (m_kout m))) as (k & Ek & Fk).
  { intros (b, o) Hb. cbn [fst snd]. pose proof (lens_in _ _ _ _ S1 (in_combine_l _ _ _ _ Hb)) as Lb. pose proof (lens_in _ _ _ _ S3 (in_combine_r _ _ _ _ Hb)) as Lo.
    unfold update_key. fold S. rewrite (Nat.mul_comm (c_D g)). apply copy_rows_spec; [lia|lia| |].
    - rewrite Lb. apply Nat.mul_le_mono_l, N1.
    - rewrite Lo. apply Nat.mul_le_mono_l, N3. }
  destruct (map_res_ok (fun bo => update_value g a n u [] (fst bo) (snd bo)) (fun bo b' => length b' = length (fst bo) /\
     forall r j, r < c_H g -> j < S * c_D g -> nth (r * (S * c_D g) + j) b' 0%Z =
       if (n * c_D g <=? j) && (j <? n * c_D g + u * c_D g) then nth (r * (a * c_D g) + (j - n * c_D g)) (snd bo) 0%Z else nth (r * (S * c_D g) + j) (fst bo) 0%Z)
     (combine (m_vin m) (m_vout m))) as (v & Ev & Fv).
  { intros (b, o) Hb. cbn [fst snd]. pose proof (lens_in _ _ _ _ S2 (in_combine_l _ _ _ _ Hb)) as Lb. pose proof (lens_in _ _ _ _ S4 (in_combine_r _ _ _ _ Hb)) as Lo.
    unfold update_value. fold S. apply copy_rows_spec.
    - clear - Hn. nia.
    - apply Nat.mul_le_mono_r, Hu.
    - rewrite Lb, (Nat.mul_comm S), Nat.mul_assoc. apply Nat.mul_le_mono_l, N1.
    - rewrite Lo, (Nat.mul_comm a), Nat.mul_assoc. apply Nat.mul_le_mono_l, N3. }
  rewrite Ek. cbn [rbind]. rewrite Ev. cbn [rbind]. eexists. split; [reflexivity|].
  assert (LK : length (m_kin m) = L) by exact (lens_len _ _ _ S1). assert (LV : length (m_vin m) = L) by exact (lens_len _ _ _ S2).
  assert (LKO : length (m_kout m) = L) by exact (lens_len _ _ _ S3). assert (LVO : length (m_vout m) = L) by exact (lens_len _ _ _ S4).
  split; [|split; [reflexivity|]].
  - split; [|split; [|split; [exact S3|split; [exact S4|exact Ha]]]]; cbn [m_kin m_vin].
    + eapply lens_f2; [exact S1|]. eapply comb_len; [|transitivity (c_L g); [exact LK|symmetry; exact LKO]|exact Fk]. cbn. tauto.
    + eapply lens_f2; [exact S2|]. eapply comb_len; [|transitivity (c_L g); [exact LV|symmetry; exact LVO]|exact Fv]. cbn. tauto.
  - intros l Hl. destruct (HH l Hl) as (K & V). destruct (HO l Hl) as (KO & VO). cbn [m_kin m_vin].
    apply forall2_nth in Fk. destruct Fk as (_ & Fk). apply forall2_nth in Fv. destruct Fv as (_ & Fv).
    destruct (Fk l ([], []) []) as (_ & Fk'); [rewrite combine_length; lia|]. rewrite combine_nth in Fk' by lia. cbn [fst snd] in Fk'.
    destruct (Fv l ([], []) []) as (_ & Fv'); [rewrite combine_length; lia|]. rewrite combine_nth in Fv' by lia. cbn [fst snd] in Fv'.
    split.
    + intros r t Hr Ht. rewrite Fk' by lia. destruct (Nat.leb_spec n t), (Nat.ltb_spec t (n + u)); cbn [andb]; try lia.
      * rewrite KO by lia. f_equal. f_equal. lia.
      * apply K; auto.
    + intros h t d Hh Ht Hd. replace ((h * S + t) * c_D g + d) with (h * (S * c_D g) + (t * c_D g + d)) by (clear; nia).
      rewrite Fv'; [|exact Hh|clear - Ht Hn Hd; nia].
      destruct (Nat.lt_ge_cases t n) as [Q|Q].
      * replace (n * c_D g <=? t * c_D g + d) with false by (symmetry; apply Nat.leb_gt; clear - Q Hd; nia). cbn [andb].
        replace (h * (S * c_D g) + (t * c_D g + d)) with ((h * S + t) * c_D g + d) by (clear; nia). apply V; auto.
      * replace ((n * c_D g <=? t * c_D g + d) && (t * c_D g + d <? n * c_D g + u * c_D g)) with true
          by (symmetry; apply andb_true_intro; split; [apply Nat.leb_le; clear - Q; nia|apply Nat.ltb_lt; clear - Ht Hd; nia]).
        replace (h * (a * c_D g) + (t * c_D g + d - n * c_D g)) with ((h * a + (t - n)) * c_D g + d).
        -- rewrite VO by lia. f_equal. f_equal. lia.
        -- assert (X1 : t * c_D g + d - n * c_D g = (t - n) * c_D g + d) by (rewrite Nat.mul_sub_distr_r; assert (n * c_D g <= t * c_D g) by (apply Nat.mul_le_mono_r; exact Q); lia).
           rewrite X1. clear. nia.
Qed.

(** When ar_len is the whole context, storing the last token of the context while decoding stays inside the buffers. *)
Lemma update_last m : sized m -> m_cur m = 1 -> A = C ->
  exists m', update_cache g 1 (C - 1) 1 [] m = ROk m' /\ sized m' /\ m_cur m' = 1.
Proof.
  intros (S1 & S2 & S3 & S4 & S5) Ec HAC. unfold update_cache. rewrite Ec, Nat.eqb_refl. cbn [negb].
  assert (MC : max_cache_len g = C) by (unfold max_cache_len; rewrite HAC, Nat.eqb_refl; reflexivity).
  assert (MA : 1 <= max_ar_len g) by (unfold max_ar_len; lia).
  assert (CN : cache_num g 1 = C - 1) by (unfold cache_num; destruct Hg; destruct (Nat.eqb_spec 1 C); lia).
  destruct Hg as (H2 & _). rewrite MC in S1, S2.
  destruct (map_res_ok (fun bo => update_key g 1 (C - 1) 1 [] (fst bo) (snd bo)) (fun bo b' => length b' = length (fst bo)) (combine (m_kin m) (m_kout m))) as (k & Ek & Fk).
  { intros (b, o) Hb. cbn [fst snd]. pose proof (lens_in _ _ _ _ S1 (in_combine_l _ _ _ _ Hb)) as Lb. pose proof (lens_in _ _ _ _ S3 (in_combine_r _ _ _ _ Hb)) as Lo.
    unfold update_key. rewrite CN. apply copy_rows_ok. intros i Hi. rewrite Lb, Lo. rewrite (Nat.mul_comm (c_D g)) in Hi. split.
    - assert ((i + 1) * (C - 1) <= HD * (C - 1)) by (apply Nat.mul_le_mono_r; lia). clear - Hi H2 H. nia.
    - clear - Hi MA. nia. }
  destruct (map_res_ok (fun bo => update_value g 1 (C - 1) 1 [] (fst bo) (snd bo)) (fun bo b' => length b' = length (fst bo)) (combine (m_vin m) (m_vout m))) as (v & Ev & Fv).
  { intros (b, o) Hb. cbn [fst snd]. pose proof (lens_in _ _ _ _ S2 (in_combine_l _ _ _ _ Hb)) as Lb. pose proof (lens_in _ _ _ _ S4 (in_combine_r _ _ _ _ Hb)) as Lo.
    unfold update_value. rewrite CN. apply copy_rows_ok. intros i Hi. rewrite Lb, Lo. rewrite Nat.mul_1_l. split.
    - assert ((i + 1) * ((C - 1) * c_D g) <= c_H g * ((C - 1) * c_D g)) by (apply Nat.mul_le_mono_r; lia).
      assert (c_H g * c_D g * C = c_H g * ((C - 1) * c_D g) + c_H g * c_D g) by (clear - H2; nia).
      assert (c_D g <= c_H g * c_D g) by (clear - Hi; nia). lia.
    - assert (Q1 : (i + 1) * c_D g <= c_H g * c_D g) by (apply Nat.mul_le_mono_r; lia).
      assert (Q2 : c_H g * c_D g * 1 <= c_H g * c_D g * max_ar_len g) by (apply Nat.mul_le_mono_l; exact MA). clear - Q1 Q2. lia. }
  rewrite Ek. cbn [rbind]. rewrite Ev. cbn [rbind]. eexists. split; [reflexivity|]. split; [|reflexivity].
  split; [|split; [|split; [exact S3|split; [exact S4|right; reflexivity]]]]; cbn [m_kin m_vin]; rewrite MC.
  - eapply lens_f2; [exact S1|]. eapply comb_len; [|transitivity (c_L g); [exact (lens_len _ _ _ S1)|symmetry; exact (lens_len _ _ _ S3)]|exact Fk]. cbn. auto.
  - eapply lens_f2; [exact S2|]. eapply comb_len; [|transitivity (c_L g); [exact (lens_len _ _ _ S2)|symmetry; exact (lens_len _ _ _ S4)]|exact Fv]. cbn. auto.
Qed.

Hypothesis HK : forall j x q, length (kproj j x q) = HD.
Hypothesis HV : forall j x q, length (vproj j x q) = HD.

Lemma execute_ok a ids pos mask m ts n ch : sized m -> m_cur m = a -> length ids = a -> length pos = a -> ch <= a -> n <= C - a ->
  n + ch <= length ts -> mask_ok g a n mask ->
  (forall s, s < ch -> nth s ids 0%Z = nth (n + s) ts 0%Z /\ nth s pos 0%Z = Z.of_nat (n + s)) ->
  (a = C \/ hold (cache_num g a) n ts m) ->
  exists m' out, execute a ids pos mask m = ROk (m', out) /\ sized m' /\ m_cur m' = a /\
    m_kin m' = m_kin m /\ m_vin m' = m_vin m /\
    (forall s, s < ch -> nth_error out s = Some (logits (hidden L ts (n + s)))) /\
    forall l, l < L ->
     (forall r s, r < HD -> s < ch -> nth (r * a + s) (nth l (m_kout m') []) 0%Z = nth r (key_of l ts (n + s)) 0%Z) /\
     (forall h s d, h < c_H g -> s < ch -> d < c_D g -> nth ((h * a + s) * c_D g + d) (nth l (m_vout m') []) 0%Z = nth (h * c_D g + d) (value_of l ts (n + s)) 0%Z).
Proof.
  intros (S1 & S2 & S3 & S4 & S5) Ec Li Lp Hch Hn Hts M Hin HH. unfold AotModel.execute.
  assert (Ha : a = A \/ a = 1) by (rewrite <- Ec; exact S5).
  destruct (num_le a Ha) as (N1 & _ & N3). assert (HaC : a <= C) by (destruct Hg as (? & ?); destruct Ha; lia).
  assert (HH' : hold (C - a) n ts m).
  { destruct (Nat.eq_dec a C) as [E|E].
    - assert (n = 0) by lia. subst n. intros l Hl. split; [intros r t Hr Ht; lia|intros h t d Hh Ht; lia].
    - destruct HH as [HH|HH]; [congruence|]. unfold cache_num in HH. destruct (Nat.eqb_spec a C); [congruence|exact HH]. }
  destruct (g_layers_ok g embed kproj vproj mix HK HV a mask pos ts n ch Lp Hch HaC Hn M (fun s Hs => proj2 (Hin s Hs))
    (m_kin m) (m_vin m) (m_kout m) (m_vout m) 0 (map embed ids)) as (xs & ko & vo & E & Lxs & Hxs & LKo & LVo & HO).
  { rewrite (lens_len _ _ _ S1), (lens_len _ _ _ S2). reflexivity. }
  { rewrite (lens_len _ _ _ S1), (lens_len _ _ _ S3). reflexivity. }
  { rewrite (lens_len _ _ _ S1), (lens_len _ _ _ S4). reflexivity. }
  { rewrite map_length. exact Li. }
  { intros s Hs. rewrite (map_nth embed). cbn [SessSpec.hidden]. rewrite (proj1 (Hin s Hs)). reflexivity. }
  { intros j Hj. rewrite (lens_len _ _ _ S1) in Hj. destruct (HH' j Hj) as (K & V). split; [exact K|]. split; [exact V|].
    rewrite (lens_nth _ _ _ _ S3 Hj), (lens_nth _ _ _ _ S4 Hj). split; apply Nat.mul_le_mono_l, N3. }
  rewrite E. cbn [rbind]. eexists. eexists. split; [reflexivity|].
  assert (SZ : sized (mkMan (m_cur m) (m_kin m) (m_vin m) ko vo)).
  { split; [exact S1|]. split; [exact S2|]. unfold lens. cbn [m_kout m_vout]. rewrite LKo, LVo. split; [exact S3|]. split; [exact S4|exact S5]. }
  split; [exact SZ|]. split; [exact Ec|]. split; [reflexivity|]. split; [reflexivity|]. split.
  - intros s Hs. rewrite nth_error_map, (nth_error_nth' xs (embed 0)) by lia. cbn [option_map]. rewrite (Hxs s Hs).
    rewrite (lens_len _ _ _ S1). reflexivity.
  - intros l Hl. apply HO. rewrite (lens_len _ _ _ S1). exact Hl.
Qed.

(** ** Prefill *)
Lemma mask_after a n u (m m1 m2 : list Z) : 1 <= a <= C -> n + u <= C - a -> mask_ok g a n m ->
  update_mask g a n u None m = ROk m1 -> update_mask g a n u (Some (Z.of_nat C)) m1 = ROk m2 -> mask_ok g a (n + u) m2.
Proof.
  intros Ha Hn (Lm & M) E1 E2.
  destruct (update_mask_spec g a n u None m Lm) as (x & F1 & L1 & N1); [lia|intros; cbn; lia|].
  rewrite E1 in F1. injection F1 as <-.
  destruct (update_mask_spec g a n u (Some (Z.of_nat C)) m1) as (x & F2 & L2 & N2); [lia|lia|intros i Hi; cbn [thr]; lia|].
  rewrite E2 in F2. injection F2 as <-. split; [lia|]. intros s c Hs Hc. rewrite N2, N1 by auto. cbn [thr].
  destruct (Nat.ltb_spec c (Z.to_nat (Z.of_nat (n + u + s + 1) - Z.of_nat C))); [lia|].
  destruct (Nat.ltb_spec c 0); [lia|].
  destruct (Nat.leb_spec n c), (Nat.ltb_spec c (n + u)); cbn [andb]; unfold pos_val; try (split; [lia|intro; discriminate]).
  - rewrite M by auto. lia.
  - rewrite M by auto. lia.
  - rewrite M by auto. lia.
Qed.

Lemma prefill_loop_ok ts : length ts <= cache_num g A -> 1 <= A ->
  forall fuel n mask m out, length ts - n <= fuel -> n <= length ts -> sized m -> m_cur m = A ->
  (n < length ts -> mask_ok g A n mask /\ exists k, n = k * A) -> hold (cache_num g A) n ts m ->
  (n = length ts -> 0 < n -> nth_error out ((n + A - 1) mod A) = Some (logits (hidden L ts (n - 1)))) ->
  exists m' out', prefill_loop g embed kproj vproj mix logits fuel ts n n mask m out = ROk (m', out') /\
    sized m' /\ m_cur m' = A /\ hold (cache_num g A) (length ts) ts m' /\
    (0 < length ts -> nth_error out' ((length ts + A - 1) mod A) = Some (logits (hidden L ts (length ts - 1)))).
Proof.
  intros HN HA1. assert (HAC : A <= C) by (destruct Hg as (? & ?); lia).
  induction fuel as [|f IH]; intros n mask m out Hf Hn SZ Ec HM HH HOut.
  - assert (n = length ts) by lia. subst n. cbn [prefill_loop]. destruct (Nat.ltb_spec (length ts) (length ts)); [lia|].
    exists m, out. split; [reflexivity|]. split; [exact SZ|]. split; [exact Ec|]. split; [exact HH|]. auto.
  - cbn [prefill_loop]. destruct (Nat.ltb_spec n (length ts)) as [Hlt|Hge].
    + destruct (HM Hlt) as (M & k & Hk). set (u := Nat.min A (length ts - n)).
      assert (Hu1 : 1 <= u) by (unfold u; lia). assert (Hu2 : u <= A) by (unfold u; lia). assert (Hu3 : n + u <= length ts) by (unfold u; lia).
      assert (Hu4 : n + u < length ts -> u = A) by (unfold u; lia).
      assert (HnC : n <= C - A).
      { unfold cache_num in HN. destruct (Nat.eqb_spec A C) as [E|E]; [|lia]. rewrite <- E in HN.
        assert (k = 0) by (destruct k as [|k]; [reflexivity|]; cbn in Hk; lia). subst k. lia. }
      destruct (execute_ok A (chunk_ids g ts n) (chunk_pos n A) mask m ts n u SZ Ec) as (m1 & out1 & E1 & SZ1 & Ec1 & K1 & V1 & O1 & KO1); auto.
      { unfold chunk_ids. fold u. rewrite app_length, firstn_length, skipn_length, repeat_length. lia. }
      { unfold chunk_pos. rewrite map_length. apply seq_length. }
      { intros s Hs. split.
        - unfold chunk_ids. fold u. rewrite app_nth1 by (rewrite firstn_length, skipn_length; lia).
          rewrite nth_firstn_lt' by exact Hs. apply nth_skipn'.
        - unfold chunk_pos. rewrite nth_map_seq by lia. reflexivity. }
      rewrite E1. cbn [rbind].
      assert (HH1 : hold (cache_num g A) n ts m1) by (unfold hold; rewrite K1, V1; exact HH).
      destruct (update_ok A n u m1 ts SZ1 Ec1 Hu2 ltac:(lia) HH1 KO1) as (m2 & E2 & SZ2 & Ec2 & HH2). rewrite E2. cbn [rbind].
      pose proof M as (Lm & _).
      assert (HCn : n + u <= C) by (unfold cache_num in HN; destruct (A =? C); lia).
      destruct (update_mask_spec g A n u None mask Lm HCn) as (x1 & F1 & L1 & _); [intros; cbn; lia|]. rewrite F1. cbn [rbind].
      destruct (update_mask_spec g A n u (Some (Z.of_nat C)) x1) as (x2 & F2 & L2 & _); [lia|exact HCn|intros i Hi; cbn [thr]; lia|]. rewrite F2. cbn [rbind].
      apply (IH (n + u) x2 m2 out1); auto; try lia.
      * intro Hlt2. specialize (Hu4 Hlt2). split.
        -- apply (mask_after A n u mask x1 x2); auto.
           unfold cache_num in HN. destruct (Nat.eqb_spec A C) as [E|E]; [|lia]. exfalso. lia.
        -- exists (k + 1). rewrite Hk, Hu4. lia.
      * intros He _. replace ((n + u + A - 1) mod A) with (u - 1).
        -- rewrite O1 by lia. f_equal. f_equal. f_equal. lia.
        -- rewrite Hk. apply Nat.mod_unique with (q := k + 1); [lia|]. lia.
    + assert (n = length ts) by lia. subst n. exists m, out. split; [reflexivity|]. auto.
Qed.

Lemma prefill_ok ts pm po m : sized m -> length pm = A * C -> 1 <= length ts -> length ts <= cache_num g A ->
  exists m', prefill g embed kproj vproj mix logits ts 0 pm po m = ROk (m', best ts) /\ sized m' /\ m_cur m' = A /\
    hold (cache_num g A) (length ts) ts m'.
Proof.
  intros SZ Lpm H1 HN. destruct Hg as (HC2 & HA). unfold prefill.
  destruct (rearrange_ok A m SZ (or_introl eq_refl)) as (m0 & E0 & SZ0 & Ec0 & _). rewrite E0. cbn [rbind].
  destruct (init_mask_spec g A 0 None pm) as (k1 & E1 & L1 & N1); [lia|lia|exact Lpm|intros; cbn; lia|]. rewrite E1. cbn [rbind].
  destruct (init_mask_spec g A 0 (Some (Z.of_nat C)) k1) as (k2 & E2 & L2 & N2); [lia|lia|lia|intros i Hi; cbn [thr]; lia|]. rewrite E2. cbn [rbind].
  destruct (prefill_loop_ok ts HN ltac:(lia) (length ts) 0 k2 m0 po) as (m1 & out & E3 & SZ1 & Ec1 & HH1 & HO); auto; try lia.
  - intros _. split; [|exists 0; lia]. split; [lia|]. intros s c Hs Hc. rewrite N2 by auto. cbn [thr].
    replace (Z.to_nat (Z.of_nat (0 + 0 + s + 1) - Z.of_nat C)) with 0 by lia. cbn [Nat.leb andb].
    destruct (Nat.ltb_spec c 0), (Nat.leb_spec (C - A) c), (Nat.leb_spec c (C - A + s)); cbn [andb orb]; unfold pos_val; (split; [lia|intros; try lia; try discriminate]).
  - intros l Hl. split; [intros r t Hr Ht; lia|intros h t d Hh Ht; lia].
  - rewrite E3. cbn [rbind]. rewrite HO by lia. exists m1. auto.
Qed.

(** ** Decoding *)
Lemma decode_ok : forall fuel ts mask m t0, sized m -> m_cur m = 1 -> 1 <= length ts ->
  (length ts < C -> mask_ok g 1 (length ts) mask /\ hold (C - 1) (length ts) ts m) ->
  (A = C \/ length ts + fuel <= C - 1) ->
  exists m', decode g embed kproj vproj mix logits is_eos fuel t0 (length ts) mask m =
    ROk (m', continue_ (Nat.min fuel (C - length ts)) (ts ++ [t0])) /\ sized m'.
Proof.
  destruct Hg as (HC2 & HA).
  assert (CN : cache_num g 1 = C - 1) by (unfold cache_num; destruct (Nat.eqb_spec 1 C); lia).
  induction fuel as [|f IH]; intros ts mask m t0 SZ Ec H1 HM Hfit.
  - exists m. split; [reflexivity|exact SZ].
  - cbn [decode]. destruct (Nat.leb_spec C (length ts)) as [Hge|Hlt].
    + exists m. split; [|exact SZ]. replace (C - length ts) with 0 by lia. rewrite Nat.min_0_r. reflexivity.
    + destruct (HM Hlt) as (M & HH). set (n := length ts) in *.
      assert (Lt : length (ts ++ [t0]) = n + 1) by (rewrite app_length; reflexivity).
      assert (HH' : hold (cache_num g 1) n (ts ++ [t0]) m) by (rewrite CN; apply hold_prefix; [unfold n; lia|exact HH]).
      destruct (execute_ok 1 [t0] [Z.of_nat n] mask m (ts ++ [t0]) n 1 SZ Ec) as (m1 & out & E1 & SZ1 & Ec1 & K1 & V1 & O1 & KO1); auto; try lia.
      { intros s Hs. assert (s = 0) by lia. subst s. rewrite Nat.add_0_r. cbn [nth]. split; [|reflexivity]. unfold n. rewrite nth_middle. reflexivity. }
      rewrite E1. cbn [rbind].
      assert (HH1 : hold (cache_num g 1) n (ts ++ [t0]) m1) by (unfold hold; rewrite K1, V1; exact HH').
      assert (Up : exists m2, update_cache g 1 n 1 [] m1 = ROk m2 /\ sized m2 /\ m_cur m2 = 1 /\ (n + 1 < C -> hold (C - 1) (n + 1) (ts ++ [t0]) m2)).
      { destruct (Nat.lt_ge_cases (n + 1) C) as [Q|Q].
        - destruct (update_ok 1 n 1 m1 (ts ++ [t0]) SZ1 Ec1 ltac:(lia) ltac:(lia) HH1 KO1) as (m2 & U1 & U2 & U3 & U4).
          exists m2. split; [exact U1|]. split; [exact U2|]. split; [exact U3|]. intros _. rewrite CN in U4. exact U4.
        - destruct Hfit as [HAC|Hf]; [|lia]. destruct (update_last m1 SZ1 Ec1 HAC) as (m2 & U1 & U2 & U3).
          exists m2. replace n with (C - 1) by lia. split; [exact U1|]. split; [exact U2|]. split; [exact U3|]. lia. }
      destruct Up as (m2 & U1 & U2 & U3 & U4). rewrite U1. cbn [rbind].
      pose proof M as (Lm & MM).
      destruct (update_mask_spec g 1 n 1 None mask Lm ltac:(lia)) as (x & F & Lx & Nx); [intros; cbn; lia|]. rewrite F. cbn [rbind].
      assert (Eo : nth 0 out [] = logits (hidden L (ts ++ [t0]) n)).
      { specialize (O1 0 ltac:(lia)). rewrite Nat.add_0_r in O1. apply nth_error_nth with (d := []) in O1. exact O1. }
      assert (Eb : greedy (nth 0 out []) = best (ts ++ [t0])).
      { rewrite Eo. unfold AotSpec.best, next, greedy. rewrite Lt. replace (n + 1 - 1) with n by lia. reflexivity. }
      rewrite Eb. replace (Nat.min (S f) (C - n)) with (S (Nat.min f (C - (n + 1)))) by lia. cbn [AotSpec.continue_]. cbv zeta.
      destruct (is_eos (best (ts ++ [t0]))); [exists m2; auto|].
      rewrite <- Lt.
      destruct (IH (ts ++ [t0]) x m2 (best (ts ++ [t0])) U2 U3) as (m3 & E3 & SZ3).
      * lia.
      * intros Hl. rewrite Lt in Hl |- *. split; [|apply U4, Hl]. split; [lia|]. intros s c Hs Hc. rewrite Nx by auto. cbn [thr].
        destruct (Nat.ltb_spec c 0); [lia|].
        destruct (Nat.leb_spec n c), (Nat.ltb_spec c (n + 1)); cbn [andb]; unfold pos_val; try (split; [lia|intro; discriminate]); rewrite MM by auto; lia.
      * rewrite Lt. destruct Hfit; [left; assumption|right; lia].
      * rewrite E3. cbn [rbind]. exists m3. auto.
Qed.

Lemma run_ok ts sl pm po tm m : sized m -> length pm = A * C -> length tm = C -> fits g (length ts) sl ->
  exists m', run g embed kproj vproj mix logits is_eos pm po tm ts sl m = ROk (m', expected g embed kproj vproj mix logits is_eos ts sl) /\ sized m'.
Proof.
  intros SZ Lpm Ltm (H1 & HF). unfold run. pose proof Hg as (HC2 & HA).
  assert (HN : length ts <= cache_num g A) by (unfold cache_num; destruct (Nat.eqb_spec A C), HF; lia).
  destruct (prefill_ok ts pm po m SZ Lpm H1 HN) as (m1 & E1 & SZ1 & Ec1 & HH1). rewrite E1. cbn [rbind].
  unfold generate_tokens.
  destruct (rearrange_ok 1 m1 SZ1 (or_intror eq_refl)) as (m2 & E2 & SZ2 & Ec2 & Same & Mv). rewrite E2. cbn [rbind].
  assert (HH2 : length ts < C -> hold (C - 1) (length ts) ts m2).
  { intro Hl. destruct (Nat.eq_dec (m_cur m1) 1) as [E|E].
    - rewrite (Same E). rewrite Ec1 in E. rewrite E in HH1. unfold cache_num in HH1. destruct (Nat.eqb_spec 1 C); [lia|exact HH1].
    - apply Mv; [exact E| | |]; rewrite ?Ec1; [exact HN|lia|exact HH1]. }
  assert (Ei : exists k1, init_mask g 1 (length ts) (iota 1) None tm = ROk k1 /\ (length ts < C -> mask_ok g 1 (length ts) k1)).
  { destruct (Nat.lt_ge_cases (length ts) C) as [Hl|Hl].
    - destruct (init_mask_spec g 1 (length ts) None tm) as (k1 & F1 & L1 & N1); [lia|lia|lia|intros; cbn; lia|].
      exists k1. split; [exact F1|]. intros _. split; [lia|]. intros s c Hs Hc. rewrite N1 by auto. cbn [thr Nat.leb andb].
      destruct (Nat.ltb_spec c (length ts)), (Nat.leb_spec (C - 1) c), (Nat.leb_spec c (C - 1 + s)); cbn [andb orb]; unfold pos_val; (split; [lia|intros; try lia; try discriminate]).
    - assert (Hle : length ts <= C) by (unfold cache_num in HN; destruct (A =? C); lia). assert (Et : length ts = C) by lia. rewrite Et.
      unfold init_mask. cbn [iota seq map length Nat.ltb Nat.leb].
      destruct (fill_spec tm 0 (Z.of_nat (1 * C)) 0%Z) as (q & F1 & L1 & _); [lia|]. rewrite F1. cbn [rbind for_up].
      unfold init_row. cbn [nth_error]. change (Z.of_nat 0 - 1 <? 0)%Z with true. cbv iota.
      destruct (fill_spec q (0 * C) (Z.of_nat C) pos_val) as (q2 & F2 & L2 & _); [lia|]. rewrite F2. cbn [rbind].
      destruct (put_spec q2 (C - 1 + 0 * C + 0) [pos_val]) as (q3 & F3 & L3 & _); [cbn [length]; lia|]. rewrite F3. cbn [rbind].
      exists q3. split; [reflexivity|]. lia. }
  destruct Ei as (k1 & Ei & Mk). rewrite Ei. cbn [rbind].
  destruct (decode_ok sl ts k1 m2 (best ts) SZ2 Ec2 H1) as (m3 & E3 & SZ3).
  - intro Hl. split; [apply Mk, Hl|apply HH2, Hl].
  - destruct HF as [HF|HF]; [left; tauto|right; lia].
  - rewrite E3. cbn [rbind]. exists m3. split; [reflexivity|exact SZ3].
Qed.
End Geometry.
End Net.
