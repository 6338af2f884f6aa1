(** Rearranging and storing, entry by entry. *)
From Verif Require Import Base DTypeModel ParamModel TensorModel GenModel AotModel AotSpec AotProofs AotGraph AotRun AotSel AotOver.
Local Open Scope nat_scope.

Lemma width_le g a : geometry g -> a = c_A g \/ a = 1 -> width g a <= max_cache_len g /\ c_C g - a <= max_cache_len g /\ a <= max_ar_len g.
Proof.
  intros (H2 & H1 & HA) Ha. unfold width, max_cache_len, max_ar_len.
  destruct (Nat.eqb_spec a (c_C g)), (Nat.eqb_spec (c_A g) (c_C g)); destruct Ha; subst; lia.
Qed.

Lemma rearrange_entries g a m : geometry g -> buffers g m -> a = c_A g \/ a = 1 ->
  exists m', rearrange g a m = ROk m' /\ buffers g m' /\ m_cur m' = a /\
    forall l t, l < c_L g -> t < width g (m_cur m) -> t < c_C g - a ->
      (forall e, e < c_H g * c_D g -> key_entry g a (nth l (m_kin m') []) e t = key_entry g (m_cur m) (nth l (m_kin m) []) e t) /\
      (forall h d, h < c_H g -> d < c_D g -> value_entry g a (nth l (m_vin m') []) h t d = value_entry g (m_cur m) (nth l (m_vin m) []) h t d).
Proof.
  intros Hg HB Ha. apply buffers_sized in HB. pose proof HB as (S1 & S2 & S3 & S4 & S5). unfold rearrange. destruct (Nat.eqb_spec (m_cur m) a) as [E|E].
  - exists m. split; [reflexivity|]. split; [apply buffers_sized, HB|]. split; [exact E|]. rewrite E. intros; split; reflexivity.
  - destruct (width_le g (m_cur m) Hg S5) as (N1 & _). destruct (width_le g a Hg Ha) as (_ & N2 & _).
    change (cache_num g (m_cur m)) with (width g (m_cur m)).
    set (src := width g (m_cur m)) in *. set (dst := c_C g - a) in *. cbv zeta.
    destruct (map_res_ok (rearrange_rows (c_D g * c_H g) 1 src dst) (fun b b' => length b' = length b /\
       forall r j, r < c_H g * c_D g -> j < src -> j < dst -> nth (r * dst + j) b' 0%Z = nth (r * src + j) b 0%Z) (m_kin m)) as (k & Ek & Fk).
    { intros b Hb. pose proof (lens_in _ _ _ _ S1 Hb) as Lb.
      destruct (rearrange_rows_spec (c_D g * c_H g) 1 src dst b) as (b' & E1 & E2 & E3).
      - rewrite Lb, Nat.mul_1_r, (Nat.mul_comm (c_D g)). apply Nat.mul_le_mono_l, N1.
      - rewrite Lb, Nat.mul_1_r, (Nat.mul_comm (c_D g)). apply Nat.mul_le_mono_l, N2.
      - exists b'. split; [exact E1|]. split; [exact E2|]. intros r j Hr H1 H2. specialize (E3 r j). rewrite !Nat.mul_1_r in E3.
        rewrite (Nat.mul_comm (c_D g)) in E3. apply E3; auto. }
    destruct (map_res_ok (rearrange_rows (c_H g) (c_D g) src dst) (fun b b' => length b' = length b /\
       forall r j, r < c_H g -> j < src * c_D g -> j < dst * c_D g -> nth (r * (dst * c_D g) + j) b' 0%Z = nth (r * (src * c_D g) + j) b 0%Z) (m_vin m)) as (v & Ev & Fv).
    { intros b Hb. pose proof (lens_in _ _ _ _ S2 Hb) as Lb.
      destruct (rearrange_rows_spec (c_H g) (c_D g) src dst b) as (b' & E1 & E2 & E3).
      - rewrite Lb. clear - N1. rewrite (Nat.mul_comm src), Nat.mul_assoc. apply Nat.mul_le_mono_l, N1.
      - rewrite Lb. clear - N2. rewrite (Nat.mul_comm dst), Nat.mul_assoc. apply Nat.mul_le_mono_l, N2.
      - exists b'. auto. }
    rewrite Ek. cbn [rbind]. rewrite Ev. cbn [rbind]. eexists. split; [reflexivity|]. split; [|split; [reflexivity|]].
    + apply buffers_sized. split; [|split; [|split; [exact S3|split; [exact S4|exact Ha]]]]; cbn [m_kin m_vin].
      * eapply lens_f2; [exact S1|]. eapply forall2_impl; [|exact Fk]. cbn. tauto.
      * eapply lens_f2; [exact S2|]. eapply forall2_impl; [|exact Fv]. cbn. tauto.
    + intros l t Hl Ht1 Ht2. cbn [m_kin m_vin].
      assert (Wd : width g a = dst) by (unfold width; destruct (Nat.eqb_spec a (c_C g)); [unfold dst in Ht2; lia|reflexivity]).
      apply forall2_nth in Fk. destruct Fk as (_ & Fk). apply forall2_nth in Fv. destruct Fv as (_ & Fv).
      destruct (Fk l [] []) as (_ & Fk'); [rewrite (lens_len _ _ _ S1); exact Hl|].
      destruct (Fv l [] []) as (_ & Fv'); [rewrite (lens_len _ _ _ S2); exact Hl|]. unfold key_entry, value_entry. rewrite Wd. fold src. split.
      * intros e He. apply Fk'; auto.
      * intros h d Hh Hd. replace ((h * dst + t) * c_D g + d) with (h * (dst * c_D g) + (t * c_D g + d)) by (clear; nia).
        rewrite Fv'; [|exact Hh|clear - Ht1 Hd; nia|clear - Ht2 Hd; nia].
        replace (h * (src * c_D g) + (t * c_D g + d)) with ((h * src + t) * c_D g + d) by (clear; nia). reflexivity.
Qed.

(** Storing the selected tokens. *)
Lemma update_entries g a n u sel m : geometry g -> buffers g m -> m_cur m = a -> length sel <= a -> u <= a -> 1 <= u <= length (sources sel u) ->
  n + u <= width g a ->
  exists m', update_cache g a n u sel m = ROk m' /\ buffers g m' /\ m_cur m' = a /\ m_kout m' = m_kout m /\ m_vout m' = m_vout m /\
    forall l t, l < c_L g -> t < width g a ->
      (forall e, e < c_H g * c_D g -> key_entry g a (nth l (m_kin m') []) e t =
         if (n <=? t) && (t <? n + u) then key_result a (nth l (m_kout m) []) e (nth (t - n) (sources sel u) 0) else key_entry g a (nth l (m_kin m) []) e t) /\
      (forall h d, h < c_H g -> d < c_D g -> value_entry g a (nth l (m_vin m') []) h t d =
         if (n <=? t) && (t <? n + u) then value_result g a (nth l (m_vout m) []) h (nth (t - n) (sources sel u) 0) d else value_entry g a (nth l (m_vin m) []) h t d).
Proof.
  intros Hg HB Ec Hsel Hu Hp Hn. apply buffers_sized in HB. destruct HB as (S1 & S2 & S3 & S4 & S5).
  unfold update_cache. rewrite Ec, Nat.eqb_refl. cbn [negb].
  assert (Ha : a = c_A g \/ a = 1) by (rewrite <- Ec; exact S5).
  destruct (width_le g a Hg Ha) as (N1 & _ & N3).
  destruct (map_res_ok (fun bo => update_key g a n u sel (fst bo) (snd bo)) (fun bo b' => length b' = length (fst bo) /\
     forall e t, e < c_H g * c_D g -> t < width g a -> key_entry g a b' e t =
       if (n <=? t) && (t <? n + u) then key_result a (snd bo) e (nth (t - n) (sources sel u) 0) else key_entry g a (fst bo) e t)
     (combine (m_kin m) (m_kout m))) as (k & Ek & Fk).
  { intros (b, o) Hb. cbn [fst snd]. pose proof (lens_in _ _ _ _ S1 (in_combine_l _ _ _ _ Hb)) as Lb. pose proof (lens_in _ _ _ _ S3 (in_combine_r _ _ _ _ Hb)) as Lo.
    assert (B1 : c_H g * c_D g * width g a <= length b) by (rewrite Lb; apply Nat.mul_le_mono_l, N1).
    assert (B2 : c_H g * c_D g * a <= length o) by (rewrite Lo; apply Nat.mul_le_mono_l, N3).
    destruct sel as [|s0 sl] eqn:Es.
    - unfold update_key. rewrite (Nat.mul_comm (c_D g)). change (cache_num g a) with (width g a).
      destruct (copy_rows_spec (c_H g * c_D g) n (width g a) a u o b) as (b' & E1 & E2 & E3); [lia|lia|exact B1|exact B2|].
      exists b'. split; [exact E1|]. split; [exact E2|]. intros e t He Ht. unfold key_entry, key_result. rewrite E3 by auto.
      destruct (Nat.leb_spec n t), (Nat.ltb_spec t (n + u)); cbn [andb]; try reflexivity. cbn [sources]. rewrite seq_nth by lia. reflexivity.
    - rewrite <- Es in *. assert (Ss : sources sel u = picked sel 0) by (rewrite Es; reflexivity). rewrite Ss in *.
      exact (update_key_sel g a n u sel Hsel Hp Hn b o B1 B2). }
  destruct (map_res_ok (fun bo => update_value g a n u sel (fst bo) (snd bo)) (fun bo b' => length b' = length (fst bo) /\
     forall h t d, h < c_H g -> t < width g a -> d < c_D g -> value_entry g a b' h t d =
       if (n <=? t) && (t <? n + u) then value_result g a (snd bo) h (nth (t - n) (sources sel u) 0) d else value_entry g a (fst bo) h t d)
     (combine (m_vin m) (m_vout m))) as (v & Ev & Fv).
  { intros (b, o) Hb. cbn [fst snd]. pose proof (lens_in _ _ _ _ S2 (in_combine_l _ _ _ _ Hb)) as Lb. pose proof (lens_in _ _ _ _ S4 (in_combine_r _ _ _ _ Hb)) as Lo.
    assert (B1 : c_H g * c_D g * width g a <= length b) by (rewrite Lb; apply Nat.mul_le_mono_l, N1).
    assert (B2 : c_H g * c_D g * a <= length o) by (rewrite Lo; apply Nat.mul_le_mono_l, N3).
    destruct sel as [|s0 sl] eqn:Es.
    - unfold update_value. change (cache_num g a) with (width g a). set (W := width g a) in *.
      destruct (copy_rows_spec (c_H g) (n * c_D g) (W * c_D g) (a * c_D g) (u * c_D g) o b) as (b' & E1 & E2 & E3).
      + clear - Hn. nia.
      + apply Nat.mul_le_mono_r, Hu.
      + rewrite (Nat.mul_comm W), Nat.mul_assoc. exact B1.
      + rewrite (Nat.mul_comm a), Nat.mul_assoc. exact B2.
      + exists b'. split; [exact E1|]. split; [exact E2|]. intros h t d Hh Ht Hd. unfold value_entry, value_result. fold W. cbn [sources].
        replace ((h * W + t) * c_D g + d) with (h * (W * c_D g) + (t * c_D g + d)) by (clear; nia).
        rewrite E3; [|exact Hh|clear - Ht Hd; nia].
        destruct (Nat.leb_spec n t) as [Q|Q]; cbn [andb].
        * replace (n * c_D g <=? t * c_D g + d) with true by (symmetry; apply Nat.leb_le; clear - Q; nia). cbn [andb].
          destruct (Nat.ltb_spec t (n + u)) as [P|P].
          -- replace (t * c_D g + d <? n * c_D g + u * c_D g) with true by (symmetry; apply Nat.ltb_lt; clear - P Hd; nia).
             rewrite seq_nth by lia. f_equal. rewrite Nat.mul_add_distr_r. cbn [Nat.add]. rewrite Nat.mul_sub_distr_r.
             assert (n * c_D g <= t * c_D g) by (apply Nat.mul_le_mono_r; exact Q). rewrite <- Nat.mul_assoc. lia.
          -- replace (t * c_D g + d <? n * c_D g + u * c_D g) with false by (symmetry; apply Nat.ltb_ge; clear - P; nia). reflexivity.
        * replace (n * c_D g <=? t * c_D g + d) with false by (symmetry; apply Nat.leb_gt; clear - Q Hd; nia). reflexivity.
    - rewrite <- Es in *. assert (Ss : sources sel u = picked sel 0) by (rewrite Es; reflexivity). rewrite Ss in *.
      exact (update_value_sel g a n u sel Hsel Hp Hn b o B1 B2). }
  rewrite Ek. cbn [rbind]. rewrite Ev. cbn [rbind]. eexists. split; [reflexivity|].
  assert (LK : length (m_kin m) = c_L g) by exact (lens_len _ _ _ S1). assert (LV : length (m_vin m) = c_L g) by exact (lens_len _ _ _ S2).
  assert (LKO : length (m_kout m) = c_L g) by exact (lens_len _ _ _ S3). assert (LVO : length (m_vout m) = c_L g) by exact (lens_len _ _ _ S4).
  split; [|split; [reflexivity|split; [reflexivity|split; [reflexivity|]]]].
  - apply buffers_sized. split; [|split; [|split; [exact S3|split; [exact S4|exact Ha]]]]; cbn [m_kin m_vin].
    + eapply lens_f2; [exact S1|]. eapply comb_len; [| |exact Fk]; [|congruence]. cbn. tauto.
    + eapply lens_f2; [exact S2|]. eapply comb_len; [| |exact Fv]; [|congruence]. cbn. tauto.
  - intros l t Hl Ht. cbn [m_kin m_vin].
    apply forall2_nth in Fk. destruct Fk as (_ & Fk). apply forall2_nth in Fv. destruct Fv as (_ & Fv).
    destruct (Fk l ([], []) []) as (_ & Fk'); [rewrite combine_length; lia|]. rewrite combine_nth in Fk' by congruence. cbn [fst snd] in Fk'.
    destruct (Fv l ([], []) []) as (_ & Fv'); [rewrite combine_length; lia|]. rewrite combine_nth in Fv' by congruence. cbn [fst snd] in Fv'.
    split; intros; auto.
Qed.
