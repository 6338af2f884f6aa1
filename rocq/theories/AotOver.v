(** Decoding up to the end of the context. *)
From Verif Require Import Base DTypeModel ParamModel TensorModel GenModel SessModel SessSpec SessProofs AotModel AotSpec AotProofs AotGraph AotRun AotInv.
Local Open Scope nat_scope.

Lemma lens_iff L k l : lens L k l <-> length l = L /\ Forall (fun b : list Z => length b = k) l.
Proof.
  split.
  - intro H. split; [eapply lens_len, H|]. apply Forall_forall. intros b. apply (lens_in L), H.
  - intros (<- & F). unfold lens. induction F as [|b l E F IH]; [reflexivity|]. cbn [map length repeat]. rewrite E, IH. reflexivity.
Qed.
Lemma buffers_sized g m : buffers g m <-> sized g m.
Proof.
  unfold buffers, sized. cbv zeta. rewrite !lens_iff. tauto.
Qed.

Lemma copy_bad b d o s n : length b < d + n -> s + n <= length o -> copy b d o s n = RUB.
Proof.
  intros H1 H2. unfold copy. destruct (get_spec o s n H2) as (xs & E & L & _). rewrite E. cbn [rbind]. unfold put. rewrite L.
  destruct (Nat.leb_spec (d + n) (length b)); [lia|reflexivity].
Qed.
(** Row by row, until the last row leaves the buffer. *)
Lemma copy_rows_bad rows P S O n out b : 1 <= rows -> length b < P + (rows - 1) * S + n ->
  (forall i, i < rows - 1 -> P + i * S + n <= length b) -> (forall i, i < rows -> i * O + n <= length out) ->
  for_up rows 0 (fun i b => copy b (P + i * S) out (i * O) n) b = RUB.
Proof.
  intros Hr Hb Hi Ho.
  assert (G : forall k i c, i + k = rows - 1 -> length c = length b -> for_up (Datatypes.S k) i (fun i b => copy b (P + i * S) out (i * O) n) c = RUB).
  { induction k as [|k IH]; intros i c Hk Lc.
    - cbn [for_up]. rewrite copy_bad; [reflexivity| |apply Ho; lia]. rewrite Lc. replace i with (rows - 1) by lia. exact Hb.
    - remember (Datatypes.S k) as k1 eqn:Ek. cbn [for_up]. destruct (copy_spec c (P + i * S) out (i * O) n) as (c' & E & L & _); [rewrite Lc; apply Hi; lia|apply Ho; lia|].
      rewrite E. cbn [rbind]. subst k1. apply IH; lia. }
  replace rows with (Datatypes.S (rows - 1)) at 1 by lia. apply G; auto.
Qed.

Section Net.
Context {X : Type}.
Variable g : config.
Variable embed : Z -> X.
Variable kproj vproj : nat -> X -> Z -> list Z.
Variable mix : nat -> X -> Z -> list (list Z) -> list (list Z) -> X.
Variable logits : X -> list Z.
Variable is_eos : Z -> bool.
Hypothesis Hg : geometry g.
Hypothesis HK : forall j x q, length (kproj j x q) = c_H g * c_D g.
Hypothesis HV : forall j x q, length (vproj j x q) = c_H g * c_D g.
Hypothesis HL : 1 <= c_L g.
Hypothesis HHD : 1 <= c_H g * c_D g.
Hypothesis HAC : c_A g < c_C g.
Notation C := (c_C g).
Notation A := (c_A g).

Lemma update_bad m : sized g m -> m_cur m = 1 -> update_cache g 1 (C - 1) 1 [] m = RUB.
Proof.
  intros (S1 & S2 & S3 & S4 & S5) Ec. unfold update_cache. rewrite Ec, Nat.eqb_refl. cbn [negb].
  assert (MC : max_cache_len g = C - 1) by (unfold max_cache_len; destruct Hg; destruct (Nat.eqb_spec A C); lia).
  assert (MA : 1 <= max_ar_len g) by (unfold max_ar_len; lia).
  assert (CN : cache_num g 1 = C - 1) by (unfold cache_num; destruct Hg; destruct (Nat.eqb_spec 1 C); lia).
  pose proof (lens_len _ _ _ S1) as L1. pose proof (lens_len _ _ _ S3) as L3.
  destruct (m_kin m) as [|b kin] eqn:Ek; [cbn in L1; lia|]. destruct (m_kout m) as [|o kout] eqn:Eo; [cbn in L3; lia|].
  cbn [combine map_res fst snd].
  assert (Lb : length b = c_H g * c_D g * (C - 1)) by (rewrite <- MC; apply (lens_in _ _ _ _ S1); left; reflexivity).
  assert (Lo : length o = c_H g * c_D g * max_ar_len g) by (apply (lens_in _ _ _ _ S3); left; reflexivity).
  unfold update_key. rewrite CN, (Nat.mul_comm (c_D g)). rewrite copy_rows_bad; [reflexivity|exact HHD| | |].
  - rewrite Lb. set (R := c_H g * c_D g) in *. replace (R * (C - 1)) with ((R - 1) * (C - 1) + (C - 1)) by (clear - HHD; nia). lia.
  - intros i Hi. rewrite Lb. set (R := c_H g * c_D g) in *. assert (Q : (i + 2) * (C - 1) <= R * (C - 1)) by (apply Nat.mul_le_mono_r; lia).
    rewrite Nat.mul_add_distr_r in Q. destruct Hg. lia.
  - intros i Hi. rewrite Lo. set (R := c_H g * c_D g) in *. assert (Q : R * 1 <= R * max_ar_len g) by (apply Nat.mul_le_mono_l; exact MA). lia.
Qed.

Notation hold := (hold g embed kproj vproj mix).
Notation best := (best g embed kproj vproj mix logits).
Lemma decode_bad : (forall t, is_eos t = false) -> forall fuel ts mask m t0, sized g m -> m_cur m = 1 -> 1 <= length ts < C ->
  mask_ok g 1 (length ts) mask -> hold (C - 1) (length ts) ts m -> C <= length ts + fuel ->
  decode g embed kproj vproj mix logits is_eos fuel t0 (length ts) mask m = RUB.
Proof.
  intro NE. pose proof Hg as (HC2 & HA).
  assert (CN : cache_num g 1 = C - 1) by (unfold cache_num; destruct (Nat.eqb_spec 1 C); lia).
  induction fuel as [|f IH]; intros ts mask m t0 SZ Ec H1 M HH Hf; [lia|].
  cbn [decode]. destruct (Nat.leb_spec C (length ts)) as [Q|_]; [lia|]. set (n := length ts) in *.
  assert (Lt : length (ts ++ [t0]) = n + 1) by (rewrite app_length; reflexivity).
  assert (HH' : hold (cache_num g 1) n (ts ++ [t0]) m) by (rewrite CN; apply hold_prefix; [unfold n; lia|exact HH]).
  destruct (execute_ok g embed kproj vproj mix logits is_eos Hg HK HV 1 [t0] [Z.of_nat n] mask m (ts ++ [t0]) n 1 SZ Ec) as (m1 & out & E1 & SZ1 & Ec1 & K1 & V1 & O1 & KO1); auto; try lia.
  { intros s Hs. assert (s = 0) by lia. subst s. rewrite Nat.add_0_r. cbn [nth]. split; [|reflexivity]. unfold n. rewrite nth_middle. reflexivity. }
  rewrite E1. cbn [rbind].
  destruct (Nat.eq_dec n (C - 1)) as [En|En].
  { rewrite En. rewrite update_bad; [reflexivity|exact SZ1|exact Ec1]. }
  assert (HH1 : hold (cache_num g 1) n (ts ++ [t0]) m1) by (unfold AotRun.hold; rewrite K1, V1; exact HH').
  destruct (update_ok g embed kproj vproj mix logits is_eos Hg 1 n 1 m1 (ts ++ [t0]) SZ1 Ec1 ltac:(lia) ltac:(lia) HH1 KO1) as (m2 & U1 & U2 & U3 & U4).
  rewrite U1. cbn [rbind]. pose proof M as (Lm & MM).
  destruct (update_mask_spec g 1 n 1 None mask Lm ltac:(lia)) as (x & F & Lx & Nx); [intros; cbn; lia|]. rewrite F. cbn [rbind]. cbv zeta.
  rewrite NE. rewrite <- Lt. rewrite (IH (ts ++ [t0]) x m2); [reflexivity|exact U2|exact U3|lia| | |lia].
  - rewrite Lt. split; [lia|]. intros s c Hs Hc. rewrite Nx by auto. cbn [thr].
    destruct (Nat.ltb_spec c 0); [lia|].
    destruct (Nat.leb_spec n c), (Nat.ltb_spec c (n + 1)); cbn [andb]; unfold pos_val; try (split; [lia|intro; discriminate]); rewrite MM by auto; lia.
  - rewrite Lt. rewrite CN in U4. exact U4.
Qed.

Lemma run_bad ts sl pm po tm m : (forall t, is_eos t = false) -> sized g m -> length pm = A * C -> length tm = C ->
  1 <= length ts <= C - A -> C <= length ts + sl ->
  run g embed kproj vproj mix logits is_eos pm po tm ts sl m = RUB.
Proof.
  intros NE SZ Lpm Ltm Hts Hsl. unfold run. pose proof Hg as (HC2 & HA).
  assert (HN : length ts <= cache_num g A) by (unfold cache_num; destruct (Nat.eqb_spec A C); lia).
  destruct (prefill_ok g embed kproj vproj mix logits is_eos Hg HK HV ts pm po m SZ Lpm ltac:(lia) HN) as (m1 & E1 & SZ1 & Ec1 & HH1). rewrite E1. cbn [rbind].
  unfold generate_tokens.
  destruct (rearrange_ok g embed kproj vproj mix logits is_eos Hg 1 m1 SZ1 (or_intror eq_refl)) as (m2 & E2 & SZ2 & Ec2 & Same & Mv). rewrite E2. cbn [rbind].
  assert (HH2 : hold (C - 1) (length ts) ts m2).
  { destruct (Nat.eq_dec (m_cur m1) 1) as [E|E].
    - rewrite (Same E). rewrite Ec1 in E. rewrite E in HH1. unfold cache_num in HH1. destruct (Nat.eqb_spec 1 C); [lia|exact HH1].
    - apply Mv; [exact E| | |]; rewrite ?Ec1; [exact HN|lia|exact HH1]. }
  destruct (init_mask_spec g 1 (length ts) None tm) as (k1 & F1 & L1 & N1); [lia|lia|lia|intros; cbn; lia|]. rewrite F1. cbn [rbind].
  rewrite decode_bad; [reflexivity|exact NE|exact SZ2|exact Ec2|lia| |exact HH2|exact Hsl].
  split; [lia|]. intros s c Hs Hc. rewrite N1 by auto. cbn [thr Nat.leb andb].
  destruct (Nat.ltb_spec c (length ts)), (Nat.leb_spec (C - 1) c), (Nat.leb_spec c (C - 1 + s)); cbn [andb orb]; unfold pos_val; (split; [lia|intros; try lia; try discriminate]).
Qed.
End Net.
