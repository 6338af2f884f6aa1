(** The radix-2 transforms are the discrete Fourier transform. *)
From Coq Require Import Reals Lra.
From Verif Require Import Base DTypeModel ParamModel TensorModel TensorSpec TensorProofs OpsModel MatModel MatSpec MatProofs MatKernel FftModel FftSpec FftProofs FftBits.
Local Open Scope Z_scope.

Add Ring cx_ring_inst2 : cx_ring.

Lemma loadv_at {A} (b : buf A) i v : 0 <= i < b_len b -> b_at b i = Some v -> loadv b i = ROk v.
Proof. intros Hi E. unfold loadv, load. replace ((0 <=? i) && (i <? b_len b)) with true by lia. cbn [rbind]. rewrite E. reflexivity. Qed.

Ltac run E := match type of E with _ = ?R => match goal with |- exists o, rbind ?X _ = _ /\ _ => let EX := fresh in assert (EX : X = R) by exact E; rewrite EX; clear EX end end; cbn [rbind].

Definition sgn (inverse : bool) : Z := if inverse then 1 else -1.
(** The partial transforms after m stages of a transform of size 2^L. *)
Definition part (inverse : bool) (L : Z) (x : Z -> cx) (m b k : Z) : cx :=
  csum (2 ^ m) (fun r => cmul (x (r * 2 ^ (L - m) + bit_reverse b (L - m))) (root (2 ^ m) (sgn inverse * r * k))).

Lemma pow2_pos m : 0 <= m -> 0 < 2 ^ m.
Proof. intro. apply Z.pow_pos_nonneg; lia. Qed.
Lemma pow2_succ m : 0 <= m -> 2 ^ (m + 1) = 2 * 2 ^ m.
Proof. intro. rewrite Z.pow_add_r by lia. change (2 ^ 1) with 2. ring. Qed.
Lemma part_step inverse L x m b k : 0 <= m < L -> L <= 32 ->
  part inverse L x (m + 1) b k = cadd (part inverse L x m (2 * b) k) (cmul (root (2 ^ (m + 1)) (sgn inverse * k)) (part inverse L x m (2 * b + 1) k)).
Proof.
  intros Hm HL. unfold part. assert (P := pow2_pos m ltac:(lia)). rewrite pow2_succ by lia.
  rewrite csum_even_odd by lia. rewrite <- csum_scale.
  assert (PL : 2 ^ (L - m) = 2 * 2 ^ (L - (m + 1))) by (rewrite <- pow2_succ by lia; f_equal; ring).
  f_equal; apply csum_ext; intros r Hr.
  - f_equal.
    + f_equal. rewrite PL. replace (L - m) with (L - (m + 1) + 1) by ring. rewrite bit_reverse_double by lia. ring.
    + replace (sgn inverse * (2 * r) * k) with (2 * (sgn inverse * r * k)) by ring. rewrite root_scale by lia. reflexivity.
  - replace (sgn inverse * (2 * r + 1) * k) with (sgn inverse * k + 2 * (sgn inverse * r * k)) by ring.
    rewrite root_add, root_scale by lia.
    replace ((2 * r + 1) * 2 ^ (L - (m + 1)) + bit_reverse b (L - (m + 1))) with (r * 2 ^ (L - m) + bit_reverse (2 * b + 1) (L - m)); [ring|].
    rewrite PL. replace (L - m) with (L - (m + 1) + 1) by ring. rewrite bit_reverse_odd by lia. ring.
Qed.
Lemma part_period inverse L x m b k : 0 <= m -> part inverse L x m b (k + 2 ^ m) = part inverse L x m b k.
Proof.
  intro Hm. assert (P := pow2_pos m Hm). apply csum_ext. intros r Hr. f_equal. apply root_mod; [lia|]. exists (sgn inverse * r). ring.
Qed.
Lemma root_opposite inverse m k : 0 <= m -> root (2 ^ (m + 1)) (sgn inverse * (k + 2 ^ m)) = copp (root (2 ^ (m + 1)) (sgn inverse * k)).
Proof.
  intro Hm. assert (P := pow2_pos m Hm). rewrite Z.mul_add_distr_l, root_add.
  assert (E : root (2 ^ (m + 1)) (sgn inverse * 2 ^ m) = copp c1).
  { rewrite pow2_succ by exact Hm. destruct inverse; cbn [sgn].
    - rewrite Z.mul_1_l. apply root_half. lia.
    - replace (-1 * 2 ^ m) with (2 ^ m + 2 * 2 ^ m * -1) by ring. rewrite root_period by lia. apply root_half. lia. }
  rewrite E. ring.
Qed.

Lemma butterflies_ok angle j mid (out : buf cx) (e o : Z -> cx) (G : Z -> option cx) :
  0 <= j -> 0 <= mid -> j + 2 * mid <= b_len out ->
  (forall k, 0 <= k < mid -> b_at out (j + k) = Some (e k) /\ b_at out (j + k + mid) = Some (o k)) ->
  (forall k, 0 <= k < mid -> G (j + k) = Some (cadd (e k) (cmul (cis (IZR k * angle)) (o k)))
                          /\ G (j + k + mid) = Some (csub (e k) (cmul (cis (IZR k * angle)) (o k)))) ->
  exists out', butterflies (cis angle) j mid out = ROk out' /\ changes G (segment j (2 * mid)) out out'.
Proof.
  intros Hj Hm Hlen HE HG. unfold butterflies.
  destruct (zloop_inv (fun i (st : cx * buf cx) => fst st = cis (IZR i * angle) /\
      changes G (fun d => exists k, 0 <= k < i /\ (d = j + k \/ d = j + k + mid)) out (snd st)) mid
      (fun k (st : cx * buf cx) =>
      do even <- loadv (snd st) (j + k);
      do odd <- loadv (snd st) (j + k + mid);
      let t := cmul (fst st) odd in
      do b <- store (snd st) (j + k) (Some (cadd even t));
      do b <- store b (j + k + mid) (Some (csub even t));
      ROk (cmul (fst st) (cis angle), b)) (c1, out)) as ([w b] & E & HW & HC).
  - exact Hm.
  - cbn [fst snd]. split.
    + rewrite Rmult_0_l. symmetry. apply cis_0.
    + apply changes_refl. intros d (k & Hk & _). lia.
  - intros i [w b] Hi [HW HC]. cbn [fst snd] in *. destruct (HE i Hi) as [HE1 HE2]. destruct (HG i Hi) as [HG1 HG2].
    assert (LB := c_len _ _ _ _ HC).
    rewrite (loadv_at b (j + i) (e i)).
    2: lia.
    2: { rewrite (c_other _ _ _ _ HC); [exact HE1|]. intros (k & Hk & D). lia. }
    cbn [rbind]. rewrite (loadv_at b (j + i + mid) (o i)).
    2: lia.
    2: { rewrite (c_other _ _ _ _ HC); [exact HE2|]. intros (k & Hk & D). lia. }
    cbn [rbind]. cbv zeta.
    destruct (changes_store G b (j + i) (Some (cadd (e i) (cmul w (o i))))) as (b1 & S1 & C1); [lia|rewrite HW; symmetry; exact HG1|].
    rewrite S1. cbn [rbind].
    destruct (changes_store G b1 (j + i + mid) (Some (csub (e i) (cmul w (o i))))) as (b2 & S2 & C2).
    { rewrite (c_len _ _ _ _ C1). lia. }
    { rewrite HW; symmetry; exact HG2. }
    rewrite S2. cbn [rbind]. eexists. split; [reflexivity|]. cbn [fst snd]. split.
    + rewrite HW, <- cis_add. f_equal. rewrite plus_IZR. ring.
    + constructor.
      * rewrite (c_len _ _ _ _ C2), (c_len _ _ _ _ C1). exact LB.
      * intros d (k & Hk & D). destruct (Z.eq_dec d (j + i + mid)) as [->|N2]; [apply (c_set _ _ _ _ C2); reflexivity|].
        rewrite (c_other _ _ _ _ C2) by lia. destruct (Z.eq_dec d (j + i)) as [->|N1]; [apply (c_set _ _ _ _ C1); reflexivity|].
        rewrite (c_other _ _ _ _ C1) by lia. apply (c_set _ _ _ _ HC). exists k. split; [lia|exact D].
      * intros d ND. rewrite (c_other _ _ _ _ C2) by (intro X; apply ND; exists i; lia).
        rewrite (c_other _ _ _ _ C1) by (intro X; apply ND; exists i; lia).
        apply (c_other _ _ _ _ HC). intros (k & Hk & D). apply ND. exists k. split; [lia|exact D].
  - match goal with |- exists o, rbind ?X _ = _ /\ _ => assert (EX : X = ROk (w, b)) by exact E; rewrite EX end.
    cbn [rbind snd]. cbn [fst snd] in *. exists b. split; [reflexivity|].
    revert HC. apply changes_iff. intro d. unfold segment. split.
    + intros (k & Hk & D). lia.
    + intro D. destruct (Z_lt_le_dec d (j + mid)) as [l|l].
      * exists (d - j). lia.
      * exists (d - j - mid). lia.
Qed.

Definition stage_value (inverse : bool) (L : Z) (x : Z -> cx) (m d : Z) : cx := part inverse L x m (d / 2 ^ m) (d mod 2 ^ m).
Lemma stage_angle inverse L m k : 0 <= m < L ->
  cis (IZR k * (angular_velocity (2 ^ L) inverse * IZR (2 ^ L / 2 ^ (m + 1)))) = root (2 ^ (m + 1)) (sgn inverse * k).
Proof.
  intros Hm. unfold angular_velocity, root. f_equal.
  assert (E : 2 ^ L = 2 ^ (m + 1) * 2 ^ (L - m - 1)) by (rewrite <- Z.pow_add_r by lia; f_equal; ring).
  assert (P1 := pow2_pos (m + 1) ltac:(lia)). assert (P2 := pow2_pos (L - m - 1) ltac:(lia)).
  rewrite E. rewrite Z.mul_comm, Z.div_mul by lia. rewrite !mult_IZR.
  replace (IZR (sgn inverse)) with (if inverse then 1 else -1)%R by (destruct inverse; reflexivity).
  field. split; apply not_0_IZR; lia.
Qed.
Lemma div_block m j k : 0 <= m -> 0 <= k < 2 ^ m -> (j * 2 ^ m + k) / 2 ^ m = j /\ (j * 2 ^ m + k) mod 2 ^ m = k.
Proof.
  intros Hm Hk. assert (P := pow2_pos m Hm). split.
  - rewrite Z.add_comm, Z.div_add by lia. rewrite Z.div_small by lia. ring.
  - rewrite Z.add_comm, Z.mod_add by lia. apply Z.mod_small. exact Hk.
Qed.
Lemma stage_ok inverse L x m (out : buf cx) : 0 <= m < L -> L <= 32 -> vector out (2 ^ L) (stage_value inverse L x m) ->
  exists out', zloop ((2 ^ L + 2 ^ (m + 1) - 1) / 2 ^ (m + 1)) (fun j out => butterflies (cis (angular_velocity (2 ^ L) inverse * IZR (2 ^ L / 2 ^ (m + 1)))) (j * 2 ^ (m + 1)) (2 ^ (m + 1) / 2) out) out = ROk out'
    /\ vector out' (2 ^ L) (stage_value inverse L x (m + 1)).
Proof.
  intros Hm HL [VL VA].
  assert (P := pow2_pos m ltac:(lia)). assert (P1 := pow2_pos (m + 1) ltac:(lia)). assert (PS := pow2_succ m ltac:(lia)).
  assert (P2 := pow2_pos (L - m - 1) ltac:(lia)).
  assert (EL : 2 ^ L = 2 ^ (L - m - 1) * 2 ^ (m + 1)) by (rewrite <- Z.pow_add_r by lia; f_equal; ring).
  assert (NB : (2 ^ L + 2 ^ (m + 1) - 1) / 2 ^ (m + 1) = 2 ^ (L - m - 1)).
  { rewrite EL. replace (2 ^ (L - m - 1) * 2 ^ (m + 1) + 2 ^ (m + 1) - 1) with (2 ^ (m + 1) - 1 + 2 ^ (L - m - 1) * 2 ^ (m + 1)) by ring.
    rewrite Z.div_add by lia. rewrite Z.div_small by lia. ring. }
  assert (MID : 2 ^ (m + 1) / 2 = 2 ^ m) by (rewrite PS, Z.mul_comm; apply Z.div_mul; lia).
  rewrite NB, MID.
  set (G := fun d => Some (stage_value inverse L x (m + 1) d)).
  destruct (changes_loop G (2 ^ (L - m - 1)) (fun j d => segment (j * 2 ^ (m + 1)) (2 * 2 ^ m) d)
     (fun j out => butterflies (cis (angular_velocity (2 ^ L) inverse * IZR (2 ^ L / 2 ^ (m + 1)))) (j * 2 ^ (m + 1)) (2 ^ m) out) out) as (out' & E & C).
  - intros i j d Hi Hj. unfold segment. rewrite <- PS. intros Di Dj.
    destruct (Z.lt_trichotomy i j) as [l|[e|l]]; [exfalso|exact e|exfalso].
    + assert ((i + 1) * 2 ^ (m + 1) <= j * 2 ^ (m + 1)) by (apply Z.mul_le_mono_nonneg_r; lia). lia.
    + assert ((j + 1) * 2 ^ (m + 1) <= i * 2 ^ (m + 1)) by (apply Z.mul_le_mono_nonneg_r; lia). lia.
  - intros j b1 Hj LB OB.
    assert (JB : 0 <= j * 2 ^ (m + 1)) by (apply Z.mul_nonneg_nonneg; lia).
    assert (JE : (j + 1) * 2 ^ (m + 1) <= 2 ^ L) by (rewrite EL; apply Z.mul_le_mono_nonneg_r; lia).
    assert (BJ : j * 2 ^ (m + 1) = (2 * j) * 2 ^ m) by (rewrite PS; ring).
    apply (butterflies_ok _ _ _ _ (fun k => part inverse L x m (2 * j) k) (fun k => part inverse L x m (2 * j + 1) k)).
    + exact JB.
    + lia.
    + rewrite LB, VL. lia.
    + intros k Hk. split.
      * rewrite OB by (unfold segment; lia). rewrite VA by lia. f_equal. unfold stage_value. rewrite BJ.
        destruct (div_block m (2 * j) k) as [-> ->]; [lia|lia|reflexivity].
      * rewrite OB by (unfold segment; lia). rewrite VA by lia. f_equal. unfold stage_value.
        replace (j * 2 ^ (m + 1) + k + 2 ^ m) with ((2 * j + 1) * 2 ^ m + k) by (rewrite BJ; ring).
        destruct (div_block m (2 * j + 1) k) as [-> ->]; [lia|lia|reflexivity].
    + intros k Hk. rewrite stage_angle by exact Hm. unfold G, stage_value. split.
      * destruct (div_block (m + 1) j k) as [-> ->]; [lia|lia|]. f_equal. rewrite part_step by lia. reflexivity.
      * replace (j * 2 ^ (m + 1) + k + 2 ^ m) with (j * 2 ^ (m + 1) + (k + 2 ^ m)) by ring.
        destruct (div_block (m + 1) j (k + 2 ^ m)) as [-> ->]; [lia|lia|]. f_equal. rewrite part_step by lia.
        rewrite !part_period by lia. rewrite root_opposite by lia. ring.
  - exists out'. split; [exact E|]. split; [rewrite (c_len _ _ _ _ C); exact VL|].
    intros i Hi. apply (c_set _ _ _ _ C). exists (i / 2 ^ (m + 1)).
    assert (M := Z.mod_pos_bound i (2 ^ (m + 1)) P1). assert (D := Z.div_mod i (2 ^ (m + 1)) ltac:(lia)). split.
    + split; [apply Z.div_pos; lia|]. apply Z.div_lt_upper_bound; [lia|]. rewrite Z.mul_comm, <- EL. lia.
    + unfold segment. rewrite <- PS. rewrite (Z.mul_comm (i / 2 ^ (m + 1))). lia.
Qed.
Lemma stages_ok inverse L x (out : buf cx) : 0 <= L <= 32 -> vector out (2 ^ L) (fun i => x (bit_reverse i L)) ->
  exists out', stages (2 ^ L) inverse out = ROk out' /\ vector out' (2 ^ L) (fun k => csum (2 ^ L) (fun j => cmul (x j) (root (2 ^ L) (sgn inverse * j * k)))).
Proof.
  intros HL [VL VA]. unfold stages. rewrite Z.log2_pow2 by lia. cbv zeta.
  destruct (zloop_inv (fun m (b : buf cx) => vector b (2 ^ L) (stage_value inverse L x m)) L
    (fun m out => zloop ((2 ^ L + 2 ^ (m + 1) - 1) / 2 ^ (m + 1)) (fun j out => butterflies (cis (angular_velocity (2 ^ L) inverse * IZR (2 ^ L / 2 ^ (m + 1)))) (j * 2 ^ (m + 1)) (2 ^ (m + 1) / 2) out) out) out) as (out' & E & V).
  - lia.
  - split; [exact VL|]. intros i Hi. rewrite VA by exact Hi. f_equal. unfold stage_value, part. rewrite Z.pow_0_r, Z.div_1_r.
    rewrite (csum_one _ 1 0) by lia. rewrite Z.mul_0_l, Z.add_0_l, Z.sub_0_r, Z.mul_0_r, Z.mul_0_l, root_0. ring.
  - intros m b Hm V. apply stage_ok; [exact Hm|lia|exact V].
  - exists out'. split; [exact E|]. destruct V as [V1 V2]. split; [exact V1|]. intros k Hk. rewrite V2 by exact Hk. f_equal.
    unfold stage_value, part. rewrite Z.div_small, Z.mod_small by lia. apply csum_ext. intros r Hr.
    rewrite Z.sub_diag, Z.pow_0_r, bit_reverse_0, Z.add_0_r, Z.mul_1_r. reflexivity.
Qed.
Lemma scaled_ok n inverse (out : buf cx) x : 0 <= n -> vector out n x ->
  exists out', scaled n inverse out = ROk out' /\ vector out' n (fun k => if inverse then cdivr (x k) (IZR n) else x k).
Proof.
  intros Hn [VL VA]. unfold scaled. destruct inverse; [|exists out; split; [reflexivity|split; assumption]].
  destruct (changes_loop (fun d => Some (cdivr (x d) (IZR n))) n (fun i d => i = d)
     (fun i out => do v <- loadv out i; store out i (Some (cdivr v (IZR n)))) out) as (out' & E & C).
  - intros; congruence.
  - intros i b Hi LB OB. rewrite (loadv_at b i (x i)) by (try lia; rewrite OB by reflexivity; apply VA; lia). cbn [rbind].
    apply (changes_store (fun d => Some (cdivr (x d) (IZR n)))); [lia|reflexivity].
  - exists out'. split; [exact E|]. split; [rewrite (c_len _ _ _ _ C); exact VL|]. intros i Hi. apply (c_set _ _ _ _ C). exists i. split; [lia|reflexivity].
Qed.
Definition transform (inverse : bool) (n : Z) (x : Z -> cx) (k : Z) : cx := if inverse then idft n x k else dft n x k.
Lemma transform_value (inverse : bool) n x k :
  ((if (inverse : bool) then cdivr (csum n (fun j => cmul (x j) (root n (sgn inverse * j * k)))) (IZR n) else csum n (fun j => cmul (x j) (root n (sgn inverse * j * k)))) : cx) = transform inverse n x k.
Proof.
  unfold transform, idft, dft. destruct inverse; cbn [sgn]; [f_equal|]; apply csum_ext; intros; do 2 f_equal; ring.
Qed.
Lemma finish_ok inverse L x (out : buf cx) : 0 <= L <= 32 -> vector out (2 ^ L) (fun i => x (bit_reverse i L)) ->
  exists out', (do out <- stages (2 ^ L) inverse out; scaled (2 ^ L) inverse out) = ROk out' /\ vector out' (2 ^ L) (transform inverse (2 ^ L) x).
Proof.
  intros HL V. destruct (stages_ok inverse L x out HL V) as (o1 & E1 & V1). rewrite E1. cbn [rbind].
  destruct (scaled_ok (2 ^ L) inverse o1 _ ltac:(assert (P := pow2_pos L ltac:(lia)); lia) V1) as (o2 & E2 & V2). exists o2. split; [exact E2|].
  destruct V2 as [A B]. split; [exact A|]. intros k Hk. rewrite B by exact Hk. f_equal. apply transform_value.
Qed.
Theorem fft_radix2_ok (input : buf R) L inverse (out : buf cx) (x : Z -> R) : 0 <= L <= 32 -> vector input (2 ^ L) x -> b_len out = 2 ^ L ->
  exists out', fft_radix2 input (2 ^ L) inverse out = ROk out' /\ vector out' (2 ^ L) (transform inverse (2 ^ L) (fun j => real (x j))).
Proof.
  intros HL [IL IA] OL. unfold fft_radix2. rewrite Z.log2_pow2 by lia.
  destruct (changes_loop (fun d => Some (real (x (bit_reverse d L)))) (2 ^ L) (fun i d => i = d)
     (fun i (out : buf cx) => let reversed := bit_reverse i L in
      do v <- (if reversed <? b_len input then do x <- loadv input reversed; ROk (real x) else ROk c0);
      store out i (Some v)) out) as (o1 & E & C).
  - intros; congruence.
  - intros i b Hi LB OB. cbv zeta. assert (B := bit_reverse_bound i L HL). replace (bit_reverse i L <? b_len input) with true by lia.
    rewrite (loadv_at input _ (x (bit_reverse i L))) by (try lia; apply IA; exact B). cbn [rbind].
    apply (changes_store (fun d => Some (real (x (bit_reverse d L))))); [lia|reflexivity].
  - run E. apply (finish_ok inverse L (fun j => real (x j))); [exact HL|]. split; [rewrite (c_len _ _ _ _ C); exact OL|].
    intros i Hi. rewrite (c_set _ _ _ _ C) by (exists i; split; [lia|reflexivity]). reflexivity.
Qed.
Theorem fft_radix2_complex_ok L inverse (data : buf cx) (x : Z -> cx) : 0 <= L <= 32 -> vector data (2 ^ L) x ->
  exists out', fft_radix2_complex (2 ^ L) inverse data = ROk out' /\ vector out' (2 ^ L) (transform inverse (2 ^ L) x).
Proof.
  intros HL [DL DA]. unfold fft_radix2_complex. assert (P := pow2_pos L ltac:(lia)). replace (2 ^ L =? 0) with false by lia.
  rewrite Z.log2_pow2 by lia.
  destruct (zloop_inv (fun i (b : buf cx) => vector b (2 ^ L) (fun j => if (j <? i) || (bit_reverse j L <? i) then x (bit_reverse j L) else x j)) (2 ^ L)
     (fun i (data : buf cx) => let reversed := bit_reverse i L in
        if (reversed <? b_len data) && (i <? reversed) then
          do x <- loadv data i;
          do y <- loadv data reversed;
          do data <- store data i (Some y);
          store data reversed (Some x)
        else ROk data) data) as (o1 & E & V).
  - lia.
  - split; [exact DL|]. intros j Hj. assert (B := bit_reverse_bound j L HL). replace (j <? 0) with false by lia. replace (bit_reverse j L <? 0) with false by lia.
    apply DA; exact Hj.
  - intros i b Hi [VL VA]. cbv zeta. assert (B := bit_reverse_bound i L HL). set (r := bit_reverse i L) in *.
    assert (RR : bit_reverse r L = i) by (apply bit_reverse_involutive; [exact HL|exact Hi]).
    assert (INJ : forall j, 0 <= j < 2 ^ L -> bit_reverse j L = i -> j = r).
    { intros j Hj Ej. unfold r. rewrite <- Ej. symmetry. apply bit_reverse_involutive; [exact HL|exact Hj]. }
    rewrite VL. replace (r <? 2 ^ L) with true by lia. cbn [andb]. destruct (Z.ltb_spec i r) as [H|H].
    + rewrite (loadv_at b i (x i)).
      2: lia.
      2: { rewrite VA by exact Hi. fold r. replace (i <? i) with false by lia. replace (r <? i) with false by lia. reflexivity. }
      cbn [rbind]. rewrite (loadv_at b r (x r)).
      2: lia.
      2: { rewrite VA by exact B. rewrite RR. replace (r <? i) with false by lia. replace (i <? i) with false by lia. reflexivity. }
      cbn [rbind]. unfold store at 1. replace ((0 <=? i) && (i <? b_len b)) with true by lia. cbn [rbind]. unfold store. cbn [b_len].
      replace ((0 <=? r) && (r <? b_len b)) with true by lia. eexists. split; [reflexivity|]. split; [exact VL|]. intros j Hj. cbn [b_at].
      destruct (Z.eqb_spec j r) as [->|N1].
      * rewrite RR. replace (i <? i + 1) with true by lia. rewrite orb_true_r. reflexivity.
      * destruct (Z.eqb_spec j i) as [->|N2].
        -- replace (i <? i + 1) with true by lia. reflexivity.
        -- rewrite VA by exact Hj. assert (bit_reverse j L <> i) by (intro X; apply N1, INJ; assumption).
           replace (j <? i + 1) with (j <? i) by lia. replace (bit_reverse j L <? i + 1) with (bit_reverse j L <? i) by lia. reflexivity.
    + eexists. split; [reflexivity|]. split; [exact VL|]. intros j Hj. rewrite VA by exact Hj. f_equal.
      destruct (Z.eq_dec j i) as [->|N2].
      * fold r. destruct (Z.eq_dec r i) as [Eq|Nq].
        -- rewrite Eq. destruct ((i <? i) || (i <? i)), ((i <? i + 1) || (i <? i + 1)); reflexivity.
        -- replace (r <? i) with true by lia. replace (r <? i + 1) with true by lia. rewrite !orb_true_r. reflexivity.
      * destruct (Z.eq_dec (bit_reverse j L) i) as [Eq|Nq].
        -- apply INJ in Eq; [|exact Hj]. subst j. rewrite RR. replace (r <? i) with true by lia. replace (r <? i + 1) with true by lia. reflexivity.
        -- replace (j <? i + 1) with (j <? i) by lia. replace (bit_reverse j L <? i + 1) with (bit_reverse j L <? i) by lia. reflexivity.
  - run E. apply (finish_ok inverse L x); [exact HL|]. destruct V as [V1 V2]. split; [exact V1|].
    intros i Hi. rewrite V2 by exact Hi. replace (i <? 2 ^ L) with true by lia. reflexivity.
Qed.
