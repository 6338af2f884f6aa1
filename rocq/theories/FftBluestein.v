(** Bluestein's algorithm is the discrete Fourier transform, for every size. *)
From Coq Require Import Reals Lra.
From Verif Require Import Base DTypeModel ParamModel TensorModel TensorSpec TensorProofs OpsModel MatModel MatSpec MatProofs MatKernel FftModel FftSpec FftProofs FftBits FftRadix.
Local Open Scope Z_scope.

Add Ring cx_ring_inst3 : cx_ring.

(** The circular convolution theorem. *)
Lemma residue_class M a j : 0 < M -> 0 <= j < M -> (a - j) mod M = 0 -> j = a mod M.
Proof.
  intros HM Hj E. apply Z.mod_divide in E; [|lia]. destruct E as [q E]. replace a with (j + q * M) by lia.
  rewrite Z.mod_add by lia. symmetry. apply Z.mod_small, Hj.
Qed.
Lemma convolution M a b k : 0 < M ->
  idft M (fun m => cmul (dft M a m) (dft M b m)) k = csum M (fun i => cmul (a i) (b ((k - i) mod M))).
Proof.
  intro HM. unfold idft.
  transitivity (cdivr (csum M (fun m => csum M (fun i => cmul (a i) (csum M (fun j => cmul (b j) (root M (m * (k - i - j)))))))) (IZR M)).
  { f_equal. apply csum_ext. intros m Hm. unfold dft. rewrite <- !csum_scale_r. apply csum_ext. intros i Hi.
    transitivity (cmul (a i) (cmul (csum M (fun j => cmul (b j) (root M (- (j * m))))) (cmul (root M (- (i * m))) (root M (m * k))))); [ring|].
    f_equal. rewrite <- root_add, <- csum_scale_r. apply csum_ext. intros j Hj.
    transitivity (cmul (b j) (cmul (root M (- (j * m))) (root M (- (i * m) + m * k)))); [ring|]. rewrite <- root_add. do 2 f_equal. ring. }
  rewrite csum_swap.
  transitivity (cdivr (cmul (csum M (fun i => cmul (a i) (b ((k - i) mod M)))) (real (IZR M))) (IZR M)); [|apply cdivr_cancel; lia].
  f_equal. rewrite <- csum_scale_r. apply csum_ext. intros i Hi. rewrite csum_scale, csum_swap.
  transitivity (cmul (a i) (cmul (b ((k - i) mod M)) (real (IZR M)))); [|ring]. f_equal.
  assert (B := Z.mod_pos_bound (k - i) M HM).
  rewrite (csum_one _ M ((k - i) mod M) B).
  - rewrite csum_scale, root_orthogonal by exact HM.
    replace ((k - i - (k - i) mod M) mod M) with 0; [reflexivity|]. symmetry. apply Z.mod_divide; [lia|]. exists ((k - i) / M).
    assert (D := Z.div_mod (k - i) M ltac:(lia)). lia.
  - intros j Hj Nj. rewrite csum_scale, root_orthogonal by exact HM.
    destruct ((k - i - j) mod M =? 0) eqn:E; [|ring]. apply Z.eqb_eq in E. apply residue_class in E; lia.
Qed.

Definition dir (inverse : bool) : R := (if inverse then 1 else -1)%R.
Lemma chirp_root inverse n N : N <> 0 -> chirp (dir inverse) n N = root (2 * N) (sgn inverse * n * n).
Proof.
  intro H. unfold chirp, root. f_equal. rewrite !mult_IZR. replace (IZR (sgn inverse)) with (dir inverse) by (destruct inverse; reflexivity).
  field. apply not_0_IZR, H.
Qed.
Lemma chirp_root_neg inverse n N : N <> 0 -> chirp (- dir inverse) n N = root (2 * N) (- (sgn inverse * n * n)).
Proof.
  intro H. unfold chirp, root. f_equal. rewrite opp_IZR, !mult_IZR. replace (IZR (sgn inverse)) with (dir inverse) by (destruct inverse; reflexivity).
  field. apply not_0_IZR, H.
Qed.
Lemma bluestein_sum inverse N M (x bb : Z -> cx) k : 0 < N -> 2 * N - 1 <= M -> 0 <= k < N ->
  (forall j, 0 <= j < N -> bb j = root (2 * N) (- (sgn inverse * j * j))) ->
  (forall j, 0 < j < N -> bb (M - j) = root (2 * N) (- (sgn inverse * j * j))) ->
  cmul (csum M (fun i => cmul (if i <? N then cmul (x i) (root (2 * N) (sgn inverse * i * i)) else c0) (bb ((k - i) mod M)))) (root (2 * N) (sgn inverse * k * k))
  = csum N (fun j => cmul (x j) (root N (sgn inverse * j * k))).
Proof.
  intros HN HM Hk B1 B2. replace M with (N + (M - N)) at 1 by ring. rewrite csum_app by lia.
  rewrite (csum_zero _ (M - N)). 2: { intros i Hi. replace (N + i <? N) with false by lia. ring. }
  transitivity (cmul (csum N (fun i => cmul (if i <? N then cmul (x i) (root (2 * N) (sgn inverse * i * i)) else c0) (bb ((k - i) mod M)))) (root (2 * N) (sgn inverse * k * k))); [ring|].
  rewrite <- csum_scale_r. apply csum_ext. intros i Hi. replace (i <? N) with true by lia.
  assert (E : bb ((k - i) mod M) = root (2 * N) (- (sgn inverse * (k - i) * (k - i)))).
  { destruct (Z_le_gt_dec i k) as [H|H].
    - rewrite Z.mod_small by lia. apply B1. lia.
    - replace (k - i) with (M - (i - k) + (-1) * M) at 1 by ring. rewrite Z.mod_add by lia. rewrite Z.mod_small by lia. rewrite B2 by lia. f_equal. ring. }
  rewrite E.
  transitivity (cmul (x i) (cmul (cmul (root (2 * N) (sgn inverse * i * i)) (root (2 * N) (- (sgn inverse * (k - i) * (k - i))))) (root (2 * N) (sgn inverse * k * k)))); [ring|].
  f_equal. rewrite <- !root_add. rewrite <- (root_scale 2 N) by lia. f_equal. ring.
Qed.

Theorem fft_bluestein_ok (get : Z -> res cx) N inverse (x : Z -> cx) : 1 <= N <= 2 ^ 30 -> (forall i, 0 <= i < N -> get i = ROk (x i)) ->
  exists out, fft_bluestein get N N inverse = ROk out /\ vector out N (transform inverse N x).
Proof.
  intros HN HG. unfold fft_bluestein. replace (N =? 0) with false by lia.
  destruct (next_power_of_2_ok (2 * N - 1) ltac:(lia)) as (L & HL & EM & M1 & M2). rewrite EM. cbn [rbind]. cbv zeta. fold (dir inverse).
  assert (L32 : 0 <= L <= 32).
  { split; [exact HL|]. destruct (Z_le_gt_dec L 32) as [l|g]; [exact l|]. exfalso. specialize (M2 ltac:(lia)).
    assert (2 ^ 32 <= 2 ^ (L - 1)) by (apply Z.pow_le_mono_r; lia). change (2 ^ 32) with (4 * 2 ^ 30) in *. lia. }
  set (M := 2 ^ L) in *.
  (* a *)
  set (fa := fun i => if i <? N then cmul (x i) (root (2 * N) (sgn inverse * i * i)) else c0).
  destruct (changes_loop (fun d => Some (fa d)) N (fun i d => i = d)
    (fun n (a : buf cx) => if n <? N then do x <- get n; store a n (Some (cmul x (chirp (dir inverse) n N))) else ROk a)
    (mkBuf M (fun _ => Some c0))) as (a & Ea & Ca).
  { intros; congruence. }
  { intros i b Hi LB OB. replace (i <? N) with true by lia. rewrite (HG i Hi). cbn [rbind]. cbn [b_len] in LB.
    apply (changes_store (fun d => Some (fa d))); [lia|]. unfold fa. replace (i <? N) with true by lia. rewrite chirp_root by lia. reflexivity. }
  run Ea.
  assert (Va : vector a (2 ^ L) fa).
  { split; [rewrite (c_len _ _ _ _ Ca); reflexivity|]. intros i Hi. destruct (Z_lt_le_dec i N) as [l|l].
    - apply (c_set _ _ _ _ Ca). exists i. split; [lia|reflexivity].
    - rewrite (c_other _ _ _ _ Ca) by (intros (j & Hj & ->); lia). cbn [b_at]. unfold fa. replace (i <? N) with false by lia. reflexivity. }
  clear Ea Ca.
  (* b *)
  set (ch := fun i => root (2 * N) (- (sgn inverse * i * i))).
  destruct (changes_loop (fun d => Some (ch d)) N (fun i d => i = d)
    (fun n (b : buf cx) => store b n (Some (chirp (- dir inverse) n N))) (mkBuf M (fun _ => Some c0))) as (b & Eb & Cb).
  { intros; congruence. }
  { intros i b Hi LB OB. cbn [b_len] in LB. apply (changes_store (fun d => Some (ch d))); [lia|]. unfold ch. rewrite chirp_root_neg by lia. reflexivity. }
  run Eb.
  assert (Vb : vector b M (fun d => if d <? N then ch d else c0)).
  { split; [rewrite (c_len _ _ _ _ Cb); reflexivity|]. intros i Hi. destruct (Z_lt_le_dec i N) as [l|l].
    - replace (i <? N) with true by lia. apply (c_set _ _ _ _ Cb). exists i. split; [lia|reflexivity].
    - replace (i <? N) with false by lia. rewrite (c_other _ _ _ _ Cb) by (intros (j & Hj & ->); lia). reflexivity. }
  clear Eb Cb.
  destruct (zloop_inv (fun i (b : buf cx) => vector b M (fun d => if d <? N then ch d else if M - i <=? d then ch (M - d) else c0)) (N - 1)
    (fun i (b : buf cx) => do x <- loadv b (i + 1); store b (M - (i + 1)) (Some x)) b) as (b2 & Eb2 & Vb2).
  { lia. }
  { destruct Vb as [V1 V2]. split; [exact V1|]. intros d Hd. rewrite V2 by exact Hd. replace (M - 0 <=? d) with false by lia. reflexivity. }
  { intros i b1 Hi [V1 V2]. rewrite (loadv_at b1 (i + 1) (ch (i + 1))).
    2: lia.
    2: { rewrite V2 by lia. replace (i + 1 <? N) with true by lia. reflexivity. }
    cbn [rbind]. unfold store. replace ((0 <=? M - (i + 1)) && (M - (i + 1) <? b_len b1)) with true by lia.
    eexists. split; [reflexivity|]. split; [exact V1|]. intros d Hd. cbn [b_at].
    destruct (Z.eqb_spec d (M - (i + 1))) as [->|Nd].
    - replace (M - (i + 1) <? N) with false by lia. replace (M - (i + 1) <=? M - (i + 1)) with true by lia. do 2 f_equal. lia.
    - rewrite V2 by exact Hd. replace (M - i <=? d) with (M - (i + 1) <=? d) by lia. reflexivity. }
  run Eb2. clear Eb2 Vb b. set (bb := fun d => if d <? N then ch d else if M - (N - 1) <=? d then ch (M - d) else c0) in Vb2.
  destruct (fft_radix2_complex_ok L false a fa L32 Va) as (ta & Eta & Vta). fold M in Eta, Vta. run Eta.
  destruct (fft_radix2_complex_ok L false b2 bb L32 Vb2) as (tb & Etb & Vtb). fold M in Etb, Vtb. run Etb.
  destruct Vta as [TA1 TA2]. destruct Vtb as [TB1 TB2]. cbn [transform] in TA2, TB2.
  destruct (changes_loop (fun d => Some (cmul (dft M fa d) (dft M bb d))) M (fun i d => i = d)
    (fun i (a : buf cx) => do x <- loadv a i; do y <- loadv tb i; store a i (Some (cmul x y))) ta) as (p & Ep & Cp).
  { intros; congruence. }
  { intros i b Hi LB OB. rewrite (loadv_at b i (dft M fa i)) by (try lia; rewrite OB by reflexivity; apply TA2; exact Hi). cbn [rbind].
    rewrite (loadv_at tb i (dft M bb i)) by (try lia; apply TB2; exact Hi). cbn [rbind].
    apply (changes_store (fun d => Some (cmul (dft M fa d) (dft M bb d)))); [lia|reflexivity]. }
  run Ep.
  assert (Vp : vector p (2 ^ L) (fun d => cmul (dft M fa d) (dft M bb d))).
  { split; [rewrite (c_len _ _ _ _ Cp); exact TA1|]. intros i Hi. apply (c_set _ _ _ _ Cp). exists i. split; [exact Hi|reflexivity]. }
  destruct (fft_radix2_complex_ok L true p _ L32 Vp) as (q & Eq & Vq). fold M in Eq, Vq. run Eq. destruct Vq as [Q1 Q2].
  destruct (changes_loop (fun d => Some (csum N (fun j => cmul (x j) (root N (sgn inverse * j * d))))) N (fun i d => i = d)
    (fun n (out : buf cx) => do x <- loadv q n; store out n (Some (cmul x (chirp (dir inverse) n N)))) (mkBuf N (fun _ => Some c0))) as (o & Eo & Co).
  { intros; congruence. }
  { intros i b Hi LB OB. cbn [b_len] in LB. erewrite loadv_at; [|lia|apply Q2; lia]. cbn [rbind].
    apply (changes_store (fun d => Some (csum N (fun j => cmul (x j) (root N (sgn inverse * j * d)))))); [lia|].
    f_equal. unfold transform. rewrite convolution by lia. rewrite chirp_root by lia. unfold fa.
    apply (bluestein_sum inverse N M x bb i).
    - lia.
    - lia.
    - exact Hi.
    - intros j Hj. unfold bb. replace (j <? N) with true by lia. reflexivity.
    - intros j Hj. unfold bb. replace (M - j <? N) with false by lia. replace (M - (N - 1) <=? M - j) with true by lia.
      unfold ch. f_equal. replace (M - (M - j)) with j by ring. reflexivity. }
  run Eo.
  assert (Vo : vector o N (fun d => csum N (fun j => cmul (x j) (root N (sgn inverse * j * d))))).
  { split; [rewrite (c_len _ _ _ _ Co); reflexivity|]. intros i Hi. apply (c_set _ _ _ _ Co). exists i. split; [exact Hi|reflexivity]. }
  destruct (scaled_ok N inverse o _ ltac:(lia) Vo) as (r & Er & V1 & V2). exists r. split; [exact Er|]. split; [exact V1|].
  intros k Hk. rewrite V2 by exact Hk. f_equal. apply transform_value.
Qed.

(** The transforms the operators call. *)
Theorem forward_fft_ok (input : buf R) n (out : buf cx) (x : Z -> R) : 1 <= n <= 2 ^ 30 -> vector input n x -> b_len out = n ->
  exists out', forward_fft input n out = ROk out' /\ vector out' n (dft n (fun j => real (x j))).
Proof.
  intros Hn V HO. unfold forward_fft. destruct (is_power_of_2 n) eqn:E.
  - apply is_power_of_2_spec in E. destruct E as (L & HL & ->).
    apply (fft_radix2_ok input L false out x); [|exact V|exact HO]. split; [exact HL|].
    destruct (Z_le_gt_dec L 32) as [l|g]; [exact l|]. exfalso. assert (2 ^ 32 <= 2 ^ L) by (apply Z.pow_le_mono_r; lia). change (2 ^ 32) with (4 * 2 ^ 30) in *. lia.
  - destruct V as [V1 V2]. rewrite V1. apply (fft_bluestein_ok _ n false (fun j => real (x j)) Hn). intros i Hi. rewrite (loadv_at input i (x i)) by (try lia; apply V2; exact Hi). reflexivity.
Qed.
Theorem inverse_fft_ok n (data : buf cx) (x : Z -> cx) : 1 <= n <= 2 ^ 30 -> vector data n x ->
  exists out', inverse_fft n data = ROk out' /\ vector out' n (idft n x).
Proof.
  intros Hn V. unfold inverse_fft. destruct (is_power_of_2 n) eqn:E.
  - apply is_power_of_2_spec in E. destruct E as (L & HL & ->).
    apply (fft_radix2_complex_ok L true data x); [|exact V]. split; [exact HL|].
    destruct (Z_le_gt_dec L 32) as [l|g]; [exact l|]. exfalso. assert (2 ^ 32 <= 2 ^ L) by (apply Z.pow_le_mono_r; lia). change (2 ^ 32) with (4 * 2 ^ 30) in *. lia.
  - destruct V as [V1 V2]. rewrite V1. apply (fft_bluestein_ok _ n true x Hn). intros i Hi. apply loadv_at; [lia|]. apply V2; exact Hi.
Qed.
