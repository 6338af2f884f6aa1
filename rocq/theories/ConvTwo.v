(** Proofs about convolutions, part 4: Conv2D. *)
From Verif Require Import Base DTypeModel ParamModel ParamSpec ParamProofs TensorModel TensorSpec TensorProofs TensorSplit
  OpsModel OpsSpec OpsProofs OpsIndex OpsSum MatModel MatSpec MatProofs MatKernel MatBlas MatOps ConvModel ConvSpec ConvProofs ConvOne.
Local Open Scope Z_scope.

Lemma in_shape4 a b c d x y z u : 0 <= x < a -> 0 <= y < b -> 0 <= z < c -> 0 <= u < d -> in_shape [a; b; c; d] [x; y; z; u].
Proof. intros. repeat constructor; lia. Qed.
Lemma in_shape4_inv a b c d idx : in_shape [a; b; c; d] idx -> exists x y z u, idx = [x; y; z; u] /\ 0 <= x < a /\ 0 <= y < b /\ 0 <= z < c /\ 0 <= u < d.
Proof.
  intro H. destruct idx as [|x [|y [|z [|u [|? ?]]]]]; repeat (apply in_shape_cons in H as [? H]); try solve [inversion H].
  exists x, y, z, u. repeat split; auto; lia.
Qed.
Lemma holds_at4 {A} (t : tns A) a b c d F x y z u : holds t [a; b; c; d] F -> 0 <= x < a -> 0 <= y < b -> 0 <= z < c -> 0 <= u < d ->
  forall p, p = x_offset t + (x * (b * (c * d)) + (y * (c * d) + (z * d + u))) -> loadv (x_buf t) p = ROk (F [x; y; z; u]).
Proof.
  intros H H1 H2 H3 H4 p ->. rewrite <- (holds_at t _ F [x; y; z; u] H) by (apply in_shape4; auto).
  cbn [ravel]. rewrite !product_cons, product_nil. f_equal. ring.
Qed.

(* ---------------- sums over a product of ranges ---------------- *)
Lemma total_psum {A} (zero : A) add (M0 : comm_monoid zero add) n f : total zero add n f = psum zero add f (Z.to_nat n).
Proof. unfold total. rewrite (psum_range zero add M0). reflexivity. Qed.
Lemma total_mul {A} (zero : A) add (M0 : comm_monoid zero add) a b f : 0 <= a -> 0 <= b ->
  total zero add (a * b) f = total zero add a (fun i => total zero add b (fun j => f (i * b + j))).
Proof.
  intros Ha Hb. rewrite (total_psum zero add M0 a). rewrite <- (Z2Nat.id a) at 1 by lia. induction (Z.to_nat a) as [|m IH]; [reflexivity|].
  cbn [psum]. rewrite <- IH. replace (Z.of_nat (S m) * b) with (Z.of_nat m * b + b) by lia.
  rewrite !(total_psum zero add M0), (psum_add zero add M0) by nia. reflexivity.
Qed.

(** Decoding a position (c, y, x). *)
Lemma decode3 H W c y x : 0 <= y < H -> 0 <= x < W -> 0 <= c ->
  let k := c * (H * W) + (y * W + x) in k / (H * W) = c /\ k mod (H * W) / W = y /\ k mod W = x.
Proof.
  intros Hy Hx Hc. cbv zeta. assert (R : 0 <= y * W + x < H * W) by nia.
  split; [symmetry; apply (Z.div_unique _ _ c (y * W + x)); lia|]. split.
  - replace ((c * (H * W) + (y * W + x)) mod (H * W)) with (y * W + x) by (apply (Z.mod_unique _ _ c); lia).
    symmetry. apply (Z.div_unique _ _ y x); lia.
  - symmetry. apply (Z.mod_unique _ _ (c * H + y)); [lia|ring].
Qed.
Lemma encode3 C H W k : 0 <= k < C * (H * W) -> 0 <= H -> 0 <= W ->
  0 <= k / (H * W) < C /\ 0 <= k mod (H * W) / W < H /\ 0 <= k mod W < W /\ k = k / (H * W) * (H * W) + (k mod (H * W) / W * W + k mod W).
Proof.
  intros Hk HH HW. assert (H <> 0) by (intros ->; rewrite Z.mul_0_l, Z.mul_0_r in Hk; lia).
  assert (W <> 0) by (intros ->; rewrite !Z.mul_0_r in Hk; lia).
  destruct (split3 C H W k ltac:(lia) ltac:(lia) ltac:(lia)) as (A1 & A2 & A3 & A4). cbv zeta in *. repeat split; try lia.
Qed.

(** A loop that writes a growing prefix. *)
Lemma adv_loop {A} (G : Z -> option A) n step (body : Z -> Z * buf A -> res (Z * buf A)) p0 (b : buf A) L :
  0 <= n -> b_len b = L ->
  (forall i b1, 0 <= i < n -> b_len b1 = L -> exists b2, body i (p0 + i * step, b1) = ROk (p0 + (i + 1) * step, b2) /\ good G (segment (p0 + i * step) step) b1 b2) ->
  exists b', zloop n body (p0, b) = ROk (p0 + n * step, b') /\ good G (segment p0 (n * step)) b b'.
Proof.
  intros Hn HL Hb.
  destruct (zloop_inv (fun i st => exists b', st = (p0 + i * step, b') /\ good G (segment p0 (i * step)) b b') n body (p0, b) Hn) as (st & E & b' & -> & HG).
  - exists b. split; [f_equal; lia|]. eapply good_weaken; [|apply good_refl]. unfold segment. intros; lia.
  - intros i st Hi (b1 & -> & H1). destruct (Hb i b1 Hi) as (b2 & E2 & G2); [rewrite (g_len _ _ _ _ H1); auto|].
    eexists. split; [exact E2|]. exists b2. split; [reflexivity|]. eapply good_weaken; [|eapply good_trans; [exact H1|exact G2]].
    unfold segment. intros d Hd. lia.
  - exists b'. split; auto.
Qed.

Section Conv2d.
Context {A : Type}.
Variable zero : A.
Variable add : A -> A -> A.
Variable mul : A -> A -> A.

Lemma im2col_weight_ok opt (weight : tns A) FW (dst : buf A) :
  let IC := c2_in opt in let OC := c2_out opt in let KH := c2_kh opt in let KW := c2_kw opt in
  0 <= IC -> 0 <= KH -> 0 <= KW -> 0 <= OC ->
  holds weight [OC; IC; KH; KW] FW -> b_len dst = OC * (IC * KH * KW) ->
  exists dst', im2col_weight OC IC KH KW (x_buf weight) (x_offset weight) dst = ROk dst' /\ b_len dst' = b_len dst /\
    forall m k, 0 <= m < OC -> 0 <= k < IC * KH * KW -> loadv dst' (m * (IC * KH * KW) + k) = ROk (FW [m; k / (KH * KW); k mod (KH * KW) / KW; k mod KW]).
Proof.
  clear zero add mul. cbv zeta. intros PI PH PW PO HW Hl.
  set (IC := c2_in opt) in *. set (OC := c2_out opt) in *. set (KH := c2_kh opt) in *. set (KW := c2_kw opt) in *.
  set (K := IC * KH * KW) in *.
  set (G := fun d => Some (FW [d / K; d mod K / (KH * KW); d mod K mod (KH * KW) / KW; d mod K mod KW])).
  unfold im2col_weight.
  match goal with |- exists dst', zloop OC ?bd dst = _ /\ _ =>
    destruct (good_loop G OC (fun o d => exists i, 0 <= i < IC /\ exists y, 0 <= y < KH /\ exists x, 0 <= x < KW /\ d = o * K + i * (KH * KW) + y * KW + x) bd dst (b_len dst) eq_refl) as (dst' & E & HG) end.
  { intros o d1 Ho L1.
    apply (good_loop G IC (fun i d => exists y, 0 <= y < KH /\ exists x, 0 <= x < KW /\ d = o * K + i * (KH * KW) + y * KW + x) _ d1 (b_len dst) L1). intros i d2 Hi L2.
    apply (good_loop G KH (fun y d => exists x, 0 <= x < KW /\ d = o * K + i * (KH * KW) + y * KW + x) _ d2 (b_len dst) L2). intros y d3 Hy L3.
    apply (good_loop G KW (fun x d => d = o * K + i * (KH * KW) + y * KW + x) _ d3 (b_len dst) L3). intros x d4 Hx L4. cbv zeta.
    set (idx := o * (IC * KH * KW) + i * (KH * KW) + y * KW + x). fold K in idx.
    assert (Rk1 : 0 <= y * KW + x < KH * KW) by (clear - Hy Hx; nia).
    assert (Rk : 0 <= i * (KH * KW) + (y * KW + x) < K) by (unfold K; clear - Rk1 Hi; nia).
    assert (LD : loadv (x_buf weight) (x_offset weight + idx) = ROk (FW [o; i; y; x])).
    { apply (holds_at4 weight _ _ _ _ FW _ _ _ _ HW Ho Hi Hy Hx). unfold idx, K. ring. }
    assert (Gi : G idx = Some (FW [o; i; y; x])).
    { unfold G. replace (idx / K) with o by (apply (Z.div_unique idx K o (i * (KH * KW) + (y * KW + x))); unfold idx; lia).
      replace (idx mod K) with (i * (KH * KW) + (y * KW + x)) by (apply (Z.mod_unique idx K o); unfold idx; lia).
      destruct (decode3 KH KW i y x Hy Hx (proj1 Hi)) as (D1 & D2 & D3). rewrite D1, D2, D3. reflexivity. }
    unfold copy1. unfold loadv in LD. destruct (load (x_buf weight) (x_offset weight + idx)) as [v| | |]; cbn [rbind] in LD |- *; try discriminate.
    destruct v as [v|]; cbn [need] in LD; [|discriminate]. injection LD as ->.
    destruct (good_store G d4 idx (Some (FW [o; i; y; x]))) as (d5 & E5 & G5); [|symmetry; exact Gi|].
    { rewrite L4, Hl. replace idx with (o * K + (i * (KH * KW) + (y * KW + x))) by (unfold idx; ring). clear - Ho Rk. nia. }
    exists d5. split; [exact E5|]. eapply good_weaken; [|exact G5]. cbn beta. intros d ->. reflexivity. }
  exists dst'. split; [exact E|]. split; [apply (g_len _ _ _ _ HG)|].
  intros m k Hm Hk. assert (HK' : 0 <= k < IC * (KH * KW)) by (unfold K in Hk; lia).
  destruct (encode3 IC KH KW k HK' PH PW) as (E1 & E2 & E3 & E4).
  apply loadv_at.
  - rewrite (g_len _ _ _ _ HG), Hl. fold K. nia.
  - rewrite (g_set _ _ _ _ HG).
    + unfold G. replace ((m * K + k) / K) with m by (apply (Z.div_unique _ K m k); lia).
      replace ((m * K + k) mod K) with k by (apply (Z.mod_unique _ K m); lia). reflexivity.
    + exists m. split; [exact Hm|]. exists (k / (KH * KW)). split; [exact E1|]. exists (k mod (KH * KW) / KW). split; [exact E2|]. exists (k mod KW). split; [exact E3|]. lia.
Qed.

Lemma im2col_input_ok opt H W OH OW (X : Z -> Z -> Z -> A) (x : buf A) xo (col : buf A) :
  let IC := c2_in opt in let KH := c2_kh opt in let KW := c2_kw opt in
  0 <= IC -> 0 <= KH -> 0 <= KW -> 1 <= OH -> 1 <= OW ->
  out_extent H KH (c2_sh opt) (c2_ph opt) (c2_dh opt) = ROk OH -> out_extent W KW (c2_sw opt) (c2_pw opt) (c2_dw opt) = ROk OW ->
  (forall c y i, 0 <= c < IC -> 0 <= y < H -> 0 <= i < W -> loadv x (xo + c * (H * W) + (y * W + i)) = ROk (X c y i)) ->
  b_len col = IC * KH * KW * (OH * OW) ->
  exists col', im2col_input zero opt IC H W x xo col = ROk col' /\ b_len col' = b_len col /\
    forall k n, 0 <= k < IC * KH * KW -> 0 <= n < OH * OW -> loadv col' (k * (OH * OW) + n) =
      ROk (zero_padded zero H (fun y => zero_padded zero W (fun i => X (k / (KH * KW)) y i)
             (tap (c2_sw opt) (c2_pw opt) (c2_dw opt) (n mod OW) (k mod KW)))
           (tap (c2_sh opt) (c2_ph opt) (c2_dh opt) (n / OW) (k mod (KH * KW) / KW))).
Proof.
  clear add mul. cbv zeta. intros PI PH PW POH POW EH EW HX Hl.
  set (IC := c2_in opt) in *. set (KH := c2_kh opt) in *. set (KW := c2_kw opt) in *.
  set (val := fun c ky kx oy ox => zero_padded zero H (fun y => zero_padded zero W (fun i => X c y i)
             (tap (c2_sw opt) (c2_pw opt) (c2_dw opt) ox kx)) (tap (c2_sh opt) (c2_ph opt) (c2_dh opt) oy ky)).
  set (N := OH * OW) in *. assert (PN : 1 <= N) by (unfold N; nia).
  set (G := fun d => Some (val (d / N / (KH * KW)) (d / N mod (KH * KW) / KW) (d / N mod KW) (d mod N / OW) (d mod N mod OW))).
  unfold im2col_input.
  assert (INJ : forall a b : Z, ROk a = ROk b -> a = b) by congruence.
  unfold out_extent in EH, EW. destruct (c2_sh opt =? 0); [discriminate|]. destruct (c2_sw opt =? 0); [discriminate|]. apply INJ in EH. apply INJ in EW. clear INJ.
  fold KH KW.
  replace (Z.quot (H + 2 * c2_ph opt - (c2_dh opt * (KH - 1) + 1)) (c2_sh opt) + 1) with OH by (rewrite <- EH at 1; f_equal; f_equal; ring).
  replace (Z.quot (W + 2 * c2_pw opt - (c2_dw opt * (KW - 1) + 1)) (c2_sw opt) + 1) with OW by (rewrite <- EW at 1; f_equal; f_equal; ring).
  clear EH EW.
  assert (TOT : b_len col = IC * (KH * (KW * (OH * OW)))) by (rewrite Hl; unfold N; ring).
  match goal with |- context [rbind (zloop IC ?bd (0, col))] =>
    destruct (adv_loop G IC (KH * (KW * (OH * OW))) bd 0 col (b_len col) PI eq_refl) as (col' & E & HG) end.
  { intros c b1 Hc L1. replace (0 + (c + 1) * (KH * (KW * (OH * OW)))) with (0 + c * (KH * (KW * (OH * OW))) + KH * (KW * (OH * OW))) by ring.
    apply (adv_loop G KH (KW * (OH * OW)) _ (0 + c * (KH * (KW * (OH * OW)))) b1 (b_len col) PH L1).
    intros ky b2 Hky L2. replace (0 + c * (KH * (KW * (OH * OW))) + (ky + 1) * (KW * (OH * OW))) with (0 + c * (KH * (KW * (OH * OW))) + ky * (KW * (OH * OW)) + KW * (OH * OW)) by ring.
    apply (adv_loop G KW (OH * OW) _ (0 + c * (KH * (KW * (OH * OW))) + ky * (KW * (OH * OW))) b2 (b_len col) PW L2).
    intros kx b3 Hkx L3. cbv zeta.
    replace (0 + c * (KH * (KW * (OH * OW))) + ky * (KW * (OH * OW)) + (kx + 1) * (OH * OW)) with (0 + c * (KH * (KW * (OH * OW))) + ky * (KW * (OH * OW)) + kx * (OH * OW) + OH * OW) by ring.
    apply (adv_loop G OH OW _ (0 + c * (KH * (KW * (OH * OW))) + ky * (KW * (OH * OW)) + kx * (OH * OW)) b3 (b_len col) ltac:(lia) L3).
    intros oy b4 Hoy L4. unfold im2col_row. rewrite vec_for_eq by lia.
    set (p := 0 + c * (KH * (KW * (OH * OW))) + ky * (KW * (OH * OW)) + kx * (OH * OW) + oy * OW).
    replace (0 + c * (KH * (KW * (OH * OW))) + ky * (KW * (OH * OW)) + kx * (OH * OW) + (oy + 1) * OW) with (p + OW * 1) by (unfold p; ring).
    match goal with |- exists b2, zloop OW ?bd (p, b4) = _ /\ _ =>
      assert (RW : exists b', zloop OW bd (p, b4) = ROk (p + OW * 1, b') /\ good G (segment p (OW * 1)) b4 b') end.
    2:{ destruct RW as (b' & Eb & Gb). exists b'. split; [exact Eb|]. eapply good_weaken; [|exact Gb]. unfold segment. intros; lia. }
    apply (adv_loop G OW 1 _ p b4 (b_len col) ltac:(lia) L4).
    intros ox b5 Hox L5. cbn [fst snd].
    assert (Rn : 0 <= oy * OW + ox < N) by (unfold N; nia).
    set (k := c * (KH * KW) + (ky * KW + kx)).
    assert (Rk1 : 0 <= ky * KW + kx < KH * KW) by nia.
    assert (Rk : 0 <= k < IC * (KH * KW)) by (unfold k; nia).
    assert (Ep : p + ox * 1 = k * N + (oy * OW + ox)) by (unfold p, k, N; ring).
    rewrite Ep. assert (Gp : G (k * N + (oy * OW + ox)) = Some (val c ky kx oy ox)).
    { unfold G. replace ((k * N + (oy * OW + ox)) / N) with k by (apply (Z.div_unique _ N k (oy * OW + ox)); lia).
      replace ((k * N + (oy * OW + ox)) mod N) with (oy * OW + ox) by (apply (Z.mod_unique _ N k); lia).
      replace ((oy * OW + ox) / OW) with oy by (apply (Z.div_unique _ OW oy ox); lia).
      replace ((oy * OW + ox) mod OW) with ox by (apply (Z.mod_unique _ OW oy); lia).
      destruct (decode3 KH KW c ky kx Hky Hkx (proj1 Hc)) as (D1 & D2 & D3). unfold k. rewrite D1, D2, D3. reflexivity. }
    assert (VE : (if (0 <=? - c2_ph opt + ky * c2_dh opt + oy * c2_sh opt) && (- c2_ph opt + ky * c2_dh opt + oy * c2_sh opt <? H)
                  then if (0 <=? - c2_pw opt + kx * c2_dw opt + ox * c2_sw opt) && (- c2_pw opt + kx * c2_dw opt + ox * c2_sw opt <? W)
                       then load x (xo + c * (H * W) + ((- c2_ph opt + ky * c2_dh opt + oy * c2_sh opt) * W + (- c2_pw opt + kx * c2_dw opt + ox * c2_sw opt)))
                       else ROk (Some zero)
                  else ROk (Some zero)) = ROk (Some (val c ky kx oy ox))).
    { unfold val, zero_padded, inside.
      replace (tap (c2_sh opt) (c2_ph opt) (c2_dh opt) oy ky) with (- c2_ph opt + ky * c2_dh opt + oy * c2_sh opt) by (unfold tap; ring).
      replace (tap (c2_sw opt) (c2_pw opt) (c2_dw opt) ox kx) with (- c2_pw opt + kx * c2_dw opt + ox * c2_sw opt) by (unfold tap; ring).
      generalize (- c2_ph opt + ky * c2_dh opt + oy * c2_sh opt) as cy. generalize (- c2_pw opt + kx * c2_dw opt + ox * c2_sw opt) as cx. intros cx cy.
      destruct ((0 <=? cy) && (cy <? H)) eqn:Q1; [|reflexivity]. destruct ((0 <=? cx) && (cx <? W)) eqn:Q2; [|reflexivity].
      apply andb_prop in Q1 as [Q1 Q3]. apply andb_prop in Q2 as [Q2 Q4].
      assert (LD := HX c cy cx Hc (conj (proj1 (Z.leb_le _ _) Q1) (proj1 (Z.ltb_lt _ _) Q3)) (conj (proj1 (Z.leb_le _ _) Q2) (proj1 (Z.ltb_lt _ _) Q4))).
      unfold loadv in LD. destruct (load x (xo + c * (H * W) + (cy * W + cx))) as [[v|]| | |]; cbn [rbind need] in LD; congruence. }
    rewrite VE. cbn [rbind].
    destruct (good_store G b5 (k * N + (oy * OW + ox)) (Some (val c ky kx oy ox))) as (b6 & E6 & G6); [|symmetry; exact Gp|].
    { rewrite L5, Hl. replace (IC * KH * KW) with (IC * (KH * KW)) by ring. nia. }
    rewrite E6. cbn [rbind]. exists b6. split; [f_equal; f_equal; rewrite <- Ep; ring|]. eapply good_weaken; [|exact G6]. unfold segment. intros; lia. }
  rewrite E. cbn [rbind snd]. exists col'. split; [reflexivity|]. split; [apply (g_len _ _ _ _ HG)|].
  intros k n Hk Hn. assert (R : 0 <= k * N + n < IC * KH * KW * N) by nia. apply loadv_at.
  - rewrite (g_len _ _ _ _ HG), Hl. exact R.
  - rewrite (g_set _ _ _ _ HG) by (unfold segment; unfold N in *; lia). unfold G, val.
    replace ((k * N + n) / N) with k by (apply (Z.div_unique _ N k n); lia).
    replace ((k * N + n) mod N) with n by (apply (Z.mod_unique _ N k); lia). reflexivity.
Qed.

Hypothesis M0 : comm_monoid zero add.
Hypothesis MC : forall a b, mul a b = mul b a.

Lemma conv2d_sum opt H W (X : list Z -> A) (FW : list Z -> A) b m oy ox :
  let IC := c2_in opt in let KH := c2_kh opt in let KW := c2_kw opt in
  0 <= IC -> 0 <= KH -> 0 <= KW ->
  psum zero add (fun k => mul (FW [m; k / (KH * KW); k mod (KH * KW) / KW; k mod KW])
     (zero_padded zero H (fun y => zero_padded zero W (fun i => X [b; k / (KH * KW); y; i])
             (tap (c2_sw opt) (c2_pw opt) (c2_dw opt) ox (k mod KW)))
           (tap (c2_sh opt) (c2_ph opt) (c2_dh opt) oy (k mod (KH * KW) / KW)))) (Z.to_nat (IC * KH * KW))
  = conv2d_value zero add mul opt H W X FW b m oy ox.
Proof using M0 MC.
  cbv zeta. intros PI PH PW. rewrite <- (total_psum zero add M0). unfold conv2d_value.
  replace (c2_in opt * c2_kh opt * c2_kw opt) with (c2_in opt * (c2_kh opt * c2_kw opt)) by ring.
  rewrite (total_mul zero add M0) by nia. apply total_ext. intros c Hc.
  rewrite (total_mul zero add M0) by nia. apply total_ext. intros ky Hky. apply total_ext. intros kx Hkx.
  destruct (decode3 (c2_kh opt) (c2_kw opt) c ky kx Hky Hkx (proj1 Hc)) as (D1 & D2 & D3). rewrite D1, D2, D3. apply MC.
Qed.

Lemma conv2d_correct opt threads (x weight : tns A) bias B H W OH OW FX FW fb :
  1 <= threads -> 1 <= c2_in opt -> 1 <= c2_kh opt -> 1 <= c2_kw opt -> 1 <= c2_sh opt -> 1 <= c2_sw opt ->
  window_fits H (c2_kh opt) (c2_sh opt) (c2_ph opt) (c2_dh opt) 0 -> window_fits W (c2_kw opt) (c2_sw opt) (c2_pw opt) (c2_dw opt) 0 ->
  (forall o, 0 <= o < OH <-> window_fits H (c2_kh opt) (c2_sh opt) (c2_ph opt) (c2_dh opt) o) ->
  (forall o, 0 <= o < OW <-> window_fits W (c2_kw opt) (c2_sw opt) (c2_pw opt) (c2_dw opt) o) ->
  holds x [B; c2_in opt; H; W] FX -> holds weight [c2_out opt; c2_in opt; c2_kh opt; c2_kw opt] FW -> bias_holds bias fb (c2_out opt) ->
  exists out, conv2d_op zero add mul Neon threads opt weight bias x = ROk out /\
    produces [B; c2_out opt; OH; OW] (fun idx => match idx with
      | [b; m; oy; ox] => Some (with_bias add fb m (conv2d_value zero add mul opt H W FX FW b m oy ox))
      | _ => None end) out.
Proof using M0 MC.
  intros HT PI PH PW Hsh Hsw F0H F0W FH FWd HX HW HB.
  destruct (out_extent_ok _ _ _ _ _ OH Hsh F0H FH) as [EH POH]. destruct (out_extent_ok _ _ _ _ _ OW Hsw F0W FWd) as [EW POW]. clear F0H F0W FH FWd.
  assert (SX := h_shape _ _ _ HX). assert (PX := holds_pos _ _ _ HX). assert (PWt := holds_pos _ _ _ HW).
  assert (PB : 0 <= B) by (inversion PX; auto). assert (PC : 0 <= c2_out opt) by (inversion PWt; auto). clear PX PWt.
  assert (PKH : 0 <= c2_kh opt) by (clear - PH; lia). assert (PKW : 0 <= c2_kw opt) by (clear - PW; lia). assert (PIC : 0 <= c2_in opt) by (clear - PI; lia).
  unfold conv2d_op, conv2d_load. rewrite fresh_ok by (cbn [length]; lia). cbn [rbind x_buf x_view].
  set (K := c2_in opt * c2_kh opt * c2_kw opt).
  assert (PK : 1 <= K) by (unfold K; clear - PI PH PW; nia).
  destruct (im2col_weight_ok opt weight FW (mkBuf (product [c2_out opt; K]) (fun _ => None)) PIC PKH PKW PC HW) as (wb & EWt & LWt & HWt).
  { cbn [b_len]. rewrite !product_cons, product_nil. fold K. ring. }
  rewrite EWt. cbn [rbind]. clear EWt.
  unfold conv2d_forward. rewrite SX. cbn [conv2d_reshape]. rewrite Z.eqb_refl. cbn [negb]. rewrite EH. cbn [rbind]. rewrite EW. cbn [rbind].
  rewrite fresh_ok by (cbn [length]; lia). cbn [rbind x_buf x_view]. fold K.
  rewrite fresh_ok by (cbn [length]; lia). cbn [rbind x_buf x_view].
  set (OC := c2_out opt) in *. set (os := [B; OC; OH; OW]). set (N := OH * OW) in *.
  assert (PN : 1 <= N) by (unfold N; clear - POH POW; nia).
  set (plain := fun b m n => conv2d_value zero add mul opt H W FX FW b m (n / OW) (n mod OW)).
  set (F := fun idx : list Z => match idx with
      | [b; m; oy; ox] => Some (with_bias add fb m (conv2d_value zero add mul opt H W FX FW b m oy ox))
      | _ => None end).
  assert (Dos : Forall (fun d => 0 <= d) os) by (unfold os; repeat constructor; lia).
  assert (Pos : product os = B * (OC * N)) by (unfold os, N; rewrite !product_cons, product_nil; ring).
  set (G := at_pos os F).
  assert (GF : forall b m n, 0 <= b < B -> 0 <= m < OC -> 0 <= n < N -> G (b * (OC * N) + (m * N + n)) = Some (with_bias add fb m (plain b m n))).
  { intros b m n Hb Hm Hn. assert (DN := Z.div_mod n OW ltac:(lia)). assert (RN := Z.mod_pos_bound n OW ltac:(lia)).
    assert (QN : 0 <= n / OW < OH). { split; [apply Z.div_pos; lia|]. apply Z.div_lt_upper_bound; [lia|]. unfold N in Hn. lia. }
    replace (b * (OC * N) + (m * N + n)) with (ravel os [b; m; n / OW; n mod OW]).
    - unfold G. rewrite at_pos_ravel by (unfold os; apply in_shape4; auto). reflexivity.
    - unfold os. cbn [ravel]. rewrite !product_cons, product_nil. unfold N. rewrite DN at 3. ring. }
  match goal with |- context [rbind (zloop B ?bd _)] =>
    destruct (zloop_inv (fun b st => b_len (fst st) = K * N /\ b_len (snd st) = product os /\ forall d, 0 <= d < b * (OC * N) -> b_at (snd st) d = G d)
      B bd (mkBuf (product [K; N]) (fun _ => None), mkBuf (product os) (fun _ => None)) PB) as (st & E & Lc & Lo & HS) end.
  - cbn [fst snd b_len]. split; [rewrite !product_cons, product_nil; ring|]. split; [reflexivity|]. intros; lia.
  - intros b [col r] Hb (Lc & Lo & HS). cbn [fst snd] in *.
    destruct (im2col_input_ok opt H W OH OW (fun c y i => FX [b; c; y; i]) (x_buf x) (x_offset x + b * (c2_in opt * H * W)) col PIC PKH PKW POH POW EH EW) as (col' & E1 & L1 & HC).
    { intros c y i Hc Hy Hi. apply (holds_at4 x _ _ _ _ FX _ _ _ _ HX Hb Hc Hy Hi). ring. }
    { rewrite Lc. reflexivity. }
    rewrite E1. cbn [rbind]. set (co := b * (OC * OH * OW)). assert (Eco : co = b * (OC * N)) by (unfold co, N; ring).
    assert (RP : forall m n, 0 <= m < OC -> 0 <= n < N -> 0 <= co + (m * N + n) < product os).
    { intros m n Hm Hn. rewrite Eco, Pos. clear - Hb Hm Hn PN. assert (0 <= m * N + n < OC * N) by nia. nia. }
    set (G1 := fun d => if (co <=? d) && (d <? co + OC * N) then Some (plain b ((d - co) / N) ((d - co) mod N)) else G d).
    assert (G1c : forall m n, 0 <= m < OC -> 0 <= n < N -> G1 (co + (m * N + n)) = Some (plain b m n)).
    { intros m n Hm Hn. unfold G1. assert (0 <= m * N + n < OC * N) by (clear - Hm Hn PN; nia).
      replace ((co <=? co + (m * N + n)) && (co + (m * N + n) <? co + OC * N)) with true by lia.
      replace (co + (m * N + n) - co) with (m * N + n) by ring.
      replace ((m * N + n) / N) with m by (apply (Z.div_unique _ N m n); lia).
      replace ((m * N + n) mod N) with n by (apply (Z.mod_unique _ N m); lia). reflexivity. }
    destruct (blas_matmul_spec zero add mul M0 Neon false OC N K wb 0 col' 0 co threads
      (fun m k => FW [m; k / (c2_kh opt * c2_kw opt); k mod (c2_kh opt * c2_kw opt) / c2_kw opt; k mod c2_kw opt])
      (fun n k => zero_padded zero H (fun y => zero_padded zero W (fun i => FX [b; k / (c2_kh opt * c2_kw opt); y; i])
             (tap (c2_sw opt) (c2_pw opt) (c2_dw opt) (n mod OW) (k mod c2_kw opt)))
           (tap (c2_sh opt) (c2_ph opt) (c2_dh opt) (n / OW) (k mod (c2_kh opt * c2_kw opt) / c2_kw opt)))
      None None G1 r) as (r1 & E2 & G2).
    + exact PC.
    + clear - PN; lia.
    + exact PK.
    + exact HT.
    + intros m k Hm Hk. rewrite Z.add_0_l. apply HWt; auto.
    + intros n k Hn Hk. rewrite Z.add_0_l. cbn beta iota. apply HC; auto.
    + intros m n Hm Hn. rewrite Lo. apply RP; auto.
    + intros m n Hm Hn. rewrite G1c by auto. cbn [plus_bias]. f_equal. symmetry. apply conv2d_sum; auto.
    + exact I.
    + reflexivity.
    + cbn [x_offset x_view v_offset]. cbn [x_offset v_offset x_view] in E2. 
      match goal with |- context [blas_matmul zero add mul Neon false OC K N wb ?a0 col' 0 co threads None r] => change a0 with 0 end.
      rewrite E2. cbn [rbind].
      assert (Lr1 : b_len r1 = product os) by (rewrite (g_len _ _ _ _ G2); exact Lo).
      assert (Sr1 : forall m n, 0 <= m < OC -> 0 <= n < N -> b_at r1 (co + (m * N + n)) = Some (plain b m n)).
      { intros m n Hm Hn. rewrite (g_set _ _ _ _ G2) by (apply cells_at; auto). apply G1c; auto. }
      assert (Or1 : forall d, 0 <= d < co -> b_at r1 d = G d).
      { intros d Hd. destruct (g_old _ _ _ _ G2 d) as [e|e]; rewrite e.
        - apply HS. rewrite <- Eco. exact Hd.
        - unfold G1. replace ((co <=? d) && (d <? co + OC * N)) with false by (clear - Hd; lia). reflexivity. }
      assert (FIN : forall r2, changes G (cells co N OC N) r1 r2 -> b_len r2 = product os /\ forall d, 0 <= d < (b + 1) * (OC * N) -> b_at r2 d = G d).
      { intros r2 C. split; [rewrite (c_len _ _ _ _ C); exact Lr1|]. intros d Hd.
        destruct (Z_lt_ge_dec d co) as [Hlt|Hge].
        - rewrite (c_other _ _ _ _ C); [apply Or1; lia|]. intros (i & Hi & Hseg). unfold segment in Hseg. assert (0 <= i * N) by (clear - Hi PN; nia). lia.
        - apply (c_set _ _ _ _ C). exists ((d - co) / N). assert (DD := Z.div_mod (d - co) N ltac:(lia)). assert (DM := Z.mod_pos_bound (d - co) N ltac:(lia)).
          assert (Hd2 : 0 <= d - co < OC * N) by lia.
          split; [split; [apply Z.div_pos; lia|apply Z.div_lt_upper_bound; lia]|]. unfold segment. lia. }
      assert (HB' := HB). unfold bias_holds in HB'. destruct bias as [tb|], fb as [f|]; try contradiction.
      * destruct (tile_loop G OC N co N (fun m n r => do v <- loadv (x_buf tb) (x_offset tb + m); do s <- loadv r (co + (m * N + n)); store r (co + (m * N + n)) (Some (add s v))) r1 ltac:(lia)) as (r2 & E3 & C3).
        { intros m n r0 Hm Hn L0 U0. assert (Eb := holds_at tb [OC] f [m] HB' ltac:(repeat constructor; lia)). cbn [ravel] in Eb. rewrite product_nil in Eb.
          replace (m * 1 + 0) with m in Eb by lia. rewrite Eb. cbn [rbind].
          assert (RPm : 0 <= co + (m * N + n) < b_len r0) by (rewrite L0, Lr1; apply RP; auto).
          rewrite (loadv_at r0 _ (plain b m n)) by (auto; rewrite U0; apply Sr1; auto). cbn [rbind].
          apply store_changes; [exact RPm|]. rewrite Eco. rewrite GF by auto. reflexivity. }
        assert (EE : zloop OC (fun m r => do v <- loadv (x_buf tb) (x_offset tb + m); zloop N (fun n r => do s <- loadv r (co + (m * N + n)); store r (co + (m * N + n)) (Some (add s v))) r) r1
                   = zloop OC (fun m r => zloop N (fun n r => do v <- loadv (x_buf tb) (x_offset tb + m); do s <- loadv r (co + (m * N + n)); store r (co + (m * N + n)) (Some (add s v))) r) r1).
        { apply zloop_ext. intros m s Hm. assert (Eb := holds_at tb [OC] f [m] HB' ltac:(repeat constructor; lia)). cbn [ravel] in Eb. rewrite product_nil in Eb.
          replace (m * 1 + 0) with m in Eb by lia. rewrite Eb. cbn [rbind]. reflexivity. }
        rewrite EE, E3. cbn [rbind]. eexists. split; [reflexivity|]. cbn [fst snd]. split; [rewrite L1; exact Lc|]. apply FIN. exact C3.
      * cbn [rbind]. eexists. split; [reflexivity|]. cbn [fst snd]. split; [rewrite L1; exact Lc|]. apply FIN.
        constructor; auto. intros d (i & Hi & Hseg). unfold segment in Hseg.
        replace d with (co + (i * N + (d - co - i * N))) by ring. rewrite Sr1 by lia. rewrite Eco. symmetry. rewrite GF by lia. reflexivity.
  - rewrite E. cbn [rbind]. eexists. split; [reflexivity|]. apply produces_intro.
    + unfold os. cbn [length]. clear. lia.
    + exact Dos.
    + exact Lo.
    + intros idx Hi. rewrite HS by (rewrite <- Pos; apply ravel_bounds; auto). apply at_pos_ravel; auto.
Qed.
End Conv2d.
