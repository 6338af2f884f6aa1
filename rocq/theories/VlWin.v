(** Windows of the Qwen2.5 vision tower. *)
From Verif Require Import Base DTypeModel ParamModel TensorModel VlModel VlSpec VlProofs VlGrid VlPos.
From Verif Require AotModel AotProofs AotGraph.
Local Open Scope nat_scope.

Lemma cell_inj : forall B C a b c a' b' c', b < B -> c < C -> b' < B -> c' < C ->
  (a * B + b) * C + c = (a' * B + b') * C + c' -> a = a' /\ b = b' /\ c = c'.
Proof.
  intros B C a b c a' b' c' Hb Hc Hb' Hc' E.
  assert (E1 : a * B + b = a' * B + b') by (rewrite <- (div_mul_add (a * B + b) C c), <- (div_mul_add (a' * B + b') C c'), E by auto; reflexivity).
  assert (E2 : c = c') by (rewrite <- (mod_mul_add (a * B + b) C c), <- (mod_mul_add (a' * B + b') C c'), E by auto; reflexivity).
  assert (E3 : a = a') by (rewrite <- (div_mul_add a B b), <- (div_mul_add a' B b'), E1 by auto; reflexivity).
  assert (E4 : b = b') by (rewrite <- (mod_mul_add a B b), <- (mod_mul_add a' B b'), E1 by auto; reflexivity).
  auto.
Qed.
Lemma cell_bound3 : forall A B C a b c, a < A -> b < B -> c < C -> (a * B + b) * C + c < A * B * C.
Proof. intros A B C a b c Ha Hb Hc. apply index_bound; auto. apply index_bound; auto. Qed.
Lemma cell_ex : forall A B C p, p < A * B * C -> exists a b c, a < A /\ b < B /\ c < C /\ p = (a * B + b) * C + c.
Proof.
  intros A B C p H. destruct (index_split p (A * B) C H) as (q & c & Hq & Hc & ->). destruct (index_split q A B Hq) as (a & b & Ha & Hb & ->).
  exists a, b, c. auto.
Qed.

(** Lines 43-48. *)
Lemma index_ok : forall gt H W,
  for_up gt 0 (fun t st => for_up H 0 (fun h st => for_up W 0 (fun w st =>
             do i <- wr (snd st) ((t * H + h) * W + w) (fst st); ROk (fst st + 1, i)) st) st) (0, repeat 0 (gt * H * W))
  = ROk (0 + gt * (H * (W * 1)), seq 0 (gt * H * W)).
Proof.
  intros gt H W.
  set (ws := fun c => flat_map (fun t => flat_map (fun h => flat_map (fun w =>
                 [((t * H + h) * W + w, c + (t - 0) * (H * (W * 1)) + (h - 0) * (W * 1) + (w - 0) * 1)]) (seq 0 W)) (seq 0 H)) (seq 0 gt)).
  assert (E : put_all (ws 0) (repeat 0 (gt * H * W)) = ROk (seq 0 (gt * H * W))).
  { apply put_list; [rewrite repeat_length, seq_length; reflexivity| |].
    - intros p v I. unfold ws in I. apply in_loop in I as (t & I1 & I). apply in_loop in I as (h & I2 & I). apply in_loop in I as (w & I3 & I).
      destruct I as [I|[]]. injection I as <- <-. rewrite nth_error_seq by (apply cell_bound3; lia). f_equal. rewrite !Nat.sub_0_r, !Nat.mul_1_r. lia.
    - intros p Hp. rewrite seq_length in Hp. destruct (cell_ex gt H W p Hp) as (t & h & w & H1 & H2 & H3 & ->).
      eexists. unfold ws. apply in_loop. exists t. split; [lia|]. apply in_loop. exists h. split; [lia|]. apply in_loop. exists w. split; [lia|]. left. reflexivity. }
  apply (counts_loop _ (H * (W * 1)) (fun t c => flat_map (fun h => flat_map (fun w => [((t * H + h) * W + w, c + (h - 0) * (W * 1) + (w - 0) * 1)]) (seq 0 W)) (seq 0 H)));
    [|exact E].
  intros t _. apply (counts_loop _ (W * 1) (fun h c => flat_map (fun w => [((t * H + h) * W + w, c + (w - 0) * 1)]) (seq 0 W))).
  intros h _. apply (counts_loop _ 1 (fun w c => [((t * H + h) * W + w, c)])).
  intros w _ c b b' E4. cbn [put_all] in E4. unfold write in E4. cbn [fst snd] in *. destruct (wr b _ _); cbn [rbind] in *; congruence.
Qed.

(** Lines 50-57. *)
Lemma padded_ok : forall gt H W PH PW, H <= PH -> W <= PW ->
  exists pb, for_up gt 0 (fun t b => for_up H 0 (fun h b => for_up W 0 (fun w b =>
             do x <- rd (seq 0 (gt * H * W)) ((t * H + h) * W + w); wr b ((t * PH + h) * PW + w) (Some x)) b) b) (repeat None (gt * PH * PW)) = ROk pb /\
    forall t h w, t < gt -> h < PH -> w < PW ->
      nth_error pb ((t * PH + h) * PW + w) = Some (if (h <? H) && (w <? W) then Some ((t * H + h) * W + w) else None).
Proof.
  intros gt H W PH PW HH HW.
  set (ws := flat_map (fun t => flat_map (fun h => flat_map (fun w => [((t * PH + h) * PW + w, Some ((t * H + h) * W + w))]) (seq 0 W)) (seq 0 H)) (seq 0 gt)).
  destruct (put_all_ok ws (repeat None (gt * PH * PW))) as (pb & E & L & Vs & O).
  - intros p v I. unfold ws in I. apply in_loop in I as (t & I1 & I). apply in_loop in I as (h & I2 & I). apply in_loop in I as (w & I3 & I).
    destruct I as [I|[]]. injection I as <- <-. rewrite repeat_length. apply cell_bound3; lia.
  - intros p v v' I I'. unfold ws in I, I'. apply in_loop in I as (t & I1 & I). apply in_loop in I as (h & I2 & I). apply in_loop in I as (w & I3 & I).
    destruct I as [I|[]]. apply in_loop in I' as (t' & I1' & I'). apply in_loop in I' as (h' & I2' & I'). apply in_loop in I' as (w' & I3' & I').
    destruct I' as [I'|[]]. injection I as Ep <-. injection I' as Ep' <-.
    destruct (cell_inj PH PW t h w t' h' w') as (-> & -> & ->); [lia..| |reflexivity]. congruence.
  - exists pb. split.
    + apply (does_loop _ (fun t => flat_map (fun h => flat_map (fun w => [((t * PH + h) * PW + w, Some ((t * H + h) * W + w))]) (seq 0 W)) (seq 0 H))); [|exact E].
      intros t Ht. apply does_loop. intros h Hh. apply does_loop. intros w Hw. eapply does_ext; [|apply does_one]. intro b.
      rewrite (rd_ok _ _ ((t * H + h) * W + w)); [reflexivity|]. rewrite nth_error_seq by (apply cell_bound3; lia). reflexivity.
    + intros t h w Ht Hh Hw. destruct ((h <? H) && (w <? W)) eqn:C.
      * apply Vs. unfold ws. apply in_loop. exists t. split; [lia|]. apply in_loop. exists h. split; [lia|]. apply in_loop. exists w. split; [lia|]. left. reflexivity.
      * rewrite O.
        { rewrite (nth_error_nth' _ None) by (rewrite repeat_length; apply cell_bound3; lia). rewrite nth_repeat. reflexivity. }
        intros v I. unfold ws in I. apply in_loop in I as (t' & I1 & I). apply in_loop in I as (h' & I2 & I). apply in_loop in I as (w' & I3 & I).
        destruct I as [I|[]]. injection I as Ep _. destruct (cell_inj PH PW t' h' w' t h w) as (-> & -> & ->); [lia..|exact Ep|]. lia.
Qed.

(** The cells of one window. *)
Definition wcell (V H W t wh ww h w : nat) : list nat :=
  if (wh * V + h <? H) && (ww * V + w <? W) then [(t * H + (wh * V + h)) * W + (ww * V + w)] else [].
Definition wcells (V H W t wh ww : nat) : list nat := flat_map (fun h => flat_map (wcell V H W t wh ww h) (seq 0 V)) (seq 0 V).
Definition wnum (V H W nwh nww k : nat) : list nat := wcells V H W (k / (nwh * nww)) (k / nww mod nwh) (k mod nww).

Lemma bump_mid : forall A x B, bump (A ++ x :: B) (length A) = ROk (A ++ (x + 1) :: B).
Proof.
  intros A x B. unfold bump. rewrite (rd_ok _ _ x) by (rewrite nth_error_app2, Nat.sub_diag by lia; reflexivity). cbn [rbind].
  unfold wr. replace (length A <? length (A ++ x :: B)) with true by (rewrite app_length; cbn [length]; lia). f_equal.
  rewrite firstn_app, Nat.sub_diag, firstn_all. cbn [firstn]. rewrite app_nil_r. f_equal. f_equal.
  rewrite skipn_app, skipn_all2 by lia. replace (S (length A) - length A) with 1 by lia. reflexivity.
Qed.
Lemma window_loop : forall pb V H W PH PW t wh ww i A x B l,
  (forall h w, h < V -> w < V -> nth_error pb ((t * PH + (wh * V + h)) * PW + (ww * V + w)) =
     Some (if (wh * V + h <? H) && (ww * V + w <? W) then Some ((t * H + (wh * V + h)) * W + (ww * V + w)) else None)) ->
  i = length A ->
  for_up V 0 (fun h st => for_up V 0 (fun w st =>
               do c <- rd pb ((t * PH + (wh * V + h)) * PW + (ww * V + w));
               match c with
               | None => ROk st
               | Some x => do s <- bump (snd st) i; ROk (fst st ++ [x], s)
               end) st) (l, A ++ x :: B) =
  ROk (l ++ wcells V H W t wh ww, A ++ (x + length (wcells V H W t wh ww)) :: B).
Proof.
  intros pb V H W PH PW t wh ww i A x B l Hp ->.
  assert (Inner : forall h l x, h < V -> for_up V 0 (fun w st =>
               do c <- rd pb ((t * PH + (wh * V + h)) * PW + (ww * V + w));
               match c with
               | None => ROk st
               | Some x => do s <- bump (snd st) (length A); ROk (fst st ++ [x], s)
               end) (l, A ++ x :: B) = ROk (l ++ flat_map (wcell V H W t wh ww h) (seq 0 V), A ++ (x + length (flat_map (wcell V H W t wh ww h) (seq 0 V))) :: B)).
  { intros h l0 x0 Hh. destruct (AotProofs.for_up_inv (fun j st => st = (l0 ++ flat_map (wcell V H W t wh ww h) (seq 0 j), A ++ (x0 + length (flat_map (wcell V H W t wh ww h) (seq 0 j))) :: B))
      (fun w st => do c <- rd pb ((t * PH + (wh * V + h)) * PW + (ww * V + w));
               match c with
               | None => ROk st
               | Some x => do s <- bump (snd st) (length A); ROk (fst st ++ [x], s)
               end) V 0 (l0, A ++ x0 :: B)) as (s' & E & Es).
    - cbn [seq flat_map length]. rewrite app_nil_r, Nat.add_0_r. reflexivity.
    - intros w st Hw ->. rewrite (rd_ok _ _ _ (Hp h w Hh ltac:(lia))). cbn [rbind]. rewrite Nat.add_1_r, seq_S, flat_map_app. cbn [flat_map Nat.add].
      rewrite app_nil_r. destruct ((wh * V + h <? H) && (ww * V + w <? W)) eqn:Ev.
      + assert (Ew : wcell V H W t wh ww h w = [(t * H + (wh * V + h)) * W + (ww * V + w)]) by (unfold wcell; rewrite Ev; reflexivity). rewrite Ew. cbn [fst snd]. rewrite bump_mid. cbn [rbind]. eexists. split; [reflexivity|]. rewrite app_assoc, !app_length. cbn [length]. do 3 f_equal. lia.
      + assert (Ew : wcell V H W t wh ww h w = []) by (unfold wcell; rewrite Ev; reflexivity). rewrite Ew.
        eexists. split; [reflexivity|]. rewrite !app_nil_r. reflexivity.
    - rewrite E, Es. reflexivity. }
  destruct (AotProofs.for_up_inv (fun j st => st = (l ++ flat_map (fun h => flat_map (wcell V H W t wh ww h) (seq 0 V)) (seq 0 j),
                                           A ++ (x + length (flat_map (fun h => flat_map (wcell V H W t wh ww h) (seq 0 V)) (seq 0 j))) :: B))
    (fun h st => for_up V 0 (fun w st =>
               do c <- rd pb ((t * PH + (wh * V + h)) * PW + (ww * V + w));
               match c with
               | None => ROk st
               | Some x => do s <- bump (snd st) (length A); ROk (fst st ++ [x], s)
               end) st) V 0 (l, A ++ x :: B)) as (s' & E & Es).
  - cbn [seq flat_map length]. rewrite app_nil_r, Nat.add_0_r. reflexivity.
  - intros h st Hh ->. rewrite Inner by lia. eexists. split; [reflexivity|]. rewrite Nat.add_1_r, seq_S, flat_map_app. cbn [flat_map Nat.add].
    rewrite app_nil_r, app_assoc, !app_length. do 3 f_equal. lia.
  - rewrite E, Es. reflexivity.
Qed.

Definition wstate (V H W nwh nww N k : nat) : list nat * list nat :=
  (flat_map (wnum V H W nwh nww) (seq 0 k), map (fun i => length (wnum V H W nwh nww i)) (seq 0 k) ++ repeat 0 (N - k)).
Lemma windows_ok : forall pb V H W PH PW gt nwh nww, PH = nwh * V -> PW = nww * V ->
  (forall t h w, t < gt -> h < PH -> w < PW ->
      nth_error pb ((t * PH + h) * PW + w) = Some (if (h <? H) && (w <? W) then Some ((t * H + h) * W + w) else None)) ->
  for_up gt 0 (fun t st => for_up nwh 0 (fun wh st => for_up nww 0 (fun ww st =>
             for_up V 0 (fun h st => for_up V 0 (fun w st =>
               do c <- rd pb ((t * PH + (wh * V + h)) * PW + (ww * V + w));
               match c with
               | None => ROk st
               | Some x => do s <- bump (snd st) (t * nwh * nww + wh * nww + ww); ROk (fst st ++ [x], s)
               end) st) st) st) st) ([], repeat 0 (gt * nwh * nww))
  = ROk (wstate V H W nwh nww (gt * nwh * nww) (gt * nwh * nww)).
Proof.
  intros pb V H W PH PW gt nwh nww EPH EPW Hp. set (N := gt * nwh * nww).
  assert (One : forall t wh ww, t < gt -> wh < nwh -> ww < nww ->
    for_up V 0 (fun h st => for_up V 0 (fun w st =>
               do c <- rd pb ((t * PH + (wh * V + h)) * PW + (ww * V + w));
               match c with
               | None => ROk st
               | Some x => do s <- bump (snd st) (t * nwh * nww + wh * nww + ww); ROk (fst st ++ [x], s)
               end) st) (wstate V H W nwh nww N ((t * nwh + wh) * nww + ww)) = ROk (wstate V H W nwh nww N (S ((t * nwh + wh) * nww + ww)))).
  { intros t wh ww Ht Hwh Hww. assert (B := cell_bound3 gt nwh nww t wh ww Ht Hwh Hww). fold N in B.
    set (k := (t * nwh + wh) * nww + ww) in *. unfold wstate. replace (N - k) with (S (N - S k)) by lia. cbn [repeat].
    assert (Ek : wnum V H W nwh nww k = wcells V H W t wh ww).
    { unfold wnum. assert (K1 : k / nww = t * nwh + wh) by (apply div_mul_add; auto). assert (K2 : k mod nww = ww) by (apply mod_mul_add; auto).
      assert (K3 : k / (nwh * nww) = t). { rewrite Nat.mul_comm, <- Nat.div_div by lia. rewrite K1. apply div_mul_add. auto. }
      rewrite K1, K2, K3, mod_mul_add by auto. reflexivity. }
    rewrite (window_loop pb V H W PH PW t wh ww).
    - rewrite seq_S, flat_map_app, map_app. cbn [flat_map map Nat.add]. rewrite app_nil_r, Ek, <- app_assoc. reflexivity.
    - intros h w Hh Hw. apply Hp; auto; [rewrite EPH|rewrite EPW]; apply index_bound; auto.
    - rewrite map_length, seq_length. unfold k. lia. }
  destruct (AotProofs.for_up_inv (fun j st => st = wstate V H W nwh nww N (j * (nwh * nww)))
    (fun t st => for_up nwh 0 (fun wh st => for_up nww 0 (fun ww st =>
             for_up V 0 (fun h st => for_up V 0 (fun w st =>
               do c <- rd pb ((t * PH + (wh * V + h)) * PW + (ww * V + w));
               match c with
               | None => ROk st
               | Some x => do s <- bump (snd st) (t * nwh * nww + wh * nww + ww); ROk (fst st ++ [x], s)
               end) st) st) st) st) gt 0 ([], repeat 0 N)) as (s' & E & Es).
  - unfold wstate. cbn [Nat.mul seq flat_map map app]. rewrite Nat.sub_0_r. reflexivity.
  - intros t st Ht ->.
    destruct (AotProofs.for_up_inv (fun j st => st = wstate V H W nwh nww N ((t * nwh + j) * nww))
      (fun wh st => for_up nww 0 (fun ww st =>
             for_up V 0 (fun h st => for_up V 0 (fun w st =>
               do c <- rd pb ((t * PH + (wh * V + h)) * PW + (ww * V + w));
               match c with
               | None => ROk st
               | Some x => do s <- bump (snd st) (t * nwh * nww + wh * nww + ww); ROk (fst st ++ [x], s)
               end) st) st) st) nwh 0 (wstate V H W nwh nww N (t * (nwh * nww)))) as (s2 & E2 & Es2).
    + f_equal. lia.
    + intros wh st Hwh ->.
      destruct (AotProofs.for_up_inv (fun j st => st = wstate V H W nwh nww N ((t * nwh + wh) * nww + j))
        (fun ww st => for_up V 0 (fun h st => for_up V 0 (fun w st =>
               do c <- rd pb ((t * PH + (wh * V + h)) * PW + (ww * V + w));
               match c with
               | None => ROk st
               | Some x => do s <- bump (snd st) (t * nwh * nww + wh * nww + ww); ROk (fst st ++ [x], s)
               end) st) st) nww 0 (wstate V H W nwh nww N ((t * nwh + wh) * nww))) as (s3 & E3 & Es3).
      * f_equal. lia.
      * intros ww st Hww ->. rewrite One by lia. eexists. split; [reflexivity|]. f_equal. lia.
      * exists s3. split; [exact E3|]. rewrite Es3. f_equal. lia.
    + exists s2. split; [exact E2|]. rewrite Es2. f_equal. lia.
  - rewrite E, Es. do 2 f_equal. unfold N. lia.
Qed.

(** Cumulative lengths. *)
Lemma cu_ok : forall (f : nat -> list nat) N mm, 
  for_up N 0 (fun i cc => do s <- rd (map (fun i => length (f i)) (seq 0 N)) i; let c := fst cc + s * mm in ROk (c, snd cc ++ [c])) (0, [0])
  = ROk (length (flat_map f (seq 0 N)) * mm, map (fun i => length (flat_map f (seq 0 i)) * mm) (seq 0 (S N))).
Proof.
  intros f N mm.
  destruct (AotProofs.for_up_inv (fun j st => st = (length (flat_map f (seq 0 j)) * mm, map (fun i => length (flat_map f (seq 0 i)) * mm) (seq 0 (S j))))
    (fun i cc => do s <- rd (map (fun i => length (f i)) (seq 0 N)) i; let c := fst cc + s * mm in ROk (c, snd cc ++ [c])) N 0 (0, [0])) as (s' & E & Es).
  - reflexivity.
  - intros j st Hj ->. rewrite (rd_ok _ _ (length (f j))) by (rewrite nth_error_map_seq by lia; reflexivity). cbn [rbind fst snd]. cbv zeta.
    eexists. split; [reflexivity|]. rewrite Nat.add_1_r. rewrite (seq_S (S j)), map_app. cbn [map Nat.add].
    assert (El : length (flat_map f (seq 0 (S j))) = length (flat_map f (seq 0 j)) + length (f j)).
    { rewrite seq_S, flat_map_app, app_length. cbn [flat_map Nat.add]. rewrite app_nil_r. reflexivity. }
    rewrite El, Nat.mul_add_distr_r. reflexivity.
  - rewrite E, Es. reflexivity.
Qed.

(** Padding. *)
Lemma pad_ok : forall H V, 0 < V -> exists n, H + (V - H mod V) mod V = n * V /\ (H + (V - H mod V) mod V) / V = n /\ forall x, x < H -> x / V < n.
Proof.
  intros H V HV. assert (D := Nat.div_mod H V). assert (M := Nat.mod_upper_bound H V).
  destruct (Nat.eq_dec (H mod V) 0) as [Z|Z].
  - assert (E : H + (V - H mod V) mod V = H / V * V). { rewrite Z, Nat.sub_0_r, Nat.mod_same by lia. rewrite Nat.mul_comm. lia. }
    exists (H / V). split; [exact E|]. rewrite E, Nat.div_mul by lia. split; [reflexivity|].
    intros x Hx. apply Nat.div_lt_upper_bound; lia.
  - assert (E : H + (V - H mod V) mod V = (H / V + 1) * V). { rewrite (Nat.mod_small (V - H mod V)) by lia. rewrite Nat.mul_add_distr_r, (Nat.mul_comm (H / V)). lia. }
    exists (H / V + 1). split; [exact E|]. rewrite E, Nat.div_mul by lia. split; [reflexivity|].
    intros x Hx. assert (x / V <= H / V) by (apply Nat.div_le_mono; lia). lia.
Qed.

Lemma window_index_ok : forall window merge patch gt gh gw, 0 < merge -> 0 < patch -> 0 < window / merge / patch ->
  let V := window / merge / patch in let H := gh / merge in let W := gw / merge in
  exists nwh nww, H + (V - H mod V) mod V = nwh * V /\ W + (V - W mod V) mod V = nww * V /\
    (forall x, x < H -> x / V < nwh) /\ (forall x, x < W -> x / V < nww) /\
    window_index window merge patch (gt, gh, gw) =
    ROk (flat_map (wnum V H W nwh nww) (seq 0 (gt * nwh * nww)),
         map (fun i => length (flat_map (wnum V H W nwh nww) (seq 0 i)) * (merge * merge)) (seq 0 (S (gt * nwh * nww)))).
Proof.
  intros window merge patch gt gh gw Hm Hp HV V H W. subst V. set (V := window / merge / patch) in *.
  destruct (pad_ok H V HV) as (nwh & E1 & E2 & E3). destruct (pad_ok W V HV) as (nww & F1 & F2 & F3).
  exists nwh, nww. split; [exact E1|]. split; [exact F1|]. split; [exact E3|]. split; [exact F3|].
  unfold window_index. rewrite (ndiv_ok window) by auto. cbn [rbind]. rewrite (ndiv_ok (window / merge)) by auto. cbn [rbind]. fold V.
  rewrite (ndiv_ok gh) by auto. cbn [rbind]. rewrite (ndiv_ok gw) by auto. cbn [rbind]. fold H W.
  rewrite (nmod_ok H) by auto. cbn [rbind]. rewrite (nmod_ok (V - H mod V)) by auto. cbn [rbind].
  rewrite (nmod_ok W) by auto. cbn [rbind]. rewrite (nmod_ok (V - W mod V)) by auto. cbn [rbind].
  rewrite (ndiv_ok (H + _)) by auto. cbn [rbind]. rewrite (ndiv_ok (W + _)) by auto. cbn [rbind].
  rewrite E2, F2. rewrite index_ok. cbn [rbind snd].
  destruct (padded_ok gt H W (H + (V - H mod V) mod V) (W + (V - W mod V) mod V)) as (pb & Ep & Hpb); [lia..|].
  rewrite Ep. cbn [rbind].
  rewrite (windows_ok pb V H W _ _ gt nwh nww E1 F1 Hpb). cbn [rbind]. unfold wstate at 1 2. cbn [fst snd].
  rewrite Nat.sub_diag, app_nil_r. rewrite (cu_ok (wnum V H W nwh nww)). reflexivity.
Qed.
