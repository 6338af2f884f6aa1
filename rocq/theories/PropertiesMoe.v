(** Properties of the mixture of experts and of integer division: C115, C116. *)
From Coq Require Import Reals Lra.
From Flocq Require Import Core.
From Verif Require Import Base DTypeModel ParamModel QuantModel VlModel VlProofs MoeModel MoeSpec MoeProofs CpmAudioModel CpmAudio DivModel DivProofs DivLoop.
From Verif Require AotModel.
Local Open Scope nat_scope.

(** ** C115: every token gets the weighted sum of its own experts' answers *)
(** [x]: the rows of the batch; [ids], [weights]: k per token.  Whatever order argsort puts equal ids in. *)
Theorem C115_mixture : forall (R W : Type) (scale : W -> R -> R) (total : list R -> R) sort quot junk (experts : list (list R -> list R)) (f : nat -> R -> R)
    (x : list R) k ids (weights : list W) r0 w0,
  x <> [] -> 0 < k -> length ids = length x * k -> length weights = length x * k ->
  Forall (fun e => (0 <= e < Z.of_nat (length experts))%Z) ids -> sorts ids (sort ids) ->
  (forall i, i < length x * k -> quot i k = i / k) -> (forall n, length (junk n) = n) ->
  (forall e g, nth_error experts e = Some g -> row_wise g (f e)) ->
  exists out, moe_infer scale total sort quot junk experts x (length x) k ids weights = ROk out /\ length out = length x /\
    forall t, t < length x -> nth_error out t = Some (mixture scale total f ids weights w0 k t (nth t x r0)).
Proof.
  intros R W scale total sort quot junk experts f x k ids weights r0 w0 Hx Hk Hl Hw Hr Hs Hq Hj Hg. eexists. split.
  - apply moe_ok; try eassumption. destruct x; [congruence|cbn; lia].
  - split; [rewrite map_length, seq_length; reflexivity|]. intros t Ht. rewrite nth_error_map_seq by exact Ht. reflexivity.
Qed.
(** An id that is no expert's ends the program. *)
Theorem C115_bad_id : forall (R W : Type) (scale : W -> R -> R) (total : list R -> R) sort quot junk (experts : list (list R -> list R)) x T k ids (weights : list W) e,
  length ids = T * k -> In e ids -> ~ (0 <= e < Z.of_nat (length experts))%Z ->
  moe_infer scale total sort quot junk experts x T k ids weights = RAbort.
Proof.
  intros R W scale total sort quot junk experts x T k ids weights e Hl He Hb. unfold moe_infer. rewrite (count_bad T k (length experts) ids e Hl He Hb). reflexivity.
Qed.
(** A token's answer does not depend on the other tokens in the batch, on its place among them, or on the order argsort takes. *)
Theorem C115_alone : forall (R W : Type) (scale : W -> R -> R) (total : list R -> R) sort sort' quot junk (experts : list (list R -> list R)) (f : nat -> R -> R)
    x k ids (weights : list W) x' ids' weights' out out' t t',
  0 < k -> length ids = length x * k -> length weights = length x * k -> length ids' = length x' * k -> length weights' = length x' * k ->
  sorts ids (sort ids) -> sorts ids' (sort' ids') -> (forall i, quot i k = i / k) -> (forall n, length (junk n) = n) ->
  (forall e g, nth_error experts e = Some g -> row_wise g (f e)) ->
  moe_infer scale total sort quot junk experts x (length x) k ids weights = ROk out ->
  moe_infer scale total sort' quot junk experts x' (length x') k ids' weights' = ROk out' ->
  t < length x -> t' < length x' -> nth_error x t = nth_error x' t' ->
  (forall j, j < k -> nth_error ids (t * k + j) = nth_error ids' (t' * k + j) /\ nth_error weights (t * k + j) = nth_error weights' (t' * k + j)) ->
  nth_error out t = nth_error out' t'.
Proof.
  intros R W scale total sort sort' quot junk experts f x k ids weights x' ids' weights' out out' t t' Hk Hl Hw Hl' Hw' Hs Hs' Hq Hj Hg E E' Ht Ht' Ex Ej.
  assert (IR : forall sort x T ids weights out, length ids = T * k -> moe_infer scale total sort quot junk experts x T k ids weights = ROk out ->
     Forall (fun e => (0 <= e < Z.of_nat (length experts))%Z) ids).
  { intros so y T is ws o L Eo. apply Forall_forall. intros e He. destruct (Z_le_dec 0 e); [destruct (Z_lt_dec e (Z.of_nat (length experts)))|]; [lia| |];
      (exfalso; rewrite (C115_bad_id _ _ scale total so quot junk experts y T k is ws e L He) in Eo by lia; discriminate). }
  assert (W0 : exists w0 : W, True) by (destruct weights as [|w ws]; [cbn in Hw; assert (0 < length x * k) by (apply Nat.mul_pos_pos; lia); lia|exists w; trivial]). destruct W0 as [w0 _].
  assert (R0 : exists r0 : R, True) by (destruct x as [|r xs]; [cbn in Ht; lia|exists r; trivial]). destruct R0 as [r0 _].
  destruct (C115_mixture R W scale total sort quot junk experts f x k ids weights r0 w0) as (o & Eo & _ & No); auto.
  { intros ->. cbn in Ht. lia. } { apply (IR sort x (length x) ids weights out Hl E). }
  destruct (C115_mixture R W scale total sort' quot junk experts f x' k ids' weights' r0 w0) as (o' & Eo' & _ & No'); auto.
  { intros ->. cbn in Ht'. lia. } { apply (IR sort' x' (length x') ids' weights' out' Hl' E'). }
  rewrite E in Eo. injection Eo as <-. rewrite E' in Eo'. injection Eo' as <-. rewrite (No t Ht), (No' t' Ht'). f_equal. unfold mixture. f_equal.
  assert (NX : nth t x r0 = nth t' x' r0).
  { rewrite (nth_error_nth' x r0 Ht), (nth_error_nth' x' r0 Ht') in Ex. congruence. }
  apply map_ext_in. intros j Hj'. apply in_seq in Hj'. destruct (Ej j ltac:(lia)) as [Ei Ew]. rewrite NX.
  assert (B : t * k + j < length x * k) by (apply index_bound; lia). assert (B' : t' * k + j < length x' * k) by (apply index_bound; lia).
  rewrite (nth_error_nth' ids 0%Z), (nth_error_nth' ids' 0%Z) in Ei by lia. rewrite (nth_error_nth' weights w0), (nth_error_nth' weights' w0) in Ew by lia.
  injection Ei as Ei. injection Ew as Ew. unfold expert_of. rewrite Ei, Ew. reflexivity.
Qed.
(** Without any token the program ends. *)
Theorem C115_no_tokens : forall (R W : Type) (scale : W -> R -> R) (total : list R -> R) sort quot junk (experts : list (list R -> list R)) k,
  0 < k -> sorts [] (sort []) -> moe_infer scale total sort quot junk experts [] 0 k [] ([] : list W) = RAbort.
Proof.
  intros R W scale total sort quot junk experts k Hk Hs. unfold moe_infer. destruct (counts_ok 0 k (length experts) [] eq_refl (Forall_nil _)) as (c & Ec & Pc). rewrite Ec. cbn [rbind].
  destruct (k =? 0) eqn:K; [lia|]. destruct Hs as [P _]. cbn in P. apply Permutation_sym, Permutation_nil in P. rewrite P. cbn [AotModel.map_res rbind].
  assert (Z : run_experts experts (per_expert 0 (length experts) c) [] = ROk (0, [])).
  { unfold run_experts. rewrite Pc. cbn [filter length]. generalize (length experts) at 1 2. intro m.
    assert (G : forall n e, e + n = m -> for_up n e (fun i st => do n0 <- rd (map (fun _ : nat => 0) (seq 0 m)) i; let start := fst st in let stop := start + n0 in
       if n0 =? 0 then ROk st else do g <- rd experts i; ROk (stop, snd st ++ [g (firstn (stop - start) (skipn start []))])) (0, []) = ROk (0, [])).
    { induction n as [|n IH]; intros e He; cbn [AotModel.for_up]; [reflexivity|]. rewrite (rd_ok _ _ 0) by (rewrite nth_error_map_seq by lia; reflexivity).
      cbn [rbind Nat.eqb]. apply IH. lia. }
    apply G. reflexivity. }
  rewrite Z. reflexivity.
Qed.
(** Deepseek's shared experts add their answer to every token. *)
Theorem C115_shared : forall (R : Type) (plus : R -> R -> R) g f (x y : list R), x <> [] -> length y = length x -> row_wise g f ->
  length (with_shared plus (Some g) x y) = length x /\ with_shared plus None x y = y /\
  forall t a b, nth_error y t = Some a -> nth_error x t = Some b -> nth_error (with_shared plus (Some g) x y) t = Some (plus a (f b)).
Proof.
  intros R plus g f x y Hx Hl Hg. unfold with_shared. rewrite (Hg x Hx). split; [rewrite map_length, combine_length, map_length; lia|]. split; [reflexivity|].
  clear Hx Hl. revert y. induction x as [|u x IH]; intros [|v y] t a b Ha Hb; destruct t as [|t]; cbn in *; try discriminate.
  - injection Ha as ->. injection Hb as ->. reflexivity.
  - apply IH; assumption.
Qed.
(** The gate: the chosen experts are those of topk (C51); normalised weights keep their proportions and add up to one. *)
Definition real_sum (l : list R) : R := fold_right Rplus 0%R l.
Theorem C115_gate : forall (topk : list R -> list (R * Z)) scores,
  (forall w p, In (w, p) (topk scores) -> (0 < w)%R) -> topk scores <> [] ->
  gate real_sum Rdiv topk false scores = topk scores /\
  (let g := gate real_sum Rdiv topk true scores in
   map snd g = map snd (topk scores) /\ real_sum (map fst g) = 1%R /\ (forall w p, In (w, p) g -> (0 < w <= 1)%R) /\
   forall i w p w' p', nth_error (topk scores) i = Some (w, p) -> nth_error g i = Some (w', p') -> (w' * real_sum (map fst (topk scores)) = w)%R).
Proof.
  intros topk scores Hp Hn. split; [reflexivity|]. cbv zeta. unfold gate. set (c := topk scores) in *. clearbody c. set (s := real_sum (map fst c)).
  assert (NN : forall l : list (R * Z), (forall w p, In (w, p) l -> (0 < w)%R) -> (0 <= real_sum (map fst l))%R /\ (l <> [] -> (0 < real_sum (map fst l))%R) /\
     forall w p, In (w, p) l -> (w <= real_sum (map fst l))%R).
  { clear. induction l as [|[w p] l IH]; intro H; cbn.
    - split; [lra|]. split; [congruence|intros ? ? []].
    - destruct IH as (A & _ & B); [intros; eapply H; right; eassumption|]. assert (Hw := H w p (or_introl eq_refl)). unfold real_sum in *. split; [lra|]. split; [intros _; lra|].
      intros w' p' [E|I]; [injection E as <- <-; lra|]. specialize (B w' p' I). lra. }
  destruct (NN c Hp) as (_ & SP & LE). specialize (SP Hn). fold s in SP, LE.
  assert (SU : forall l : list (R * Z), real_sum (map fst (map (fun p => ((fst p / s)%R, snd p)) l)) = (real_sum (map fst l) / s)%R).
  { clear - SP. induction l as [|[w p] l IH]; cbn; [unfold Rdiv; ring|]. unfold real_sum in *. rewrite IH. field. lra. }
  split; [rewrite map_map; reflexivity|]. split; [rewrite SU; fold s; field; lra|]. split.
  - intros w p I. apply in_map_iff in I. destruct I as ([w0 p0] & E & I). cbn in E. injection E as <- <-. assert (P0 := Hp w0 p0 I). assert (L0 := LE w0 p0 I). split.
    + apply Rdiv_lt_0_compat; lra.
    + apply Rmult_le_reg_r with s; [lra|]. unfold Rdiv. rewrite Rmult_assoc, Rinv_l by lra. lra.
  - intros i w p w' p' E E'. rewrite nth_error_map, E in E'. cbn in E'. injection E' as <- <-. field. lra.
Qed.

(** ** C116: dividing integer tensors *)
(** For any sizes, numbers of threads and orders of the chunks: the vector code below the last multiple of the lanes, the scalar
    code behind. *)
Theorem C116_loops : forall (A : Type) (vop : A -> A -> A) sop lanes unroll order (a b : list A) threads dst (h : nat -> A),
  0 < lanes -> 0 < unroll -> (forall l, Permutation (order l) l) -> length b = length a -> length dst = length a ->
  (forall i x y, nth_error a i = Some x -> nth_error b i = Some y ->
     if i <? length a / lanes * lanes then vop x y = h i else sop x y = ROk (h i)) ->
  parallel_ew vop sop lanes unroll order a b (length a) threads dst = ROk (map h (seq 0 (length a))).
Proof.
  intros A vop sop lanes unroll order a b threads dst h Hl Hu Ho Lb Ld H. apply parallel_ok; auto.
  - intros p Hp. assert (p < length a). { unfold vec_size in Hp. assert (X := Nat.mul_div_le (length a) lanes ltac:(lia)). rewrite Nat.mul_comm in X. lia. }
    destruct (nth_error a p) as [x|] eqn:Ex; [|apply nth_error_None in Ex; lia]. destruct (nth_error b p) as [y|] eqn:Ey; [|apply nth_error_None in Ey; lia].
    exists x, y. split; [exact Ex|]. split; [exact Ey|]. specialize (H p x y Ex Ey). unfold vec_size in Hp. destruct (p <? _) eqn:L in H; [exact H|lia].
  - intros p Hp. destruct (nth_error a p) as [x|] eqn:Ex; [|apply nth_error_None in Ex; lia]. destruct (nth_error b p) as [y|] eqn:Ey; [|apply nth_error_None in Ey; lia].
    exists x, y. split; [exact Ex|]. split; [exact Ey|]. specialize (H p x y Ex Ey). unfold vec_size in Hp. destruct (p <? _) eqn:L in H; [lia|exact H].
Qed.
(** int8, int16 and int32 tensors on ARM: C++'s quotient, unless the dividend needs more than 24 bits or the quotient does not fit. *)
Definition fits (bits z : Z) : Prop := (- 2 ^ (bits - 1) <= z < 2 ^ (bits - 1))%Z.
Theorem C116_quotients : forall bits order a b threads dst, In bits [8; 16; 32]%Z ->
  (forall l, Permutation (order l) l) -> length b = length a -> length dst = length a ->
  (forall i x y, nth_error a i = Some x -> nth_error b i = Some y -> fits bits x /\ (Z.abs x < 2 ^ 24)%Z /\ fits bits y /\ y <> 0%Z /\ fits bits (Z.quot x y)) ->
  arm_div bits order a b threads dst = ROk (map (fun p => Z.quot (fst p) (snd p)) (combine a b)).
Proof.
  intros bits order a b threads dst Hb Ho Lb Ld H. unfold arm_div.
  rewrite (C116_loops Z (vector_div bits) (scalar_div bits) (div_lanes bits) 4 order a b threads dst (fun i => Z.quot (nth i a 0%Z) (nth i b 0%Z))); auto.
  - f_equal. apply nth_error_ext. intro j. destruct (Nat.lt_ge_cases j (length a)) as [J|J].
    + rewrite nth_error_map_seq by exact J. cbn [Nat.add]. rewrite nth_error_map.
      assert (C : forall (u v : list Z) j, length v = length u -> j < length u -> nth_error (combine u v) j = Some (nth j u 0%Z, nth j v 0%Z)).
      { clear. induction u as [|p u IH]; intros [|q v] [|j] L K; cbn in *; try lia; [reflexivity|apply IH; lia]. }
      rewrite C by (auto; lia). reflexivity.
    + rewrite (proj2 (nth_error_None _ j)) by (rewrite map_length, seq_length; exact J). symmetry. apply nth_error_None. rewrite map_length, combine_length. lia.
  - destruct Hb as [<-|[<-|[<-|[]]]]; vm_compute; lia.
  - intros i x y Ex Ey. destruct (H i x y Ex Ey) as (Fx & Mx & Fy & Ny & Fq). rewrite (nth_error_nth _ _ 0%Z Ex), (nth_error_nth _ _ 0%Z Ey).
    destruct (i <? _).
    + unfold vector_div. destruct (y =? 0)%Z eqn:Y; [lia|]. rewrite quot_exact by auto. unfold sat, fits in *. lia.
    + unfold scalar_div. destruct (y =? 0)%Z eqn:Y; [lia|]. unfold fits in Fq. destruct (bits =? 32)%Z eqn:B.
      * apply Z.eqb_eq in B. subst bits. destruct (Z.quot x y =? 2 ^ 31)%Z eqn:Q; [cbn in Fq; lia|reflexivity].
      * destruct (Z.quot x y =? 2 ^ (bits - 1))%Z eqn:Q; [lia|reflexivity].
Qed.
(** With larger dividends the quotient is wrong in the vector part and right behind it. *)
Lemma to_f32_big : to_f32 (IZR 67108863) = IZR 67108864.
Proof.
  unfold to_f32, nearest, round, scaled_mantissa, cexp.
  assert (M : mag radix2 (IZR 67108863) = 26%Z :> Z).
  { apply mag_unique. rewrite Rabs_pos_eq by (apply IZR_le; lia). change (bpow radix2 (26 - 1)) with (IZR 33554432). change (bpow radix2 26) with (IZR 67108864). split; [apply IZR_le; lia|apply IZR_lt; lia]. }
  rewrite M. change (FLT_exp (-149) 24 26) with 2%Z. change (bpow radix2 (- (2))) with (/ 4)%R.
  rewrite (Znearest_imp _ _ 16777216).
  - unfold F2R. cbn [Fnum Fexp]. change (bpow radix2 2) with (IZR 4). rewrite <- mult_IZR. reflexivity.
  - replace (IZR 67108863 * / 4 - IZR 16777216)%R with (- / 4)%R by (simpl; lra). rewrite Rabs_Ropp, Rabs_pos_eq by lra. lra.
Qed.
Theorem C116_large_refuted :
  let a := repeat 67108863%Z 5 in let b := repeat 8%Z 5 in
  arm_div 32 (fun l => l) a b 1 (repeat 0%Z 5) = ROk [8388608; 8388608; 8388608; 8388608; 8388607]%Z /\ Z.quot 67108863 8 = 8388607%Z.
Proof.
  cbv zeta. split; [|reflexivity].
  assert (V : vector_div 32 67108863 8 = 8388608%Z).
  { unfold vector_div. cbn [Z.eqb]. rewrite to_f32_big, (int32 8) by lia. replace (IZR 67108864 / IZR 8)%R with (IZR 8388608) by (simpl; lra).
    rewrite int32 by lia. rewrite Ztrunc_IZR. reflexivity. }
  unfold arm_div. rewrite (C116_loops Z (vector_div 32) (scalar_div 32) (div_lanes 32) 4 (fun l => l) _ _ 1 _ (fun i => if i <? 4 then 8388608%Z else 8388607%Z)); try reflexivity.
  - vm_compute. lia.
  - lia.
  - intros i x y Ex Ey. cbn [repeat] in Ex, Ey. do 5 (destruct i as [|i]; [cbn in Ex, Ey; injection Ex as <-; injection Ey as <-; cbn [length Nat.div Nat.mul]; try exact V; try reflexivity|]).
    cbn in Ex. destruct i; discriminate.
Qed.
(** -128 / -1 in int8: 127 in the vector part, -128 behind it. *)
Theorem C116_overflow_refuted : vector_div 8 (-128) (-1) = 127%Z /\ scalar_div 8 (-128) (-1) = ROk (-128)%Z.
Proof. split; [|reflexivity]. unfold vector_div. cbn [Z.eqb]. rewrite quot_exact by lia. reflexivity. Qed.
(** The mixture of experts on ARM: its quotients are right for up to 2^24 places. *)
Theorem C115_arm : forall k i threads n, 0 < k -> (Z.of_nat n <= 2 ^ 24)%Z -> i < n -> (Z.of_nat k < 2 ^ 31)%Z ->
  exists out, arm_div 32 (fun l => l) (map Z.of_nat (seq 0 n)) (repeat (Z.of_nat k) n) threads (repeat 0%Z n) = ROk out /\ nth_error out i = Some (Z.of_nat (i / k)).
Proof.
  intros k i threads n Hk Hn Hi Hk2. eexists. split.
  - apply C116_quotients.
    + cbn. auto.
    + intro l. apply Permutation_refl.
    + rewrite repeat_length, map_length, seq_length. reflexivity.
    + rewrite repeat_length, map_length, seq_length. reflexivity.
    + intros j x y Ex Ey. apply nth_error_In in Ey. apply repeat_spec in Ey. subst y.
      assert (J : j < n). { destruct (Nat.lt_ge_cases j n) as [L|L]; [exact L|]. exfalso. rewrite (proj2 (nth_error_None _ j)) in Ex by (rewrite map_length, seq_length; exact L). discriminate. }
      rewrite nth_error_map_seq in Ex by exact J. injection Ex as <-. cbn [Nat.add]. unfold fits. rewrite Z.quot_div_nonneg by lia.
      assert (0 <= Z.of_nat j / Z.of_nat k <= Z.of_nat j)%Z by (split; [apply Z.div_pos; lia|apply Z.div_le_upper_bound; nia]).
      change (2 ^ (32 - 1))%Z with 2147483648%Z. lia.
  - rewrite nth_error_map. assert (C : nth_error (combine (map Z.of_nat (seq 0 n)) (repeat (Z.of_nat k) n)) i = Some (Z.of_nat i, Z.of_nat k)).
    { rewrite <- (Nat.add_0_l i) at 2. generalize 0. revert i Hi. clear. induction n as [|n IH]; intros i Hi s; [lia|]. destruct i as [|i]; cbn.
      - rewrite Nat.add_0_r. reflexivity.
      - rewrite IH by lia. do 3 f_equal. lia. }
    rewrite C. cbn [option_map fst snd]. rewrite Z.quot_div_nonneg by lia. rewrite Nat2Z.inj_div. reflexivity.
Qed.

(** ** The hypotheses are met *)
Definition demo_sort (ids : list Z) : list nat := flat_map (fun e => filter (fun i => (nth i ids 0 =? Z.of_nat e)%Z) (seq 0 (length ids))) (seq 0 3).
Definition demo_experts : list (list Z -> list Z) := [map (fun r => r + 100)%Z; map (fun r => r * 2)%Z; map (fun r => - r)%Z].
Lemma C115_hypotheses : sorts [2; 0; 1; 2]%Z (demo_sort [2; 0; 1; 2]%Z) /\
  (forall e g, nth_error demo_experts e = Some g -> row_wise g (fun r => nth e [r + 100; r * 2; - r] 0)%Z) /\
  moe_infer Z.mul (fold_right Z.add 0)%Z demo_sort Nat.div (repeat 0%Z) demo_experts [5; 7]%Z 2 2 [2; 0; 1; 2]%Z [10; 1; 3; 4]%Z = ROk [55; 14]%Z.
Proof.
  split; [|split; [|vm_compute; reflexivity]].
  - split.
    + change (Permutation [1; 2; 0; 3] [0; 1; 2; 3]). apply Permutation_trans with [1; 0; 2; 3]; [apply perm_skip, perm_swap|apply perm_swap].
    + intros a b H. change (demo_sort [2; 0; 1; 2]%Z) with [1; 2; 0; 3] in *. cbn [length] in H.
      destruct a as [|[|[|[|a]]]], b as [|[|[|[|b]]]]; cbn; lia.
  - intros e g E rows _. destruct e as [|[|[|e]]]; cbn in E; try (injection E as <-; reflexivity). destruct e; discriminate.
Qed.
Lemma C116_hypotheses : forall i x y, nth_error [7; -9; 32767]%Z i = Some x -> nth_error [2; 2; -1]%Z i = Some y ->
  fits 16 x /\ (Z.abs x < 2 ^ 24)%Z /\ fits 16 y /\ y <> 0%Z /\ fits 16 (Z.quot x y).
Proof.
  intros [|[|[|i]]] x y Ex Ey; cbn in Ex, Ey; try (injection Ex as <-; injection Ey as <-; unfold fits; cbn; lia). destruct i; discriminate.
Qed.
Print Assumptions C115_mixture.
Print Assumptions C115_bad_id.
Print Assumptions C115_alone.
Print Assumptions C115_no_tokens.
Print Assumptions C115_shared.
Print Assumptions C115_gate.
Print Assumptions C116_loops.
Print Assumptions C116_quotients.
Print Assumptions C116_large_refuted.
Print Assumptions C116_overflow_refuted.
Print Assumptions C115_arm.
