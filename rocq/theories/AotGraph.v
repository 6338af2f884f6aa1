(** One execution of a compiled graph gives the reference's hidden states and K/V. *)
From Verif Require Import Base DTypeModel ParamModel TensorModel GenModel SessModel SessSpec SessProofs AotModel AotSpec AotProofs.
Local Open Scope nat_scope.

Lemma filter_all {Y} (f : Y -> bool) l : (forall x, In x l -> f x = true) -> filter f l = l.
Proof. induction l as [|x l IH]; intro H; cbn; [reflexivity|]. rewrite (H x (or_introl eq_refl)), IH; auto. intros y Hy. apply H. right. exact Hy. Qed.
Lemma filter_none {Y} (f : Y -> bool) l : (forall x, In x l -> f x = false) -> filter f l = [].
Proof. induction l as [|x l IH]; intro H; cbn; [reflexivity|]. rewrite (H x (or_introl eq_refl)). apply IH. intros y Hy. apply H. right. exact Hy. Qed.
Lemma map_seq_eq {Y} (f h : nat -> Y) : forall k p q, (forall j, j < k -> f (p + j) = h (q + j)) -> map f (seq p k) = map h (seq q k).
Proof.
  induction k as [|k IH]; intros p q H; cbn [seq map]; [reflexivity|]. f_equal.
  - specialize (H 0 ltac:(lia)). rewrite !Nat.add_0_r in H. exact H.
  - apply IH. intros j Hj. specialize (H (S j) ltac:(lia)). rewrite !Nat.add_succ_r in H. exact H.
Qed.
Lemma nth_map_seq {Y} (f : nat -> Y) n i d : i < n -> nth i (map f (seq 0 n)) d = f i.
Proof.
  intro H. rewrite nth_indep with (d' := f 0) by (rewrite map_length, seq_length; exact H). rewrite map_nth, seq_nth by exact H. reflexivity.
Qed.
Lemma nth_flat_map {Y} (f : nat -> list Y) k d : forall n p, (forall i, i < n -> length (f (p + i)) = k) ->
  forall i j, i < n -> j < k -> nth (i * k + j) (flat_map f (seq p n)) d = nth j (f (p + i)) d.
Proof.
  induction n as [|n IH]; intros p H i j Hi Hj; [lia|]. cbn [seq flat_map].
  pose proof (H 0 ltac:(lia)) as L0. rewrite Nat.add_0_r in L0. destruct i as [|i].
  - rewrite Nat.add_0_r. cbn [Nat.mul Nat.add]. apply app_nth1. lia.
  - rewrite app_nth2 by (cbn; lia). replace (S i * k + j - length (f p)) with (i * k + j) by (cbn; lia).
    rewrite IH by (auto; try lia; intros q Hq; specialize (H (S q) ltac:(lia)); rewrite Nat.add_succ_r in H; exact H).
    f_equal. f_equal. lia.
Qed.
Lemma flat_map_len {Y Z'} (f : Y -> list Z') k : forall l, (forall x, In x l -> length (f x) = k) -> length (flat_map f l) = length l * k.
Proof. induction l as [|x l IH]; intro H; cbn; [reflexivity|]. rewrite app_length, (H x (or_introl eq_refl)), IH; auto. intros y Hy. apply H. right. exact Hy. Qed.
Lemma nth_flat_map_list {Y Z'} (f : Y -> list Z') k d dy : forall l, (forall x, In x l -> length (f x) = k) ->
  forall i j, i < length l -> j < k -> nth (i * k + j) (flat_map f l) d = nth j (f (nth i l dy)) d.
Proof.
  induction l as [|x l IH]; intros H i j Hi Hj; cbn [length] in Hi; [lia|]. cbn [flat_map].
  pose proof (H x (or_introl eq_refl)) as L0. destruct i as [|i].
  - cbn [Nat.mul Nat.add nth]. apply app_nth1. lia.
  - rewrite app_nth2 by (cbn; lia). replace (S i * k + j - length (f x)) with (i * k + j) by (cbn; lia). cbn [nth].
    apply IH; [intros y Hy; apply H; right; exact Hy|lia|exact Hj].
Qed.

Section Net.
Context {X : Type}.
Variable g : config.
Variable embed : Z -> X.
Variable kproj vproj : nat -> X -> Z -> list Z.
Variable mix : nat -> X -> Z -> list (list Z) -> list (list Z) -> X.
Notation hidden := (hidden embed kproj vproj mix).
Notation key_of := (key_of embed kproj vproj mix).
Notation value_of := (value_of embed kproj vproj mix).
Notation C := (c_C g).
Notation HD := (c_H g * c_D g).

Definition mask_ok (a n : nat) (m : list Z) : Prop :=
  length m = a * C /\ forall s c, s < a -> c < C -> (nth (s * C + c) m 0%Z <> 0%Z <-> c < n \/ (C - a <= c /\ c <= C - a + s)).

Lemma visible_spec a n m s : mask_ok a n m -> a <= C -> n <= C - a -> s < a -> visible g m s = seq 0 n ++ seq (C - a) (s + 1).
Proof.
  intros (_ & M) Ha Hn Hs. unfold visible.
  assert (Sp : seq 0 C = seq 0 n ++ seq n (C - a - n) ++ seq (C - a) (s + 1) ++ seq (C - a + s + 1) (a - s - 1)).
  { replace C with (n + ((C - a - n) + ((s + 1) + (a - s - 1)))) at 1 by lia.
    rewrite !seq_app. cbn [Nat.add]. replace (n + (C - a - n)) with (C - a) by lia. rewrite Nat.add_assoc. reflexivity. }
  set (f := fun c => negb (nth (s * C + c) m 0%Z =? 0)%Z).
  assert (F : forall c, c < C -> (f c = true <-> c < n \/ (C - a <= c /\ c <= C - a + s))).
  { intros c Hc. rewrite <- (M s c Hs Hc). unfold f. rewrite negb_true_iff, Z.eqb_neq. reflexivity. }
  rewrite Sp, !filter_app.
  rewrite (filter_all f (seq 0 n)), (filter_none f (seq n _)), (filter_all f (seq (C - a) _)), (filter_none f (seq (C - a + s + 1) _)).
  - cbn [app]. rewrite app_nil_r. reflexivity.
  - intros c Hc. apply in_seq in Hc. apply not_true_is_false. rewrite F by lia. lia.
  - intros c Hc. apply in_seq in Hc. rewrite F by lia. lia.
  - intros c Hc. apply in_seq in Hc. apply not_true_is_false. rewrite F by lia. lia.
  - intros c Hc. apply in_seq in Hc. rewrite F by lia. lia.
Qed.

Hypothesis HK : forall j x q, length (kproj j x q) = HD.
Hypothesis HV : forall j x q, length (vproj j x q) = HD.

Lemma nth_combine_map {Y} (f : X -> Z -> Y) (xs : list X) (pos : list Z) s d dx :
  length xs = length pos -> s < length xs -> nth s (map (fun xp => f (fst xp) (snd xp)) (combine xs pos)) d = f (nth s xs dx) (nth s pos 0%Z).
Proof.
  intros L H. set (F := fun xp : X * Z => f (fst xp) (snd xp)).
  rewrite nth_indep with (d' := F (dx, 0%Z)) by (rewrite map_length, combine_length; lia).
  rewrite map_nth, combine_nth by exact L. reflexivity.
Qed.

Lemma g_layer_ok a l xs pos m kb vb ts n ch xs1 ks vs :
  length xs = a -> length pos = a -> ch <= a -> a <= C -> n <= C - a -> mask_ok a n m ->
  (forall s, s < ch -> nth s xs (embed 0) = hidden l ts (n + s)) ->
  (forall s, s < ch -> nth s pos 0%Z = Z.of_nat (n + s)) ->
  (forall t, t < n -> past_key g a kb t = key_of l ts t) -> (forall t, t < n -> past_value g a vb t = value_of l ts t) ->
  g_layer g embed kproj vproj mix a l xs pos m kb vb = (xs1, ks, vs) ->
  length xs1 = a /\ length ks = a /\ length vs = a /\ (forall x, In x ks -> length x = HD) /\ (forall x, In x vs -> length x = HD) /\
  (forall s, s < ch -> nth s xs1 (embed 0) = hidden (S l) ts (n + s) /\ nth s ks [] = key_of l ts (n + s) /\ nth s vs [] = value_of l ts (n + s)).
Proof.
  intros Lx Lp Hch Ha Hn M Hx Hp Pk Pv E. unfold g_layer in E. cbv zeta in E.
  set (ks0 := map (fun xp => kproj l (fst xp) (snd xp)) (combine xs pos)) in E.
  set (vs0 := map (fun xp => vproj l (fst xp) (snd xp)) (combine xs pos)) in E.
  assert (E1 : ks = ks0) by congruence. assert (E2 : vs = vs0) by congruence.
  assert (Nk : forall s, s < ch -> nth s ks0 [] = key_of l ts (n + s)).
  { intros s Hs. unfold ks0. rewrite (nth_combine_map (kproj l) xs pos s [] (embed 0)) by lia. rewrite Hx, Hp by exact Hs. reflexivity. }
  assert (Nv : forall s, s < ch -> nth s vs0 [] = value_of l ts (n + s)).
  { intros s Hs. unfold vs0. rewrite (nth_combine_map (vproj l) xs pos s [] (embed 0)) by lia. rewrite Hx, Hp by exact Hs. reflexivity. }
  split; [|split; [|split; [|split; [|split]]]].
  - assert (E3 : length xs1 = length (seq 0 a)) by (injection E as <- _ _; apply map_length). rewrite E3. apply seq_length.
  - rewrite E1. unfold ks0. rewrite map_length, combine_length. lia.
  - rewrite E2. unfold vs0. rewrite map_length, combine_length. lia.
  - intros x Hi. rewrite E1 in Hi. apply in_map_iff in Hi as (y & <- & _). apply HK.
  - intros x Hi. rewrite E2 in Hi. apply in_map_iff in Hi as (y & <- & _). apply HV.
  - intros s Hs. split; [|rewrite E1, E2; auto].
    injection E as <- _ _. rewrite nth_map_seq by lia. rewrite (visible_spec a n m s M Ha Hn) by lia.
    rewrite Hx, Hp by exact Hs. cbn [SessSpec.hidden]. rewrite !map_app.
    replace (S (n + s)) with (n + (s + 1)) by lia. rewrite (seq_app n (s + 1) 0), !map_app. cbn [Nat.add].
    f_equal; f_equal.
    + apply map_seq_eq. intros j Hj. destruct (Nat.ltb_spec (0 + j) (C - a)); [|lia]. apply Pk. lia.
    + apply map_seq_eq. intros j Hj. destruct (Nat.ltb_spec (C - a + j) (C - a)); [lia|].
      replace (C - a + j - (C - a)) with j by lia. apply Nk. lia.
    + apply map_seq_eq. intros j Hj. destruct (Nat.ltb_spec (0 + j) (C - a)); [|lia]. apply Pv. lia.
    + apply map_seq_eq. intros j Hj. destruct (Nat.ltb_spec (C - a + j) (C - a)); [lia|].
      replace (C - a + j - (C - a)) with j by lia. apply Nv. lia.
Qed.

Lemma key_output_spec a rows : length rows = a -> length (key_output g rows) = HD * a /\
  forall r s, r < HD -> s < a -> nth (r * a + s) (key_output g rows) 0%Z = nth r (nth s rows []) 0%Z.
Proof.
  intro L. unfold key_output. split.
  - rewrite (flat_map_len _ a) by (intros; rewrite map_length; exact L). rewrite seq_length. reflexivity.
  - intros r s Hr Hs. rewrite (nth_flat_map _ a) by (auto; intros; rewrite map_length; exact L). cbn [Nat.add].
    set (F := fun x : list Z => nth r x 0%Z). rewrite nth_indep with (d' := F []) by (rewrite map_length; lia). apply map_nth.
Qed.
Lemma value_output_spec a rows : length rows = a -> (forall x, In x rows -> length x = HD) ->
  length (value_output g rows) = HD * a /\
  forall h s d, h < c_H g -> s < a -> d < c_D g -> nth ((h * a + s) * c_D g + d) (value_output g rows) 0%Z = nth (h * c_D g + d) (nth s rows []) 0%Z.
Proof.
  intros L HL. unfold value_output.
  assert (Li : forall h x, h < c_H g -> In x rows -> length (firstn (c_D g) (skipn (h * c_D g) x)) = c_D g).
  { intros h x Hh Hx. rewrite firstn_length, skipn_length, (HL x Hx). clear - Hh. nia. }
  assert (Lb : forall h, h < c_H g -> length (flat_map (fun x => firstn (c_D g) (skipn (h * c_D g) x)) rows) = a * c_D g).
  { intros h Hh. rewrite (flat_map_len _ (c_D g)) by (intros; apply Li; auto). rewrite L. reflexivity. }
  split.
  - rewrite (flat_map_len _ (a * c_D g)) by (intros h Hh; apply in_seq in Hh; apply Lb; lia). rewrite seq_length. clear. nia.
  - intros h s d Hh Hs Hd. replace ((h * a + s) * c_D g + d) with (h * (a * c_D g) + (s * c_D g + d)) by (clear; nia).
    rewrite (nth_flat_map _ (a * c_D g)); [|intros i Hi; apply Lb; lia|exact Hh|clear - Hs Hd; nia]. cbn [Nat.add].
    rewrite (nth_flat_map_list _ (c_D g) 0%Z []); [|intros; apply Li; auto|lia|exact Hd].
    rewrite nth_firstn_lt' by exact Hd. apply nth_skipn'.
Qed.

(** K/V buffers arranged with rows of [S] tokens hold the first [n] tokens of [ts] (layer [l]). *)
Definition kholds (S n l : nat) (ts b : list Z) : Prop :=
  forall r t, r < HD -> t < n -> nth (r * S + t) b 0%Z = nth r (key_of l ts t) 0%Z.
Definition vholds (S n l : nat) (ts b : list Z) : Prop :=
  forall h t d, h < c_H g -> t < n -> d < c_D g -> nth ((h * S + t) * c_D g + d) b 0%Z = nth (h * c_D g + d) (value_of l ts t) 0%Z.

Lemma list_by_nth (u : list Z) k f : length u = k -> (forall r, r < k -> f r = nth r u 0%Z) -> map f (seq 0 k) = u.
Proof.
  intros L H. apply nth_ext with (d := 0%Z) (d' := 0%Z); [rewrite map_length, seq_length; auto|].
  intros i Hi. rewrite map_length, seq_length in Hi. rewrite nth_map_seq by exact Hi. apply H, Hi.
Qed.
Lemma kholds_past a n l ts b : kholds (C - a) n l ts b -> forall t, t < n -> past_key g a b t = key_of l ts t.
Proof. intros H t Ht. apply list_by_nth; [apply HK|]. intros r Hr. apply H; auto. Qed.
Lemma vholds_past a n l ts b : vholds (C - a) n l ts b -> forall t, t < n -> past_value g a b t = value_of l ts t.
Proof.
  intros H t Ht. apply list_by_nth; [apply HV|]. intros r Hr.
  assert (D0 : c_D g <> 0) by (intro Z0; rewrite Z0 in Hr; lia).
  rewrite H; [|apply Nat.div_lt_upper_bound; [exact D0|lia]|exact Ht|apply Nat.mod_upper_bound, D0].
  f_equal. rewrite (Nat.div_mod r (c_D g) D0) at 3. lia.
Qed.

(** All layers. *)
Lemma g_layers_ok a m pos ts n ch : length pos = a -> ch <= a -> a <= C -> n <= C - a -> mask_ok a n m ->
  (forall s, s < ch -> nth s pos 0%Z = Z.of_nat (n + s)) ->
  forall kin vin kout vout l xs,
  length vin = length kin -> length kout = length kin -> length vout = length kin ->
  length xs = a -> (forall s, s < ch -> nth s xs (embed 0) = hidden l ts (n + s)) ->
  (forall j, j < length kin -> kholds (C - a) n (l + j) ts (nth j kin []) /\ vholds (C - a) n (l + j) ts (nth j vin []) /\
     HD * a <= length (nth j kout []) /\ HD * a <= length (nth j vout [])) ->
  exists xs2 ko vo, g_layers g embed kproj vproj mix a l xs pos m kin vin kout vout = ROk (xs2, ko, vo) /\
    length xs2 = a /\ (forall s, s < ch -> nth s xs2 (embed 0) = hidden (l + length kin) ts (n + s)) /\
    map (@length Z) ko = map (@length Z) kout /\ map (@length Z) vo = map (@length Z) vout /\
    forall j, j < length kin ->
      (forall r s, r < HD -> s < ch -> nth (r * a + s) (nth j ko []) 0%Z = nth r (key_of (l + j) ts (n + s)) 0%Z) /\
      (forall h s d, h < c_H g -> s < ch -> d < c_D g -> nth ((h * a + s) * c_D g + d) (nth j vo []) 0%Z = nth (h * c_D g + d) (value_of (l + j) ts (n + s)) 0%Z).
Proof.
  intros Lp Hch Ha Hn M Hp. induction kin as [|kb kin IH]; intros vin kout vout l xs L1 L2 L3 Lx Hx HB.
  - cbn [g_layers]. exists xs, [], []. split; [reflexivity|]. split; [exact Lx|]. cbn [length] in *.
    destruct kout; [|discriminate]. destruct vout; [|discriminate]. split; [rewrite Nat.add_0_r; exact Hx|]. split; [reflexivity|]. split; [reflexivity|]. intros; lia.
  - destruct vin as [|vb vin]; [discriminate|]. destruct kout as [|ko kout]; [discriminate|]. destruct vout as [|vo vout]; [discriminate|].
    cbn [length] in L1, L2, L3. cbn [g_layers].
    destruct (g_layer g embed kproj vproj mix a l xs pos m kb vb) as [[xs1 ks] vs] eqn:EL.
    destruct (HB 0 ltac:(cbn; lia)) as (K0 & V0 & B1 & B2). rewrite Nat.add_0_r in K0, V0. cbn [nth] in K0, V0, B1, B2.
    destruct (g_layer_ok a l xs pos m kb vb ts n ch xs1 ks vs Lx Lp Hch Ha Hn M Hx Hp
      (kholds_past a n l ts kb K0) (vholds_past a n l ts vb V0) EL) as (Q1 & Q2 & Q3 & Q4 & Q5 & Q6).
    destruct (key_output_spec a ks Q2) as (KL & KN). destruct (value_output_spec a vs Q3 Q5) as (VL & VN).
    destruct (put_spec ko 0 (key_output g ks)) as (ko1 & P1 & P2 & P3); [lia|].
    destruct (put_spec vo 0 (value_output g vs)) as (vo1 & R1 & R2 & R3); [lia|].
    rewrite P1. cbn [rbind]. rewrite R1. cbn [rbind].
    destruct (IH vin kout vout (S l) xs1) as (xs2 & kos & vos & E & T1 & T2 & T3 & T4 & T5); try lia.
    { intros s Hs. apply Q6, Hs. }
    { intros j Hj. specialize (HB (S j) ltac:(cbn; lia)). cbn [nth] in HB. rewrite Nat.add_succ_r in HB. exact HB. }
    rewrite E. cbn [rbind]. exists xs2, (ko1 :: kos), (vo1 :: vos). split; [reflexivity|]. split; [exact T1|].
    split; [intros s Hs; cbn [length]; rewrite Nat.add_succ_r; apply T2, Hs|].
    split; [cbn [map]; rewrite P2, T3; reflexivity|]. split; [cbn [map]; rewrite R2, T4; reflexivity|].
    intros [|j] Hj.
    + rewrite Nat.add_0_r. cbn [nth]. split.
      * intros r s Hr Hs. rewrite P3, KL. replace ((0 <=? r * a + s) && (r * a + s <? 0 + HD * a)) with true
          by (symmetry; apply andb_true_intro; split; [apply Nat.leb_le; lia|apply Nat.ltb_lt; clear - Hr Hs Hch; nia]).
        rewrite Nat.sub_0_r, KN by lia. rewrite (proj1 (proj2 (Q6 s Hs))). reflexivity.
      * intros h s d Hh Hs Hd. rewrite R3, VL.
        assert (Bd : (h * a + s) * c_D g + d < HD * a).
        { assert (h * a + s < c_H g * a) by (clear - Hh Hs Hch; nia). clear - H Hd. nia. }
        replace ((0 <=? (h * a + s) * c_D g + d) && ((h * a + s) * c_D g + d <? 0 + HD * a)) with true
          by (symmetry; apply andb_true_intro; split; [apply Nat.leb_le; lia|apply Nat.ltb_lt; lia]).
        rewrite Nat.sub_0_r, VN by lia. rewrite (proj2 (proj2 (Q6 s Hs))). reflexivity.
    + rewrite Nat.add_succ_r. cbn [nth]. apply (T5 j). cbn [length] in Hj. lia.
Qed.
End Net.
