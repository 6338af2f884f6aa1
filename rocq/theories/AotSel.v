(** Storing selected tokens (speculative decoding). *)
From Verif Require Import Base DTypeModel ParamModel TensorModel GenModel AotModel AotSpec AotProofs AotGraph AotRun.
Local Open Scope nat_scope.

(** A loop over rows of [R] entries that sets each row to [G]. *)
Lemma rows_spec rows R body b0 (G : nat -> nat -> Z) : rows * R <= length b0 ->
  (forall i b, i < rows -> length b = length b0 -> (forall j, j < R -> nth (i * R + j) b 0%Z = nth (i * R + j) b0 0%Z) ->
     exists b', body i b = ROk b' /\ length b' = length b /\ (forall j, j < R -> nth (i * R + j) b' 0%Z = G i j) /\
       forall p, p < i * R \/ (i + 1) * R <= p -> nth p b' 0%Z = nth p b 0%Z) ->
  exists b', for_up rows 0 body b0 = ROk b' /\ length b' = length b0 /\ forall r j, r < rows -> j < R -> nth (r * R + j) b' 0%Z = G r j.
Proof.
  intros HB H.
  destruct (for_up_inv (fun i c => length c = length b0 /\ (forall r j, r < i -> j < R -> nth (r * R + j) c 0%Z = G r j) /\
      forall p, i * R <= p -> nth p c 0%Z = nth p b0 0%Z) body rows 0 b0) as (b' & E & L & R1 & _).
  - split; [reflexivity|]. split; [intros; lia|]. reflexivity.
  - intros i c Hi (L & R1 & R2). destruct (H i c) as (c' & E & L' & N1 & N2); [lia|exact L|intros j Hj; apply R2; lia|].
    exists c'. split; [exact E|]. split; [lia|]. split.
    + intros r j Hr Hj. destruct (Nat.eq_dec r i) as [->|Ne]; [apply N1, Hj|]. rewrite N2.
      * apply R1; lia.
      * left. assert (r < i) by lia. clear - H0 Hj. nia.
    + intros p Hp. rewrite N2 by (right; exact Hp). apply R2. clear - Hp. nia.
  - exists b'. split; [exact E|]. split; [exact L|]. intros r j Hr Hj. apply R1; auto.
Qed.

Lemma picked_shift : forall sel i k, picked sel (i + k) = map (fun x => x + k) (picked sel i).
Proof.
  induction sel as [|s sel IH]; intros i k; [reflexivity|]. cbn [picked]. specialize (IH (S i) k). cbn [Nat.add] in IH.
  destruct s; cbn [map]; rewrite IH; reflexivity.
Qed.
Lemma picked_lt : forall sel i x, In x (picked sel i) -> i <= x < i + length sel.
Proof.
  induction sel as [|s sel IH]; intros i x H; [destruct H|]. cbn [picked length] in *. destruct s; [destruct H as [->|H]; [lia|]|]; apply IH in H; lia.
Qed.
Lemma true_indices_spec : forall sel i n, true_indices sel i n = firstn n (picked sel i).
Proof.
  induction sel as [|s sel IH]; intros i n; [destruct n; reflexivity|].
  destruct n as [|n]; [destruct s; reflexivity|]. cbn [true_indices picked]. destruct s; [cbn [firstn]; f_equal; apply IH|apply IH].
Qed.

(** One row of K. *)
Lemma key_inner u P O (f : nat -> nat) out b : P + u <= length b -> (forall j, j < u -> O + f j < length out) ->
  exists b', for_up u 0 (fun j b => copy b (P + j) out (O + f j) 1) b = ROk b' /\ length b' = length b /\
    (forall j, j < u -> nth (P + j) b' 0%Z = nth (O + f j) out 0%Z) /\ forall p, p < P \/ P + u <= p -> nth p b' 0%Z = nth p b 0%Z.
Proof.
  intros HB HO.
  destruct (for_up_inv (fun i c => length c = length b /\ (forall j, j < i -> nth (P + j) c 0%Z = nth (O + f j) out 0%Z) /\
     forall p, p < P \/ P + i <= p -> nth p c 0%Z = nth p b 0%Z) (fun j b => copy b (P + j) out (O + f j) 1) u 0 b) as (b' & E & L & R1 & R2).
  - split; [reflexivity|]. split; [intros; lia|]. reflexivity.
  - intros i c Hi (L & R1 & R2). specialize (HO i ltac:(lia)).
    destruct (copy_spec c (P + i) out (O + f i) 1) as (c' & E & L' & N); [lia|lia|].
    exists c'. split; [exact E|]. split; [lia|]. split.
    + intros j Hj. rewrite N. destruct (Nat.eq_dec j i) as [->|Ne].
      * replace ((P + i <=? P + i) && (P + i <? P + i + 1)) with true by (symmetry; apply andb_true_intro; rewrite Nat.leb_le, Nat.ltb_lt; lia). f_equal. lia.
      * replace ((P + i <=? P + j) && (P + j <? P + i + 1)) with false by (symmetry; apply andb_false_iff; rewrite Nat.leb_gt, Nat.ltb_ge; lia). apply R1. lia.
    + intros p Hp. rewrite N. replace ((P + i <=? p) && (p <? P + i + 1)) with false by (symmetry; apply andb_false_iff; rewrite Nat.leb_gt, Nat.ltb_ge; lia). apply R2. lia.
  - exists b'. split; [exact E|]. split; [exact L|]. split; [exact R1|exact R2].
Qed.

(** One head of V: [k] tokens are still to be stored. *)
Lemma value_inner w n out : forall sel cnt wp rp b, cnt < n -> n - cnt <= length (picked sel 0) ->
  wp + (n - cnt) * w <= length b -> rp + length sel * w <= length out ->
  exists b', update_selected w n sel cnt wp rp out b = ROk b' /\ length b' = length b /\
    (forall j d, j < n - cnt -> d < w -> nth (wp + j * w + d) b' 0%Z = nth (rp + nth j (picked sel 0) 0 * w + d) out 0%Z) /\
    forall p, p < wp \/ wp + (n - cnt) * w <= p -> nth p b' 0%Z = nth p b 0%Z.
Proof.
  induction sel as [|s sel IH]; intros cnt wp rp b Hc Hp HB HO; [cbn in Hp; lia|].
  cbn [update_selected]. cbn [length] in HO.
  assert (PS : picked sel 1 = map (fun x => x + 1) (picked sel 0)) by exact (picked_shift sel 0 1).
  destruct s.
  - cbn [picked length] in Hp. rewrite PS, map_length in Hp.
    destruct (copy_spec b wp out rp w) as (b1 & E1 & L1 & N1); [clear - HB Hc; nia|clear - HO; nia|]. rewrite E1. cbn [rbind]. cbv zeta.
    destruct (Nat.eqb_spec (cnt + 1) n) as [En|En].
    + exists b1. split; [reflexivity|]. split; [exact L1|]. replace (n - cnt) with 1 in * by lia. split.
      * intros j d Hj Hd. assert (j = 0) by lia. subst j. cbn [picked nth]. rewrite N1.
        replace ((wp <=? wp + 0 * w + d) && (wp + 0 * w + d <? wp + w)) with true by (symmetry; apply andb_true_intro; rewrite Nat.leb_le, Nat.ltb_lt; lia). f_equal. lia.
      * intros p H. rewrite N1. replace ((wp <=? p) && (p <? wp + w)) with false by (symmetry; apply andb_false_iff; rewrite Nat.leb_gt, Nat.ltb_ge; lia). reflexivity.
    + destruct (IH (cnt + 1) (wp + w) (rp + w) b1) as (b2 & E2 & L2 & R1 & R2); [lia|lia| |lia|].
      { rewrite L1. assert (X : (n - cnt) * w = w + (n - (cnt + 1)) * w) by (replace (n - cnt) with (S (n - (cnt + 1))) by lia; reflexivity). lia. }
      assert (X : (n - cnt) * w = w + (n - (cnt + 1)) * w) by (replace (n - cnt) with (S (n - (cnt + 1))) by lia; reflexivity).
      exists b2. split; [exact E2|]. split; [lia|]. split.
      * intros j d Hj Hd. destruct j as [|j].
        -- rewrite R2 by (left; lia). rewrite N1. cbn [picked nth].
           replace ((wp <=? wp + 0 * w + d) && (wp + 0 * w + d <? wp + w)) with true by (symmetry; apply andb_true_intro; rewrite Nat.leb_le, Nat.ltb_lt; lia). f_equal. lia.
        -- replace (wp + S j * w + d) with (wp + w + j * w + d) by (cbn; lia). rewrite R1 by lia. cbn [picked nth]. rewrite PS.
           rewrite (nth_indep (map _ _) 0 ((fun x => x + 1) 0)) by (rewrite map_length; lia).
           rewrite (map_nth (fun x => x + 1)). f_equal. lia.
      * intros p H. rewrite X in H. set (y := (n - (cnt + 1)) * w) in *. clearbody y. rewrite R2 by lia. rewrite N1.
        replace ((wp <=? p) && (p <? wp + w)) with false by (symmetry; apply andb_false_iff; rewrite Nat.leb_gt, Nat.ltb_ge; lia). reflexivity.
  - cbn [picked] in Hp. rewrite PS, map_length in Hp. cbn [rbind]. cbv zeta. destruct (Nat.eqb_spec cnt n) as [En|En]; [lia|].
    destruct (IH cnt wp (rp + w) b) as (b2 & E2 & L2 & R1 & R2); [lia|lia|lia|lia|].
    exists b2. split; [exact E2|]. split; [lia|]. split; [|exact R2].
    intros j d Hj Hd. rewrite R1 by lia. cbn [picked]. rewrite PS.
    rewrite (nth_indep (map _ _) 0 ((fun x => x + 1) 0)) by (rewrite map_length; lia).
    rewrite (map_nth (fun x => x + 1)). f_equal. lia.
Qed.

Section Sel.
Variable g : config.
Variables a n u : nat.
Variable sel : list bool.
Hypothesis Hsel : length sel <= a.
Hypothesis Hu : 1 <= u <= length (picked sel 0).
Hypothesis Hn : n + u <= width g a.

Lemma picks j : j < u -> nth j (true_indices sel 0 u) 0 = nth j (picked sel 0) 0 /\ nth j (picked sel 0) 0 < length sel.
Proof.
  intro Hj. rewrite true_indices_spec. split; [apply nth_firstn_lt', Hj|].
  assert (I : In (nth j (picked sel 0) 0) (picked sel 0)) by (apply nth_In; lia). apply picked_lt in I. lia.
Qed.

Lemma update_key_sel b out : c_H g * c_D g * width g a <= length b -> c_H g * c_D g * a <= length out ->
  exists b', update_key g a n u sel b out = ROk b' /\ length b' = length b /\
    forall e t, e < c_H g * c_D g -> t < width g a ->
      key_entry g a b' e t = if (n <=? t) && (t <? n + u) then key_result a out e (nth (t - n) (picked sel 0) 0) else key_entry g a b e t.
Proof.
  intros HB HO. unfold update_key, key_entry, key_result. destruct sel as [|s0 sl] eqn:Es; [cbn in Hu; lia|]. rewrite <- Es in *. clear Es s0 sl. cbv zeta.
  rewrite (Nat.mul_comm (c_D g)). change (cache_num g a) with (width g a).
  apply rows_spec; [exact HB|].
  intros i c Hi Lc Hc.
  assert (E0 : (i + 1) * width g a <= c_H g * c_D g * width g a) by (apply Nat.mul_le_mono_r; lia).
  assert (E1 : (i + 1) * a <= c_H g * c_D g * a) by (apply Nat.mul_le_mono_r; lia).
  destruct (key_inner u (n + i * width g a) (i * a) (fun j => nth j (true_indices sel 0 u) 0) out c) as (c' & E & L & R1 & R2).
  { rewrite Lc. rewrite Nat.mul_add_distr_r in E0. lia. }
  { intros j Hj. destruct (picks j Hj) as (-> & Q). rewrite Nat.mul_add_distr_r in E1. lia. }
  exists c'. split; [exact E|]. split; [exact L|]. split.
  - intros j Hj. destruct (Nat.leb_spec n j), (Nat.ltb_spec j (n + u)); cbn [andb].
    + replace (i * width g a + j) with (n + i * width g a + (j - n)) by lia. rewrite R1 by lia. rewrite (proj1 (picks (j - n) ltac:(lia))). reflexivity.
    + rewrite R2 by lia. apply Hc, Hj.
    + rewrite R2 by lia. apply Hc, Hj.
    + rewrite R2 by lia. apply Hc, Hj.
  - intros p Hp. apply R2. rewrite Nat.mul_add_distr_r in Hp. lia.
Qed.

Lemma update_value_sel b out : c_H g * c_D g * width g a <= length b -> c_H g * c_D g * a <= length out ->
  exists b', update_value g a n u sel b out = ROk b' /\ length b' = length b /\
    forall h t d, h < c_H g -> t < width g a -> d < c_D g ->
      value_entry g a b' h t d = if (n <=? t) && (t <? n + u) then value_result g a out h (nth (t - n) (picked sel 0) 0) d else value_entry g a b h t d.
Proof.
  intros HB HO. unfold update_value, value_entry, value_result. destruct sel as [|s0 sl] eqn:Es; [cbn in Hu; lia|]. rewrite <- Es in *. clear Es s0 sl.
  change (cache_num g a) with (width g a). set (W := width g a) in *. set (D := c_D g) in *.
  set (G := fun h q => if (n <=? q / D) && (q / D <? n + u) then nth ((h * a + nth (q / D - n) (picked sel 0) 0) * D + q mod D) out 0%Z else nth (h * (W * D) + q) b 0%Z).
  destruct (rows_spec (c_H g) (W * D) (fun i b => update_selected D u sel 0 (n * D + i * (W * D)) (i * (a * D)) out b) b G) as (b' & E & L & R).
  { clear - HB. nia. }
  { intros i c Hi Lc Hc.
    assert (E0 : (i + 1) * (W * D) <= c_H g * (W * D)) by (apply Nat.mul_le_mono_r; lia).
    assert (E1 : (i + 1) * (a * D) <= c_H g * (a * D)) by (apply Nat.mul_le_mono_r; lia).
    assert (E2 : (n + u) * D <= W * D) by (apply Nat.mul_le_mono_r; lia).
    assert (E3 : length sel * D <= a * D) by (apply Nat.mul_le_mono_r; lia).
    rewrite !Nat.mul_add_distr_r in E0, E1, E2. rewrite !Nat.mul_1_l in E0, E1.
    replace (c_H g * D * W) with (c_H g * (W * D)) in HB by (clear; nia). replace (c_H g * D * a) with (c_H g * (a * D)) in HO by (clear; nia).
    destruct (value_inner D u out sel 0 (n * D + i * (W * D)) (i * (a * D)) c) as (c' & E & L & R1 & R2); [lia|lia|rewrite Nat.sub_0_r; lia|lia|].
    rewrite Nat.sub_0_r in R1, R2. exists c'. split; [exact E|]. split; [exact L|]. split.
    - intros q Hq. unfold G. assert (D0 : D <> 0) by (intro Z0; rewrite Z0 in Hq; lia).
      pose proof (Nat.div_mod q D D0) as DM. pose proof (Nat.mod_upper_bound q D D0) as MB.
      set (t := q / D) in *. set (d := q mod D) in *.
      destruct (Nat.leb_spec n t), (Nat.ltb_spec t (n + u)); cbn [andb].
      + replace (i * (W * D) + q) with (n * D + i * (W * D) + (t - n) * D + d).
        * rewrite R1 by lia. f_equal. clear; nia.
        * rewrite DM. rewrite Nat.mul_sub_distr_r. assert (n * D <= t * D) by (apply Nat.mul_le_mono_r; lia). lia.
      + rewrite R2; [apply Hc, Hq|]. right. rewrite DM. assert ((n + u) * D <= t * D) by (apply Nat.mul_le_mono_r; lia). lia.
      + rewrite R2; [apply Hc, Hq|]. left. rewrite DM. assert ((t + 1) * D <= n * D) by (apply Nat.mul_le_mono_r; lia). lia.
      + rewrite R2; [apply Hc, Hq|]. left. rewrite DM. assert ((t + 1) * D <= n * D) by (apply Nat.mul_le_mono_r; lia). lia.
    - intros p Hp. apply R2. rewrite Nat.mul_add_distr_r in Hp. lia. }
  exists b'. split; [exact E|]. split; [exact L|]. intros h t d Hh Ht Hd.
  assert (E2 : (t + 1) * D <= W * D) by (apply Nat.mul_le_mono_r; lia).
  replace ((h * W + t) * D + d) with (h * (W * D) + (t * D + d)) by (clear; nia).
  rewrite R by lia. unfold G.
  assert (Q1 : (t * D + d) / D = t) by (symmetry; apply Nat.div_unique with (r := d); lia).
  assert (Q2 : (t * D + d) mod D = d) by (symmetry; apply Nat.mod_unique with (q := t); lia).
  rewrite Q1, Q2. reflexivity.
Qed.
End Sel.
