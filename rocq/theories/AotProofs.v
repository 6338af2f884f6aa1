(** Buffers, loops, rearrangement, masks. *)
From Verif Require Import Base DTypeModel ParamModel TensorModel GenModel SessModel SessSpec SessProofs AotModel AotSpec.
Local Open Scope nat_scope.

(** ** Buffers *)
Lemma nth_firstn_lt' {Y} (l : list Y) : forall n i d, i < n -> nth i (firstn n l) d = nth i l d.
Proof. induction l as [|x l IH]; intros [|n] [|i] d H; cbn; auto; try lia. apply IH. lia. Qed.
Lemma nth_skipn' {Y} (l : list Y) : forall n i d, nth i (skipn n l) d = nth (n + i) l d.
Proof. induction l as [|x l IH]; intros [|n] i d; cbn; auto. destruct i; reflexivity. Qed.

Lemma put_spec b p xs : p + length xs <= length b ->
  exists b', put b p xs = ROk b' /\ length b' = length b /\
    forall i, nth i b' 0%Z = if (p <=? i) && (i <? p + length xs) then nth (i - p) xs 0%Z else nth i b 0%Z.
Proof.
  intro H. unfold put. destruct (Nat.leb_spec (p + length xs) (length b)); [|lia].
  eexists; split; [reflexivity|]. split.
  - rewrite !app_length, firstn_length, skipn_length. lia.
  - intro i. destruct (Nat.leb_spec p i); cbn [andb].
    + rewrite app_nth2 by (rewrite firstn_length; lia). rewrite firstn_length, Nat.min_l by lia.
      destruct (Nat.ltb_spec i (p + length xs)).
      * rewrite app_nth1 by lia. reflexivity.
      * rewrite app_nth2 by lia. rewrite nth_skipn'. f_equal. lia.
    + rewrite app_nth1 by (rewrite firstn_length; lia). apply nth_firstn_lt'. lia.
Qed.
Lemma put_len b p xs b' : put b p xs = ROk b' -> length b' = length b.
Proof.
  unfold put. destruct (Nat.leb_spec (p + length xs) (length b)); [|discriminate]. intro E. injection E as <-.
  rewrite !app_length, firstn_length, skipn_length. lia.
Qed.
Lemma get_spec b p n : p + n <= length b ->
  exists xs, get b p n = ROk xs /\ length xs = n /\ forall i, i < n -> nth i xs 0%Z = nth (p + i) b 0%Z.
Proof.
  intro H. unfold get. destruct (Nat.leb_spec (p + n) (length b)); [|lia]. eexists; split; [reflexivity|]. split.
  - rewrite firstn_length, skipn_length. lia.
  - intros i Hi. rewrite nth_firstn_lt' by lia. apply nth_skipn'.
Qed.
Lemma copy_spec b dst o src n : dst + n <= length b -> src + n <= length o ->
  exists b', copy b dst o src n = ROk b' /\ length b' = length b /\
    forall i, nth i b' 0%Z = if (dst <=? i) && (i <? dst + n) then nth (src + (i - dst)) o 0%Z else nth i b 0%Z.
Proof.
  intros H1 H2. unfold copy. destruct (get_spec o src n H2) as (xs & -> & L & E). cbn [rbind].
  destruct (put_spec b dst xs) as (b' & P1 & P2 & P3); [lia|]. exists b'. split; [exact P1|]. split; [exact P2|].
  intro i. rewrite P3, L. destruct (Nat.leb_spec dst i), (Nat.ltb_spec i (dst + n)); cbn [andb]; auto. apply E. lia.
Qed.
Lemma move_spec b dst src n : dst + n <= length b -> src + n <= length b ->
  exists b', move b dst src n = ROk b' /\ length b' = length b /\
    forall i, nth i b' 0%Z = if (dst <=? i) && (i <? dst + n) then nth (src + (i - dst)) b 0%Z else nth i b 0%Z.
Proof. exact (copy_spec b dst b src n). Qed.
Lemma move_len b d s n b' : move b d s n = ROk b' -> length b' = length b.
Proof. unfold move. destruct (get b s n); try discriminate. cbn [rbind]. apply put_len. Qed.
Lemma copy_len b d o s n b' : copy b d o s n = ROk b' -> length b' = length b.
Proof. unfold copy. destruct (get o s n); try discriminate. cbn [rbind]. apply put_len. Qed.
Lemma fill_spec b p n v : p + Z.to_nat n <= length b ->
  exists b', fill b p n v = ROk b' /\ length b' = length b /\
    forall i, nth i b' 0%Z = if (p <=? i) && (i <? p + Z.to_nat n) then v else nth i b 0%Z.
Proof.
  intro H. unfold fill. destruct (put_spec b p (repeat v (Z.to_nat n))) as (b' & P1 & P2 & P3); [rewrite repeat_length; lia|].
  exists b'. split; [exact P1|]. split; [exact P2|]. intro i. rewrite P3, repeat_length.
  destruct (Nat.leb_spec p i), (Nat.ltb_spec i (p + Z.to_nat n)); cbn [andb]; auto.
  rewrite nth_indep with (d' := v) by (rewrite repeat_length; lia). apply nth_repeat.
Qed.
Lemma fill_len b p n v b' : fill b p n v = ROk b' -> length b' = length b.
Proof. apply put_len. Qed.

(** ** Loops *)
Lemma for_up_inv {S} (P : nat -> S -> Prop) body : forall n i s, P i s ->
  (forall j s, i <= j < i + n -> P j s -> exists s', body j s = ROk s' /\ P (j + 1) s') ->
  exists s', for_up n i body s = ROk s' /\ P (i + n) s'.
Proof.
  induction n as [|n IH]; intros i s H0 H; cbn [for_up].
  - exists s. rewrite Nat.add_0_r. auto.
  - destruct (H i s ltac:(lia) H0) as (s1 & -> & H1). cbn [rbind].
    destruct (IH (Datatypes.S i) s1) as (s2 & E & H2).
    + replace (Datatypes.S i) with (i + 1) by lia. exact H1.
    + intros j t Hj. apply H. lia.
    + exists s2. split; [exact E|]. replace (i + Datatypes.S n) with (Datatypes.S i + n) by lia. exact H2.
Qed.
Lemma for_up_len {Y} (body : nat -> list Y -> res (list Y)) :
  (forall i b b', body i b = ROk b' -> length b' = length b) ->
  forall n i b b', for_up n i body b = ROk b' -> length b' = length b.
Proof.
  intro H. induction n as [|n IH]; intros i b b' E; cbn [for_up] in E; [injection E as <-; reflexivity|].
  destruct (body i b) as [b1| | |] eqn:Eb; try discriminate. cbn [rbind] in E. rewrite (IH _ _ _ E). eapply H, Eb.
Qed.
Lemma map_res_ok {X Y} (f : X -> res Y) (P : X -> Y -> Prop) : forall l,
  (forall x, In x l -> exists y, f x = ROk y /\ P x y) -> exists ys, map_res f l = ROk ys /\ Forall2 P l ys.
Proof.
  induction l as [|x l IH]; intro H; cbn [map_res]; [exists []; auto|].
  destruct (H x (or_introl eq_refl)) as (y & -> & Py). cbn [rbind].
  destruct IH as (ys & -> & F); [intros z Hz; apply H; right; exact Hz|]. exists (y :: ys). auto.
Qed.
Lemma map_res_inv {X Y} (f : X -> res Y) : forall l ys, map_res f l = ROk ys -> Forall2 (fun x y => f x = ROk y) l ys.
Proof.
  induction l as [|x l IH]; intros ys E; cbn [map_res] in E; [injection E as <-; constructor|].
  destruct (f x) as [y| | |] eqn:Ef; try discriminate. cbn [rbind] in E.
  destruct (map_res f l) as [r| | |] eqn:Er; try discriminate. injection E as <-. constructor; auto.
Qed.
Lemma forall2_nth {X Y} (P : X -> Y -> Prop) : forall l m, Forall2 P l m -> length l = length m /\
  forall i dx dy, i < length l -> P (nth i l dx) (nth i m dy).
Proof.
  induction 1 as [|x y l m H F IH]; [split; [reflexivity|cbn; lia]|]. destruct IH as (L & N). split; [cbn; lia|].
  intros [|i] dx dy Hi; cbn [nth length] in *; [exact H|]. apply N. lia.
Qed.

(** ** Rearranging rows *)
Lemma rearrange_rows_spec rows w src dst b : rows * (src * w) <= length b -> rows * (dst * w) <= length b ->
  exists b', rearrange_rows rows w src dst b = ROk b' /\ length b' = length b /\
    forall r j, r < rows -> j < src * w -> j < dst * w -> nth (r * (dst * w) + j) b' 0%Z = nth (r * (src * w) + j) b 0%Z.
Proof.
  intros HS HT. unfold rearrange_rows. destruct (Nat.ltb_spec dst src) as [Hlt|Hge].
  - assert (HTS : dst * w <= src * w) by (apply Nat.mul_le_mono_r; lia). set (T := dst * w) in *. set (S := src * w) in *. clearbody S T.
    destruct (for_up_inv (fun i c => length c = length b /\
        (forall r j, r < i -> j < T -> nth (r * T + j) c 0%Z = nth (r * S + j) b 0%Z) /\
        (forall p, i * S <= p -> nth p c 0%Z = nth p b 0%Z))
      (fun i c => move c (i * T) (i * S) T) rows 0 b) as (b' & E & L & R & _).
    + split; [reflexivity|]. split; [intros; lia|reflexivity].
    + intros i c Hi (L & R & U). destruct (move_spec c (i * T) (i * S) T) as (c' & E & L' & N); [clear R U; nia|clear R U; nia|].
      exists c'. split; [exact E|]. split; [lia|]. split.
      * intros r j Hr Hj. rewrite N. destruct (Nat.eq_dec r i) as [->|Ne].
        -- replace ((i * T <=? i * T + j) && (i * T + j <? i * T + T)) with true by (symmetry; apply andb_true_intro; split; [apply Nat.leb_le|apply Nat.ltb_lt]; lia).
           rewrite U by lia. f_equal. lia.
        -- assert (r * T + j < i * T) by (clear - Hr Hj Ne; nia).
           destruct (Nat.leb_spec (i * T) (r * T + j)); [lia|]. cbn [andb]. apply R; lia.
      * intros p Hp. rewrite N. assert (i * T + T <= p) by (clear - Hp HTS; nia).
        destruct (Nat.ltb_spec p (i * T + T)); [lia|]. rewrite andb_false_r. apply U. clear - Hp. nia.
    + exists b'. split; [exact E|]. split; [exact L|]. intros r j Hr _ Hj. apply R; [lia|exact Hj].
  - assert (HTS : src * w <= dst * w) by (apply Nat.mul_le_mono_r; lia). set (T := dst * w) in *. set (S := src * w) in *. clearbody S T.
    destruct (for_up_inv (fun i c => length c = length b /\
        (forall r j, rows - i <= r -> r < rows -> j < S -> nth (r * T + j) c 0%Z = nth (r * S + j) b 0%Z) /\
        (forall p, p < (rows - i) * S -> nth p c 0%Z = nth p b 0%Z))
      (fun i c => move c ((rows - 1 - i) * T) ((rows - 1 - i) * S) S) rows 0 b) as (b' & E & L & R & _).
    + split; [reflexivity|]. split; [intros; lia|reflexivity].
    + intros i c Hi (L & R & U). set (q := rows - 1 - i).
      assert (Hq : q + 1 <= rows) by (unfold q; lia). assert (Eq1 : rows - (i + 1) = q) by (unfold q; lia). assert (Eq2 : rows - i = q + 1) by (unfold q; lia).
      destruct (move_spec c (q * T) (q * S) S) as (c' & E & L' & N); [clear R U; nia|clear R U; nia|].
      exists c'. split; [exact E|]. rewrite Eq1. rewrite Eq2 in R, U. clearbody q. split; [lia|]. split.
      * intros r j Hr Hr2 Hj. rewrite N. destruct (Nat.eq_dec r q) as [->|Ne].
        -- replace ((q * T <=? q * T + j) && (q * T + j <? q * T + S)) with true by (symmetry; apply andb_true_intro; split; [apply Nat.leb_le|apply Nat.ltb_lt]; lia).
           rewrite U by (clear - Hj; nia). f_equal. lia.
        -- assert (q * T + S <= r * T + j) by (clear - Hr Ne HTS; nia).
           destruct (Nat.ltb_spec (r * T + j) (q * T + S)); [lia|]. rewrite andb_false_r. apply R; lia.
      * intros p Hp. rewrite N. assert (p < q * T) by (clear - Hp HTS; nia).
        destruct (Nat.leb_spec (q * T) p); [lia|]. cbn [andb]. apply U. clear - Hp. nia.
    + exists b'. split; [exact E|]. split; [exact L|]. intros r j Hr Hj _. apply R; [lia|exact Hr|exact Hj].
Qed.
Lemma rearrange_rows_len rows w src dst b b' : rearrange_rows rows w src dst b = ROk b' -> length b' = length b.
Proof. unfold rearrange_rows. destruct (dst <? src); apply for_up_len; intros i c c'; apply move_len. Qed.

(** ** Copying one block per row *)
Lemma copy_rows_ok rows P S O n out b :
  (forall i, i < rows -> P + i * S + n <= length b /\ i * O + n <= length out) ->
  exists b', for_up rows 0 (fun i b => copy b (P + i * S) out (i * O) n) b = ROk b' /\ length b' = length b.
Proof.
  intro H. destruct (for_up_inv (fun _ c => length c = length b) (fun i b => copy b (P + i * S) out (i * O) n) rows 0 b) as (b' & E & L).
  - reflexivity.
  - intros i c Hi L. destruct (H i ltac:(lia)) as (H1 & H2).
    destruct (copy_spec c (P + i * S) out (i * O) n) as (c' & E & L' & _); [lia|lia|]. exists c'. split; [exact E|lia].
  - eauto.
Qed.
Lemma copy_rows_spec rows P S O n out b : P + n <= S -> n <= O -> rows * S <= length b -> rows * O <= length out ->
  exists b', for_up rows 0 (fun i b => copy b (P + i * S) out (i * O) n) b = ROk b' /\ length b' = length b /\
    forall r j, r < rows -> j < S ->
      nth (r * S + j) b' 0%Z = if (P <=? j) && (j <? P + n) then nth (r * O + (j - P)) out 0%Z else nth (r * S + j) b 0%Z.
Proof.
  intros HPS HO HB HOut.
  destruct (for_up_inv (fun i c => length c = length b /\ forall r j, r < rows -> j < S ->
      nth (r * S + j) c 0%Z = if (r <? i) && ((P <=? j) && (j <? P + n)) then nth (r * O + (j - P)) out 0%Z else nth (r * S + j) b 0%Z)
    (fun i b => copy b (P + i * S) out (i * O) n) rows 0 b) as (b' & E & L & R).
  - split; [reflexivity|]. intros r j _ _. reflexivity.
  - intros i c Hi (L & R). destruct (copy_spec c (P + i * S) out (i * O) n) as (c' & E & L' & N); [clear R; nia|clear R; nia|].
    exists c'. split; [exact E|]. split; [lia|]. intros r j Hr Hj. rewrite N.
    destruct (Nat.eq_dec r i) as [->|Ne].
    + destruct (Nat.leb_spec P j) as [A|A]; cbn [andb].
      * replace (P + i * S <=? i * S + j) with true by (symmetry; apply Nat.leb_le; lia). cbn [andb].
        destruct (Nat.ltb_spec j (P + n)).
        -- replace (i * S + j <? P + i * S + n) with true by (symmetry; apply Nat.ltb_lt; lia).
           replace (i <? i + 1) with true by (symmetry; apply Nat.ltb_lt; lia). cbn [andb]. f_equal. lia.
        -- replace (i * S + j <? P + i * S + n) with false by (symmetry; apply Nat.ltb_ge; lia).
           rewrite andb_false_r. rewrite R by lia. destruct (Nat.ltb_spec i i); [lia|]. reflexivity.
      * replace (P + i * S <=? i * S + j) with false by (symmetry; apply Nat.leb_gt; lia). cbn [andb]. rewrite andb_false_r.
        rewrite R by lia. destruct (Nat.ltb_spec i i); [lia|]. reflexivity.
    + assert (F : (P + i * S <=? r * S + j) && (r * S + j <? P + i * S + n) = false).
      { apply andb_false_iff. rewrite Nat.leb_gt, Nat.ltb_ge. clear - Ne Hj HPS. destruct (Nat.lt_ge_cases r i); [left|right]; nia. }
      rewrite F, R by lia. replace (r <? i + 1) with (r <? i); [reflexivity|].
      destruct (Nat.ltb_spec r i), (Nat.ltb_spec r (i + 1)); auto; lia.
  - exists b'. split; [exact E|]. split; [exact L|]. intros r j Hr Hj. rewrite R by lia.
    replace (r <? 0 + rows) with true by (symmetry; apply Nat.ltb_lt; lia). reflexivity.
Qed.

(** ** Masks *)
Definition thr (g : config) (w : option Z) (n i : nat) : nat :=
  match w with None => 0 | Some x => Z.to_nat (Z.of_nat (n + i + 1) - x) end.
Lemma init_mask_spec g a n w m : 1 <= a <= c_C g -> n <= c_C g - a -> length m = a * c_C g ->
  (forall i, i < a -> thr g w (n + n) i <= c_C g) ->
  exists m', init_mask g a n (iota a) w m = ROk m' /\ length m' = length m /\
    forall s c, s < a -> c < c_C g -> nth (s * c_C g + c) m' 0%Z =
      if (thr g w (n + n) s <=? c) && ((c <? n) || ((c_C g - a <=? c) && (c <=? c_C g - a + s))) then pos_val else 0%Z.
Proof.
  intros Ha Hn Lm HT. set (C := c_C g) in *. unfold init_mask. fold C.
  assert (Li : length (iota a) = a) by (unfold iota; rewrite map_length; apply seq_length).
  destruct (Nat.ltb_spec a (length (iota a))); [lia|].
  destruct (fill_spec m 0 (Z.of_nat (a * C)) 0%Z) as (m0 & E0 & L0 & N0); [rewrite Nat2Z.id; lia|]. rewrite E0. cbn [rbind].
  destruct (for_up_inv (fun i k => length k = a * C /\
      (forall s c, s < i -> c < C -> nth (s * C + c) k 0%Z =
        if (thr g w (n + n) s <=? c) && ((c <? n) || ((C - a <=? c) && (c <=? C - a + s))) then pos_val else 0%Z) /\
      (i = 0 -> forall c, c < C -> nth c k 0%Z = 0%Z))
    (init_row g a n (iota a) w) a 0 m0) as (m' & E & L & R & _).
  - split; [lia|]. split; [intros; lia|]. intros _ c Hc. rewrite N0, Nat2Z.id.
    replace ((0 <=? c) && (c <? 0 + a * C)) with true; [reflexivity|].
    symmetry; apply andb_true_intro; split; [apply Nat.leb_le; lia|apply Nat.ltb_lt; clear - Hc Ha; nia].
  - intros i k Hi (L & R & U). unfold init_row. fold C.
    assert (En : nth_error (iota a) i = Some (Z.of_nat i - 1)%Z).
    { unfold iota. rewrite nth_error_map. rewrite (nth_error_nth' (seq 0 a) 0) by (rewrite seq_length; lia).
      rewrite seq_nth by lia. reflexivity. }
    rewrite En.
    assert (HiC : i * C + C <= a * C) by (clear - Hi; nia).
    assert (Row : exists k1, (if (Z.of_nat i - 1 <? 0)%Z then fill k (i * C) (Z.of_nat n) pos_val
                else move k (i * C) (Z.to_nat (Z.of_nat i - 1) * C) C) = ROk k1 /\ length k1 = length k /\
       (forall c, c < C -> nth (i * C + c) k1 0%Z = if (thr g w (n + n) (i - 1) <=? c) && ((c <? n) || ((C - a <=? c) && (c <? C - a + i))) || (i =? 0) && (c <? n) then pos_val else 0%Z) /\
       (forall p, p < i * C -> nth p k1 0%Z = nth p k 0%Z)).
    { destruct (Z.ltb_spec (Z.of_nat i - 1) 0) as [H0|H0].
      - assert (i = 0) by lia. subst i. destruct (fill_spec k (0 * C) (Z.of_nat n) pos_val) as (k1 & E1 & L1 & N1); [rewrite Nat2Z.id; lia|].
        exists k1. split; [exact E1|]. split; [exact L1|]. split; [|intros; lia]. intros c Hc. rewrite N1, Nat2Z.id.
        cbn [Nat.mul Nat.add Nat.leb andb Nat.eqb]. rewrite (U eq_refl) by exact Hc. rewrite Nat.add_0_r.
        replace ((C - a <=? c) && (c <? C - a)) with false by (symmetry; apply andb_false_iff; rewrite Nat.leb_gt, Nat.ltb_ge; lia).
        rewrite orb_false_r. destruct (c <? n); [rewrite andb_true_r, orb_true_r|rewrite andb_false_r]; reflexivity.
      - replace (Z.to_nat (Z.of_nat i - 1)) with (i - 1) by lia.
        assert (HP : (i - 1) * C + C <= i * C) by (clear - H0; nia).
        destruct (move_spec k (i * C) ((i - 1) * C) C) as (k1 & E1 & L1 & N1); [lia|lia|].
        exists k1. split; [exact E1|]. split; [exact L1|]. split.
        + intros c Hc. rewrite N1. replace ((i * C <=? i * C + c) && (i * C + c <? i * C + C)) with true by (symmetry; apply andb_true_intro; split; [apply Nat.leb_le|apply Nat.ltb_lt]; lia).
          replace ((i - 1) * C + (i * C + c - i * C)) with ((i - 1) * C + c) by lia. rewrite R by lia.
          replace (i =? 0) with false by (symmetry; apply Nat.eqb_neq; lia). cbn [andb]. rewrite orb_false_r.
          replace (c <=? C - a + (i - 1)) with (c <? C - a + i); [reflexivity|].
          destruct (Nat.ltb_spec c (C - a + i)), (Nat.leb_spec c (C - a + (i - 1))); auto; lia.
        + intros p Hp. rewrite N1. destruct (Nat.leb_spec (i * C) p); [lia|]. reflexivity. }
    destruct Row as (k1 & -> & L1 & R1 & U1). cbn [rbind].
    destruct (put_spec k1 (C - a + i * C + i) [pos_val]) as (k2 & E2 & L2 & N2); [cbn [length]; lia|]. rewrite E2. cbn [rbind].
    cbn [length] in N2.
    assert (Fin : exists k3, (match w with None => ROk k2 | Some x =>
          let available := (x - Z.of_nat (i + 1) - Z.of_nat n)%Z in
          if (available <? Z.of_nat n)%Z then fill k2 (i * C) (Z.of_nat n - available) 0%Z else ROk k2 end) = ROk k3 /\ length k3 = length k2 /\
          forall p, nth p k3 0%Z = if (i * C <=? p) && (p <? i * C + thr g w (n + n) i) then 0%Z else nth p k2 0%Z).
    { specialize (HT i ltac:(lia)). destruct w as [x|]; cbn [thr] in *.
      - cbv zeta. destruct (Z.ltb_spec (x - Z.of_nat (i + 1) - Z.of_nat n) (Z.of_nat n)) as [B|B].
        + replace (Z.of_nat n - (x - Z.of_nat (i + 1) - Z.of_nat n))%Z with (Z.of_nat (n + n + i + 1) - x)%Z by lia.
          destruct (fill_spec k2 (i * C) (Z.of_nat (n + n + i + 1) - x) 0%Z) as (k3 & E3 & L3 & N3); [lia|]. exists k3. auto.
        + exists k2. split; [reflexivity|]. split; [reflexivity|]. intro p.
          replace (Z.to_nat (Z.of_nat (n + n + i + 1) - x)) with 0 by lia.
          destruct (Nat.leb_spec (i * C) p), (Nat.ltb_spec p (i * C + 0)); cbn [andb]; auto; lia.
      - exists k2. split; [reflexivity|]. split; [reflexivity|]. intro p.
        destruct (Nat.leb_spec (i * C) p), (Nat.ltb_spec p (i * C + 0)); cbn [andb]; auto; lia. }
    destruct Fin as (k3 & EF & L3 & N3). exists k3. split; [exact EF|]. split; [lia|]. split; [|intro; lia].
    assert (MT : thr g w (n + n) (i - 1) <= thr g w (n + n) i) by (destruct w; cbn [thr]; lia).
    intros s c Hs Hc. rewrite N3. destruct (Nat.eq_dec s i) as [->|Ne].
    + replace (i * C <=? i * C + c) with true by (symmetry; apply Nat.leb_le; lia). cbn [andb].
      replace (i * C + c <? i * C + thr g w (n + n) i) with (negb (thr g w (n + n) i <=? c))
        by (destruct (Nat.leb_spec (thr g w (n + n) i) c), (Nat.ltb_spec (i * C + c) (i * C + thr g w (n + n) i)); cbn; auto; lia).
      destruct (Nat.leb_spec (thr g w (n + n) i) c) as [B|B]; cbn [negb andb]; [|reflexivity].
      rewrite N2. destruct (Nat.eq_dec c (C - a + i)) as [->|Nc].
      * replace ((C - a + i * C + i <=? i * C + (C - a + i)) && (i * C + (C - a + i) <? C - a + i * C + i + 1)) with true
          by (symmetry; apply andb_true_intro; split; [apply Nat.leb_le|apply Nat.ltb_lt]; lia).
        replace (i * C + (C - a + i) - (C - a + i * C + i)) with 0 by lia. cbn [nth].
        replace ((C - a <=? C - a + i) && (C - a + i <=? C - a + i)) with true by (symmetry; apply andb_true_intro; split; apply Nat.leb_le; lia).
        rewrite orb_true_r. reflexivity.
      * replace ((C - a + i * C + i <=? i * C + c) && (i * C + c <? C - a + i * C + i + 1)) with false
          by (symmetry; apply andb_false_iff; rewrite Nat.leb_gt, Nat.ltb_ge; lia).
        rewrite R1 by exact Hc.
        replace (thr g w (n + n) (i - 1) <=? c) with true by (symmetry; apply Nat.leb_le; lia). cbn [andb].
        replace (c <? C - a + i) with (c <=? C - a + i) by (destruct (Nat.leb_spec c (C - a + i)), (Nat.ltb_spec c (C - a + i)); auto; lia).
        destruct (c <? n); [rewrite ?orb_true_l|rewrite andb_false_r, orb_false_r]; reflexivity.
    + assert (Hlt : s * C + c < i * C) by (clear - Hs Hc Ne; nia).
      destruct (Nat.leb_spec (i * C) (s * C + c)); [lia|]. cbn [andb]. rewrite N2.
      destruct (Nat.leb_spec (C - a + i * C + i) (s * C + c)); [lia|]. cbn [andb]. rewrite U1 by exact Hlt. apply R; lia.
  - exists m'. split; [exact E|]. split; [lia|]. intros s c Hs Hc. apply R; [lia|exact Hc].
Qed.

Lemma update_mask_spec g a n u w m : length m = a * c_C g -> n + u <= c_C g ->
  (forall i, i < a -> thr g w (n + u) i <= c_C g) ->
  exists m', update_mask g a n u w m = ROk m' /\ length m' = length m /\
    forall s c, s < a -> c < c_C g -> nth (s * c_C g + c) m' 0%Z =
      if c <? thr g w (n + u) s then 0%Z else if (n <=? c) && (c <? n + u) then pos_val else nth (s * c_C g + c) m 0%Z.
Proof.
  intros Lm Hn HT. set (C := c_C g) in *. unfold update_mask. fold C.
  set (body := fun i k => do m1 <- fill k (n + i * C) (Z.of_nat u) pos_val;
    match w with None => ROk m1 | Some w => let available := (w - Z.of_nat (i + 1))%Z in
      if (available <? Z.of_nat (n + u))%Z then fill m1 (i * C) (Z.of_nat (n + u) - available) 0%Z else ROk m1 end).
  destruct (for_up_inv (fun i k => length k = length m /\ forall s c, s < a -> c < C -> nth (s * C + c) k 0%Z =
      if s <? i then (if c <? thr g w (n + u) s then 0%Z else if (n <=? c) && (c <? n + u) then pos_val else nth (s * C + c) m 0%Z)
      else nth (s * C + c) m 0%Z) body a 0 m) as (m' & E & L & R).
  - split; [reflexivity|]. intros s c _ _. reflexivity.
  - intros i k Hi (L & R). unfold body. assert (HiC : i * C + C <= a * C) by (clear - Hi; nia).
    destruct (fill_spec k (n + i * C) (Z.of_nat u) pos_val) as (k1 & E1 & L1 & N1); [rewrite Nat2Z.id; lia|]. rewrite E1. cbn [rbind].
    rewrite Nat2Z.id in N1.
    assert (Fin : exists k3, (match w with None => ROk k1 | Some x =>
          let available := (x - Z.of_nat (i + 1))%Z in
          if (available <? Z.of_nat (n + u))%Z then fill k1 (i * C) (Z.of_nat (n + u) - available) 0%Z else ROk k1 end) = ROk k3 /\ length k3 = length k1 /\
          forall p, nth p k3 0%Z = if (i * C <=? p) && (p <? i * C + thr g w (n + u) i) then 0%Z else nth p k1 0%Z).
    { specialize (HT i ltac:(lia)). destruct w as [x|]; cbn [thr] in *.
      - cbv zeta. destruct (Z.ltb_spec (x - Z.of_nat (i + 1)) (Z.of_nat (n + u))) as [B|B].
        + replace (Z.of_nat (n + u) - (x - Z.of_nat (i + 1)))%Z with (Z.of_nat (n + u + i + 1) - x)%Z by lia.
          destruct (fill_spec k1 (i * C) (Z.of_nat (n + u + i + 1) - x) 0%Z) as (k3 & E3 & L3 & N3); [lia|]. exists k3. auto.
        + exists k1. split; [reflexivity|]. split; [reflexivity|]. intro p.
          replace (Z.to_nat (Z.of_nat (n + u + i + 1) - x)) with 0 by lia.
          destruct (Nat.leb_spec (i * C) p), (Nat.ltb_spec p (i * C + 0)); cbn [andb]; auto; lia.
      - exists k1. split; [reflexivity|]. split; [reflexivity|]. intro p.
        destruct (Nat.leb_spec (i * C) p), (Nat.ltb_spec p (i * C + 0)); cbn [andb]; auto; lia. }
    destruct Fin as (k3 & EF & L3 & N3). exists k3. split; [exact EF|]. split; [lia|].
    specialize (HT i ltac:(lia)).
    intros s c Hs Hc. rewrite N3. destruct (Nat.eq_dec s i) as [->|Ne].
    + replace (i * C <=? i * C + c) with true by (symmetry; apply Nat.leb_le; lia). cbn [andb].
      replace (i <? i + 1) with true by (symmetry; apply Nat.ltb_lt; lia).
      replace (i * C + c <? i * C + thr g w (n + u) i) with (c <? thr g w (n + u) i)
        by (destruct (Nat.ltb_spec c (thr g w (n + u) i)), (Nat.ltb_spec (i * C + c) (i * C + thr g w (n + u) i)); auto; lia).
      destruct (c <? thr g w (n + u) i); [reflexivity|]. rewrite N1.
      replace ((n + i * C <=? i * C + c) && (i * C + c <? n + i * C + u)) with ((n <=? c) && (c <? n + u)).
      * destruct ((n <=? c) && (c <? n + u)); [reflexivity|]. rewrite R by lia. destruct (Nat.ltb_spec i i); [lia|]. reflexivity.
      * destruct (Nat.leb_spec n c), (Nat.ltb_spec c (n + u)), (Nat.leb_spec (n + i * C) (i * C + c)), (Nat.ltb_spec (i * C + c) (n + i * C + u)); auto; lia.
    + assert (F1 : (i * C <=? s * C + c) && (s * C + c <? i * C + thr g w (n + u) i) = false).
      { apply andb_false_iff. rewrite Nat.leb_gt, Nat.ltb_ge. clear - Ne Hc HT. destruct (Nat.lt_ge_cases s i); [left|right]; nia. }
      rewrite F1, N1.
      assert (F2 : (n + i * C <=? s * C + c) && (s * C + c <? n + i * C + u) = false).
      { apply andb_false_iff. rewrite Nat.leb_gt, Nat.ltb_ge. clear - Ne Hc Hn. destruct (Nat.lt_ge_cases s i); [left|right]; nia. }
      rewrite F2, R by lia. replace (s <? i + 1) with (s <? i); [reflexivity|].
      destruct (Nat.ltb_spec s i), (Nat.ltb_spec s (i + 1)); auto; lia.
  - exists m'. split; [exact E|]. split; [exact L|]. intros s c Hs Hc. rewrite R by lia.
    replace (s <? 0 + a) with true by (symmetry; apply Nat.ltb_lt; lia). reflexivity.
Qed.
