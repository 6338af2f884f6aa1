(** Byte pair encoding. *)
From Verif Require Import Base DTypeModel ParamModel TensorModel TokModel TokSpec Utf8Proofs.
Local Open Scope Z_scope.

Lemma sym_eqb_eq a b : sym_eqb a b = true <-> a = b.
Proof. unfold sym_eqb. destruct (list_eq_dec Z.eq_dec a b); split; congruence. Qed.
Lemma sym_eqb_neq a b : sym_eqb a b = false <-> a <> b.
Proof. unfold sym_eqb. destruct (list_eq_dec Z.eq_dec a b); split; congruence. Qed.

(** *** Ranks *)
Lemma rank_of_spec : forall merges p k z, rank_of merges p k = Some z <-> exists n, z = k + Z.of_nat n /\ has_rank merges p n.
Proof.
  induction merges as [|m r IH]; intros p k z; cbn [rank_of].
  { split; [discriminate|]. intros [n [_ [H _]]]. destruct n; discriminate. }
  destruct (sym_eqb (fst m) (fst p) && sym_eqb (snd m) (snd p)) eqn:E.
  { apply andb_prop in E as [E1 E2]. apply sym_eqb_eq in E1, E2. destruct m as [a b], p as [c d]; cbn [fst snd] in *; subst.
    split.
    - intros [= <-]. exists 0%nat. split; [lia|]. split; [reflexivity|]. intros m Hm; lia.
    - intros [n [-> [H1 H2]]]. destruct n; [f_equal; lia|]. exfalso. apply (H2 0%nat); [lia|reflexivity]. }
  assert (D : m <> p).
  { intros ->. assert (sym_eqb (fst p) (fst p) = true) by (apply sym_eqb_eq; reflexivity).
    assert (sym_eqb (snd p) (snd p) = true) by (apply sym_eqb_eq; reflexivity). rewrite H, H0 in E. discriminate. }
  rewrite IH. split.
  - intros [n [-> [H1 H2]]]. exists (S n). split; [lia|]. split; [exact H1|]. intros q Hq. destruct q; cbn [nth_error].
    + congruence.
    + apply H2. lia.
  - intros [n [-> [H1 H2]]]. destruct n as [|n]; [cbn [nth_error] in H1; congruence|]. exists n. split; [lia|]. split; [exact H1|].
    intros q Hq. specialize (H2 (S q)). cbn [nth_error] in H2. apply H2. lia.
Qed.
Lemma has_rank_inj {A} (merges : list (A * A)) p q n : has_rank merges p n -> has_rank merges q n -> p = q.
Proof. intros [H _] [H' _]. congruence. Qed.
Lemma has_rank_fun {A} (merges : list (A * A)) p n m : has_rank merges p n -> has_rank merges p m -> n = m.
Proof.
  intros [H1 H2] [H3 H4]. destruct (lt_eq_lt_dec n m) as [[H|H]|H]; auto.
  - exfalso. apply (H4 n); auto.
  - exfalso. apply (H2 m); auto.
Qed.
Lemma has_rank_lt {A} (merges : list (A * A)) p n : has_rank merges p n -> (n < length merges)%nat.
Proof. intros [H _]. apply nth_error_Some. congruence. Qed.

Lemma in_pairs x y w : In (x, y) (get_pairs w) <-> neighbours x y w.
Proof.
  induction w as [|a w IH]; cbn [get_pairs].
  { split; [destruct 1|]. intros [p [q H]]. destruct p; discriminate. }
  destruct w as [|b w].
  { split; [destruct 1|]. intros [p [q H]]. destruct p as [|? [|? ?]]; discriminate. }
  cbn [In]. rewrite IH. split.
  - intros [[= -> ->]|[p [q ->]]]; [exists [], w; reflexivity|exists (a :: p), q; reflexivity].
  - intros [[|c p] [q H]]; cbn [app] in H; injection H; intros; subst; [left; reflexivity|right]. exists p, q. assumption.
Qed.

Section Best.
Variable merges : list (symbol * symbol).
Hypothesis Hlen : Z.of_nat (length merges) <= 2 ^ 63 - 1.

Definition best_inv (seen : list (symbol * symbol)) (b : option (symbol * symbol) * Z) : Prop :=
  match fst b with
  | None => snd b = 2 ^ 63 - 1 /\ forall p n, In p seen -> ~ has_rank merges p n
  | Some p => In p seen /\ exists n, snd b = Z.of_nat n /\ has_rank merges p n /\ forall q m, In q seen -> has_rank merges q m -> (n <= m)%nat
  end.
Lemma best_fold : forall ps seen b, best_inv seen b -> best_inv (seen ++ ps) (fold_left (better merges) ps b).
Proof.
  induction ps as [|p ps IH]; intros seen b H; [rewrite app_nil_r; assumption|]. cbn [fold_left].
  replace (seen ++ p :: ps) with ((seen ++ [p]) ++ ps) by (rewrite <- app_assoc; reflexivity). apply IH. clear IH.
  unfold better. destruct (rank_of merges p 0) as [r|] eqn:E.
  - pose proof E as E'. apply rank_of_spec in E' as [n [-> Hn]]. pose proof (has_rank_lt _ _ _ Hn).
    destruct (0 + Z.of_nat n <? snd b) eqn:L.
    + unfold best_inv. cbn [fst snd]. split; [apply in_or_app; right; left; reflexivity|]. exists n. split; [lia|]. split; [assumption|].
      intros q m Hq Hm. apply in_app_or in Hq as [Hq|[<-|[]]].
      * unfold best_inv in H. destruct (fst b) as [p0|].
        -- destruct H as [_ [n0 [E0 [_ G0]]]]. specialize (G0 q m Hq Hm). lia.
        -- destruct H as [_ G0]. exfalso. exact (G0 q m Hq Hm).
      * rewrite (has_rank_fun _ _ _ _ Hn Hm). lia.
    + unfold best_inv in *. destruct (fst b) as [p0|].
      * destruct H as [H1 [n0 [E0 [H2 H3]]]]. split; [apply in_or_app; left; assumption|]. exists n0. split; [assumption|]. split; [assumption|].
        intros q m Hq Hm. apply in_app_or in Hq as [Hq|[<-|[]]]; [eapply H3; eauto|]. rewrite <- (has_rank_fun _ _ _ _ Hn Hm). lia.
      * destruct H as [E0 _]. lia.
  - assert (N : forall n, ~ has_rank merges p n).
    { intros n Hn. assert (rank_of merges p 0 = Some (0 + Z.of_nat n)) by (apply rank_of_spec; eauto). congruence. }
    unfold best_inv in *. destruct (fst b) as [p0|].
    + destruct H as [H1 [n0 [E0 [H2 H3]]]]. split; [apply in_or_app; left; assumption|]. exists n0. split; [assumption|]. split; [assumption|].
      intros q m Hq Hm. apply in_app_or in Hq as [Hq|[<-|[]]]; [eapply H3; eauto|]. exfalso. exact (N _ Hm).
    + destruct H as [E0 H]. split; [assumption|]. intros q n Hq. apply in_app_or in Hq as [Hq|[<-|[]]]; auto.
Qed.
Lemma best_some ps p : best_pair merges ps = Some p -> In p ps /\ exists n, has_rank merges p n /\ forall q m, In q ps -> has_rank merges q m -> (n <= m)%nat.
Proof.
  intros E. assert (H : best_inv ([] ++ ps) (fold_left (better merges) ps (None, 2 ^ 63 - 1))).
  { apply best_fold. unfold best_inv. cbn [fst snd]. split; [reflexivity|]. intros ? ? []. }
  unfold best_pair in E. unfold best_inv in H. rewrite E in H. destruct H as [H1 [n [_ [H2 H3]]]]. split; [assumption|]. exists n. split; assumption.
Qed.
Lemma best_none ps : best_pair merges ps = None -> forall p n, In p ps -> ~ has_rank merges p n.
Proof.
  intros E. assert (H : best_inv ([] ++ ps) (fold_left (better merges) ps (None, 2 ^ 63 - 1))).
  { apply best_fold. unfold best_inv. cbn [fst snd]. split; [reflexivity|]. intros ? ? []. }
  unfold best_pair in E. unfold best_inv in H. rewrite E in H. destruct H as [_ H]. assumption.
Qed.
End Best.

(** *** Joining *)
Fixpoint join (x y : symbol) (l : list symbol) : list symbol :=
  match l with
  | [] => []
  | z :: r =>
      match r with
      | [] => [z]
      | u :: r' => if sym_eqb z x && sym_eqb u y then (x ++ y) :: join x y r' else z :: join x y r
      end
  end.
Lemma join_eq x y z r : join x y (z :: r) =
  match r with
  | [] => [z]
  | u :: r' => if sym_eqb z x && sym_eqb u y then (x ++ y) :: join x y r' else z :: join x y r
  end.
Proof. reflexivity. Qed.
Lemma join_joined x y : forall n l, (length l <= n)%nat -> joined x y l (join x y l).
Proof.
  induction n as [|n IH]; intros l H.
  { destruct l; [constructor|cbn in H; lia]. }
  destruct l as [|z r]; [constructor|]. rewrite join_eq. cbn [length] in H. destruct r as [|u r'].
  { apply joined_other; [right; discriminate|]. constructor. }
  destruct (sym_eqb z x && sym_eqb u y) eqn:E.
  - apply andb_prop in E as [E1 E2]. apply sym_eqb_eq in E1, E2. subst. apply joined_pair. apply IH. cbn [length] in H. lia.
  - apply joined_other; [|apply IH; lia]. apply andb_false_iff in E as [E|E]; apply sym_eqb_neq in E; [left; assumption|right]. cbn [hd_error]. congruence.
Qed.
Lemma joined_fun {A} (x y : list A) w w1 w2 : joined x y w w1 -> joined x y w w2 -> w1 = w2.
Proof.
  intros H. revert w2. induction H; intros w2 H'.
  - inversion H'; reflexivity.
  - inversion H'; subst; [f_equal; apply IHjoined; assumption|]. destruct H2 as [K|K]; [congruence|]. cbn [hd_error] in K. congruence.
  - inversion H'; subst; [|f_equal; apply IHjoined; assumption]. destruct H as [K|K]; [congruence|]. cbn [hd_error] in K. congruence.
Qed.
Lemma joined_concat {A} (x y : list A) w w' : joined x y w w' -> concat w' = concat w.
Proof. induction 1; cbn [concat]; [reflexivity|rewrite IHjoined, <- app_assoc; reflexivity|rewrite IHjoined; reflexivity]. Qed.
Lemma joined_length {A} (x y : list A) w w' : joined x y w w' -> (length w' <= length w)%nat.
Proof. induction 1; cbn [length]; lia. Qed.
Lemma joined_shorter {A} (x y : list A) w w' : joined x y w w' -> neighbours x y w -> (length w' < length w)%nat.
Proof.
  induction 1; intros N.
  - destruct N as [a [b E]]. destruct a; discriminate.
  - apply joined_length in H. cbn [length]. lia.
  - destruct N as [[|c a] [b E]]; cbn [app] in E; injection E; intros; subst.
    + exfalso. destruct H as [K|K]; [congruence|]. apply K. reflexivity.
    + assert (neighbours x y (a ++ x :: y :: b)) by (exists a, b; reflexivity). specialize (IHjoined H1). cbn [length]. lia.
Qed.

Lemma find_from_spec first : forall l j, exists pre rest, l = pre ++ rest /\ find_from l first j = j + zlen pre /\ ~ In first pre /\ (rest = [] \/ exists r, rest = first :: r).
Proof.
  induction l as [|x l IH]; intros j; cbn [find_from].
  { exists [], []. repeat split; auto. change (zlen (@nil symbol)) with 0. lia. }
  destruct (sym_eqb x first) eqn:E.
  - apply sym_eqb_eq in E. subst. exists [], (first :: l). repeat split; auto; [change (zlen (@nil symbol)) with 0; lia|right; eauto].
  - apply sym_eqb_neq in E. destruct (IH (j + 1)) as [pre [rest [-> [-> [N R]]]]]. exists (x :: pre), rest. repeat split; auto.
    + rewrite zlen_cons. lia.
    + intros [K|K]; auto.
Qed.
Lemma join_skip x y pre rest : ~ In x pre -> join x y (pre ++ rest) = pre ++ join x y rest.
Proof.
  induction pre as [|z pre IH]; intros N; [reflexivity|]. cbn [app]. rewrite join_eq.
  assert (E : sym_eqb z x = false) by (apply sym_eqb_neq; intros ->; apply N; left; reflexivity).
  rewrite E. cbn [andb]. rewrite <- IH by (intros K; apply N; right; assumption).
  destruct (pre ++ rest); reflexivity.
Qed.
Lemma substr_mid {X} (l : list X) a b c i n : l = a ++ b ++ c -> i = zlen a -> n = zlen b -> substr l i n = b.
Proof.
  intros -> -> ->. unfold substr, zlen. rewrite !Nat2Z.id, skipn_app, skipn_all, Nat.sub_diag. cbn [skipn app].
  rewrite firstn_app, firstn_all, Nat.sub_diag. apply app_nil_r.
Qed.
Lemma vget_mid {X} (l : list X) a x b i : l = a ++ x :: b -> i = zlen a -> vget l i = ROk x.
Proof.
  intros -> ->. unfold vget, zlen. rewrite Nat2Z.id, nth_error_app2, Nat.sub_diag by lia. cbn [nth_error].
  destruct (0 <=? Z.of_nat (length a)) eqn:E; try reflexivity; lia.
Qed.

Lemma merge_loop_ok x y w : forall fuel before after acc, w = before ++ after -> (length after < fuel)%nat ->
  merge_loop fuel w x y (zlen before) acc = ROk (acc ++ join x y after).
Proof.
  induction fuel as [|fuel IH]; intros before after acc E Hf; [lia|]. cbn [merge_loop].
  assert (Lw : zlen w = zlen before + zlen after) by (rewrite E; apply zlen_app).
  destruct (zlen before <? zlen w) eqn:B; cbn [negb].
  2: { destruct after as [|z after]; [rewrite app_nil_r; reflexivity|]. rewrite zlen_cons in Lw. pose proof (zlen_pos after). lia. }
  assert (Sk : skipn (Z.to_nat (zlen before)) w = after).
  { rewrite E. unfold zlen. rewrite Nat2Z.id, skipn_app, skipn_all, Nat.sub_diag. reflexivity. }
  rewrite Sk. destruct (find_from_spec x after (zlen before)) as [pre [rest [Ea [Ej [N R]]]]]. rewrite Ej.
  assert (Acc : (if zlen before <? zlen before + zlen pre then acc ++ substr w (zlen before) (zlen before + zlen pre - zlen before) else acc) = acc ++ pre).
  { destruct pre as [|u pre']; [replace (_ <? _) with false by (change (zlen (@nil symbol)) with 0; lia); rewrite app_nil_r; reflexivity|].
    rewrite (substr_mid w before (u :: pre') rest); [|rewrite E, Ea; reflexivity|reflexivity|lia].
    replace (_ <? _) with true by (rewrite zlen_cons; pose proof (zlen_pos pre'); lia). reflexivity. }
  cbv zeta. rewrite Acc. rewrite Ea, join_skip by assumption. rewrite Ea, zlen_app in Lw.
  pose proof (zlen_pos pre). pose proof (zlen_pos before).
  destruct R as [->|[r ->]].
  { change (zlen (@nil symbol)) with 0 in Lw. replace (_ <? zlen w - 1) with false by lia. cbn [rbind].
    replace (_ <? zlen w) with false by lia.
    replace (zlen before + zlen pre) with (zlen (before ++ pre)) by apply zlen_app.
    rewrite (IH (before ++ pre) []).
    - cbn [join]. rewrite !app_nil_r. reflexivity.
    - rewrite E, Ea, !app_nil_r. reflexivity.
    - rewrite Ea, app_nil_r in Hf. destruct pre; [|cbn [length] in Hf |- *; lia].
      exfalso. change (zlen (@nil symbol)) with 0 in Lw. lia. }
  rewrite zlen_cons in Lw. pose proof (zlen_pos r).
  assert (V0 : vget w (zlen before + zlen pre) = ROk x).
  { apply (vget_mid w (before ++ pre) x r); [rewrite E, Ea, <- app_assoc; reflexivity|symmetry; apply zlen_app]. }
  rewrite V0. cbn [rbind].
  assert (Ex : sym_eqb x x = true) by (apply sym_eqb_eq; reflexivity). rewrite Ex. cbn [andb].
  rewrite join_eq. rewrite Ea, app_length in Hf. cbn [length] in Hf.
  assert (Next : merge_loop fuel w x y (zlen before + zlen pre + 1) ((acc ++ pre) ++ [x]) = ROk (acc ++ pre ++ x :: join x y r)).
  { replace (zlen before + zlen pre + 1) with (zlen (before ++ pre ++ [x])) by (rewrite !zlen_app, zlen_cons; change (zlen (@nil symbol)) with 0; lia).
    rewrite (IH (before ++ pre ++ [x]) r); [rewrite <- !app_assoc; reflexivity| |lia].
    rewrite E, Ea, <- !app_assoc. reflexivity. }
  destruct r as [|u r'].
  { change (zlen (@nil symbol)) with 0 in Lw. replace (_ <? zlen w - 1) with false by lia. cbn [rbind].
    replace (_ <? zlen w) with true by lia. cbn [join] in Next. exact Next. }
  rewrite zlen_cons in Lw. pose proof (zlen_pos r'). replace (_ <? zlen w - 1) with true by lia.
  assert (V1 : vget w (zlen before + zlen pre + 1) = ROk u).
  { apply (vget_mid w (before ++ pre ++ [x]) u r'); [rewrite E, Ea, <- !app_assoc; reflexivity|rewrite !zlen_app, zlen_cons; change (zlen (@nil symbol)) with 0; lia]. }
  rewrite V1. cbn [rbind]. rewrite Ex. cbn [andb].
  destruct (sym_eqb u y) eqn:Ey.
  - replace (zlen before + zlen pre + 2) with (zlen (before ++ pre ++ [x; u])) by (rewrite !zlen_app, !zlen_cons; change (zlen (@nil symbol)) with 0; lia).
    rewrite (IH (before ++ pre ++ [x; u]) r'); [rewrite <- !app_assoc; reflexivity| |cbn [length] in Hf; lia].
    rewrite E, Ea, <- !app_assoc. reflexivity.
  - replace (_ <? zlen w) with true by lia. exact Next.
Qed.

(** *** The rounds *)
Section Rounds.
Variable merges : list (symbol * symbol).
Hypothesis Hlen : Z.of_nat (length merges) <= 2 ^ 63 - 1.
Variable order : list (symbol * symbol) -> list (symbol * symbol).
Hypothesis Horder : forall ps p, In p (order ps) <-> In p ps.

Definition finished (w : list symbol) : Prop := forall x y n, neighbours x y w -> ~ has_rank merges (x, y) n.

Lemma bpe_loop_ok : forall fuel w, (length w < fuel)%nat ->
  exists w', bpe_loop fuel order merges w (get_pairs w) = ROk w' /\ bpe_rounds merges w w' /\ finished w'.
Proof.
  induction fuel as [|fuel IH]; intros w Hf; [lia|]. cbn [bpe_loop].
  destruct (best_pair merges (order (get_pairs w))) as [[x y]|] eqn:E.
  2: { exists w. split; [reflexivity|]. split; [constructor|]. intros x y n H. eapply best_none; [assumption|exact E|].
       apply Horder, in_pairs. exact H. }
  apply best_some in E as [Hin [n [Hn Hmin]]]; [|assumption]. apply Horder, in_pairs in Hin.
  change (merge_loop (S (S (length w))) w x y 0 []) with (merge_loop (S (S (length w))) w x y (zlen (@nil symbol)) []).
  rewrite (merge_loop_ok x y w (S (S (length w))) [] w []) by (reflexivity || lia). cbn [rbind app].
  assert (J : joined x y w (join x y w)) by (apply (join_joined x y (length w)); apply le_n).
  assert (R : bpe_round merges w (join x y w)).
  { exists x, y, n. split; [assumption|]. split; [assumption|]. split; [|assumption].
    intros x' y' n' H1 H2. eapply Hmin; [|exact H2]. apply Horder, in_pairs. exact H1. }
  destruct (zlen (join x y w) =? 1) eqn:Z1.
  - exists (join x y w). split; [reflexivity|]. split; [econstructor; [exact R|constructor]|].
    intros a b m [p [q K]]. apply Z.eqb_eq in Z1. rewrite K in Z1. unfold zlen in Z1. rewrite app_length in Z1. cbn [length] in Z1. lia.
  - pose proof (joined_shorter _ _ _ _ J Hin). destruct (IH (join x y w)) as [w' [H1 [H2 H3]]]; [unfold symbol in *; lia|].
    exists w'. split; [assumption|]. split; [econstructor; [exact R|exact H2]|assumption].
Qed.
End Rounds.

Lemma round_fun {A} (merges : list (list A * list A)) w w1 w2 : bpe_round merges w w1 -> bpe_round merges w w2 -> w1 = w2.
Proof.
  intros [x [y [n [H1 [H2 [H3 H4]]]]]] [x' [y' [n' [H1' [H2' [H3' H4']]]]]].
  assert (n = n') by (specialize (H3 _ _ _ H2' H1'); specialize (H3' _ _ _ H2 H1); lia). subst.
  pose proof (has_rank_inj _ _ _ _ H1 H1') as [= <- <-]. eapply joined_fun; eauto.
Qed.
Lemma finished_round merges w w' : finished merges w -> ~ bpe_round merges w w'.
Proof. intros F [x [y [n [H1 [H2 _]]]]]. exact (F _ _ _ H2 H1). Qed.
Lemma rounds_fun merges w w1 w2 : bpe_rounds merges w w1 -> finished merges w1 -> bpe_rounds merges w w2 -> finished merges w2 -> w1 = w2.
Proof.
  intros H. revert w2. induction H; intros w2 F1 H' F2.
  - inversion H'; subst; [reflexivity|]. exfalso. eapply (finished_round _ _ _ F1); eassumption.
  - inversion H'; subst.
    + exfalso. eapply (finished_round _ _ _ F2); eassumption.
    + apply IHbpe_rounds; auto. rewrite (round_fun _ _ _ _ H H1). assumption.
Qed.
Lemma rounds_concat {A} (merges : list (list A * list A)) w w' : bpe_rounds merges w w' -> concat w' = concat w.
Proof. induction 1; [reflexivity|]. destruct H as [x [y [n [_ [_ [_ J]]]]]]. rewrite IHbpe_rounds. eapply joined_concat; eauto. Qed.
Lemma concat_singletons {A} (l : list A) : concat (map (fun c => [c]) l) = l.
Proof. induction l; [reflexivity|]. cbn [map concat app]. f_equal. assumption. Qed.

Lemma bpe_ok order merges token :
  Z.of_nat (length merges) <= 2 ^ 63 - 1 -> (forall ps p, In p (order ps) <-> In p ps) -> token <> [] ->
  exists w, bpe order merges token = ROk w /\ bpe_rounds merges (map (fun c => [c]) token) w /\ finished merges w.
Proof.
  intros Hl Ho Ht. unfold bpe. set (word := map (fun c => [c]) token).
  destruct (order (get_pairs word)) as [|p ps] eqn:E.
  - assert (get_pairs word = []).
    { destruct (get_pairs word) as [|p ps] eqn:G; [reflexivity|]. exfalso. assert (In p (order (p :: ps))) by (apply Ho; left; reflexivity). rewrite E in H. destruct H. }
    destruct token as [|c [|d token]]; [congruence| |discriminate].
    exists [[c]]. split; [reflexivity|]. split; [constructor|]. intros x y n [a [b K]]. destruct a as [|? [|? ?]]; discriminate.
  - apply bpe_loop_ok; auto.
Qed.
