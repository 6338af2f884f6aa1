(** C160: splitting strings. *)
From Verif Require Import Base SplitModel SplitSpec.

Section S.
Context {A : Type} (eq_dec : forall x y : A, {x = y} + {x <> y}) (space : A -> bool).

Lemma starts_iff : forall sep s, starts eq_dec sep s = true <-> exists b, s = sep ++ b.
Proof.
  induction sep as [|x sep IH]; intros s; cbn [starts].
  - split; [intros _; exists s; reflexivity|reflexivity].
  - destruct s as [|y s]; [split; [discriminate|intros [b E]; discriminate]|].
    destruct (eq_dec x y) as [->|N]; [rewrite IH|]; split.
    + intros [b ->]. exists b. reflexivity.
    + intros [b E]. injection E as ->. exists b. reflexivity.
    + discriminate.
    + intros [b E]. injection E as E _. congruence.
Qed.

Lemma find_some : forall sep s k, find eq_dec sep s = Some k ->
  s = firstn k s ++ sep ++ skipn (k + length sep) s /\ (forall a b, s = a ++ sep ++ b -> (k <= length a)%nat).
Proof.
  intros sep. induction s as [|x s IH]; intros k; cbn [find].
  - destruct (starts eq_dec sep []) eqn:E; [|discriminate]. intros H. injection H as <-. apply starts_iff in E. destruct E as [b E].
    destruct sep; [|discriminate]. split; [reflexivity|]. intros. lia.
  - destruct (starts eq_dec sep (x :: s)) eqn:E.
    + intros H. injection H as <-. apply starts_iff in E. destruct E as [b E]. split; [|intros; lia].
      rewrite E. cbn [firstn app Nat.add]. rewrite skipn_app, skipn_all, Nat.sub_diag. reflexivity.
    + destruct (find eq_dec sep s) as [j|] eqn:F; [|discriminate]. cbn [option_map]. intros H. injection H as <-.
      destruct (IH j eq_refl) as [E1 E2]. split.
      * cbn [firstn Nat.add skipn app]. f_equal. exact E1.
      * intros a b Q. destruct a as [|y a].
        { cbn [app] in Q. exfalso. assert (T : starts eq_dec sep (x :: s) = true) by (apply starts_iff; exists b; exact Q). congruence. }
        injection Q as <- Q. cbn [length]. specialize (E2 a b Q). lia.
Qed.

Lemma find_none : forall sep s, find eq_dec sep s = None -> absent sep s.
Proof.
  intros sep. induction s as [|x s IH]; cbn [find]; intros H a b Q.
  - destruct (starts eq_dec sep []) eqn:E; [discriminate|]. destruct a as [|y a]; [|discriminate]. cbn [app] in Q.
    assert (T : starts eq_dec sep [] = true) by (apply starts_iff; exists b; exact Q). congruence.
  - destruct (starts eq_dec sep (x :: s)) eqn:E; [discriminate|]. destruct (find eq_dec sep s) eqn:F; [discriminate|].
    destruct a as [|y a]; [cbn [app] in Q; assert (T : starts eq_dec sep (x :: s) = true) by (apply starts_iff; exists b; exact Q); congruence|].
    injection Q as <- Q. exact (IH eq_refl a b Q).
Qed.

(** A piece that ends at the first place of sep does not contain it. *)
Lemma first_absent : forall (sep s : list A) k, sep <> [] -> (k <= length s)%nat ->
  (forall a b, s = a ++ sep ++ b -> (k <= length a)%nat) -> absent sep (firstn k s).
Proof.
  intros sep s k N L H a b Q. assert (E : s = a ++ sep ++ (b ++ skipn k s)).
  { rewrite <- (firstn_skipn k s) at 1. rewrite Q, <- !app_assoc. reflexivity. }
  apply H in E. assert (Q1 := f_equal (@length A) Q). rewrite firstn_length, !app_length in Q1. destruct sep; [congruence|]. cbn [length] in Q1. lia.
Qed.

Lemma split_on_spec : forall sep, sep <> [] -> forall fuel m p, (length p <= fuel)%nat ->
  let l := split_on eq_dec fuel sep m p in
  join sep l = p /\ l <> [] /\ (forall q r, l = q ++ [r] -> forall x, In x q -> absent sep x) /\
  ((0 <= m)%Z -> (Z.of_nat (length l) <= m + 1)%Z) /\
  ((m < 0)%Z \/ (Z.of_nat (length l) < m + 1)%Z -> forall x, In x l -> absent sep x).
Proof.
  intros sep NE. induction fuel as [|fuel IH]; intros m p LP l.
  - assert (p = []) by (destruct p; [reflexivity|cbn in LP; lia]). subst p. unfold l. cbn [split_on join length].
    split; [reflexivity|]. split; [discriminate|]. split; [|split; [lia|]].
    + intros q r E x I. destruct q as [|y [|z q]]; try discriminate. destruct I.
    + intros _ x [<-|[]] a b Q. destruct a; [|discriminate]. destruct sep; [congruence|discriminate].
  - unfold l. cbn [split_on]. destruct (Z.eqb_spec m 0) as [->|M].
    { cbn [join length]. split; [reflexivity|]. split; [discriminate|]. split; [|split; lia].
      intros q r E x I. destruct q as [|y [|z q]]; try discriminate. destruct I. }
    destruct (find eq_dec sep p) as [k|] eqn:F; cycle 1.
    { cbn [join length]. split; [reflexivity|]. split; [discriminate|]. split; [|split; [lia|]].
      + intros q r E x I. destruct q as [|y [|z q]]; try discriminate. destruct I.
      + intros _ x [<-|[]]. apply find_none. exact F. }
    destruct (find_some _ _ _ F) as [E1 E2].
    assert (LS : (0 < length sep)%nat) by (destruct sep; [congruence|cbn; lia]).
    assert (KL : (k <= length p)%nat).
    { assert (Q := E2 (firstn k p) _ E1). rewrite firstn_length in Q. lia. }
    assert (LEN : (length (skipn (k + length sep) p) <= fuel)%nat).
    { rewrite skipn_length. assert (Q := f_equal (@length A) E1). rewrite !app_length, firstn_length, skipn_length in Q. lia. }
    assert (AB := first_absent sep p k NE KL E2).
    set (m' := (if (0 <? m)%Z then m - 1 else m)%Z). destruct (IH m' (skipn (k + length sep) p) LEN) as [J [NN [B [C D]]]].
    set (l' := split_on eq_dec fuel sep m' (skipn (k + length sep) p)) in *.
    assert (MM : ((0 <= m -> m' = m - 1 /\ 0 <= m') /\ (m < 0 -> m' < 0))%Z) by (unfold m'; destruct (Z.ltb_spec 0 m); lia).
    split; [|split; [discriminate|split; [|split]]].
    + destruct l' as [|y l']; [congruence|]. change (firstn k p ++ sep ++ join sep (y :: l') = p). rewrite J. symmetry. exact E1.
    + intros q r E x I. destruct q as [|y q]; [destruct I|]. injection E as E0 E. subst y. destruct I as [<-|I]; [exact AB|]. exact (B q r E x I).
    + intros P. cbn [length]. destruct MM as [MM _]. destruct (MM P) as [-> P']. specialize (C P'). lia.
    + intros P x I. destruct I as [<-|I]; [exact AB|]. apply D; [|exact I]. cbn [length] in P. destruct (Z.lt_ge_cases m 0) as [Q|Q]; [left; lia|right; lia].
Qed.

(** C160: with a separator the pieces joined by it are the string again, no piece contains it
    unless the number of splits is used up, when the last one may; with maxsplit not negative
    there are at most maxsplit + 1 pieces. *)
Theorem C160_separator : forall s sep maxsplit, sep <> [] ->
  let l := split_string eq_dec space s sep maxsplit in
  join sep l = s /\
  (forall front last, l = front ++ [last] -> forall x, In x front -> absent sep x) /\
  ((0 <= maxsplit)%Z -> (Z.of_nat (length l) <= maxsplit + 1)%Z) /\
  ((maxsplit < 0)%Z \/ (Z.of_nat (length l) < maxsplit + 1)%Z -> forall x, In x l -> absent sep x).
Proof.
  intros s sep m NE l. unfold l, split_string. destruct (Z.eqb_spec m 0) as [->|M].
  - cbn [join length]. split; [reflexivity|]. split; [|split; lia].
    intros q r E x I. destruct q as [|y [|z q]]; try discriminate. destruct I.
  - destruct sep as [|c sep]; [congruence|]. destruct (split_on_spec (c :: sep) NE (length s) m s (Nat.le_refl _)) as [J [_ [B [C D]]]].
    split; [exact J|]. split; [exact B|]. split; [exact C|exact D].
Qed.

Lemma skip_space_spec : forall p, exists a, p = a ++ skip_space space p /\ (forall x, In x a -> space x = true) /\
  (skip_space space p = [] \/ exists x t, skip_space space p = x :: t /\ space x = false).
Proof.
  induction p as [|x p [a [E [H1 H2]]]]; [exists []; split; [reflexivity|split; [intros x []|left; reflexivity]]|]. cbn [skip_space].
  destruct (space x) eqn:S.
  - exists (x :: a). split; [cbn; f_equal; exact E|]. split; [|exact H2]. intros y [<-|I]; [exact S|exact (H1 y I)].
  - exists []. split; [reflexivity|]. split; [intros y []|]. right. exists x, p. split; [reflexivity|exact S].
Qed.

Lemma word_spec : forall p, p = fst (word space p) ++ snd (word space p) /\ (forall x, In x (fst (word space p)) -> space x = false) /\
  (snd (word space p) = [] \/ exists x t, snd (word space p) = x :: t /\ space x = true) /\
  (forall x t, p = x :: t -> space x = false -> fst (word space p) <> []).
Proof.
  induction p as [|x p [E [H1 [H2 _]]]]; [cbn; split; [reflexivity|split; [intros x []|split; [left; reflexivity|discriminate]]]|]. cbn [word].
  destruct (space x) eqn:S; cbn [fst snd].
  - split; [reflexivity|]. split; [intros y []|]. split; [right; exists x, p; split; [reflexivity|exact S]|]. intros y t Q N. injection Q as <- _. congruence.
  - destruct (word space p) as [w r]. cbn [fst snd] in *. split; [cbn; f_equal; exact E|]. split; [|split; [exact H2|discriminate]].
    intros y [<-|I]; [exact S|exact (H1 y I)].
Qed.

Lemma words_spec : forall fuel m p, (m < 0)%Z -> (length p <= fuel)%nat -> Words space p (words space fuel m (skip_space space p)).
Proof.
  induction fuel as [|fuel IH]; intros m p M L.
  - destruct p; [|cbn in L; lia]. cbn. constructor. intros x [].
  - destruct (skip_space_spec p) as [a [E [H1 H2]]]. destruct (skip_space space p) as [|x t] eqn:Sp.
    + cbn [words]. constructor. intros y I. rewrite E, app_nil_r in I. exact (H1 y I).
    + destruct H2 as [H2|[x' [t' [Q N]]]]; [discriminate|]. injection Q as <- <-. cbn [words].
      destruct (word_spec (x :: t)) as [W1 [W2 [W3 W4]]]. specialize (W4 x t eq_refl N). destruct (word space (x :: t)) as [w r]. cbn [fst snd] in *.
      destruct (Z.leb_spec 0 m); [lia|]. cbn [andb]. rewrite E, W1. constructor; [exact H1|exact W4|exact W2|exact W3|].
      apply IH; [exact M|]. assert (Q1 := f_equal (@length A) E). assert (Q2 := f_equal (@length A) W1). rewrite app_length in Q1, Q2.
      destruct w; [congruence|]. cbn [length] in *. lia.
Qed.

(** C160: without a separator the pieces are the words. *)
Theorem C160_words : forall s maxsplit, (maxsplit < 0)%Z -> Words space s (split_string eq_dec space s [] maxsplit).
Proof.
  intros s m M. unfold split_string. destruct (Z.eqb_spec m 0); [lia|]. apply words_spec; [exact M|lia].
Qed.

(** C160, refuted: with a number of splits the rest keeps its leading white space, and is put
    out even when nothing is left. *)
Theorem C160_maxsplit_refuted : forall x y b, space x = false -> space y = false -> space b = true ->
  split_string eq_dec space [x] [] 1 = [[x]; []] /\ split_string eq_dec space [x; b; y] [] 1 = [[x]; [b; y]].
Proof.
  intros x y b X Y B. unfold split_string. cbn. repeat (rewrite ?X, ?Y, ?B; cbn). split; reflexivity.
Qed.
End S.

Example C160_hypotheses :
  split_string Z.eq_dec (fun x => (x =? 0)%Z) [1; 2; 2; 2; 3]%Z [2; 2]%Z (-1) = [[1]; [2; 3]]%Z /\
  split_string Z.eq_dec (fun x => (x =? 0)%Z) [0; 1; 0; 0; 2; 3; 0]%Z [] (-1) = [[1]; [2; 3]]%Z.
Proof. split; reflexivity. Qed.
Print Assumptions C160_separator.
Print Assumptions C160_words.
Print Assumptions C160_maxsplit_refuted.
