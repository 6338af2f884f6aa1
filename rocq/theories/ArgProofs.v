(** The command line parser does what the line says. *)
From Verif Require Import Base DTypeModel ArgModel ArgSpec.
Local Open Scope Z_scope.

Definition revalue (a : arg) (v : option val) : arg := mkArg (a_kind a) (a_flags a) (a_required a) (a_positional a) (a_def a) v.
Fixpoint put (v : nat -> option val) (ps : list arg) : list arg :=
  match ps with [] => [] | a :: r => revalue a (v O) :: put (fun k => v (S k)) r end.
Lemma put_ext v w ps : (forall k, v k = w k) -> put v ps = put w ps.
Proof. revert v w. induction ps as [|a ps IH]; intros v w H; [reflexivity|]. cbn. rewrite H. f_equal. apply IH. auto. Qed.
Lemma put_id ps : put (fun k => match nth_error ps k with Some a => a_value a | None => None end) ps = ps.
Proof. induction ps as [|a ps IH]; [reflexivity|]. cbn. f_equal; [destruct a; reflexivity|exact IH]. Qed.
Lemma put_nth v ps : forall k, nth_error (put v ps) k = option_map (fun a => revalue a (v k)) (nth_error ps k).
Proof. revert v. induction ps as [|a ps IH]; intros v [|k]; cbn; try reflexivity. apply (IH (fun k => v (S k)) k). Qed.
Lemma put_len v ps : length (put v ps) = length ps.
Proof. revert v. induction ps as [|a ps IH]; intro v; cbn; [reflexivity|f_equal; apply IH]. Qed.
Lemma owner_put v f ps : owner f (put v ps) = owner f ps.
Proof. revert v. induction ps as [|a ps IH]; intro v; [reflexivity|]. cbn [put owner]. change (has_flag f (revalue a (v O))) with (has_flag f a). destruct (has_flag f a); [reflexivity|]. rewrite IH. reflexivity. Qed.
Definition upd (v : nat -> option val) (k : nat) (x : option val) : nat -> option val := fun i => if (i =? k)%nat then x else v i.

Lemma give_switch f rest ps : forall v k a, owner f ps = Some k -> nth_error ps k = Some a -> a_kind a = KBool ->
  give f rest (put v ps) = ROk (put (upd v k (Some (VBool true))) ps, rest).
Proof.
  induction ps as [|b ps IH]; intros v k a Ho Hn Hk; [discriminate|]. cbn [owner] in Ho. cbn [put give].
  change (has_flag f (revalue b (v O))) with (has_flag f b). destruct (has_flag f b).
  - injection Ho as <-. cbn in Hn. injection Hn as ->. unfold is_bool. cbn [a_kind revalue]. rewrite Hk. cbn. f_equal.
  - destruct (owner f ps) as [k'|] eqn:E; [|discriminate]. injection Ho as <-. cbn in Hn. rewrite (IH _ k' a eq_refl Hn Hk). cbn. f_equal.
Qed.
Lemma give_value f t rest ps x : forall v k a, owner f ps = Some k -> nth_error ps k = Some a -> a_kind a <> KBool -> read_value (a_kind a) t = Some x ->
  give f (t :: rest) (put v ps) = ROk (put (upd v k (Some x)) ps, rest).
Proof.
  induction ps as [|b ps IH]; intros v k a Ho Hn Hk Hr; [discriminate|]. cbn [owner] in Ho. cbn [put give].
  change (has_flag f (revalue b (v O))) with (has_flag f b). destruct (has_flag f b).
  - injection Ho as <-. cbn in Hn. injection Hn as ->. unfold is_bool. cbn [a_kind revalue]. unfold arg_parse. cbn [a_kind revalue].
    destruct (a_kind a); [congruence| |]; rewrite Hr; reflexivity.
  - destruct (owner f ps) as [k'|] eqn:E; [|discriminate]. injection Ho as <-. cbn in Hn. rewrite (IH _ k' a eq_refl Hn Hk Hr). cbn. f_equal.
Qed.
Lemma give_unknown f rest ps : owner f ps = None -> give f rest ps = RAbort.
Proof. induction ps as [|b ps IH]; intro H; [reflexivity|]. cbn in *. destruct (has_flag f b); [discriminate|]. destruct (owner f ps); [discriminate|]. rewrite IH by reflexivity. reflexivity. Qed.

Definition said (ps : list arg) (l : list item) (v : nat -> option val) : nat -> option val :=
  fun k => match last_said ps k l with Some x => Some x | None => v k end.
(** more fuel changes nothing *)
Lemma options_fuel : forall n m args ps, (length args <= n)%nat -> (length args <= m)%nat -> options n args ps = options m args ps.
Proof.
  induction n as [|n IH]; intros [|m] args ps Hn Hm; destruct args as [|s rest]; try reflexivity; cbn in Hn, Hm; try lia.
  cbn [options]. destruct (is_option s).
  - assert (G : forall f rest ps r, give f rest ps = ROk r -> (length (snd r) <= length rest)%nat).
    { clear. intros f rest ps. induction ps as [|a ps IH]; cbn; intros r H; [discriminate|]. destruct (has_flag f a).
      - destruct (is_bool a); [injection H as <-; cbn; lia|]. destruct rest as [|v rest']; [discriminate|].
        destruct (arg_parse a v) as [a'| | |]; cbn in H; try discriminate. injection H as <-. cbn. lia.
      - destruct (give f rest ps) as [q| | |]; cbn in H; try discriminate. injection H as <-. cbn. apply (IH q eq_refl). }
    destruct (give s rest ps) as [r| | |] eqn:E; try reflexivity. cbn [rbind]. specialize (G _ _ _ _ E). apply IH; lia.
  - rewrite (IH m rest ps) by lia. reflexivity.
Qed.
Lemma options_line ps : forall l v n tail, Forall (sensible ps) l -> (length (line l ++ tail) <= n)%nat ->
  options n (line l ++ tail) (put v ps) =
  (do r <- options (length tail) tail (put (said ps l v) ps); ROk (fst r, words l ++ snd r)).
Proof.
  induction l as [|i l IH]; intros v n tail Hs Hn.
  - cbn [line flat_map app words]. rewrite (options_fuel n (length tail)) by (cbn in Hn; lia).
    change (put (said ps [] v) ps) with (put v ps). destruct (options (length tail) tail (put v ps)) as [[x y]| | |]; reflexivity.
  - assert (H1 := Forall_inv Hs). apply Forall_inv_tail in Hs. change (line (i :: l)) with (spell i ++ line l) in *. rewrite <- app_assoc in *.
    assert (N : forall k, (exists x, says ps k i = Some x \/ says ps k i = None) ) by (intro k; destruct (says ps k i) as [x|]; [exists x; auto|exists (VBool true); auto]).
    assert (E : forall w, (forall k, w k = match says ps k i with Some x => Some x | None => v k end) -> forall k, said ps l w k = said ps (i :: l) v k).
    { intros w Hw k. unfold said. cbn [last_said]. destruct (last_said ps k l); [reflexivity|]. apply Hw. }
    destruct i as [f t|f|t]; cbn [sensible spell app words flat_map] in *.
    + destruct H1 as (Ho & k & a & Hk & Ha & Nk & Hr). destruct (read_value (a_kind a) t) as [x|] eqn:Ex; [|congruence].
      destruct n as [|n]; [cbn in Hn; lia|]. cbn [options]. rewrite Ho. rewrite (give_value f t _ ps x v k a Hk Ha Nk Ex). cbn [rbind fst snd].
      rewrite IH by (try exact Hs; cbn in Hn; lia). rewrite (put_ext _ (said ps (Value f t :: l) v)); [reflexivity|]. apply E.
      intro j. unfold upd, says. rewrite Hk. rewrite Nat.eqb_sym. destruct (k =? j)%nat eqn:Ej; [|destruct (nth_error ps j); reflexivity].
      apply Nat.eqb_eq in Ej. subst j. rewrite Ha, Ex. reflexivity.
    + destruct H1 as (Ho & k & a & Hk & Ha & Nk). destruct n as [|n]; [cbn in Hn; lia|]. cbn [options]. rewrite Ho.
      rewrite (give_switch f _ ps v k a Hk Ha Nk). cbn [rbind fst snd]. rewrite IH by (try exact Hs; cbn in Hn; lia).
      rewrite (put_ext _ (said ps (Switch f :: l) v)); [reflexivity|]. apply E. intro j. unfold upd, says. rewrite Hk. rewrite Nat.eqb_sym. destruct (k =? j)%nat; reflexivity.
    + destruct n as [|n]; [cbn in Hn; lia|]. cbn [options]. rewrite H1. rewrite IH by (try exact Hs; cbn in Hn; lia).
      rewrite (put_ext (said ps (Word t :: l) v) (said ps l v)); [|intro j; symmetry; apply E; reflexivity].
      destruct (options (length tail) tail (put (said ps l v) ps)) as [[x y]| | |]; reflexivity.
Qed.
(** positional parameters *)
Definition placed (ps : list arg) (pos : list str) (v : nat -> option val) : nat -> option val :=
  fun k => match nth_error ps k with
           | Some a => if a_positional a then match nth_error pos (positionals_before ps k) with Some t => read_value (a_kind a) t | None => v k end else v k
           | None => v k
           end.
Lemma positionals_ok ps : forall pos v,
  (forall k a t, nth_error ps k = Some a -> a_positional a = true -> nth_error pos (positionals_before ps k) = Some t -> read_value (a_kind a) t <> None) ->
  (forall k a, nth_error ps k = Some a -> a_positional a = true -> a_required a = true -> nth_error pos (positionals_before ps k) <> None) ->
  positionals pos (put v ps) = ROk (put (placed ps pos v) ps).
Proof.
  induction ps as [|a ps IH]; intros pos v Hr Hq; [reflexivity|]. cbn [put positionals]. change (a_positional (revalue a (v O))) with (a_positional a). change (a_required (revalue a (v O))) with (a_required a).
  destruct (a_positional a) eqn:Ep.
  - assert (PB : forall k, positionals_before (a :: ps) (S k) = S (positionals_before ps k)) by (intro k; unfold positionals_before; cbn; rewrite Ep; reflexivity).
    destruct pos as [|s pos].
    + destruct (a_required a) eqn:Er. { exfalso. apply (Hq O a eq_refl Ep Er). reflexivity. }
      rewrite IH.
      * cbn [rbind]. f_equal. cbn [put]. f_equal.
        -- unfold placed. cbn. rewrite Ep. reflexivity.
        -- apply put_ext. intro k. unfold placed at 2. cbn [nth_error]. rewrite PB. unfold placed. destruct (nth_error ps k); [|reflexivity]. destruct (a_positional a0); [|reflexivity].
           destruct (positionals_before ps k); reflexivity.
      * intros k b t Hb Hp Ht. destruct (positionals_before ps k); discriminate.
      * intros k b Hb Hp Hrb X. apply (Hq (S k) b Hb Hp Hrb). rewrite PB. reflexivity.
    + unfold arg_parse. cbn [a_kind revalue]. destruct (read_value (a_kind a) s) as [x|] eqn:Ex.
      * cbn [rbind]. rewrite IH.
        -- cbn [rbind]. f_equal. cbn [put]. f_equal.
           ++ unfold placed, set_value, revalue. cbn. rewrite Ep, Ex. reflexivity.
           ++ apply put_ext. intro k. unfold placed. cbn [nth_error]. rewrite PB. reflexivity.
        -- intros k b t Hb Hp Ht. apply (Hr (S k) b t Hb Hp). rewrite PB. exact Ht.
        -- intros k b Hb Hp Hrb. assert (X := Hq (S k) b Hb Hp Hrb). rewrite PB in X. exact X.
      * exfalso. apply (Hr O a s eq_refl Ep); [reflexivity|exact Ex].
  - assert (PB : forall k, positionals_before (a :: ps) (S k) = positionals_before ps k) by (intro k; unfold positionals_before; cbn; rewrite Ep; reflexivity).
    rewrite IH.
    + cbn [rbind]. f_equal. cbn [put]. f_equal.
      * unfold placed. cbn. rewrite Ep. reflexivity.
      * apply put_ext. intro k. unfold placed. cbn [nth_error]. rewrite PB. reflexivity.
    + intros k b t Hb Hp Ht. apply (Hr (S k) b t Hb Hp). rewrite PB. exact Ht.
    + intros k b Hb Hp Hrb. assert (X := Hq (S k) b Hb Hp Hrb). rewrite PB in X. exact X.
Qed.
Definition final (ps : list arg) (l : list item) : nat -> option val :=
  fun k => match nth_error ps k with Some a => value_of ps l k a | None => None end.
Lemma final_eq ps l : put (placed ps (words l) (said ps l (fun k => match nth_error ps k with Some a => a_value a | None => None end))) ps = put (final ps l) ps.
Proof.
  (* the two agree inside of the list *)
  assert (X : forall v w, (forall k a, nth_error ps k = Some a -> v k = w k) -> put v ps = put w ps).
  { clear. induction ps as [|a ps IH]; intros v w H; [reflexivity|]. cbn. rewrite (H O a eq_refl). f_equal. apply IH. intros k b Hb. apply (H (S k) b Hb). }
  apply X. intros k a Ha. unfold placed, final, value_of, said. rewrite Ha. destruct (a_positional a); [|reflexivity]. destruct (nth_error (words l) (positionals_before ps k)); reflexivity.
Qed.
Lemma parse_line ps l : Forall (sensible ps) l -> words_readable ps l ->
  (forall k a, nth_error ps k = Some a -> a_positional a = true -> a_required a = true -> nth_error (words l) (positionals_before ps k) <> None) ->
  parse (line l) ps = if existsb (fun a => a_required a && negb (is_set a)) (put (final ps l) ps) then RAbort else ROk (put (final ps l) ps).
Proof.
  intros Hs Hw Hq. unfold parse. rewrite <- (put_id ps) at 1. set (v := fun k => match nth_error ps k with Some a => a_value a | None => None end).
  assert (E := options_line ps l v (length (line l)) [] Hs). rewrite app_nil_r in E. rewrite E by lia. cbn [options length rbind fst snd]. rewrite app_nil_r.
  rewrite (positionals_ok ps (words l) (said ps l v) Hw Hq). cbn [rbind]. unfold v. rewrite final_eq. reflexivity.
Qed.
Lemma existsb_put f v ps : existsb f (put v ps) = true <-> exists k a, nth_error ps k = Some a /\ f (revalue a (v k)) = true.
Proof.
  rewrite existsb_exists. split.
  - intros (x & Hx & Hf). apply In_nth_error in Hx. destruct Hx as [k Hk]. rewrite put_nth in Hk. destruct (nth_error ps k) as [a|] eqn:E; [|discriminate]. cbn in Hk. injection Hk as <-. eauto.
  - intros (k & a & Ha & Hf). exists (revalue a (v k)). split; [|exact Hf]. apply nth_error_In with k. rewrite put_nth, Ha. reflexivity.
Qed.
Lemma find_owner f ps : forall v k a, owner f ps = Some k -> nth_error ps k = Some a -> find (has_flag f) (put v ps) = Some (revalue a (v k)).
Proof.
  induction ps as [|b ps IH]; intros v k a Ho Ha; [discriminate|]. cbn [owner] in Ho. cbn [put find]. change (has_flag f (revalue b (v O))) with (has_flag f b).
  destruct (has_flag f b); [injection Ho as <-; cbn in Ha; injection Ha as ->; reflexivity|].
  destruct (owner f ps) as [k'|] eqn:E; [|discriminate]. injection Ho as <-. cbn in Ha. apply (IH (fun k => v (S k)) k' a eq_refl Ha).
Qed.

(** ** Flags *)
Lemma pieces_clean : forall s cur, (forall c, In c s -> c <> 124) -> split_pieces cur s = match cur ++ s with [] => [] | _ => [cur ++ s] end.
Proof.
  induction s as [|c s IH]; intros cur H; cbn.
  - rewrite app_nil_r. destruct cur; reflexivity.
  - replace (c =? 124) with false by (specialize (H c (or_introl eq_refl)); lia). rewrite IH by (intros; apply H; right; assumption). rewrite <- app_assoc. cbn. destruct (cur ++ c :: s); reflexivity.
Qed.
Lemma pieces_bar : forall s cur t, (forall c, In c s -> c <> 124) -> split_pieces cur (s ++ 124 :: t) = (match cur ++ s with [] => [] | _ => [cur ++ s] end) ++ split_pieces [] t.
Proof.
  induction s as [|c s IH]; intros cur t H; cbn.
  - rewrite app_nil_r. destruct cur; reflexivity.
  - replace (c =? 124) with false by (specialize (H c (or_introl eq_refl)); lia). rewrite IH by (intros; apply H; right; assumption). rewrite <- app_assoc. cbn. destruct (cur ++ c :: s); reflexivity.
Qed.
