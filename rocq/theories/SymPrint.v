(** Printing a symbolic expression and parsing the text again. *)
From Verif Require Import Base DTypeModel SymModel SymSpec SymProofs.
Local Open Scope Z_scope.

Lemma value10_snoc : forall w d, value10 (w ++ [d]) = value10 w * 10 + (d - 48).
Proof. intros. rewrite <- !decimal_value. unfold decimal. rewrite fold_left_app. reflexivity. Qed.
Lemma digits_ok : forall fuel n acc, 0 <= n -> (Z.to_nat n < fuel)%nat ->
  exists w, digits fuel n acc = w ++ acc /\ w <> [] /\ all_digits w /\ value10 w = n.
Proof.
  induction fuel as [|fuel IH]; intros n acc Hn Hf; [lia|]. cbn [digits].
  destruct (n / 10 =? 0) eqn:E.
  - exists [48 + n mod 10]. split; [reflexivity|]. split; [discriminate|].
    assert (n mod 10 = n) by (apply Z.mod_small; assert (n / 10 = 0) by lia; apply Z.div_small_iff in H; lia).
    split.
    + intros c [<-|[]]. lia.
    + cbn [value10 length]. change (10 ^ Z.of_nat 0) with 1. lia.
  - destruct (IH (n / 10) ((48 + n mod 10) :: acc)) as [w [E1 [N [D V]]]].
    + apply Z.div_pos; lia.
    + assert (n / 10 < n) by (apply Z.div_lt; [|lia]; destruct (Z.eq_dec n 0); [subst; discriminate|lia]). lia.
    + exists (w ++ [48 + n mod 10]). split; [rewrite E1, <- app_assoc; reflexivity|]. split; [destruct w; discriminate|]. split.
      * intros c Hc. apply in_app_or in Hc. destruct Hc as [Hc|[<-|[]]]; [apply D; exact Hc|].
        pose proof (Z.mod_pos_bound n 10). lia.
      * rewrite value10_snoc, V. pose proof (Z.div_mod n 10). lia.
Qed.
Lemma show_int_ok : forall v, 0 <= v -> show_int v <> [] /\ all_digits (show_int v) /\ value10 (show_int v) = v.
Proof.
  intros v Hv. unfold show_int. replace (v <? 0) with false by lia.
  destruct (digits_ok (S (Z.to_nat v)) v [] Hv) as [w [E [N [D V]]]]; [lia|]. rewrite E, app_nil_r. auto.
Qed.

Section P.
Variable F : Type.
Variable atof : list Z -> F.
Variable show : F -> list Z.
Variable of_int : Z -> F.
Variable bin_f : binop -> F -> F -> res F.
Variable un_f : unop -> F -> F.
Notation same := (same_value F of_int bin_f un_f).

Definition sep (s : list Z) : Prop := match s with c :: _ => ~ word_char c /\ c <> 46 | [] => True end.
Lemma sep_sep : forall t s, sep s -> separated t s.
Proof. intros t s H _. exact H. Qed.
Lemma sep_close : forall s, sep (41 :: s).
Proof. intros. split; [unfold word_char, letter|]; lia. Qed.
Lemma sep_blank : forall s, sep (32 :: s).
Proof. intros. split; [unfold word_char, letter|]; lia. Qed.
(** [s0] can stand in front of any continuation that does not run into it. *)
Definition SpellsC (ts : list token) (s0 : list Z) : Prop :=
  forall k s, Spells k s -> sep s -> Spells (ts ++ k) (s0 ++ s).
Lemma SpellsC_tok : forall t w, Lexeme t w -> SpellsC [t] w.
Proof. intros t w H k s Hs Hp. cbn [app]. constructor; [exact H|apply sep_sep; exact Hp|exact Hs]. Qed.
Lemma SpellsC_paren : forall ts s0, SpellsC ts s0 -> SpellsC (TOpen :: ts ++ [TClose]) ([40] ++ s0 ++ [41]).
Proof.
  intros ts s0 H k s Hs Hp. cbn [app]. rewrite <- !app_assoc. cbn [app].
  change (40 :: s0 ++ 41 :: s) with ([40] ++ (s0 ++ 41 :: s)). apply sp_token; [constructor|intros []|].
  apply H; [|apply sep_close]. change (41 :: s) with ([41] ++ s). apply sp_token; [constructor|intros []|exact Hs].
Qed.
Lemma SpellsC_fun : forall f ts s0, SpellsC ts s0 -> SpellsC (TFn f :: TOpen :: ts ++ [TClose]) (fn_text f ++ [40] ++ s0 ++ [41]).
Proof.
  intros f ts s0 H k s Hs Hp.
  assert (SpellsC (TOpen :: ts ++ [TClose]) ([40] ++ s0 ++ [41])) as HP by (apply SpellsC_paren; exact H).
  specialize (HP k s Hs Hp). rewrite <- app_assoc. replace (fn_text f) with (fn_name f) by (destruct f; reflexivity).
  change ((TFn f :: TOpen :: ts ++ [TClose]) ++ k) with (TFn f :: (TOpen :: ts ++ [TClose]) ++ k).
  apply sp_token; [constructor| |exact HP]. intros _. cbn [app]. split; [unfold word_char, letter|]; lia.
Qed.
Lemma SpellsC_bin : forall o t1 t2 s1 s2, SpellsC t1 s1 -> SpellsC t2 s2 -> SpellsC (t1 ++ TOp o :: t2) (s1 ++ op_text o ++ s2).
Proof.
  intros o t1 t2 s1 s2 H1 H2 k s Hs Hp. rewrite <- !app_assoc. cbn [app].
  replace (op_text o) with (32 :: [op_char o] ++ [32]) by (destruct o; reflexivity).
  apply H1; [|apply sep_blank]. cbn [app]. apply sp_blank.
  change (op_char o :: 32 :: s2 ++ s) with ([op_char o] ++ (32 :: s2 ++ s)).
  apply sp_token; [constructor|intros []|]. apply sp_blank. apply H2; assumption.
Qed.
Lemma same_bin : forall o a b a' b', same a a' -> same b b' -> same (EBin F o a b) (EBin F o a' b').
Proof. intros o a b a' b' H1 H2 env. cbn [eval]. rewrite H1, H2. reflexivity. Qed.
Lemma same_un : forall u a a', same a a' -> same (EUn F u a) (EUn F u a').
Proof. intros u a a' H1 env. cbn [eval]. rewrite H1. reflexivity. Qed.

Notation dotted := (SymSpec.dotted F show).
Lemma fraction_not_digits : forall w, fraction w -> all_digits w -> False.
Proof. intros w [a [b [-> _]]] H. specialize (H 46). apply (fun f => proj1 (Z.le_ngt _ _) (proj1 f)) in H; [lia|]. apply in_or_app. right; left; reflexivity. Qed.
Lemma print_ok : forall e, printable_expr F atof show of_int e ->
  exists ts e', SpellsC ts (str F show e) /\ same e e' /\ (dotted e -> e' = e)
    /\ (exists fl, Built F atof fl ts e') /\ (is_bin F e = false -> BuiltAtom F atof ts e').
Proof.
  induction e as [|v|f|n|o l IHl r IHr|u x IHx]; intros H; cbn [printable_expr] in H.
  - destruct H.
  - exists [TInt v], (EInt F v). split; [|split; [|split; [|split]]].
    + apply SpellsC_tok. destruct (show_int_ok v) as [N [D V]]; [lia|]. constructor; [assumption..|lia].
    + intros env; reflexivity.
    + reflexivity.
    + exists true. apply b_atom. constructor.
    + constructor.
  - destruct H as [[Hf Ha]|[Hd [Hne [Hb Ha]]]].
    + exists [TFp (show f)], (EFp F (atof (show f))). split; [|split; [|split; [|split]]].
      * apply SpellsC_tok. constructor. exact Hf.
      * rewrite Ha. intros env; reflexivity.
      * rewrite Ha. reflexivity.
      * exists true. apply b_atom. constructor.
      * constructor.
    + exists [TInt (value10 (show f))], (EInt F (value10 (show f))). split; [|split; [|split; [|split]]].
      * apply SpellsC_tok. constructor; auto.
      * intros env. cbn [eval]. rewrite Ha. reflexivity.
      * intros Hdot. cbn [SymSpec.dotted] in Hdot. destruct (fraction_not_digits _ Hdot Hd).
      * exists true. apply b_atom. constructor.
      * constructor.
  - exists [TIdent n], (EVar F n). split; [|split; [|split; [|split]]].
    + apply SpellsC_tok. constructor. exact H.
    + intros env; reflexivity.
    + reflexivity.
    + exists true. apply b_atom. constructor.
    + constructor.
  - destruct H as [Hl Hr].
    assert (HA : forall e, (printable_expr F atof show of_int e -> exists ts e', SpellsC ts (str F show e) /\ same e e' /\ (dotted e -> e' = e)
        /\ (exists fl, Built F atof fl ts e') /\ (is_bin F e = false -> BuiltAtom F atof ts e')) ->
      printable_expr F atof show of_int e ->
      exists ts e', SpellsC ts (paren (is_bin F e) (str F show e)) /\ same e e' /\ (dotted e -> e' = e) /\ BuiltAtom F atof ts e').
    { intros e IH He. destruct (IH He) as [ts [e' [S1 [S2 [S3 [[fl S4] S5]]]]]]. unfold paren. destruct (is_bin F e).
      - exists (TOpen :: ts ++ [TClose]), e'. split; [apply SpellsC_paren; exact S1|]. split; [exact S2|]. split; [exact S3|].
        eapply ba_paren. exact S4.
      - exists ts, e'. auto. }
    destruct (HA l IHl Hl) as [t1 [l' [A1 [A2 [A3 A4]]]]].
    destruct (HA r IHr Hr) as [t2 [r' [B1 [B2 [B3 B4]]]]].
    exists (t1 ++ TOp o :: t2), (EBin F o l' r'). split; [|split; [|split; [|split]]].
    + cbn [str]. apply SpellsC_bin; assumption.
    + apply same_bin; assumption.
    + cbn [SymSpec.dotted]. intros [D1 D2]. rewrite A3, B3; auto.
    + destruct (prec_cases o).
      * exists false. eapply b_low1; [apply b_atom; exact A4|assumption..].
      * exists true. eapply b_high; [apply b_atom; exact A4|assumption..].
    + discriminate.
  - destruct (IHx H) as [ts [e' [S1 [S2 [S3 [[fl S4] S5]]]]]].
    exists (TFn u :: TOpen :: ts ++ [TClose]), (EUn F u e').
    assert (BuiltAtom F atof (TFn u :: TOpen :: ts ++ [TClose]) (EUn F u e')) by (eapply ba_fun; exact S4).
    split; [|split; [|split; [|split]]].
    + cbn [str]. apply SpellsC_fun. exact S1.
    + apply same_un. exact S2.
    + cbn [SymSpec.dotted]. intros D. rewrite S3; auto.
    + exists true. apply b_atom. assumption.
    + intros _. assumption.
Qed.
Theorem print_parse : forall e, printable_expr F atof show of_int e ->
  exists e', parses_to F atof (str F show e) e' /\ same e e' /\ (dotted e -> e' = e).
Proof.
  intros e H. destruct (print_ok e H) as [ts [e' [S1 [S2 [S3 [[fl S4] _]]]]]].
  exists e'. split; [|auto]. eapply parse_built; [exact S4|].
  specialize (S1 [] [] sp_end I). rewrite !app_nil_r in S1. exact S1.
Qed.
End P.
Section Q.
Variable F : Type.
Variable atof : list Z -> F.
(** ** Text without the closing parenthesis *)
Lemma drained_diverges : forall f ret p, p_buf p = [] -> (p_lex p = LAfterEof \/ p_lex p = LText []) ->
  parse_loop F atof f is_close ret p = RDiverge.
Proof.
  induction f as [|f IH]; intros ret p Hb Hl; [reflexivity|]. rewrite loop_step. unfold next_token. rewrite Hb.
  destruct Hl as [Hl|Hl]; rewrite Hl; cbn [lex_next lex_text rbind fst snd is_close].
  - destruct f as [|f]; [reflexivity|]. rewrite expr_step. cbn [p_cur rbind fst snd]. apply IH; cbn; auto.
  - destruct f as [|f]; [reflexivity|]. rewrite expr_step. cbn [p_cur rbind fst snd]. apply IH; cbn; auto.
Qed.
Lemma Stream_nil : forall l, Stream l [] -> l = LAfterEof.
Proof. intros l H. inversion H. reflexivity. Qed.
Lemma unclosed_diverges : forall fl ts e s, Built F atof fl ts e -> Spells (TOpen :: ts) s ->
  exists n, forall fuel, (n <= fuel)%nat -> parse F atof fuel s = RDiverge.
Proof.
  intros fl ts e s HB HS. pose proof (Spells_stream _ _ HS) as ST. cbn [app] in ST.
  assert (P0 : Pending (mkP (LText s) [] TEof) (TOpen :: ts ++ [TEof])) by (apply Clean_Pending; split; [reflexivity|exact ST]).
  destruct (next_ok _ _ _ P0) as [p1 [E1 [C1 P1]]].
  destruct (built_ok F atof fl ts e HB is_close [TEof] p1 (or_introl eq_refl) (Clean_Pending _ _ P1) I) as [p2 [m [n [P2 H2]]]].
  destruct (next_ok _ _ _ P2) as [p3 [E3 [C3 [B3 S3]]]].
  exists (S (S (m + S n)))%nat. intros fuel Hf. unfold parse. destruct fuel as [|[|fuel]]; [lia..|].
  rewrite loop_step, E1. cbn [rbind fst snd is_eof]. rewrite expr_step, C1.
  replace fuel with (m + S (fuel - m - 1))%nat by lia. rewrite H2 by lia. rewrite loop_step, E3. cbn [rbind fst snd is_close].
  destruct (fuel - m - 1)%nat as [|f']; [reflexivity|]. rewrite expr_step, C3. cbn [rbind fst snd].
  rewrite (drained_diverges (S f') (ENull F) p3 B3 (or_introl (Stream_nil _ S3))). reflexivity.
Qed.
End Q.
Lemma is_static_vars : forall F (e : expr F), is_static F e = true <-> SymSpec.vars F e = [].
Proof.
  intros F; induction e as [|v|f|n|o l IHl r IHr|u x IHx]; cbn [is_static SymSpec.vars]; try tauto.
  - split; discriminate.
  - rewrite Bool.andb_true_iff, IHl, IHr. split; [intros [-> ->]; reflexivity|]. intros H. apply app_eq_nil in H. exact H.
Qed.
Section R.
Variable F : Type.
Variable of_int : Z -> F.
Variable bin_f : binop -> F -> F -> res F.
Variable un_f : unop -> F -> F.
(** ** Variables *)
Notation vars := (SymSpec.vars F).
Lemma eval_vars : forall e env1 env2, (forall n, In n (vars e) -> env1 n = env2 n) ->
  eval F of_int bin_f un_f env1 e = eval F of_int bin_f un_f env2 e.
Proof.
  induction e as [|v|f|n|o l IHl r IHr|u x IHx]; intros env1 env2 H; cbn [eval SymSpec.vars] in *; try reflexivity.
  - rewrite (H n); [reflexivity|left; reflexivity].
  - rewrite (IHl env1 env2), (IHr env1 env2); [reflexivity|..]; intros n Hn; apply H; apply in_or_app; auto.
  - rewrite (IHx env1 env2); [reflexivity|exact H].
Qed.
Lemma eval_value : forall env e v, eval F of_int bin_f un_f env e = ROk v <-> Value F of_int bin_f un_f env e v.
Proof.
  intros env e v. split.
  - revert v. induction e as [|i|f|n|o l IHl r IHr|u x IHx]; intros v H; cbn [eval] in H.
    + discriminate.
    + injection H as <-. constructor.
    + injection H as <-. constructor.
    + destruct (env n) as [f|] eqn:E; [|discriminate]. injection H as <-. constructor. exact E.
    + destruct (eval F of_int bin_f un_f env l) as [a| | |] eqn:E1; cbn [rbind] in H; try discriminate.
      destruct (eval F of_int bin_f un_f env r) as [b| | |] eqn:E2; cbn [rbind] in H; try discriminate.
      econstructor; [apply IHl; reflexivity|apply IHr; reflexivity|exact H].
    + destruct (eval F of_int bin_f un_f env x) as [a| | |] eqn:E1; cbn [rbind] in H; try discriminate.
      injection H as <-. constructor. apply IHx. reflexivity.
  - induction 1 as [i|f|n f E|o l r a b c H1 IH1 H2 IH2 E|u x a H1 IH1]; cbn [eval]; try reflexivity.
    + rewrite E. reflexivity.
    + rewrite IH1, IH2. exact E.
    + rewrite IH1. reflexivity.
Qed.
(** A missing variable is undefined behaviour. *)
Lemma eval_missing : forall e env n, In n (vars e) -> env n = None ->
  (forall o a b, exists c, bin_f o a b = ROk c) -> eval F of_int bin_f un_f env e = RUB.
Proof.
  intros e env n Hin Hn Hb.
  assert (T : forall x, (exists v, eval F of_int bin_f un_f env x = ROk v) \/ eval F of_int bin_f un_f env x = RUB).
  { induction x as [|v|f|m|o l IHl r IHr|u x IHx]; cbn [eval]; eauto.
    - destruct (env m); eauto.
    - destruct IHl as [[a ->]| ->]; cbn [rbind]; [|auto]. destruct IHr as [[b ->]| ->]; cbn [rbind]; [|auto].
      destruct (Hb o a b) as [c ->]. eauto.
    - destruct IHx as [[a ->]| ->]; cbn [rbind]; eauto. }
  induction e as [|v|f|m|o l IHl r IHr|u x IHx]; cbn [SymSpec.vars In] in Hin; try contradiction.
  - destruct Hin as [->|[]]. cbn [eval]. rewrite Hn. reflexivity.
  - cbn [eval]. apply in_app_or in Hin. destruct Hin as [Hin|Hin].
    + rewrite (IHl Hin). reflexivity.
    + destruct (T l) as [[a ->]| ->]; cbn [rbind]; [|reflexivity]. rewrite (IHr Hin). reflexivity.
  - cbn [eval]. rewrite (IHx Hin). reflexivity.
Qed.
End R.
