(** Proofs about the symbolic expression parser and printer. *)
From Verif Require Import Base DTypeModel SymModel SymSpec.
Local Open Scope Z_scope.

(** ** The lexer *)
Lemma take_while_all : forall p m s, (forall c, In c m -> p c = true) ->
  (match s with c :: _ => p c = false | [] => True end) -> take_while p (m ++ s) = (m, s).
Proof.
  induction m as [|x m IH]; intros s Hm Hs.
  - destruct s; cbn [take_while app]; [reflexivity|]. rewrite Hs. reflexivity.
  - cbn [take_while app]. rewrite (Hm x) by (left; reflexivity). rewrite IH; auto.
    intros c Hc. apply Hm. right; exact Hc.
Qed.
Lemma is_digit_iff : forall c, is_digit c = true <-> 48 <= c <= 57.
Proof. intros. unfold is_digit. lia. Qed.
Lemma ident_char_iff : forall c, ident_char c = true <-> word_char c.
Proof. intros. unfold ident_char, is_alpha, is_digit, word_char, letter. lia. Qed.
Lemma ident_start_iff : forall c, ident_start c = true <-> letter c.
Proof. intros. unfold ident_start, is_alpha, letter. lia. Qed.
Lemma decimal_acc : forall w a, fold_left (fun a c => a * 10 + (c - 48)) w a = a * 10 ^ Z.of_nat (length w) + value10 w.
Proof.
  induction w as [|c w IH]; intros a; cbn [fold_left value10 length].
  - change (10 ^ Z.of_nat 0) with 1. lia.
  - rewrite IH. rewrite Nat2Z.inj_succ, Z.pow_succ_r by lia. ring.
Qed.
Lemma decimal_value : forall w, decimal w = value10 w.
Proof. intros. unfold decimal. rewrite decimal_acc. lia. Qed.
Lemma keyword_fn : forall f, keyword (fn_name f) = Some f.
Proof. intros []; reflexivity. Qed.
Lemma keyword_none : forall w, (forall f, w <> fn_name f) -> keyword w = None.
Proof.
  intros w H. unfold keyword.
  destruct (list_eq_dec _ _ _) as [e|]; [destruct (H Ceil e)|].
  destruct (list_eq_dec _ _ _) as [e|]; [destruct (H Floor e)|].
  destruct (list_eq_dec _ _ _) as [e|]; [destruct (H Abs e)|]. reflexivity.
Qed.
Lemma lex_word_ok : forall c m s, letter c -> (forall x, In x m -> word_char x) ->
  (match s with c :: _ => ~ word_char c | [] => True end) ->
  lex_text (c :: m ++ s) = ROk (match keyword (c :: m) with Some f => TFn f | None => TIdent (c :: m) end, LText s).
Proof.
  intros c m s Hc Hm Hs. cbn [lex_text]. rewrite (proj2 (ident_start_iff c) Hc).
  unfold lex_word. rewrite take_while_all.
  - destruct (keyword (c :: m)); reflexivity.
  - intros x Hx. apply ident_char_iff. auto.
  - destruct s as [|d s]; [exact I|]. destruct (ident_char d) eqn:E; [|reflexivity].
    apply ident_char_iff in E. contradiction.
Qed.
Lemma lex_lexeme : forall t w s, Lexeme t w -> separated t s -> lex_text (w ++ s) = ROk (t, LText s).
Proof.
  intros t w s HL Hs. unfold separated in Hs. destruct HL as [v w Hne Hd Hv Hb|w Hf|w Hn|f|o| |]; cbn [wordy] in Hs.
  - specialize (Hs I). destruct w as [|c m]; [congruence|]. cbn [app lex_text].
    assert (Hc : 48 <= c <= 57) by (apply Hd; left; reflexivity).
    assert (E1 : ident_start c = false) by (unfold ident_start, is_alpha; lia). rewrite E1.
    assert (E2 : is_digit c || (c =? 46) = true) by (unfold is_digit; lia). rewrite E2.
    unfold lex_number. replace (c =? 46) with false by lia.
    rewrite take_while_all.
    + replace (existsb (Z.eqb 46) m) with false.
      * rewrite decimal_value. cbn [rbind fst snd]. rewrite Hv. reflexivity.
      * symmetry. apply Bool.not_true_iff_false. intro E. apply existsb_exists in E. destruct E as [x [Hx Ex]].
        specialize (Hd x (or_intror Hx)). lia.
    + intros x Hx. unfold number_char, is_digit. specialize (Hd x (or_intror Hx)). lia.
    + destruct s as [|d s]; [exact I|]. unfold number_char, is_digit. unfold word_char in Hs. lia.
  - specialize (Hs I). destruct Hf as [a [b [-> [Ha [Hb Hne]]]]]. destruct a as [|c a].
    + cbn [app lex_text]. replace (ident_start 46) with false by reflexivity.
      replace (is_digit 46 || (46 =? 46)) with true by reflexivity. unfold lex_number.
      change (46 =? 46) with true. cbv iota. rewrite take_while_all.
      * destruct s as [|d s]; [reflexivity|]. replace (d =? 46) with false by lia. reflexivity.
      * intros x Hx. specialize (Hb x Hx). unfold is_digit. lia.
      * destruct s as [|d s]; [exact I|]. unfold is_digit. unfold word_char in Hs. lia.
    + rewrite <- app_assoc. cbn [app lex_text].
      assert (Hc : 48 <= c <= 57) by (apply Ha; left; reflexivity).
      assert (E1 : ident_start c = false) by (unfold ident_start, is_alpha; lia). rewrite E1.
      assert (E2 : is_digit c || (c =? 46) = true) by (unfold is_digit; lia). rewrite E2.
      unfold lex_number. replace (c =? 46) with false by lia.
      change (a ++ 46 :: b ++ s) with (a ++ (46 :: b) ++ s). rewrite app_assoc. rewrite take_while_all.
      * replace (existsb (Z.eqb 46) (a ++ 46 :: b)) with true; [reflexivity|]. symmetry.
        apply existsb_exists. exists 46. split; [apply in_or_app; right; left; reflexivity|reflexivity].
      * intros x Hx. apply in_app_or in Hx. unfold number_char, is_digit.
        destruct Hx as [Hx|[<-|Hx]]; [specialize (Ha x (or_intror Hx))|..|specialize (Hb x Hx)]; lia.
      * destruct s as [|d s]; [exact I|]. unfold number_char, is_digit. unfold word_char in Hs. lia.
  - specialize (Hs I). destruct w as [|c m]; [destruct Hn|]. destruct Hn as [Hc [Hm Hk]].
    cbn [app]. rewrite lex_word_ok; auto.
    + rewrite (keyword_none _ Hk). reflexivity.
    + destruct s; [exact I|tauto].
  - specialize (Hs I). replace (fn_name f) with (hd 0 (fn_name f) :: tl (fn_name f)) by (destruct f; reflexivity).
    cbn [app]. rewrite lex_word_ok.
    + replace (hd 0 (fn_name f) :: tl (fn_name f)) with (fn_name f) by (destruct f; reflexivity).
      rewrite keyword_fn. reflexivity.
    + destruct f; unfold letter; cbn [fn_name hd]; lia.
    + intros x Hx. unfold word_char, letter. destruct f; cbn [fn_name tl In] in Hx; lia.
    + destruct s; [exact I|tauto].
  - destruct o; reflexivity.
  - reflexivity.
  - reflexivity.
Qed.
(** The lexer delivers exactly these tokens, the last one included. *)
Inductive Stream : lexer -> list token -> Prop :=
| st_nil : Stream LAfterEof []
| st_cons : forall l t l' ts, lex_next l = ROk (t, l') -> Stream l' ts -> Stream l (t :: ts).
Lemma Spells_stream : forall ts s, Spells ts s -> Stream (LText s) (ts ++ [TEof]).
Proof.
  induction 1 as [|ts s H IH|t w ts s HL Hs H IH].
  - eapply st_cons; [reflexivity|constructor].
  - inversion IH as [|l t l' ts' E ST EQ]; subst. eapply st_cons; [|exact ST]. exact E.
  - cbn [app]. eapply st_cons; [|exact IH]. cbn [lex_next]. apply lex_lexeme; assumption.
Qed.

Section P.
Variable F : Type.
Variable atof : list Z -> F.
Notation expr := (expr F).
Notation Built := (Built F atof).
Notation BuiltAtom := (BuiltAtom F atof).
Notation parse_expr := (parse_expr F atof).
Notation parse_binary := (parse_binary F atof).
Notation parse_loop := (parse_loop F atof).

Scheme Built_mut := Induction for SymSpec.Built Sort Prop
with BuiltAtom_mut := Induction for SymSpec.BuiltAtom Sort Prop.

(** ** The parser *)
Definition Pending (p : parser) (ts : list token) : Prop :=
  (length (p_buf p) <= 1)%nat /\ exists ts', ts = p_buf p ++ ts' /\ Stream (p_lex p) ts'.
Definition Clean (p : parser) (ts : list token) : Prop := p_buf p = [] /\ Stream (p_lex p) ts.
Lemma Clean_Pending : forall p ts, Clean p ts -> Pending p ts.
Proof. intros p ts [E S]. split; [rewrite E; cbn; lia|]. exists ts. rewrite E. split; [reflexivity|exact S]. Qed.
Lemma next_ok : forall p t ts, Pending p (t :: ts) ->
  exists p', next_token p = ROk (t, p') /\ p_cur p' = t /\ Clean p' ts.
Proof.
  intros p t ts [Hl [ts' [E S]]]. unfold next_token. destruct (p_buf p) as [|u b] eqn:B.
  - cbn [app] in E. subst ts'. inversion S as [|l t' l' ts'' E ST EQ]; subst. rewrite E. cbn [rbind fst snd].
    eexists. split; [reflexivity|]. split; [reflexivity|]. split; [reflexivity|exact ST].
  - cbn [length] in Hl. destruct b; [|cbn in Hl; lia]. cbn [app] in E. injection E as -> ->.
    eexists. split; [reflexivity|]. split; [reflexivity|]. split; [reflexivity|exact S].
Qed.
Lemma look_ok : forall p t ts, Clean p (t :: ts) ->
  exists p', look_more p = ROk (t, p') /\ p_cur p' = p_cur p /\ Pending p' (t :: ts).
Proof.
  intros p t ts [E S]. unfold look_more. inversion S as [|l t' l' ts'' EL ST EQ]; subst. rewrite EL. cbn [rbind fst snd].
  eexists. split; [reflexivity|]. split; [reflexivity|]. split.
  - rewrite E. cbn. lia.
  - exists ts. rewrite E. split; [reflexivity|exact ST].
Qed.
Lemma high'_prec : forall o, high' o -> precedence o = 20.
Proof. intros o [->| ->]; reflexivity. Qed.
Lemma level10_prec : forall o, level10 o -> precedence o = 10.
Proof. intros o [->|[->| ->]]; reflexivity. Qed.
Lemma prec_cases : forall o, level10 o \/ high' o.
Proof. intros []; unfold level10, high'; tauto. Qed.
(** What may follow: after an operand of an operator of level 10, no operator of level 20. *)
Definition follows (fl : bool) (k : list token) : Prop :=
  match k with [] => False | TOp o :: _ => fl = false -> level10 o | _ => True end.

(** An atom, its first token being the current one. *)
Definition AtomOk (ts : list token) (e : expr) : Prop :=
  exists t0 r, ts = t0 :: r /\ is_close t0 = false /\ is_eof t0 = false /\
  forall k p, p_cur p = t0 -> Clean p (r ++ k) ->
  exists p' n, Clean p' k /\ forall f prev, (n <= f)%nat -> parse_expr f prev p = ROk (e, p').
Definition good_stop (stop : token -> bool) : Prop := stop = is_close \/ stop = is_eof.
Definition LoopOk (fl : bool) (ts : list token) (e : expr) : Prop :=
  forall stop k p, good_stop stop -> Pending p (ts ++ k) -> follows fl k ->
  exists p' m n, Pending p' k /\
  forall f, (n <= f)%nat -> parse_loop (m + f) stop (ENull F) p = parse_loop f stop e p'.

Lemma binary_ok : forall o t2 b fl k p, AtomOk t2 b -> p_cur p = TOp o -> Clean p (t2 ++ k) ->
  (fl = false \/ high' o) -> follows fl k ->
  exists p' n, Pending p' k /\ forall f prev, (n <= f)%nat -> parse_binary f prev p = ROk (EBin F o prev b, p').
Proof.
  intros o t2 b fl k p HA Hc Hp Ho Hk. destruct HA as [t0 [r [-> [_ [_ HA]]]]]. cbn [app] in Hp.
  destruct (next_ok _ _ _ (Clean_Pending _ _ Hp)) as [p1 [E1 [C1 P1]]].
  destruct (HA k p1 C1 P1) as [p2 [n [P2 H2]]].
  destruct k as [|t k]; [destruct Hk|]. destruct (look_ok _ _ _ P2) as [p3 [E3 [C3 P3]]].
  exists p3, (S n). split; [exact P3|]. intros f prev Hf. destruct f as [|f]; [lia|].
  change (parse_binary (S f) prev p) with
    (match p_cur p with
      | TOp o =>
          do x <- next_token p;
          do r <- parse_expr f prev (snd x);
          do n <- look_more (snd r);
          match fst n with
          | TOp o2 =>
              if precedence o <? precedence o2 then
                do y <- next_token (snd n);
                do r2 <- parse_binary f (fst r) (snd y);
                ROk (EBin F o prev (fst r2), snd r2)
              else ROk (EBin F o prev (fst r), snd n)
          | _ => ROk (EBin F o prev (fst r), snd n)
          end
      | _ => RUB
      end).
  rewrite Hc, E1. cbn [rbind fst snd]. rewrite H2 by lia. cbn [rbind fst snd]. rewrite E3. cbn [rbind fst snd].
  destruct t as [v|w|o2|u| | |nm|]; try reflexivity.
  replace (precedence o <? precedence o2) with false; [reflexivity|].
  destruct Ho as [->|Ho].
  - cbn [follows] in Hk. pose proof (level10_prec _ (Hk eq_refl)). destruct o; cbn [precedence]; lia.
  - rewrite (high'_prec _ Ho). destruct o2; reflexivity.
Qed.
Lemma binary2_ok : forall o q t2 t3 b c fl k p, AtomOk t2 b -> AtomOk t3 c -> p_cur p = TOp o ->
  Clean p (t2 ++ TOp q :: t3 ++ k) -> level10 o -> high' q -> follows fl k ->
  exists p' n, Pending p' k /\
    forall f prev, (n <= f)%nat -> parse_binary f prev p = ROk (EBin F o prev (EBin F q b c), p').
Proof.
  intros o q t2 t3 b c fl k p HA HC Hc Hp Ho Hq Hk. destruct HA as [t0 [r [-> [_ [_ HA]]]]]. cbn [app] in Hp.
  destruct (next_ok _ _ _ (Clean_Pending _ _ Hp)) as [p1 [E1 [C1 P1]]].
  destruct (HA _ p1 C1 P1) as [p2 [n [P2 H2]]].
  destruct (look_ok _ _ _ P2) as [p3 [E3 [C3 P3]]].
  destruct (next_ok _ _ _ P3) as [p4 [E4 [C4 P4]]].
  destruct (binary_ok q t3 c fl k p4 HC C4 P4 (or_intror Hq) Hk) as [p5 [n5 [P5 H5]]].
  exists p5, (S (Nat.max n n5)). split; [exact P5|]. intros f prev Hf. destruct f as [|f]; [lia|].
  change (parse_binary (S f) prev p) with
    (match p_cur p with
      | TOp o =>
          do x <- next_token p;
          do r <- parse_expr f prev (snd x);
          do n <- look_more (snd r);
          match fst n with
          | TOp o2 =>
              if precedence o <? precedence o2 then
                do y <- next_token (snd n);
                do r2 <- parse_binary f (fst r) (snd y);
                ROk (EBin F o prev (fst r2), snd r2)
              else ROk (EBin F o prev (fst r), snd n)
          | _ => ROk (EBin F o prev (fst r), snd n)
          end
      | _ => RUB
      end).
  rewrite Hc, E1. cbn [rbind fst snd]. rewrite H2 by lia. cbn [rbind fst snd]. rewrite E3. cbn [rbind fst snd].
  rewrite (level10_prec _ Ho), (high'_prec _ Hq). change (10 <? 20) with true. cbv iota.
  rewrite E4. cbn [rbind fst snd]. rewrite H5 by lia. reflexivity.
Qed.
Lemma loop_step : forall f stop ret p, parse_loop (S f) stop ret p =
  (do x <- next_token p;
   if stop (fst x) then ROk (ret, snd x)
   else do r <- parse_expr f ret (snd x); parse_loop f stop (fst r) (snd r)).
Proof. reflexivity. Qed.
Lemma expr_step_op : forall f prev p o, p_cur p = TOp o -> parse_expr (S f) prev p = parse_binary f prev p.
Proof.
  intros f prev p o H.
  change (parse_expr (S f) prev p) with
    (match p_cur p with
      | TInt v => ROk (EInt F v, p)
      | TFp s => ROk (EFp F (atof s), p)
      | TFn u =>
          do x <- next_token p;
          do g <- parse_loop f is_close (ENull F) (snd x);
          ROk (EUn F u (fst g), snd g)
      | TOpen | TClose => parse_loop f is_close (ENull F) p
      | TOp _ => parse_binary f prev p
      | TIdent n => ROk (EVar F n, p)
      | TEof => ROk (ENull F, p)
      end).
  rewrite H. reflexivity.
Qed.
Lemma expr_step : forall f prev p, parse_expr (S f) prev p =
    (match p_cur p with
      | TInt v => ROk (EInt F v, p)
      | TFp s => ROk (EFp F (atof s), p)
      | TFn u =>
          do x <- next_token p;
          do g <- parse_loop f is_close (ENull F) (snd x);
          ROk (EUn F u (fst g), snd g)
      | TOpen | TClose => parse_loop f is_close (ENull F) p
      | TOp _ => parse_binary f prev p
      | TIdent n => ROk (EVar F n, p)
      | TEof => ROk (ENull F, p)
      end).
Proof. reflexivity. Qed.
Lemma stop_op : forall stop o, good_stop stop -> stop (TOp o) = false.
Proof. intros stop o [->| ->]; reflexivity. Qed.
Lemma stop_first : forall stop t, good_stop stop -> is_close t = false -> is_eof t = false -> stop t = false.
Proof. intros stop t [->| ->]; auto. Qed.
(** One iteration of the loop that reads an operator. *)
Lemma loop_op : forall stop o e e' k k' p, good_stop stop -> Pending p (TOp o :: k) ->
  (forall p0, p_cur p0 = TOp o -> Clean p0 k -> exists p' n, Pending p' k' /\
     forall f, (n <= f)%nat -> parse_binary f e p0 = ROk (e', p')) ->
  exists p' n, Pending p' k' /\ forall f, (n <= f)%nat -> parse_loop (S f) stop e p = parse_loop f stop e' p'.
Proof.
  intros stop o e e' k k' p Hs Hp HB.
  destruct (next_ok _ _ _ Hp) as [p1 [E1 [C1 P1]]].
  destruct (HB p1 C1 P1) as [p2 [n [P2 H2]]].
  exists p2, (S n). split; [exact P2|]. intros f Hf. rewrite loop_step, E1. cbn [rbind fst snd].
  rewrite (stop_op _ _ Hs). destruct f as [|f]; [lia|]. rewrite (expr_step_op _ _ _ _ C1), H2 by lia. reflexivity.
Qed.
Lemma group_ok : forall fl ts e k p, LoopOk fl ts e -> Pending p (ts ++ TClose :: k) ->
  exists p' n, Clean p' k /\ forall f, (n <= f)%nat -> parse_loop f is_close (ENull F) p = ROk (e, p').
Proof.
  intros fl ts e k p HL Hp.
  destruct (HL is_close (TClose :: k) p (or_introl eq_refl) Hp I) as [p1 [m [n [P1 H1]]]].
  destruct (next_ok _ _ _ P1) as [p2 [E2 [C2 P2]]].
  exists p2, (m + S n)%nat. split; [exact P2|]. intros f Hf.
  replace f with (m + (S (f - m - 1)))%nat by lia. rewrite H1 by lia. rewrite loop_step, E2. reflexivity.
Qed.
Lemma built_ok : (forall fl ts e, Built fl ts e -> LoopOk fl ts e).
Proof.
  refine (Built_mut F atof (fun fl ts e _ => LoopOk fl ts e) (fun ts e _ => AtomOk ts e) _ _ _ _ _ _ _ _ _).
  - intros ts e _ HA stop k p Hs Hp Hk. destruct HA as [t0 [r [-> [S1 [S2 HA]]]]]. cbn [app] in Hp.
    destruct (next_ok _ _ _ Hp) as [p1 [E1 [C1 P1]]]. destruct (HA _ p1 C1 P1) as [p2 [n [P2 H2]]].
    exists p2, 1%nat, n. split; [apply Clean_Pending; exact P2|]. intros f Hf. cbn [Nat.add].
    rewrite loop_step, E1. cbn [rbind fst snd]. rewrite (stop_first _ _ Hs S1 S2), H2 by lia. reflexivity.
  - intros t1 t2 o a b _ IH1 Ho _ IH2 stop k p Hs Hp Hk. rewrite <- app_assoc in Hp. cbn [app] in Hp.
    destruct (IH1 stop (TOp o :: t2 ++ k) p Hs Hp (fun Hx => match Bool.diff_true_false Hx with end)) as [p1 [m1 [n1 [P1 H1]]]].
    destruct (loop_op stop o a (EBin F o a b) (t2 ++ k) k p1 Hs P1) as [p2 [n2 [P2 H2]]].
    { intros p0 C0 Q0. destruct (binary_ok o t2 b true k p0 IH2 C0 Q0 (or_intror Ho) Hk) as [p' [n [Q H]]].
      exists p', n. split; [exact Q|]. intros; apply H; assumption. }
    exists p2, (m1 + 1)%nat, (Nat.max n1 n2). split; [exact P2|]. intros f Hf.
    replace (m1 + 1 + f)%nat with (m1 + S f)%nat by lia. rewrite H1 by lia. apply H2. lia.
  - intros fl t1 t2 o a b _ IH1 Ho _ IH2 stop k p Hs Hp Hk. rewrite <- app_assoc in Hp. cbn [app] in Hp.
    destruct (IH1 stop (TOp o :: t2 ++ k) p Hs Hp (fun _ => Ho)) as [p1 [m1 [n1 [P1 H1]]]].
    destruct (loop_op stop o a (EBin F o a b) (t2 ++ k) k p1 Hs P1) as [p2 [n2 [P2 H2]]].
    { intros p0 C0 Q0. destruct (binary_ok o t2 b false k p0 IH2 C0 Q0 (or_introl eq_refl) Hk) as [p' [n [Q H]]].
      exists p', n. split; [exact Q|]. intros; apply H; assumption. }
    exists p2, (m1 + 1)%nat, (Nat.max n1 n2). split; [exact P2|]. intros f Hf.
    replace (m1 + 1 + f)%nat with (m1 + S f)%nat by lia. rewrite H1 by lia. apply H2. lia.
  - intros fl t1 t2 t3 o q a b c _ IH1 Ho _ IH2 Hq _ IH3 stop k p Hs Hp Hk.
    rewrite <- app_assoc in Hp. cbn [app] in Hp. rewrite <- app_assoc in Hp. cbn [app] in Hp.
    destruct (IH1 stop (TOp o :: t2 ++ TOp q :: t3 ++ k) p Hs Hp (fun _ => Ho)) as [p1 [m1 [n1 [P1 H1]]]].
    destruct (loop_op stop o a (EBin F o a (EBin F q b c)) (t2 ++ TOp q :: t3 ++ k) k p1 Hs P1) as [p2 [n2 [P2 H2]]].
    { intros p0 C0 Q0. destruct (binary2_ok o q t2 t3 b c true k p0 IH2 IH3 C0 Q0 Ho Hq Hk) as [p' [n [Q H]]].
      exists p', n. split; [exact Q|]. intros; apply H; assumption. }
    exists p2, (m1 + 1)%nat, (Nat.max n1 n2). split; [exact P2|]. intros f Hf.
    replace (m1 + 1 + f)%nat with (m1 + S f)%nat by lia. rewrite H1 by lia. apply H2. lia.
  - intros v. exists (TInt v), []. repeat split. intros k p C P. exists p, 1%nat. split; [exact P|].
    intros f prev Hf. destruct f; [lia|]. rewrite expr_step, C. reflexivity.
  - intros w. exists (TFp w), []. repeat split. intros k p C P. exists p, 1%nat. split; [exact P|].
    intros f prev Hf. destruct f; [lia|]. rewrite expr_step, C. reflexivity.
  - intros w. exists (TIdent w), []. repeat split. intros k p C P. exists p, 1%nat. split; [exact P|].
    intros f prev Hf. destruct f; [lia|]. rewrite expr_step, C. reflexivity.
  - intros fl ts e _ IH. exists TOpen, (ts ++ [TClose]). repeat split. intros k p C P.
    rewrite <- app_assoc in P. cbn [app] in P.
    destruct (group_ok fl ts e k p IH (Clean_Pending _ _ P)) as [p' [n [Q H]]].
    exists p', (S n). split; [exact Q|]. intros f prev Hf. destruct f; [lia|]. rewrite expr_step, C. apply H. lia.
  - intros fl u ts e _ IH. exists (TFn u), (TOpen :: ts ++ [TClose]). repeat split. intros k p C P.
    cbn [app] in P. rewrite <- app_assoc in P. cbn [app] in P.
    destruct (next_ok _ _ _ (Clean_Pending _ _ P)) as [p1 [E1 [C1 P1]]].
    destruct (group_ok fl ts e k p1 IH (Clean_Pending _ _ P1)) as [p' [n [Q H]]].
    exists p', (S n). split; [exact Q|]. intros f prev Hf. destruct f; [lia|]. rewrite expr_step, C, E1. cbn [rbind fst snd].
    rewrite H by lia. reflexivity.
Qed.
Theorem parse_built : forall fl ts e s, Built fl ts e -> Spells ts s -> parses_to F atof s e.
Proof.
  intros fl ts e s HB HS. pose proof (Spells_stream _ _ HS) as ST.
  destruct (built_ok fl ts e HB is_eof [TEof] (mkP (LText s) [] TEof) (or_intror eq_refl)) as [p [m [n [P H]]]].
  - apply Clean_Pending. split; [reflexivity|exact ST].
  - exact I.
  - destruct (next_ok _ _ _ P) as [p2 [E2 [C2 P2]]].
    exists (m + S n)%nat. intros fuel Hf. unfold parse.
    replace fuel with (m + S (fuel - m - 1))%nat by lia. rewrite H by lia. rewrite loop_step, E2. reflexivity.
Qed.

(** ** Grammars *)
Scheme Sum_mut := Induction for SymSpec.Sum Sort Prop
with Prod_mut := Induction for SymSpec.Prod Sort Prop
with Atom_mut := Induction for SymSpec.Atom Sort Prop.
Scheme Sum'_mut := Induction for SymSpec.Sum' Sort Prop
with Prod'_mut := Induction for SymSpec.Prod' Sort Prop
with Atom'_mut := Induction for SymSpec.Atom' Sort Prop.

Lemma high'_high : forall o, high' o -> high o.
Proof. intros o [->| ->]; unfold high; tauto. Qed.
Lemma low_level10 : forall o, low o -> level10 o.
Proof. intros o [->| ->]; unfold level10; tauto. Qed.
Lemma Sum'_Sum : forall ts e, SymSpec.Sum' F atof ts e -> SymSpec.Sum F atof ts e.
Proof.
  refine (Sum'_mut F atof (fun ts e _ => SymSpec.Sum F atof ts e) (fun ts e _ => SymSpec.Prod F atof ts e)
    (fun ts e _ => SymSpec.Atom F atof ts e) _ _ _ _ _ _ _ _ _ _); intros; try (constructor; assumption).
  - apply s_low; [assumption..|]. apply p_atom. assumption.
  - apply s_low; [assumption..|]. apply p_high; [apply p_atom; assumption|apply high'_high; assumption|assumption].
  - apply p_high; [assumption|apply high'_high; assumption|assumption].
Qed.
Lemma Sum'_Built : forall ts e, SymSpec.Sum' F atof ts e -> exists fl, Built fl ts e.
Proof.
  refine (Sum'_mut F atof (fun ts e _ => exists fl, Built fl ts e) (fun ts e _ => Built true ts e)
    (fun ts e _ => BuiltAtom ts e) _ _ _ _ _ _ _ _ _ _); intros; try (constructor; assumption).
  - exists true. assumption.
  - destruct H as [fl H]. exists false. eapply b_low1; [exact H|apply low_level10; assumption|assumption].
  - destruct H as [fl H]. exists true. eapply b_low2; [exact H|apply low_level10; assumption|assumption..].
  - destruct H as [fl H]. eapply ba_paren. exact H.
  - destruct H as [fl H]. eapply ba_fun. exact H.
Qed.
Lemma Built_snoc : forall fl t1 a o t2 b, Built fl t1 a -> BuiltAtom t2 b ->
  exists fl' e, Built fl' (t1 ++ TOp o :: t2) e.
Proof.
  intros fl t1 a o t2 b H1 H2. destruct (prec_cases o) as [Ho|Ho].
  - exists false. eexists. eapply b_low1; eassumption.
  - destruct fl.
    + exists true. eexists. eapply b_high; eassumption.
    + inversion H1 as [| |fl0 u1 u2 o0 a0 b0 HB Ho0 HA|]; subst. exists true. eexists.
      rewrite <- app_assoc. cbn [app]. eapply b_low2; eassumption.
Qed.
Lemma Sum_Built : forall ts e, SymSpec.Sum F atof ts e -> exists fl e', Built fl ts e'.
Proof.
  refine (Sum_mut F atof (fun ts e _ => exists fl e', Built fl ts e')
    (fun ts e _ => (exists fl e', Built fl ts e') /\ (forall fl t1 a o, Built fl t1 a -> exists fl' e', Built fl' (t1 ++ TOp o :: ts) e'))
    (fun ts e _ => exists e', BuiltAtom ts e') _ _ _ _ _ _ _ _ _).
  - intros ts e _ H. apply H.
  - intros t1 t2 o a b _ [fl [e' H1]] _ _ [_ H2]. eapply H2. exact H1.
  - intros ts e _ [e' H]. split; [exists true, e'; apply b_atom; exact H|]. intros. eapply Built_snoc; eassumption.
  - intros t1 t2 o a b _ [[fl [e' H1]] H1'] _ _ [e2 H2]. split; [eapply Built_snoc; eassumption|].
    intros fl0 t0 a0 o0 H0. destruct (H1' fl0 t0 a0 o0 H0) as [fl1 [e1 HB]].
    change (t0 ++ TOp o0 :: t1 ++ TOp o :: t2) with (t0 ++ (TOp o0 :: t1) ++ TOp o :: t2). rewrite app_assoc.
    eapply Built_snoc; eassumption.
  - intros. eexists. constructor.
  - intros. eexists. constructor.
  - intros. eexists. constructor.
  - intros ts e _ [fl [e' H]]. eexists. eapply ba_paren. exact H.
  - intros f ts e _ [fl [e' H]]. eexists. eapply ba_fun. exact H.
Qed.
End P.
