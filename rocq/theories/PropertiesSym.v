(** Properties of symbolic expressions: C25, C26, C42, C43. *)
From Verif Require Import Base DTypeModel SymModel SymSpec SymProofs SymPrint.
Local Open Scope Z_scope.

(** ** C25: the printed text parses to an expression of the same value *)
(** Whatever float arithmetic, float printing and float reading are. *)
Theorem C25_print_parse_partial : forall (F : Type) atof show of_int bin_f un_f (e : expr F),
  printable_expr F atof show of_int e ->
  exists e', parses_to F atof (str F show e) e' /\ same_value F of_int bin_f un_f e e'.
Proof. intros. destruct (print_parse F atof show of_int bin_f un_f e H) as [e' [P [S _]]]. exists e'. auto. Qed.
(** Without a float constant that prints as a whole number, the very same expression
    comes back. *)
Theorem C25_same_expression : forall (F : Type) atof show of_int (e : expr F),
  printable_expr F atof show of_int e -> dotted F show e -> parses_to F atof (str F show e) e.
Proof.
  intros F atof show of_int e H D.
  destruct (print_parse F atof show of_int (fun _ a _ => ROk a) (fun _ a => a) e H) as [e' [P [_ S]]].
  rewrite (S D) in P. exact P.
Qed.
(** A float constant that prints as a decimal fraction comes back as the value of that
    fraction: its own value only if the printed digits are enough. *)
Theorem C25_float_constant : forall (F : Type) atof show (f : F), fraction (show f) ->
  parses_to F atof (str F show (EFp F f)) (EFp F (atof (show f))).
Proof.
  intros F atof show f H. eapply parse_built with (fl := true) (ts := [TFp (show f)]).
  - apply b_atom. constructor.
  - cbn [str]. rewrite <- (app_nil_r (show f)) at 2. constructor; [constructor; exact H|intros _; exact I|constructor].
Qed.
Ltac run_parse := exists 20%nat; intros fuel Hfuel;
  do 20 (destruct fuel as [|fuel]; [lia|]); reflexivity.
(** A negative integer constant prints as "-5", which parses to a subtraction without
    left operand; evaluating it is undefined behaviour. *)
Theorem C25_negative_constant_refuted : forall (F : Type) atof show of_int bin_f un_f,
  parses_to F atof (str F show (EInt F (-5))) (EBin F Minus (ENull F) (EInt F 5))
  /\ (forall env, eval F of_int bin_f un_f env (EInt F (-5)) = ROk (of_int (-5)))
  /\ (forall env, eval F of_int bin_f un_f env (EBin F Minus (ENull F) (EInt F 5)) = RUB).
Proof.
  intros. split; [|split; reflexivity]. change (str F show (EInt F (-5))) with [45; 53]. run_parse.
Qed.
(** A float printed with an exponent ("1e+06") parses to the variable e plus 6. *)
Theorem C25_exponent_refuted : forall (F : Type) atof show (f : F), show f = [49; 101; 43; 48; 54] ->
  parses_to F atof (str F show (EFp F f)) (EBin F Plus (EVar F [101]) (EInt F 6)).
Proof. intros F atof show f H. cbn [str]. rewrite H. run_parse. Qed.

(** ** C26: usual precedence, left associativity *)
(** Every text of the grammar without % in which a product behind + or - has at most two
    factors is read as usual, however deeply nested and however spaced. *)
Theorem C26_usual_reading_partial : forall (F : Type) atof ts (e : expr F) s,
  Sum' F atof ts e -> Spells ts s -> Sum F atof ts e /\ parses_to F atof s e.
Proof.
  intros F atof ts e s H HS. split; [apply Sum'_Sum; exact H|].
  destruct (Sum'_Built F atof ts e H) as [fl HB]. eapply parse_built; eassumption.
Qed.
(** Every text of the full grammar is accepted, and the tree is the one described by
    [Built]. *)
Theorem C26_accepted : forall (F : Type) atof ts (e : expr F) s, Sum F atof ts e -> Spells ts s ->
  exists fl e', Built F atof fl ts e' /\ parses_to F atof s e'.
Proof.
  intros F atof ts e s H HS. destruct (Sum_Built F atof ts e H) as [fl [e' HB]].
  exists fl, e'. split; [exact HB|]. eapply parse_built; eassumption.
Qed.
Theorem C26_tree : forall (F : Type) atof fl ts (e : expr F) s,
  Built F atof fl ts e -> Spells ts s -> parses_to F atof s e.
Proof. intros. eapply parse_built; eassumption. Qed.
(** Three factors behind a low operator: the last one multiplies the whole sum. *)
Theorem C26_three_factors_refuted : forall (F : Type) atof o p q ta tb tc td (a b c d : expr F) s,
  low o -> high' p -> high' q ->
  Atom' F atof ta a -> Atom' F atof tb b -> Atom' F atof tc c -> Atom' F atof td d ->
  Spells (ta ++ TOp o :: (tb ++ TOp p :: tc) ++ TOp q :: td) s ->
  Sum F atof (ta ++ TOp o :: (tb ++ TOp p :: tc) ++ TOp q :: td) (EBin F o a (EBin F q (EBin F p b c) d))
  /\ parses_to F atof s (EBin F q (EBin F o a (EBin F p b c)) d).
Proof.
  intros F atof o p q ta tb tc td a b c d s Ho Hp Hq A B C D HS.
  assert (AA : forall ts e, Atom' F atof ts e -> Atom F atof ts e).
  { intros ts e H. inversion H; subst; constructor; apply Sum'_Sum; assumption. }
  assert (BA : forall ts e, Atom' F atof ts e -> BuiltAtom F atof ts e).
  { intros ts e H. inversion H as [| | |ts0 e0 H0|f ts0 e0 H0]; subst; try constructor;
      destruct (Sum'_Built _ _ _ _ H0) as [fl HB]; econstructor; exact HB. }
  split.
  - apply s_low; [apply s_prod, p_atom; auto|exact Ho|]. apply p_high; [|apply high'_high; exact Hq|auto].
    apply p_high; [apply p_atom; auto|apply high'_high; exact Hp|auto].
  - eapply parse_built; [|exact HS].
    change (ta ++ TOp o :: (tb ++ TOp p :: tc) ++ TOp q :: td) with (ta ++ (TOp o :: tb ++ TOp p :: tc) ++ TOp q :: td).
    rewrite app_assoc. eapply b_high; [|exact Hq|auto].
    eapply b_low2; [apply b_atom; auto|apply low_level10; exact Ho|auto|exact Hp|auto].
Qed.
(** Over the integers the tree of 1+2*3*4 is worth 28 instead of 25. *)
Definition z_bin (o : binop) (a b : Z) : res Z :=
  match o with
  | Plus => ROk (a + b) | Minus => ROk (a - b) | Multiply => ROk (a * b)
  | Divide => ROk (Z.quot a b) | Mod => if b =? 0 then RUB else ROk (Z.rem a b)
  end.
Definition z_un (u : unop) (a : Z) : Z := match u with Abs => Z.abs a | _ => a end.
Notation z_eval := (eval Z (fun v => v) z_bin z_un (fun _ => None)).
Theorem C26_usual_reading_refuted :
  ~ (forall (F : Type) atof ts (e : expr F) s, Sum F atof ts e -> Spells ts s -> parses_to F atof s e).
Proof.
  intros H.
  pose (i := fun v => EInt Z v).
  assert (A : forall v, Atom' Z (fun _ => 0) [TInt v] (i v)) by (intros; constructor).
  pose proof (C26_three_factors_refuted Z (fun _ => 0) Plus Multiply Multiply [TInt 1] [TInt 2] [TInt 3] [TInt 4]
    (i 1) (i 2) (i 3) (i 4) [49; 43; 50; 42; 51; 42; 52] (or_introl eq_refl) (or_introl eq_refl) (or_introl eq_refl)
    (A 1) (A 2) (A 3) (A 4)) as R.
  assert (S : Spells [TInt 1; TOp Plus; TInt 2; TOp Multiply; TInt 3; TOp Multiply; TInt 4] [49; 43; 50; 42; 51; 42; 52]).
  { assert (L : forall d ts s, 48 <= d <= 57 -> Spells ts s -> separated (TInt (d - 48)) s -> Spells (TInt (d - 48) :: ts) (d :: s)).
    { intros d ts s Hd HS Hsep. change (d :: s) with ([d] ++ s). constructor; [|exact Hsep|exact HS].
      constructor; [discriminate| |cbn [value10 length]; change (10 ^ Z.of_nat 0) with 1; lia|lia].
      intros c [<-|[]]. exact Hd. }
    assert (O : forall o ts s, Spells ts s -> Spells (TOp o :: ts) (op_char o :: s)).
    { intros o ts s HS. change (op_char o :: s) with ([op_char o] ++ s). constructor; [constructor|intros []|exact HS]. }
    apply (L 49); [lia| |intros _; split; [unfold word_char, letter|]; lia].
    apply (O Plus). apply (L 50); [lia| |intros _; split; [unfold word_char, letter|]; lia].
    apply (O Multiply). apply (L 51); [lia| |intros _; split; [unfold word_char, letter|]; lia].
    apply (O Multiply). apply (L 52); [lia|constructor|intros _; exact I]. }
  destruct (R S) as [R1 R2]. specialize (H Z (fun _ => 0) _ _ _ R1 S).
  destruct H as [n1 H1]. destruct R2 as [n2 H2].
  specialize (H1 (Nat.max n1 n2) ltac:(lia)). specialize (H2 (Nat.max n1 n2) ltac:(lia)). congruence.
Qed.
Example C26_values : z_eval (EBin Z Plus (EInt Z 1) (EBin Z Multiply (EBin Z Multiply (EInt Z 2) (EInt Z 3)) (EInt Z 4))) = ROk 25
  /\ (do e <- parse Z (fun _ => 0) 50 [49; 43; 50; 42; 51; 42; 52]; z_eval e) = ROk 28.
Proof. split; reflexivity. Qed.
(** % has the level of +: a + b % c is read as (a + b) % c. *)
Theorem C26_mod_refuted : forall (F : Type) atof ta tb tc (a b c : expr F) s,
  BuiltAtom F atof ta a -> BuiltAtom F atof tb b -> BuiltAtom F atof tc c ->
  Spells ((ta ++ TOp Plus :: tb) ++ TOp Mod :: tc) s ->
  parses_to F atof s (EBin F Mod (EBin F Plus a b) c).
Proof.
  intros F atof ta tb tc a b c s A B C HS. eapply parse_built; [|exact HS].
  eapply b_low1; [|unfold level10; tauto|exact C].
  eapply b_low1; [apply b_atom; exact A|unfold level10; tauto|exact B].
Qed.
(** An example of the positive class: "a*b*c - (d+ 2)*floor(x/ 3.5)". *)
Example C26_class : exists ts e s, Sum' Z (fun _ => 7) ts e /\ Spells ts s /\ length ts = 18%nat
  /\ parse Z (fun _ => 7) 60 s = ROk e.
Proof.
  pose (v := fun c => EVar Z [c]). pose (tv := fun c => TIdent [c]).
  exists ((([tv 97] ++ TOp Multiply :: [tv 98]) ++ TOp Multiply :: [tv 99])
     ++ TOp Minus :: (TOpen :: ([tv 100] ++ TOp Plus :: [TInt 2]) ++ [TClose]) ++ TOp Multiply ::
       (TFn Floor :: TOpen :: ([tv 120] ++ TOp Divide :: [TFp [51; 46; 53]]) ++ [TClose])).
  eexists. exists [97; 42; 98; 42; 99; 32; 45; 32; 40; 100; 43; 32; 50; 41; 42; 102; 108; 111; 111; 114; 40; 120; 47; 32; 51; 46; 53; 41].
  split; [|split; [|split; [reflexivity|]]].
  - apply s_low2'.
    + apply s_prod'. apply p_high'; [apply p_high'|left; reflexivity|apply a_var'].
      * apply p_atom', a_var'. * left; reflexivity. * apply a_var'.
    + right; reflexivity.
    + apply a_paren'. apply s_low1'; [apply s_prod', p_atom', a_var'|left; reflexivity|apply a_int'].
    + left; reflexivity.
    + apply a_fun'. apply s_prod'. apply p_high'; [apply p_atom', a_var'|right; reflexivity|apply a_fp'].
  - cbn [app].
    assert (L : forall t w ts s, Lexeme t w -> separated t s -> Spells ts s -> Spells (t :: ts) (w ++ s)) by (intros; constructor; assumption).
    assert (V : forall c, letter c -> Lexeme (TIdent [c]) [c]).
    { intros c Hc. constructor. split; [exact Hc|]. split; [intros x []|]. intros []; discriminate. }
    assert (Sp : forall t c s, ~ word_char c -> c <> 46 -> separated t (c :: s)) by (intros t c s A B _; auto).
    assert (N : forall t s, ~ wordy t -> separated t s) by (intros t s A B; contradiction).
    Ltac sp Sp N := first [apply N; intros []; fail | apply Sp; [unfold word_char, letter; lia|lia] | intros _; exact I].
    apply (L _ [97]); [apply V; unfold letter; lia|sp Sp N|]. apply (L _ [42]); [apply (lx_op Multiply)|sp Sp N|].
    apply (L _ [98]); [apply V; unfold letter; lia|sp Sp N|]. apply (L _ [42]); [apply (lx_op Multiply)|sp Sp N|].
    apply (L _ [99]); [apply V; unfold letter; lia|sp Sp N|]. apply sp_blank. apply (L _ [45]); [apply (lx_op Minus)|sp Sp N|].
    apply sp_blank. apply (L _ [40]); [constructor|sp Sp N|]. apply (L _ [100]); [apply V; unfold letter; lia|sp Sp N|].
    apply (L _ [43]); [apply (lx_op Plus)|sp Sp N|]. apply sp_blank.
    apply (L _ [50]); [|sp Sp N|].
    { constructor; [discriminate| |reflexivity|lia]. intros c [<-|[]]; lia. }
    apply (L _ [41]); [constructor|sp Sp N|]. apply (L _ [42]); [apply (lx_op Multiply)|sp Sp N|].
    apply (L _ [102; 108; 111; 111; 114]); [apply (lx_fn Floor)|sp Sp N|]. apply (L _ [40]); [constructor|sp Sp N|].
    apply (L _ [120]); [apply V; unfold letter; lia|sp Sp N|]. apply (L _ [47]); [apply (lx_op Divide)|sp Sp N|].
    apply sp_blank. apply (L _ [51; 46; 53]); [|sp Sp N|].
    { constructor. exists [51], [53]. split; [reflexivity|]. split; [|split]; [intros c [<-|[]]; lia..|left; discriminate]. }
    apply (L _ [41]); [constructor|sp Sp N|]. apply sp_end.
  - vm_compute. reflexivity.
Qed.
(** "(a_1 - (3.5 - 120)) % ceil(0 / b)". *)
Definition sample_expr : expr Z :=
  EBin Z Mod (EBin Z Minus (EVar Z [97; 95; 49]) (EBin Z Minus (EFp Z 7) (EInt Z 120)))
    (EUn Z Ceil (EBin Z Divide (EInt Z 0) (EVar Z [98]))).
Example C25_class : printable_expr Z (fun _ => 7) (fun _ => [51; 46; 53]) (fun v => v) sample_expr
  /\ parse Z (fun _ => 7) 60 (str Z (fun _ => [51; 46; 53]) sample_expr) = ROk sample_expr.
Proof.
  split; [|vm_compute; reflexivity]. cbn [printable_expr sample_expr].
  assert (V : var_name [97; 95; 49]).
  { split; [unfold letter; lia|]. split; [|intros []; discriminate].
    intros x [<-|[<-|[]]]; unfold word_char, letter; lia. }
  assert (B : var_name [98]) by (split; [unfold letter; lia|]; split; [intros x []|intros []; discriminate]).
  assert (Fr : fraction [51; 46; 53]).
  { exists [51], [53]. split; [reflexivity|]. split; [|split]; [intros c [<-|[]]; lia..|left; discriminate]. }
  refine (conj (conj V (conj (or_introl (conj Fr eq_refl)) _)) (conj _ B)); lia.
Qed.

(** ** C42: every text is either parsed or rejected *)
(** An expression whose opening parenthesis is never closed sends the parser into an
    endless loop. *)
Theorem C42_unclosed_refuted : forall (F : Type) atof ts (e : expr F) s,
  Sum F atof ts e -> Spells (TOpen :: ts) s ->
  exists n, forall fuel, (n <= fuel)%nat -> parse F atof fuel s = RDiverge.
Proof.
  intros F atof ts e s H HS. destruct (Sum_Built F atof ts e H) as [fl [e' HB]]. exact (unclosed_diverges F atof fl ts e' s HB HS).
Qed.
(** Two operands without operator: the first one is dropped silently ("a b"). *)
Theorem C42_dropped_operand_refuted : forall (F : Type) (atof : list Z -> F),
  parses_to F atof [97; 32; 98] (EVar F [98]).
Proof. intros. run_parse. Qed.

(** ** C43: variables *)
(** The value depends on the expression's variables only. *)
Theorem C43_value_of_variables : forall (F : Type) of_int bin_f un_f (e : expr F) env1 env2,
  (forall n, In n (vars F e) -> env1 n = env2 n) ->
  eval F of_int bin_f un_f env1 e = eval F of_int bin_f un_f env2 e.
Proof. intros. apply eval_vars. assumption. Qed.
Theorem C43_value : forall (F : Type) of_int bin_f un_f (e : expr F) env v,
  eval F of_int bin_f un_f env e = ROk v <-> Value F of_int bin_f un_f env e v.
Proof. intros. apply eval_value. Qed.
(** isStatic: exactly the expressions without variable, whose value no dictionary changes. *)
Theorem C43_static : forall (F : Type) (e : expr F), is_static F e = true <-> vars F e = [].
Proof. intros. apply is_static_vars. Qed.
Theorem C43_static_value : forall (F : Type) of_int bin_f un_f (e : expr F), is_static F e = true ->
  forall env1 env2, eval F of_int bin_f un_f env1 e = eval F of_int bin_f un_f env2 e.
Proof.
  intros F of_int bin_f un_f e H env1 env2. apply eval_vars. rewrite (proj1 (is_static_vars F e) H). intros n [].
Qed.
(** A dictionary without one of the variables: undefined behaviour, not an error. *)
Theorem C43_missing_variable_refuted : forall (F : Type) of_int bin_f un_f (e : expr F) env n,
  (forall o a b, exists c, bin_f o a b = ROk c) ->
  In n (vars F e) -> env n = None -> eval F of_int bin_f un_f env e = RUB.
Proof. intros. eapply eval_missing; eassumption. Qed.
Print Assumptions C25_print_parse_partial.
Print Assumptions C25_same_expression.
Print Assumptions C25_float_constant.
Print Assumptions C25_negative_constant_refuted.
Print Assumptions C25_exponent_refuted.
Print Assumptions C26_usual_reading_partial.
Print Assumptions C26_accepted.
Print Assumptions C26_tree.
Print Assumptions C26_three_factors_refuted.
Print Assumptions C26_usual_reading_refuted.
Print Assumptions C26_mod_refuted.
Print Assumptions C42_unclosed_refuted.
Print Assumptions C42_dropped_operand_refuted.
Print Assumptions C43_value_of_variables.
Print Assumptions C43_static.
Print Assumptions C43_static_value.
Print Assumptions C43_missing_variable_refuted.
Print Assumptions C43_value.
