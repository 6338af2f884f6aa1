(** Vocabulary for the properties of symbolic expressions.

    The text of an expression is a sequence of tokens, with blanks anywhere between two
    of them; the grammar is the textbook one: sums of products of atoms, operators of
    one level grouping to the left. *)
From Verif Require Import Base DTypeModel SymModel.
Local Open Scope Z_scope.

Definition all_digits (w : list Z) : Prop := forall c, In c w -> 48 <= c <= 57.
Definition letter (c : Z) : Prop := 65 <= c <= 90 \/ 97 <= c <= 122 \/ c = 95.
Definition word_char (c : Z) : Prop := letter c \/ 48 <= c <= 57.
(** "ceil", "floor", "abs". *)
Definition fn_name (f : unop) : list Z :=
  match f with
  | Ceil => [99; 101; 105; 108]
  | Floor => [102; 108; 111; 111; 114]
  | Abs => [97; 98; 115]
  end.
Definition op_char (o : binop) : Z := match o with Plus => 43 | Minus => 45 | Multiply => 42 | Divide => 47 | Mod => 37 end.
(** A variable name: a letter or underscore, then letters, digits, underscores; not the
    name of a function. *)
Definition var_name (w : list Z) : Prop :=
  match w with
  | c :: r => letter c /\ (forall x, In x r -> word_char x) /\ (forall f, w <> fn_name f)
  | [] => False
  end.
(** A decimal fraction: digits, one dot, digits; at least one digit. *)
Definition fraction (w : list Z) : Prop :=
  exists a b, w = a ++ 46 :: b /\ all_digits a /\ all_digits b /\ (a <> [] \/ b <> []).
(** The value of a sequence of decimal digits. *)
Fixpoint value10 (w : list Z) : Z :=
  match w with [] => 0 | c :: r => (c - 48) * 10 ^ Z.of_nat (length r) + value10 r end.

(** [w] is a way to write the token [t]. *)
Inductive Lexeme : token -> list Z -> Prop :=
| lx_int : forall v w, w <> [] -> all_digits w -> value10 w = v -> v < 2 ^ 31 -> Lexeme (TInt v) w
| lx_fp : forall w, fraction w -> Lexeme (TFp w) w
| lx_var : forall w, var_name w -> Lexeme (TIdent w) w
| lx_fn : forall f, Lexeme (TFn f) (fn_name f)
| lx_op : forall o, Lexeme (TOp o) [op_char o]
| lx_open : Lexeme TOpen [40]
| lx_close : Lexeme TClose [41].
(** Tokens that would run into a following letter, digit, underscore or dot. *)
Definition wordy (t : token) : Prop :=
  match t with TInt _ | TFp _ | TIdent _ | TFn _ => True | _ => False end.
Definition separated (t : token) (s : list Z) : Prop :=
  wordy t -> match s with c :: _ => ~ word_char c /\ c <> 46 | [] => True end.
(** [s] is a text of the token sequence [ts]: blanks may stand anywhere. *)
Inductive Spells : list token -> list Z -> Prop :=
| sp_end : Spells [] []
| sp_blank : forall ts s, Spells ts s -> Spells ts (32 :: s)
| sp_token : forall t w ts s, Lexeme t w -> separated t s -> Spells ts s -> Spells (t :: ts) (w ++ s).

(** The usual levels: multiplication, division and remainder above addition and
    subtraction. *)
Definition high (o : binop) : Prop := o = Multiply \/ o = Divide \/ o = Mod.
Definition low (o : binop) : Prop := o = Plus \/ o = Minus.

Section Grammar.
Variable F : Type.
Variable atof : list Z -> F.
Notation expr := (expr F).

(** The textbook grammar: a sum is a product, or a sum, a low operator and a product;
    a product is an atom, or a product, a high operator and an atom. *)
Inductive Sum : list token -> expr -> Prop :=
| s_prod : forall ts e, Prod ts e -> Sum ts e
| s_low : forall t1 t2 o a b, Sum t1 a -> low o -> Prod t2 b -> Sum (t1 ++ TOp o :: t2) (EBin F o a b)
with Prod : list token -> expr -> Prop :=
| p_atom : forall ts e, Atom ts e -> Prod ts e
| p_high : forall t1 t2 o a b, Prod t1 a -> high o -> Atom t2 b -> Prod (t1 ++ TOp o :: t2) (EBin F o a b)
with Atom : list token -> expr -> Prop :=
| a_int : forall v, Atom [TInt v] (EInt F v)
| a_fp : forall w, Atom [TFp w] (EFp F (atof w))
| a_var : forall n, Atom [TIdent n] (EVar F n)
| a_paren : forall ts e, Sum ts e -> Atom (TOpen :: ts ++ [TClose]) e
| a_fun : forall f ts e, Sum ts e -> Atom (TFn f :: TOpen :: ts ++ [TClose]) (EUn F f e).

(** The part of the grammar on which the parser agrees: no remainder operator, and a
    product behind a low operator has at most two factors. *)
Definition high' (o : binop) : Prop := o = Multiply \/ o = Divide.
Inductive Sum' : list token -> expr -> Prop :=
| s_prod' : forall ts e, Prod' ts e -> Sum' ts e
| s_low1' : forall t1 t2 o a b, Sum' t1 a -> low o -> Atom' t2 b -> Sum' (t1 ++ TOp o :: t2) (EBin F o a b)
| s_low2' : forall t1 t2 t3 o p a b c, Sum' t1 a -> low o -> Atom' t2 b -> high' p -> Atom' t3 c ->
    Sum' (t1 ++ TOp o :: t2 ++ TOp p :: t3) (EBin F o a (EBin F p b c))
with Prod' : list token -> expr -> Prop :=
| p_atom' : forall ts e, Atom' ts e -> Prod' ts e
| p_high' : forall t1 t2 o a b, Prod' t1 a -> high' o -> Atom' t2 b -> Prod' (t1 ++ TOp o :: t2) (EBin F o a b)
with Atom' : list token -> expr -> Prop :=
| a_int' : forall v, Atom' [TInt v] (EInt F v)
| a_fp' : forall w, Atom' [TFp w] (EFp F (atof w))
| a_var' : forall n, Atom' [TIdent n] (EVar F n)
| a_paren' : forall ts e, Sum' ts e -> Atom' (TOpen :: ts ++ [TClose]) e
| a_fun' : forall f ts e, Sum' ts e -> Atom' (TFn f :: TOpen :: ts ++ [TClose]) (EUn F f e).

(** What the parser does build: the operators of [prec 10] are + - % and those of
    [prec 20] are * and /; an operator of level 10 takes two operands exactly when an
    operator of level 20 follows; everything else groups to the left.  The flag says
    whether an operator of level 20 may follow. *)
Definition level10 (o : binop) : Prop := o = Plus \/ o = Minus \/ o = Mod.
Inductive Built : bool -> list token -> expr -> Prop :=
| b_atom : forall ts e, BuiltAtom ts e -> Built true ts e
| b_high : forall t1 t2 o a b, Built true t1 a -> high' o -> BuiltAtom t2 b -> Built true (t1 ++ TOp o :: t2) (EBin F o a b)
| b_low1 : forall fl t1 t2 o a b, Built fl t1 a -> level10 o -> BuiltAtom t2 b -> Built false (t1 ++ TOp o :: t2) (EBin F o a b)
| b_low2 : forall fl t1 t2 t3 o p a b c, Built fl t1 a -> level10 o -> BuiltAtom t2 b -> high' p -> BuiltAtom t3 c ->
    Built true (t1 ++ TOp o :: t2 ++ TOp p :: t3) (EBin F o a (EBin F p b c))
with BuiltAtom : list token -> expr -> Prop :=
| ba_int : forall v, BuiltAtom [TInt v] (EInt F v)
| ba_fp : forall w, BuiltAtom [TFp w] (EFp F (atof w))
| ba_var : forall n, BuiltAtom [TIdent n] (EVar F n)
| ba_paren : forall fl ts e, Built fl ts e -> BuiltAtom (TOpen :: ts ++ [TClose]) e
| ba_fun : forall fl f ts e, Built fl ts e -> BuiltAtom (TFn f :: TOpen :: ts ++ [TClose]) (EUn F f e).

(** [parse] returns [e] on the text [s] (with enough fuel, and with any more fuel). *)
Definition parses_to (s : list Z) (e : expr) : Prop :=
  exists n, forall fuel, (n <= fuel)%nat -> parse F atof fuel s = ROk e.
Definition same_value (of_int : Z -> F) (bin_f : binop -> F -> F -> res F) (un_f : unop -> F -> F) (a b : expr) : Prop :=
  forall env, eval F of_int bin_f un_f env a = eval F of_int bin_f un_f env b.
(** An expression without null children, whose variables have variable names, whose
    integer constants are not negative, and whose float constants are printed as a
    decimal fraction that reads back as the same float, or as a whole number. *)
Fixpoint printable_expr (show : F -> list Z) (of_int : Z -> F) (e : expr) : Prop :=
  match e with
  | ENull _ => False
  | EInt _ v => 0 <= v < 2 ^ 31
  | EFp _ f => (fraction (show f) /\ atof (show f) = f)
      \/ (all_digits (show f) /\ show f <> [] /\ value10 (show f) < 2 ^ 31 /\ of_int (value10 (show f)) = f)
  | EVar _ n => var_name n
  | EBin _ _ l r => printable_expr show of_int l /\ printable_expr show of_int r
  | EUn _ _ x => printable_expr show of_int x
  end.
(** No float constant that is printed without a dot. *)
Fixpoint dotted (show : F -> list Z) (e : expr) : Prop :=
  match e with
  | EFp _ f => fraction (show f)
  | EBin _ _ l r => dotted show l /\ dotted show r
  | EUn _ _ x => dotted show x
  | _ => True
  end.
(** [e] has the value [v] when the variables have the values [env]: the operator is
    applied to the value of its left operand first, that of its right operand second. *)
Inductive Value (of_int : Z -> F) (bin_f : binop -> F -> F -> res F) (un_f : unop -> F -> F) (env : list Z -> option F)
  : expr -> F -> Prop :=
| v_int : forall v, Value of_int bin_f un_f env (EInt F v) (of_int v)
| v_fp : forall f, Value of_int bin_f un_f env (EFp F f) f
| v_var : forall n f, env n = Some f -> Value of_int bin_f un_f env (EVar F n) f
| v_bin : forall o l r a b c, Value of_int bin_f un_f env l a -> Value of_int bin_f un_f env r b -> bin_f o a b = ROk c ->
    Value of_int bin_f un_f env (EBin F o l r) c
| v_un : forall u x a, Value of_int bin_f un_f env x a -> Value of_int bin_f un_f env (EUn F u x) (un_f u a).
(** The variables of an expression. *)
Fixpoint vars (e : expr) : list (list Z) :=
  match e with
  | EVar _ n => [n]
  | EBin _ _ l r => vars l ++ vars r
  | EUn _ _ x => vars x
  | _ => []
  end.
End Grammar.
