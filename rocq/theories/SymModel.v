(** Symbolic expressions: /repo/mllm/compile/symbolic_expr/{Parser.cpp,Parser.hpp,AST.hpp,
    Eval.cpp,Tokens.hpp}.

    Text is a list of character codes.  Simplifications: characters are ASCII (isalpha
    and isdigit of the C locale; they are applied to a plain char); float arithmetic,
    atof and the printing of a float are left open (parameters of the sections below);
    an integer literal is the exact decimal value of its digits (atoi is undefined
    beyond 2^31 - 1); shared_ptr nodes are values, a null pointer is [ENull]. *)
From Verif Require Import Base DTypeModel.
Local Open Scope Z_scope.

(** Tokens.hpp:32-57. *)
Inductive binop := Plus | Minus | Multiply | Divide | Mod.
Inductive unop := Ceil | Floor | Abs.
(** Parser.hpp:18-45; Identifier carries str_v_, which handleOperationState leaves
    empty for a character that is no operator. *)
Inductive token :=
| TInt (v : Z) | TFp (text : list Z) | TOp (o : binop) | TFn (f : unop)
| TOpen | TClose | TIdent (name : list Z) | TEof.

(** ** The lexer *)
Definition is_alpha (c : Z) : bool := ((65 <=? c) && (c <=? 90)) || ((97 <=? c) && (c <=? 122)).
Definition is_digit (c : Z) : bool := (48 <=? c) && (c <=? 57).
Definition ident_start (c : Z) : bool := is_alpha c || (c =? 95).
Definition ident_char (c : Z) : bool := is_alpha c || is_digit c || (c =? 95).
(** Between two calls the lexer is either about to look at the first character of the
    remaining text ([LText], state_ decided from cur_char_, end of file included), or it
    has reported the end of file, which also cleared the stream's end-of-file mark
    (handleEOFState, Parser.cpp:193-197): the next call then finds the character EOF
    (-1), takes it for an operator that does not exist, and finds the end of file
    again. *)
Inductive lexer := LText (s : list Z) | LAfterEof.

Fixpoint take_while (p : Z -> bool) (l : list Z) : list Z * list Z :=
  match l with
  | [] => ([], [])
  | x :: r => if p x then (x :: fst (take_while p r), snd (take_while p r)) else ([], l)
  end.
(** The dictionary, Parser.cpp:14-29. *)
Definition keyword (name : list Z) : option unop :=
  if list_eq_dec Z.eq_dec name [99; 101; 105; 108] then Some Ceil
  else if list_eq_dec Z.eq_dec name [102; 108; 111; 111; 114] then Some Floor
  else if list_eq_dec Z.eq_dec name [97; 98; 115] then Some Abs
  else None.
Definition operator (c : Z) : token :=
  if c =? 43 then TOp Plus else if c =? 45 then TOp Minus else if c =? 37 then TOp Mod
  else if c =? 42 then TOp Multiply else if c =? 47 then TOp Divide
  else if c =? 40 then TOpen else if c =? 41 then TClose else TIdent [].
Definition decimal (l : list Z) : Z := fold_left (fun a c => a * 10 + (c - 48)) l 0.
(** handleNumberState, Parser.cpp:140-181.  has_one_dot is only set when the number
    starts with a dot; a second dot then ends the process (exit(-1)). *)
Definition number_char (c : Z) : bool := is_digit c || (c =? 46).
Definition lex_number (c : Z) (r : list Z) : res (token * list Z) :=
  if c =? 46 then
    let '(m, rest) := take_while is_digit r in
    match rest with
    | d :: _ => if d =? 46 then RAbort else ROk (TFp (c :: m), rest)
    | [] => ROk (TFp (c :: m), rest)
    end
  else
    let '(m, rest) := take_while number_char r in
    if existsb (Z.eqb 46) m then ROk (TFp (c :: m), rest) else ROk (TInt (decimal (c :: m)), rest).
(** handleIdentifierState, Parser.cpp:199-224. *)
Definition lex_word (c : Z) (r : list Z) : token * list Z :=
  let '(m, rest) := take_while ident_char r in
  match keyword (c :: m) with Some f => (TFn f, rest) | None => (TIdent (c :: m), rest) end.
(** getNextToken, Parser.cpp:56-113. *)
Fixpoint lex_text (s : list Z) : res (token * lexer) :=
  match s with
  | [] => ROk (TEof, LAfterEof)
  | c :: r =>
      if ident_start c then let '(t, rest) := lex_word c r in ROk (t, LText rest)
      else if is_digit c || (c =? 46) then do x <- lex_number c r; ROk (fst x, LText (snd x))
      else if c =? 32 then lex_text r
      else ROk (operator c, LText r)
  end.
Definition lex_next (l : lexer) : res (token * lexer) :=
  match l with
  | LText s => lex_text s
  | LAfterEof => ROk (TIdent [], LText [])
  end.
(** getPrecedence, Parser.cpp:115-118. *)
Definition precedence (o : binop) : Z := match o with Plus | Minus | Mod => 10 | Multiply | Divide => 20 end.

(** ** Expressions: AST.hpp *)
Section Sym.
Variable F : Type.                        (* float *)
Variable atof : list Z -> F.
Variable show : F -> list Z.              (* ostream << float *)
Variable of_int : Z -> F.                 (* static_cast<float>(int32_t) *)
Variable bin_f : binop -> F -> F -> res F. (* BinaryExprAST::eval, AST.hpp:95-109 *)
Variable un_f : unop -> F -> F.            (* UnaryExprAST::eval, AST.hpp:168-177 *)

Inductive expr :=
| ENull
| EInt (v : Z)
| EFp (v : F)
| EVar (name : list Z)
| EBin (o : binop) (l r : expr)
| EUn (f : unop) (e : expr).

(** eval: a variable without value is a dereference of end(); a null child a null
    dereference. *)
Fixpoint eval (env : list Z -> option F) (e : expr) : res F :=
  match e with
  | ENull => RUB
  | EInt v => ROk (of_int v)
  | EFp v => ROk v
  | EVar n => match env n with Some v => ROk v | None => RUB end
  | EBin o l r => do a <- eval env l; do b <- eval env r; bin_f o a b
  | EUn f x => do a <- eval env x; ROk (un_f f a)
  end.
(** isStatic, AST.hpp:90-93, 192, 213, 244, 269. *)
Fixpoint is_static (e : expr) : bool :=
  match e with
  | EVar _ => false
  | EBin _ l r => is_static l && is_static r
  | EUn _ x => is_static x
  | _ => true
  end.

(** ostream << int32_t. *)
Fixpoint digits (fuel : nat) (n : Z) (acc : list Z) : list Z :=
  match fuel with
  | O => acc
  | S f => let acc := (48 + n mod 10) :: acc in if n / 10 =? 0 then acc else digits f (n / 10) acc
  end.
Definition show_int (v : Z) : list Z :=
  if v <? 0 then 45 :: digits (S (Z.to_nat (- v))) (- v) [] else digits (S (Z.to_nat v)) v [].
Definition op_text (o : binop) : list Z :=
  match o with Plus => [32; 43; 32] | Minus => [32; 45; 32] | Multiply => [32; 42; 32] | Divide => [32; 47; 32] | Mod => [32; 37; 32] end.
Definition fn_text (f : unop) : list Z :=
  match f with Ceil => [99; 101; 105; 108] | Floor => [102; 108; 111; 111; 114] | Abs => [97; 98; 115] end.
Definition is_bin (e : expr) : bool := match e with EBin _ _ _ => true | _ => false end.
Definition paren (b : bool) (s : list Z) : list Z := if b then [40] ++ s ++ [41] else s.
(** str, AST.hpp:111-135, 179-190, 217, 248, 273 (a null child crashes; here: ""). *)
Fixpoint str (e : expr) : list Z :=
  match e with
  | ENull => []
  | EInt v => show_int v
  | EFp v => show v
  | EVar n => n
  | EBin o l r => paren (is_bin l) (str l) ++ op_text o ++ paren (is_bin r) (str r)
  | EUn f x => fn_text f ++ [40] ++ str x ++ [41]
  end.

(** ** The parser: Parser.cpp:243-347 *)
Record parser := mkP { p_lex : lexer; p_buf : list token; p_cur : token }.
(** lines 327-331: always reads from the lexer. *)
Definition look_more (p : parser) : res (token * parser) :=
  do x <- lex_next (p_lex p); ROk (fst x, mkP (snd x) (p_buf p ++ [fst x]) (p_cur p)).
(** lines 335-345. *)
Definition next_token (p : parser) : res (token * parser) :=
  match p_buf p with
  | t :: b => ROk (t, mkP (p_lex p) b t)
  | [] => do x <- lex_next (p_lex p); ROk (fst x, mkP (snd x) [] (fst x))
  end.
Definition is_close (t : token) : bool := match t with TClose => true | _ => false end.
Definition is_eof (t : token) : bool := match t with TEof => true | _ => false end.

(** parseExpr (253-276) with parseVarExpr, parseNumberLiteralExpr and parseUnaryExpr
    (292-295, 306-325) in place; parseBinaryExpr (297-312 of the file's numbering:
    lines 297-311); the loop of parseGroupedExpr (278-290) and parse (243-251), which
    differ in the token that ends it. *)
Fixpoint parse_expr (fuel : nat) (prev : expr) (p : parser) : res (expr * parser) :=
  match fuel with
  | O => RDiverge
  | S f =>
      match p_cur p with
      | TInt v => ROk (EInt v, p)
      | TFp s => ROk (EFp (atof s), p)
      | TFn u =>
          do x <- next_token p;
          do g <- parse_loop f is_close ENull (snd x);
          ROk (EUn u (fst g), snd g)
      | TOpen | TClose => parse_loop f is_close ENull p
      | TOp _ => parse_binary f prev p
      | TIdent n => ROk (EVar n, p)
      | TEof => ROk (ENull, p)
      end
  end
with parse_binary (fuel : nat) (prev : expr) (p : parser) : res (expr * parser) :=
  match fuel with
  | O => RDiverge
  | S f =>
      match p_cur p with
      | TOp o =>
          do x <- next_token p;
          do r <- parse_expr f prev (snd x);
          do n <- look_more (snd r);
          match fst n with
          | TOp o2 =>
              if precedence o <? precedence o2 then
                do y <- next_token (snd n);
                do r2 <- parse_binary f (fst r) (snd y);
                ROk (EBin o prev (fst r2), snd r2)
              else ROk (EBin o prev (fst r), snd n)
          | _ => ROk (EBin o prev (fst r), snd n)
          end
      | _ => RUB (* not reached: called on an operator only *)
      end
  end
with parse_loop (fuel : nat) (stop : token -> bool) (ret : expr) (p : parser) : res (expr * parser) :=
  match fuel with
  | O => RDiverge
  | S f =>
      do x <- next_token p;
      if stop (fst x) then ROk (ret, snd x)
      else do r <- parse_expr f ret (snd x); parse_loop f stop (fst r) (snd r)
  end.
(** SymExpr::parse, Eval.cpp:76-80. *)
Definition parse (fuel : nat) (src : list Z) : res expr :=
  do x <- parse_loop fuel is_eof ENull (mkP (LText src) [] TEof); ROk (fst x).
End Sym.
