(** The command line parser of the tools: /repo/mllm/utils/Argparse.hpp.

    Simplifications: strings are lists of bytes; the value types are bool, std::string and int (the others go through
    operator>> like int); leaving the program is [RAbort]; help texts are left out.  The list of parameters is the
    singleton's args_, in the order of the calls of add. *)
From Verif Require Import Base DTypeModel.
Local Open Scope Z_scope.

Definition str := list Z.
Definition str_eqb (a b : str) : bool := if list_eq_dec Z.eq_dec a b then true else false.

Inductive kind := KBool | KString | KInt.
Inductive val := VBool (b : bool) | VString (s : str) | VInt (z : Z).
(** Argument<T>, lines 37-129: value_ and is_set_ as [a_value], default_ as [a_def] ([None]: def was not called). *)
Record arg := mkArg { a_kind : kind; a_flags : list str; a_required : bool; a_positional : bool; a_def : option val; a_value : option val }.
Definition set_value (a : arg) (v : val) : arg := mkArg (a_kind a) (a_flags a) (a_required a) (a_positional a) (a_def a) (Some v).

Definition is_space (c : Z) : bool := (c =? 32) || ((9 <=? c) && (c <=? 13)).
Definition is_digit (c : Z) : bool := (48 <=? c) && (c <=? 57).
Fixpoint skip_space (s : str) : str := match s with c :: r => if is_space c then skip_space r else s | [] => [] end.
(** The digits at the front, as a number; [None] without any.  What follows is not looked at. *)
Fixpoint digits (acc : Z) (any : bool) (s : str) : option Z :=
  match s with
  | c :: r => if is_digit c then digits (acc * 10 + (c - 48)) true r else if any then Some acc else None
  | [] => if any then Some acc else None
  end.
(** istringstream(value) >> int: white space, a sign, digits; a number out of range sets failbit. *)
Definition read_int (s : str) : option Z :=
  let signed (neg : bool) (s : str) := match digits 0 false s with
                      | Some n => let z := if neg then - n else n in if (-2147483648 <=? z) && (z <=? 2147483647) then Some z else None
                      | None => None
                      end in
  match skip_space s with
  | c :: r => if c =? 45 then signed true r else if c =? 43 then signed false r else signed false (c :: r)
  | [] => None
  end.
(* true, false *)
Definition s_true : str := [116; 114; 117; 101].
Definition s_false : str := [102; 97; 108; 115; 101].
(** parse, lines 68-89. *)
Definition read_value (k : kind) (s : str) : option val :=
  match k with
  | KBool => if str_eqb s s_true || str_eqb s [49] then Some (VBool true) else if str_eqb s s_false || str_eqb s [48] then Some (VBool false) else None
  | KString => Some (VString s)
  | KInt => option_map VInt (read_int s)
  end.
Definition arg_parse (a : arg) (s : str) : res arg := match read_value (a_kind a) s with Some v => ROk (set_value a v) | None => RAbort end.

Definition has_flag (f : str) (a : arg) : bool := existsb (str_eqb f) (a_flags a).
Definition is_bool (a : arg) : bool := match a_kind a with KBool => true | _ => false end.
(** Lines 156-171: the first parameter with the flag; [rest] are the arguments behind it. *)
Fixpoint give (f : str) (rest : list str) (ps : list arg) : res (list arg * list str) :=
  match ps with
  | [] => RAbort   (* unknown option *)
  | a :: ps' =>
      if has_flag f a then
        if is_bool a then ROk (set_value a (VBool true) :: ps', rest)
        else match rest with
             | [] => RAbort   (* missing value *)
             | v :: rest' => do a' <- arg_parse a v; ROk (a' :: ps', rest')
             end
      else do r <- give f rest ps'; ROk (a :: fst r, snd r)
  end.
(** Lines 152-181; arg[0] of an empty argument is the terminating zero.  [n] bounds the number of arguments. *)
Definition is_option (s : str) : bool := match s with c :: _ => c =? 45 | [] => false end.
Fixpoint options (n : nat) (args : list str) (ps : list arg) : res (list arg * list str) :=
  match args with
  | [] => ROk (ps, [])
  | s :: rest =>
      match n with
      | O => RDiverge
      | S n' => if is_option s then do r <- give s rest ps; options n' (snd r) (fst r)
                else do r <- options n' rest ps; ROk (fst r, s :: snd r)
      end
  end.
(** Lines 184-196. *)
Fixpoint positionals (pos : list str) (ps : list arg) : res (list arg) :=
  match ps with
  | [] => ROk []
  | a :: ps' =>
      if a_positional a then
        match pos with
        | [] => if a_required a then RAbort else do r <- positionals [] ps'; ROk (a :: r)
        | s :: pos' => do a' <- arg_parse a s; do r <- positionals pos' ps'; ROk (a' :: r)
        end
      else do r <- positionals pos ps'; ROk (a :: r)
  end.
Definition is_set (a : arg) : bool := match a_value a with Some _ => true | None => false end.
(** parse, lines 146-205. *)
Definition parse (args : list str) (ps : list arg) : res (list arg) :=
  do r <- options (length args) args ps;
  do ps' <- positionals (snd r) (fst r);
  if existsb (fun a => a_required a && negb (is_set a)) ps' then RAbort else ROk ps'.

(** get, lines 207-219 and 118-121; default_ of a bool or int that was never given is not initialised. *)
Definition kind_eqb (a b : kind) : bool := match a, b with KBool, KBool | KString, KString | KInt, KInt => true | _, _ => false end.
Definition get (k : kind) (f : str) (ps : list arg) : res val :=
  match find (has_flag f) ps with
  | None => RAbort
  | Some a =>
      if negb (kind_eqb k (a_kind a)) then RAbort
      else match a_value a, a_def a, a_kind a with
           | Some v, _, _ => ROk v
           | None, Some v, _ => ROk v
           | None, None, KString => ROk (VString [])
           | None, None, _ => RUB
           end
  end.

(** splitFlags, lines 256-272; [cur] is the piece being read. *)
Fixpoint split_pieces (cur s : str) : list str :=
  match s with
  | [] => match cur with [] => [] | _ => [cur] end
  | c :: r => if c =? 124 then (match cur with [] => [] | _ => [cur] end) ++ split_pieces [] r else split_pieces (cur ++ [c]) r
  end.
Definition split_flags (flags : str) : list str :=
  let r := split_pieces [] flags in
  match flags, r with _ :: _, [] => [flags] | _, _ => r end.
(** add<T>(flags) with the calls of required, positional and def behind it, lines 134-144. *)
Definition new_arg (k : kind) (flags : str) (required positional : bool) (def : option val) : arg :=
  let l := split_flags flags in
  mkArg k l required (positional || match l with [] => true | _ => false end) def None.
