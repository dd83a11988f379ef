(** Places in the source: the spans that Expr.v, Parser.v and Macro.v leave out.  Expressions with spans
    (/repo/src/expression.rs 59-75), their parser (/repo/src/parser.rs 1116-1408), their evaluation (464-512), and
    macro expansion (/repo/src/asm.rs 700-852). *)
From Coq Require Import ZArith List String Ascii Bool.
From Verif Require Import Base Expr Instr Ast Macro Lexer Parser.
Import ListNotations.
Open Scope string_scope.
Open Scope list_scope.

(** [Span], /repo/src/location.rs 50-55.  The chain of parents, [Option<Box<Span>>], is a list, the direct
    parent first. *)
Record pspan : Type := mkP { here : span; parents : list span }.

(** [Span::new], /repo/src/location.rs 58-64. *)
Definition alone (s : span) : pspan := mkP s [].

(** [Span::with_parent], /repo/src/location.rs 73-77: a parent that was there before is dropped. *)
Definition with_parent (s p : pspan) : pspan := mkP (here s) (here p :: parents p).

(** [Span::from], /repo/src/location.rs 83-85; the result has no parent. *)
Definition span_from (a b : pspan) : pspan := alone (mkSpan (s_start (here a)) (s_end (here b))).

(** [Location::to_span], /repo/src/location.rs 39-41. *)
Definition to_span (l : location) : pspan := alone (mkSpan l l).

(** [Result] with the spans that the error carries (/repo/src/asm.rs 388-456), in the order in which they are shown; none
    for instance in [UnexpectedEof] (434).  A token carried by an error (/repo/src/parser.rs 14-32) counts with its span, a
    location as [to_span] of it (as in /repo/src/lib.rs 719-738).  Panics and fuel as in Base.v. *)
Inductive placed (A : Type) : Type :=
| POk (a : A)
| PErr (e : error) (at_ : list pspan)
| PPanic
| PDiverge.
Arguments POk {A} a.
Arguments PErr {A} e at_.
Arguments PPanic {A}.
Arguments PDiverge {A}.

(** Rust's [?] (for instance /repo/src/parser.rs 1139). *)
Definition pbind {A B : Type} (x : placed A) (f : A -> placed B) : placed B :=
  match x with
  | POk a => f a
  | PErr e s => PErr e s
  | PPanic => PPanic
  | PDiverge => PDiverge
  end.

Notation "'let?' x := a 'in' b" := (pbind a (fun x => b))
  (at level 200, x pattern, a at level 100, b at level 200).

(** An outcome computed without spans, whose errors all carry the same span (for instance [make_instr],
    /repo/src/parser.rs 917). *)
Definition at_span {A : Type} (s : pspan) (x : outcome A) : placed A :=
  match x with
  | Ok a => POk a
  | Err e => PErr e [s]
  | Panic => PPanic
  | Diverge => PDiverge
  end.

(** * Expressions *)

(** The unary operators among the constructors of [Expr], /repo/src/expression.rs 59-75. *)
Inductive unop : Type := UMinus | UUpper | ULower.

(** The binary operators among the constructors of [Expr], /repo/src/expression.rs 59-75. *)
Inductive binop : Type := BPlus | BMinus | BTimes | BDivide | BXor | BAnd | BOr.

(** [Expr], /repo/src/expression.rs 59-75; constructors of the same shape are put together. *)
Inductive sexpr : Type :=
| XName_ (s : pspan) (name : string)
| XNumber_ (s : pspan) (n : Z) (r : radix)
| XMacroLabel_ (s : pspan) (name : string)
| XMacroArg_ (s : pspan) (name : string)
| XUn (op : unop) (s : pspan) (x : sexpr)
| XBin (op : binop) (s : pspan) (l r : sexpr).

(** [Positioned::span] of expressions, /repo/src/expression.rs 210-230. *)
Definition span_of (e : sexpr) : pspan :=
  match e with
  | XName_ s _ | XNumber_ s _ _ | XMacroLabel_ s _ | XMacroArg_ s _ | XUn _ s _ | XBin _ s _ _ => s
  end.

(** [Expr::with_span], /repo/src/expression.rs 98-117. *)
Definition with_span (e : sexpr) (s : pspan) : sexpr :=
  match e with
  | XName_ _ n => XName_ s n
  | XNumber_ _ n r => XNumber_ s n r
  | XMacroLabel_ _ n => XMacroLabel_ s n
  | XMacroArg_ _ n => XMacroArg_ s n
  | XUn op _ x => XUn op s x
  | XBin op _ l r => XBin op s l r
  end.

(** The constructor of Expr.v for a unary operator (/repo/src/expression.rs 59-75). *)
Definition un_expr (op : unop) : expr -> expr :=
  match op with UMinus => EUnaryMinus | UUpper => EUpperByte | ULower => ELowerByte end.

(** The constructor of Expr.v for a binary operator (/repo/src/expression.rs 59-75). *)
Definition bin_expr (op : binop) : expr -> expr -> expr :=
  match op with
  | BPlus => EPlus | BMinus => EMinus | BTimes => ETimes | BDivide => EDivide | BXor => EXor | BAnd => EAnd | BOr => EOr
  end.

(** The expression of Expr.v (/repo/src/expression.rs 59-75 without spans). *)
Fixpoint erase (e : sexpr) : expr :=
  match e with
  | XName_ _ n => EName n
  | XNumber_ _ n r => ENumber n r
  | XMacroLabel_ _ n => EMacroLabel n
  | XMacroArg_ _ n => EMacroArg n
  | XUn op _ x => un_expr op (erase x)
  | XBin op _ l r => bin_expr op (erase l) (erase r)
  end.

(** * The expression parser *)

(** [TokenStream], /repo/src/parser.rs 758-762: the tokens that are left, with their spans. *)
Definition tokens : Type := list token.

(** [TokenStream::next], /repo/src/parser.rs 873-877. *)
Definition next_s (ts : tokens) : placed (token * tokens) :=
  match ts with [] => PErr UnexpectedEof [] | t :: r => POk (t, r) end.

(** [TokenStream::consume] of a right parenthesis, /repo/src/parser.rs 879-882 and 905-914. *)
Definition consume_right_paren_s (ts : tokens) : placed tokens :=
  match ts with
  | [] => PErr UnexpectedEof []
  | t :: r => match t_type t with
              | TRightParen => POk r
              | _ => PErr (ExpectedTokenNotFound "')'") [alone (t_span t)]
              end
  end.

(** [expr_tok_type], /repo/src/parser.rs 1129-1135. *)
Definition expr_tok_type_s (loc : location) (t : token) : placed expr_token_type :=
  match expr_type (t_type t) with Some x => POk x | None => PErr InvalidExpression [to_span loc] end.

(** [ExprParser::parse] at some depth (/repo/src/parser.rs 1138). *)
Definition sparser : Type := Z -> tokens -> placed (sexpr * tokens).

(** [PrefixParselet::parse], /repo/src/parser.rs 1196-1336.  The span of a prefix operator is that of the
    operator alone (1324-1326); parentheses leave no trace (1209-1218). *)
Definition prefix_parse_s (parse : sparser) (p : prefix_parselet) (tok : token) (ts : tokens)
  : placed (sexpr * tokens) :=
  let sp := alone (t_span tok) in
  match p with
  | ParenParselet =>
      let? (result, r) := parse 0%Z ts in
      let? r2 := consume_right_paren_s r in
      POk (result, r2)
  | NameParselet =>
      match t_type tok with TName n => POk (XName_ sp n, ts) | _ => PErr (ExpectedTokenNotFound "Name") [sp] end
  | MacroArgParselet =>
      match t_type tok with TMacroIdent n => POk (XMacroArg_ sp n, ts) | _ => PErr (ExpectedTokenNotFound "Macro Arg") [sp] end
  | MacroLabelParselet =>
      match t_type tok with TMacroLabel n => POk (XMacroLabel_ sp n, ts) | _ => PErr (ExpectedTokenNotFound "Macro Label") [sp] end
  | NumberParselet =>
      match t_type tok with TNumber n r => POk (XNumber_ sp n r, ts) | _ => PErr (ExpectedTokenNotFound "Number") [sp] end
  | PrefixOperatorParselet =>
      let? (result, r) := parse Prefix ts in
      match t_type tok with
      | TMinus => POk (XUn UMinus sp result, r)
      | TUpperByte => POk (XUn UUpper sp result, r)
      | TLowerByte => POk (XUn ULower sp result, r)
      | _ => PErr (ExpectedTokenNotFound "PrefixOperator") [sp]
      end
  end.

(** [BinaryOperatorParselet::parse], /repo/src/parser.rs 1354-1404. *)
Definition infix_parse_s (parse : sparser) (prec : Z) (lhs : sexpr) (tok : token) (ts : tokens)
  : placed (sexpr * tokens) :=
  let? (rhs, r) := parse prec ts in
  let sp := span_from (span_of lhs) (span_of rhs) in
  match t_type tok with
  | TPlus => POk (XBin BPlus sp lhs rhs, r)
  | TTimes => POk (XBin BTimes sp lhs rhs, r)
  | TMinus => POk (XBin BMinus sp lhs rhs, r)
  | TDivide => POk (XBin BDivide sp lhs rhs, r)
  | TCaret => POk (XBin BXor sp lhs rhs, r)
  | TAmpersand => POk (XBin BAnd sp lhs rhs, r)
  | TPipe => POk (XBin BOr sp lhs rhs, r)
  | _ => PErr (ExpectedTokenNotFound "Binary Operator") [alone (t_span tok)]
  end.

(** The [while] loop of [ExprParser::parse], /repo/src/parser.rs 1145-1151; [loc] is the start of the first token. *)
Fixpoint infix_loop_s (parse : sparser) (fuel : nat) (loc : location) (prec : Z) (lhs : sexpr) (ts : tokens)
  : placed (sexpr * tokens) :=
  if (prec <? precedence (map t_type ts))%Z then
    match fuel with
    | O => PDiverge
    | S f =>
        let? (next_tok, r) := next_s ts in
        let? next_typ := expr_tok_type_s loc next_tok in
        match infix_table next_typ with
        | None => PErr InvalidExpression [to_span loc]
        | Some p =>
            let? (lhs2, r2) := infix_parse_s parse p lhs next_tok r in
            infix_loop_s parse f loc prec lhs2 r2
        end
    end
  else POk (lhs, ts).

(** [ExprParser::parse], /repo/src/parser.rs 1138-1152. *)
Fixpoint pratt_s (fuel : nat) (prec : Z) (ts : tokens) : placed (sexpr * tokens) :=
  match fuel with
  | O => PDiverge
  | S f =>
      let? (tok, r) := next_s ts in
      let loc := s_start (t_span tok) in
      let? typ := expr_tok_type_s loc tok in
      match prefix_table typ with
      | None => PErr InvalidExpression [to_span loc]
      | Some p =>
          let? (lhs, r2) := prefix_parse_s (pratt_s f) p tok r in
          infix_loop_s (pratt_s f) f loc prec lhs r2
      end
  end.

(** [Parser::parse_expr], /repo/src/parser.rs 732-734. *)
Definition parse_expr_s (ts : tokens) : placed (sexpr * tokens) := pratt_s (S (List.length ts)) 0 ts.

(** * Evaluation *)

(** The operators of [Expr::eval] on two values, /repo/src/expression.rs 466-500. *)
Definition bin_value (pr : profile) (s : pspan) (op : binop) (a b : Z) : placed Z :=
  match op with
  | BXor => POk (Z.lxor a b)
  | BAnd => POk (Z.land a b)
  | BOr => POk (Z.lor a b)
  | BPlus => at_span s (chk32 pr (a + b))
  | BMinus => at_span s (chk32 pr (a - b))
  | BTimes => at_span s (chk32 pr (a * b))
  | BDivide =>
      if (b =? 0)%Z then PErr DivideByZero [s]
      else if ((a =? -2147483648) && (b =? -1))%Z then PPanic
      else POk (Z.quot a b)
  end.

(** The unary operators of [Expr::eval], /repo/src/expression.rs 484 and 501-508. *)
Definition un_value (pr : profile) (s : pspan) (op : unop) (a : Z) : placed Z :=
  match op with
  | UMinus => at_span s (chk32 pr (-1 * a))
  | UUpper => POk (Z.land (Z.shiftr a 8) 255)
  | ULower => POk (Z.land a 255)
  end.

(** [Expr::eval], /repo/src/expression.rs 464-512, with the spans of its errors. *)
Fixpoint eval_s (pr : profile) (en : env) (e : sexpr) : placed Z :=
  match e with
  | XName_ s n =>
      match env_get en (lower n) with
      | Some v => POk v
      | None => PErr (NameNotFound (env_kind en) n) [s]
      end
  | XNumber_ _ n _ => POk n
  | XMacroLabel_ s _ => PErr MacroLabelOutsideOfMacro [s]
  | XMacroArg_ s _ => PErr MacroArgOutsideOfMacro [s]
  | XUn op s x => let? a := eval_s pr en x in un_value pr s op a
  | XBin op s l r => let? a := eval_s pr en l in let? b := eval_s pr en r in bin_value pr s op a b
  end.

(** * Macros *)

(** [Arg], /repo/src/expression.rs 556-562. *)
Inductive sarg : Type :=
| SAImm (e : sexpr)
| SAEx (e : sexpr)
| SAIM (s : pspan) (m : imode)
| SAMacroArg (s : pspan) (name : string).

(** The argument of Expr.v (/repo/src/expression.rs 556-562 without spans). *)
Definition erase_arg (a : sarg) : arg :=
  match a with
  | SAImm e => AImm (erase e)
  | SAEx e => AEx (erase e)
  | SAIM _ m => AIM m
  | SAMacroArg _ n => AMacroArg n
  end.

(** The instruction with [f] applied to its expressions; used to drop spans (/repo/src/instruction.rs 6-343). *)
Definition map_instr {E F I : Type} (f : E -> F) (i : instr E I) : instr F I :=
  match i with
  | Add_i8 a => Add_i8 (f a)
  | Add_d9 a => Add_d9 (f a)
  | Add_Ri a => Add_Ri a
  | Addc_i8 a => Addc_i8 (f a)
  | Addc_d9 a => Addc_d9 (f a)
  | Addc_Ri a => Addc_Ri a
  | Sub_i8 a => Sub_i8 (f a)
  | Sub_d9 a => Sub_d9 (f a)
  | Sub_Ri a => Sub_Ri a
  | Subc_i8 a => Subc_i8 (f a)
  | Subc_d9 a => Subc_d9 (f a)
  | Subc_Ri a => Subc_Ri a
  | Inc_d9 a => Inc_d9 (f a)
  | Inc_Ri a => Inc_Ri a
  | Dec_d9 a => Dec_d9 (f a)
  | Dec_Ri a => Dec_Ri a
  | Mul => Mul
  | Div => Div
  | And_i8 a => And_i8 (f a)
  | And_d9 a => And_d9 (f a)
  | And_Ri a => And_Ri a
  | Or_i8 a => Or_i8 (f a)
  | Or_d9 a => Or_d9 (f a)
  | Or_Ri a => Or_Ri a
  | Xor_i8 a => Xor_i8 (f a)
  | Xor_d9 a => Xor_d9 (f a)
  | Xor_Ri a => Xor_Ri a
  | Rol => Rol
  | Rolc => Rolc
  | Ror => Ror
  | Rorc => Rorc
  | Ld_d9 a => Ld_d9 (f a)
  | Ld_Ri a => Ld_Ri a
  | St_d9 a => St_d9 (f a)
  | St_Ri a => St_Ri a
  | Mov_d9 a b => Mov_d9 (f a) (f b)
  | Mov_Rj a b => Mov_Rj (f a) b
  | Ldc => Ldc
  | Push a => Push (f a)
  | Pop a => Pop (f a)
  | Xch_d9 a => Xch_d9 (f a)
  | Xch_Ri a => Xch_Ri a
  | Jmp a => Jmp (f a)
  | Jmpf a => Jmpf (f a)
  | Br a => Br (f a)
  | Brf a => Brf (f a)
  | Bz a => Bz (f a)
  | Bnz a => Bnz (f a)
  | Bp a b c => Bp (f a) (f b) (f c)
  | Bpc a b c => Bpc (f a) (f b) (f c)
  | Bn a b c => Bn (f a) (f b) (f c)
  | Dbnz_d9 a b => Dbnz_d9 (f a) (f b)
  | Dbnz_Ri a b => Dbnz_Ri a (f b)
  | Be_i8 a b => Be_i8 (f a) (f b)
  | Be_d9 a b => Be_d9 (f a) (f b)
  | Be_Rj a b c => Be_Rj a (f b) (f c)
  | Bne_i8 a b => Bne_i8 (f a) (f b)
  | Bne_d9 a b => Bne_d9 (f a) (f b)
  | Bne_Rj a b c => Bne_Rj a (f b) (f c)
  | Call a => Call (f a)
  | Callf a => Callf (f a)
  | Callr a => Callr (f a)
  | Ret => Ret
  | Reti => Reti
  | Clr1 a b => Clr1 (f a) (f b)
  | Set1 a b => Set1 (f a) (f b)
  | Not1 a b => Not1 (f a) (f b)
  | Nop => Nop
  | Ldf => Ldf
  | Stf => Stf
  end.

(** [make_instr], /repo/src/parser.rs 917-1112, as in Macro.v (the number is the line of the first arm of the mnemonic);
    [s] is the span given by the caller. *)
Definition make_instr_s (s : pspan) (name : string) (args : list sarg) : placed (instr sexpr imode) :=
  if String.eqb name "add" then (* 921 *)
    match args with
    | [SAImm imm] => POk (Add_i8 imm)
    | [SAEx mem] => POk (Add_d9 mem)
    | [SAIM _ im] => POk (Add_Ri im)
    | _ => PErr (WrongInstructionArgs "add") [s]
    end else
  if String.eqb name "addc" then (* 929 *)
    match args with
    | [SAImm imm] => POk (Addc_i8 imm)
    | [SAEx mem] => POk (Addc_d9 mem)
    | [SAIM _ im] => POk (Addc_Ri im)
    | _ => PErr (WrongInstructionArgs "addc") [s]
    end else
  if String.eqb name "sub" then (* 937 *)
    match args with
    | [SAImm imm] => POk (Sub_i8 imm)
    | [SAEx mem] => POk (Sub_d9 mem)
    | [SAIM _ im] => POk (Sub_Ri im)
    | _ => PErr (WrongInstructionArgs "sub") [s]
    end else
  if String.eqb name "subc" then (* 945 *)
    match args with
    | [SAImm imm] => POk (Subc_i8 imm)
    | [SAEx mem] => POk (Subc_d9 mem)
    | [SAIM _ im] => POk (Subc_Ri im)
    | _ => PErr (WrongInstructionArgs "subc") [s]
    end else
  if String.eqb name "inc" then (* 953 *)
    match args with
    | [SAEx mem] => POk (Inc_d9 mem)
    | [SAIM _ im] => POk (Inc_Ri im)
    | _ => PErr (WrongInstructionArgs "inc") [s]
    end else
  if String.eqb name "dec" then (* 956 *)
    match args with
    | [SAEx mem] => POk (Dec_d9 mem)
    | [SAIM _ im] => POk (Dec_Ri im)
    | _ => PErr (WrongInstructionArgs "dec") [s]
    end else
  if String.eqb name "mul" then (* 959 *)
    match args with
    | [] => POk Mul
    | _ => PErr (WrongInstructionArgs "mul") [s]
    end else
  if String.eqb name "div" then (* 961 *)
    match args with
    | [] => POk Div
    | _ => PErr (WrongInstructionArgs "div") [s]
    end else
  if String.eqb name "and" then (* 963 *)
    match args with
    | [SAImm imm] => POk (And_i8 imm)
    | [SAEx mem] => POk (And_d9 mem)
    | [SAIM _ im] => POk (And_Ri im)
    | _ => PErr (WrongInstructionArgs "and") [s]
    end else
  if String.eqb name "or" then (* 971 *)
    match args with
    | [SAImm imm] => POk (Or_i8 imm)
    | [SAEx mem] => POk (Or_d9 mem)
    | [SAIM _ im] => POk (Or_Ri im)
    | _ => PErr (WrongInstructionArgs "or") [s]
    end else
  if String.eqb name "xor" then (* 979 *)
    match args with
    | [SAImm imm] => POk (Xor_i8 imm)
    | [SAEx mem] => POk (Xor_d9 mem)
    | [SAIM _ im] => POk (Xor_Ri im)
    | _ => PErr (WrongInstructionArgs "xor") [s]
    end else
  if String.eqb name "rol" then (* 987 *)
    match args with
    | [] => POk Rol
    | _ => PErr (WrongInstructionArgs "rol") [s]
    end else
  if String.eqb name "rolc" then (* 989 *)
    match args with
    | [] => POk Rolc
    | _ => PErr (WrongInstructionArgs "rolc") [s]
    end else
  if String.eqb name "ror" then (* 991 *)
    match args with
    | [] => POk Ror
    | _ => PErr (WrongInstructionArgs "ror") [s]
    end else
  if String.eqb name "rorc" then (* 993 *)
    match args with
    | [] => POk Rorc
    | _ => PErr (WrongInstructionArgs "rorc") [s]
    end else
  if String.eqb name "ld" then (* 995 *)
    match args with
    | [SAEx mem] => POk (Ld_d9 mem)
    | [SAIM _ im] => POk (Ld_Ri im)
    | _ => PErr (WrongInstructionArgs "ld") [s]
    end else
  if String.eqb name "st" then (* 998 *)
    match args with
    | [SAEx mem] => POk (St_d9 mem)
    | [SAIM _ im] => POk (St_Ri im)
    | _ => PErr (WrongInstructionArgs "st") [s]
    end else
  if String.eqb name "mov" then (* 1001 *)
    match args with
    | [SAImm imm; SAEx mem] => POk (Mov_d9 imm mem)
    | [SAImm imm; SAIM _ im] => POk (Mov_Rj imm im)
    | _ => PErr (WrongInstructionArgs "mov") [s]
    end else
  if String.eqb name "ldc" then (* 1011 *)
    match args with
    | [] => POk Ldc
    | _ => PErr (WrongInstructionArgs "ldc") [s]
    end else
  if String.eqb name "push" then (* 1013 *)
    match args with
    | [SAEx mem] => POk (Push mem)
    | _ => PErr (WrongInstructionArgs "push") [s]
    end else
  if String.eqb name "pop" then (* 1015 *)
    match args with
    | [SAEx mem] => POk (Pop mem)
    | _ => PErr (WrongInstructionArgs "pop") [s]
    end else
  if String.eqb name "xch" then (* 1017 *)
    match args with
    | [SAEx mem] => POk (Xch_d9 mem)
    | [SAIM _ im] => POk (Xch_Ri im)
    | _ => PErr (WrongInstructionArgs "xch") [s]
    end else
  if String.eqb name "jmp" then (* 1020 *)
    match args with
    | [SAEx mem] => POk (Jmp mem)
    | _ => PErr (WrongInstructionArgs "jmp") [s]
    end else
  if String.eqb name "jmpf" then (* 1022 *)
    match args with
    | [SAEx mem] => POk (Jmpf mem)
    | _ => PErr (WrongInstructionArgs "jmpf") [s]
    end else
  if String.eqb name "br" then (* 1024 *)
    match args with
    | [SAEx mem] => POk (Br mem)
    | _ => PErr (WrongInstructionArgs "br") [s]
    end else
  if String.eqb name "brf" then (* 1026 *)
    match args with
    | [SAEx mem] => POk (Brf mem)
    | _ => PErr (WrongInstructionArgs "brf") [s]
    end else
  if String.eqb name "bz" then (* 1028 *)
    match args with
    | [SAEx mem] => POk (Bz mem)
    | _ => PErr (WrongInstructionArgs "bz") [s]
    end else
  if String.eqb name "bnz" then (* 1030 *)
    match args with
    | [SAEx mem] => POk (Bnz mem)
    | _ => PErr (WrongInstructionArgs "bnz") [s]
    end else
  if String.eqb name "bp" then (* 1032 *)
    match args with
    | [SAEx m1; SAEx m2; SAEx m3] => POk (Bp m1 m2 m3)
    | _ => PErr (WrongInstructionArgs "bp") [s]
    end else
  if String.eqb name "bpc" then (* 1038 *)
    match args with
    | [SAEx m1; SAEx m2; SAEx m3] => POk (Bpc m1 m2 m3)
    | _ => PErr (WrongInstructionArgs "bpc") [s]
    end else
  if String.eqb name "bn" then (* 1044 *)
    match args with
    | [SAEx m1; SAEx m2; SAEx m3] => POk (Bn m1 m2 m3)
    | _ => PErr (WrongInstructionArgs "bn") [s]
    end else
  if String.eqb name "dbnz" then (* 1050 *)
    match args with
    | [SAEx m1; SAEx m2] => POk (Dbnz_d9 m1 m2)
    | [SAIM _ im; SAEx mem] => POk (Dbnz_Ri im mem)
    | _ => PErr (WrongInstructionArgs "dbnz") [s]
    end else
  if String.eqb name "be" then (* 1060 *)
    match args with
    | [SAImm imm; SAEx mem] => POk (Be_i8 imm mem)
    | [SAEx m1; SAEx m2] => POk (Be_d9 m1 m2)
    | [SAIM _ im; SAImm imm; SAEx mem] => POk (Be_Rj im imm mem)
    | _ => PErr (WrongInstructionArgs "be") [s]
    end else
  if String.eqb name "bne" then (* 1074 *)
    match args with
    | [SAImm imm; SAEx mem] => POk (Bne_i8 imm mem)
    | [SAEx m1; SAEx m2] => POk (Bne_d9 m1 m2)
    | [SAIM _ im; SAImm imm; SAEx mem] => POk (Bne_Rj im imm mem)
    | _ => PErr (WrongInstructionArgs "bne") [s]
    end else
  if String.eqb name "call" then (* 1088 *)
    match args with
    | [SAEx mem] => POk (Call mem)
    | _ => PErr (WrongInstructionArgs "call") [s]
    end else
  if String.eqb name "callf" then (* 1090 *)
    match args with
    | [SAEx mem] => POk (Callf mem)
    | _ => PErr (WrongInstructionArgs "callf") [s]
    end else
  if String.eqb name "callr" then (* 1092 *)
    match args with
    | [SAEx mem] => POk (Callr mem)
    | _ => PErr (WrongInstructionArgs "callr") [s]
    end else
  if String.eqb name "ret" then (* 1094 *)
    match args with
    | [] => POk Ret
    | _ => PErr (WrongInstructionArgs "ret") [s]
    end else
  if String.eqb name "reti" then (* 1096 *)
    match args with
    | [] => POk Reti
    | _ => PErr (WrongInstructionArgs "reti") [s]
    end else
  if String.eqb name "clr1" then (* 1098 *)
    match args with
    | [SAEx d9; SAEx b3] => POk (Clr1 d9 b3)
    | _ => PErr (WrongInstructionArgs "clr1") [s]
    end else
  if String.eqb name "set1" then (* 1100 *)
    match args with
    | [SAEx d9; SAEx b3] => POk (Set1 d9 b3)
    | _ => PErr (WrongInstructionArgs "set1") [s]
    end else
  if String.eqb name "not1" then (* 1102 *)
    match args with
    | [SAEx d9; SAEx b3] => POk (Not1 d9 b3)
    | _ => PErr (WrongInstructionArgs "not1") [s]
    end else
  if String.eqb name "nop" then (* 1104 *)
    match args with
    | [] => POk Nop
    | _ => PErr (WrongInstructionArgs "nop") [s]
    end else
  if String.eqb name "ldf" then (* 1106 *)
    match args with
    | [] => POk Ldf
    | _ => PErr (WrongInstructionArgs "ldf") [s]
    end else
  if String.eqb name "stf" then (* 1108 *)
    match args with
    | [] => POk Stf
    | _ => PErr (WrongInstructionArgs "stf") [s]
    end else
  PErr UnknownInstruction [s].

(** [Expr::replace_macro_args], /repo/src/expression.rs 119-208; [inv] is the span of the macro call.  Fuel as
    in Macro.v. *)
Fixpoint replace_expr_s (fuel : nat) (inv : pspan) (labels : smap string) (args : smap sarg) : sexpr -> placed sexpr :=
  fix go (e : sexpr) : placed sexpr :=
    match e with
    | XName_ s n => POk (XName_ (with_parent s inv) n)
    | XNumber_ s n r => POk (XNumber_ (with_parent s inv) n r)
    | XMacroLabel_ s n =>
        match mget labels n with
        | Some label => POk (XName_ (with_parent s inv) label)
        | None => PErr MacroLabelOutsideOfMacro [s]
        end
    | XMacroArg_ s n =>
        match mget args n with
        | Some (SAImm x) => PErr ImmediateValueNotAllowedHere [with_parent s (span_of x)]
        | Some (SAEx x) =>
            match fuel with
            | O => PDiverge
            | S f =>
                let? y := replace_expr_s f inv labels args x in
                POk (with_span y (with_parent (span_of x) inv))
            end
        | Some (SAIM s2 _) => PErr IndirectionModeNotAllowedHere [with_parent s s2]
        | Some (SAMacroArg s2 _) => PErr MacroArgOutsideOfMacro [with_parent s2 inv]
        | None => PErr InvalidMacroArg [s]
        end
    | XUn op s x => let? a := go x in POk (XUn op (with_parent s inv) a)
    | XBin op s l r => let? a := go l in let? b := go r in POk (XBin op (with_parent s inv) a b)
    end.

(** [replace_args], /repo/src/asm.rs 716-749. *)
Fixpoint replace_args_s (fuel : nat) (inv : pspan) (labels : smap string) (argmap : smap sarg) (args : list sarg)
  : placed (list sarg) :=
  match args with
  | [] => POk []
  | a :: t =>
      let? a' :=
        match a with
        | SAMacroArg s n => match mget argmap n with Some x => POk x | None => PErr InvalidMacroArg [s] end
        | SAImm e => let? e' := replace_expr_s fuel inv labels argmap e in POk (SAImm e')
        | SAEx e => let? e' := replace_expr_s fuel inv labels argmap e in POk (SAEx e')
        | SAIM s m => POk (SAIM s m)
        end in
      let? t' := replace_args_s fuel inv labels argmap t in
      POk (a' :: t')
  end.

(** [MacroStatement], /repo/src/ast.rs 21-26. *)
Inductive smacro_statement : Type :=
| SMInstr (s : pspan) (name : string) (args : list sarg)
| SMLabel (s : pspan) (name : string)
| SMMacroLabel (s : pspan) (name : string).

(** [MacroDefinition], /repo/src/ast.rs 28-34; the span of the parameters is not used in what follows and left out. *)
Record smacro_def : Type := mkSMacro { sm_span : pspan; sm_name : string; sm_args : list string; sm_body : list smacro_statement }.

(** The [macros] of [Statements], /repo/src/ast.rs 530-534. *)
Definition smacros : Type := list ((string * nat) * smacro_def).

(** [Statements::macro_def], /repo/src/ast.rs 552-554. *)
Fixpoint find_macro_s (m : smacros) (name : string) (arity : nat) : option smacro_def :=
  match m with
  | [] => None
  | ((n, a), d) :: t => if (String.eqb n name && Nat.eqb a arity)%bool then Some d else find_macro_s t name arity
  end.

(** [ByteValue], /repo/src/ast.rs 129-133. *)
Inductive sbyte : Type :=
| SBExpr (e : sexpr)
| SBString (s : pspan) (bytes : list Z).

(** [IncludeType], /repo/src/ast.rs 189-196. *)
Inductive sinclude : Type :=
| SIAsm
| SIBytes
| SICHeader
| SIIcon (speed : option sexpr) (eyecatch : option sbyte)
| SISprite (t : sprite_type) (h : include_header).

(** [Directive], /repo/src/ast.rs 229-238. *)
Inductive sdirective : Type :=
| SDByte (s : pspan) (items : list sbyte)
| SDOrg (s : pspan) (location : Z)
| SDWord (s : pspan) (words : list sexpr)
| SDText (s : pspan) (size : Z) (bytes : list Z)
| SDString (s : pspan) (size : Z) (bytes : list Z)
| SDInclude (s : pspan) (t : sinclude) (path : string)
| SDCnop (s : pspan) (add multiple : sexpr).

(** [Statement], /repo/src/ast.rs 418-427. *)
Inductive sstatement : Type :=
| SSDirective (d : sdirective)
| SSLabel (s : pspan) (name : string)
| SSInstr (s : pspan) (i : instr sexpr imode)
| SSVariable (s : pspan) (name : string) (e : sexpr)
| SSAlias (s : pspan) (name : string) (e : sexpr)
| SSComment (text : string)
| SSMacroCall (s : pspan) (name : string) (args : list sarg).

(** The [argmap] of /repo/src/asm.rs 795-804. *)
Fixpoint make_argmap_s (m : smap sarg) (params : list string) (args : list sarg) : smap sarg :=
  match params, args with
  | p :: ps, a :: rest => make_argmap_s (minsert m p a) ps rest
  | _, _ => m
  end.

(** The macro statement of Ast.v (/repo/src/ast.rs 21-26 without spans). *)
Definition erase_body (s : smacro_statement) : macro_statement :=
  match s with
  | SMInstr _ n args => MInstr n (map erase_arg args)
  | SMLabel _ n => MLabel n
  | SMMacroLabel _ n => MMacroLabel n
  end.

(** The macro definitions of Ast.v (/repo/src/ast.rs 28-34 without spans). *)
Definition erase_def (d : smacro_def) : macro_def := mkMacro (sm_name d) (sm_args d) (map erase_body (sm_body d)).

(** The [macros] map without spans (/repo/src/ast.rs 530-534). *)
Definition erase_macros (m : smacros) : macros := map (fun x => (fst x, erase_def (snd x))) m.

(** The byte value of Ast.v (/repo/src/ast.rs 129-133 without spans). *)
Definition erase_byte (b : sbyte) : byte_value :=
  match b with SBExpr e => BVExpr (erase e) | SBString _ l => BVString l end.

(** The kind of include of Ast.v (/repo/src/ast.rs 189-196 without spans). *)
Definition erase_include (t : sinclude) : include_type :=
  match t with
  | SIAsm => IncAsm
  | SIBytes => IncBytes
  | SICHeader => IncCHeader
  | SIIcon speed eyecatch => IncIcon (option_map erase speed) (option_map erase_byte eyecatch)
  | SISprite t h => IncSprite t h
  end.

(** The directive of Ast.v (/repo/src/ast.rs 229-238 without spans). *)
Definition erase_directive (d : sdirective) : directive :=
  match d with
  | SDByte _ items => DByte (map erase_byte items)
  | SDOrg _ location => DOrg location
  | SDWord _ words => DWord (map erase words)
  | SDText _ size bytes => DText size bytes
  | SDString _ size bytes => DString size bytes
  | SDInclude _ t path => DInclude (erase_include t) path
  | SDCnop _ add multiple => DCnop (erase add) (erase multiple)
  end.

(** The statement of Ast.v (/repo/src/ast.rs 418-427 without spans). *)
Definition erase_statement (s : sstatement) : statement :=
  match s with
  | SSDirective d => SDirective (erase_directive d)
  | SSLabel _ n => SLabel n
  | SSInstr _ i => SInstr (map_instr erase i)
  | SSVariable _ n e => SVariable n (erase e)
  | SSAlias _ n e => SAlias n (erase e)
  | SSComment t => SComment t
  | SSMacroCall _ n args => SMacroCall n (map erase_arg args)
  end.

Section Expand.
(** [Uuid::new_v4()], as in Macro.v (/repo/src/asm.rs 761). *)
Variable uuid : nat -> string.

(** [gen_labels], /repo/src/asm.rs 751-771. *)
Fixpoint gen_labels_s (map : smap string) (n : nat) (body : list smacro_statement) : placed (smap string * nat) :=
  match body with
  | [] => POk (map, n)
  | SMMacroLabel s name :: t =>
      if mcontains map name then PErr (DuplicateLabel name) [s]
      else gen_labels_s (minsert map name (strip_percent name ++ "_" ++ uuid n)%string) (S n) t
  | _ :: t => gen_labels_s map n t
  end.

(** The loop over the macro body in [expand], /repo/src/asm.rs 807-850; [inv] is the span of the call. *)
Fixpoint expand_body_s (call : nat -> pspan -> string -> list sarg -> placed (list sstatement * nat))
    (fuel : nat) (ms : smacros) (inv : pspan) (labels : smap string) (argmap : smap sarg)
    (n : nat) (body : list smacro_statement) : placed (list sstatement * nat) :=
  match body with
  | [] => POk ([], n)
  | s :: t =>
      let? (first, n1) :=
        match s with
        | SMInstr ispan iname iargs =>
            match find_macro_s ms iname (List.length iargs) with
            | Some _ =>
                let? new_args := replace_args_s fuel inv labels argmap iargs in
                call n (with_parent ispan inv) iname new_args
            | None =>
                let? new_args := replace_args_s fuel inv labels argmap iargs in
                let? i := make_instr_s (with_parent ispan inv) iname new_args in
                POk ([SSInstr (with_parent ispan inv) i], n)
            end
        | SMLabel s2 name => POk ([SSLabel s2 name], n)
        | SMMacroLabel s2 name =>
            match mget labels name with
            | Some l => POk ([SSLabel s2 l], n)
            | None => PPanic
            end
        end in
      let? (rest, n2) := expand_body_s call fuel ms inv labels argmap n1 t in
      POk (first ++ rest, n2)
  end.

(** [expand], /repo/src/asm.rs 773-852. *)
Fixpoint expand_s (fuel : nat) (ms : smacros) (n : nat) (inv : pspan) (name : string) (args : list sarg)
  : placed (list sstatement * nat) :=
  match fuel with
  | O => PDiverge
  | S f =>
      match find_macro_s ms name (List.length args) with
      | None => PErr (NoSuchMacro name) [inv]
      | Some def =>
          if Nat.eqb (List.length args) (List.length (sm_args def)) then
            let argmap := make_argmap_s [] (sm_args def) args in
            let? (labels, n1) := gen_labels_s [] n (sm_body def) in
            expand_body_s (expand_s f ms) f ms inv labels argmap n1 (sm_body def)
          else PErr (WrongNumberOfMacroArgs (List.length (sm_args def)) (List.length args)) [inv; sm_span def]
      end
  end.

End Expand.
