(** The parser: /repo/src/parser.rs.

    A [TokenStream] (758-915) only ever looks at and moves over the tokens from its position on, so it is
    modelled by the list of the remaining token types: the spans of the tokens go only into the spans of
    the syntax tree and of the errors, which the model drops.  The functions that take [&mut TokenStream]
    return the remaining stream next to their result. *)
From Coq Require Import ZArith List String Ascii Bool Arith.
From Verif Require Import Base Expr Instr Ast Macro Lexer.
Import ListNotations.
Open Scope string_scope.
Open Scope list_scope.

(** [TokenStream], /repo/src/parser.rs 758-762. *)
Definition stream : Type := list token_type.

(** * Token predicates, /repo/src/lexer.rs 132-270 *)

(** [Token::is_colon], /repo/src/lexer.rs 132-137. *)
Definition is_colon (t : token_type) : bool := match t with TColon => true | _ => false end.
(** [Token::is_equ], /repo/src/lexer.rs 146-151. *)
Definition is_equ (t : token_type) : bool := match t with TEquals => true | _ => false end.
(** [Token::has_name], /repo/src/lexer.rs 153-158. *)
Definition has_name (n : string) (t : token_type) : bool := match t with TName m => String.eqb n m | _ => false end.
(** [Token::name_starts_with] with ["."], [Token::name_matching] with [starts_with(".")] and
    [Token::is_local_label_name], /repo/src/lexer.rs 160-165, 209-214 and 240-246. *)
Definition is_local_name (t : token_type) : bool := match t with TName n => is_local n | _ => false end.
(** [Token::has_macro_name], /repo/src/lexer.rs 174-179. *)
Definition has_macro_name (n : string) (t : token_type) : bool := match t with TMacroIdent m => String.eqb n m | _ => false end.
(** [Token::is_name], /repo/src/lexer.rs 188-193. *)
Definition is_name (t : token_type) : bool := match t with TName _ => true | _ => false end.
(** [Token::is_string], /repo/src/lexer.rs 202-207. *)
Definition is_string (t : token_type) : bool := match t with TString _ => true | _ => false end.
(** [Token::is_eof], /repo/src/lexer.rs 216-222. *)
Definition is_eof (t : token_type) : bool := match t with TEOF => true | _ => false end.
(** [Token::is_hash], /repo/src/lexer.rs 224-230. *)
Definition is_hash (t : token_type) : bool := match t with THash => true | _ => false end.
(** [Token::is_local_macro_label], /repo/src/lexer.rs 248-254. *)
Definition is_local_macro_label (t : token_type) : bool := match t with TMacroLabel n => is_local n | _ => false end.
(** [Token::is_macro_label], /repo/src/lexer.rs 256-262. *)
Definition is_macro_label (t : token_type) : bool := match t with TMacroLabel _ => true | _ => false end.
(** [Token::is_indirection_mode], /repo/src/lexer.rs 264-270. *)
Definition is_indirection_mode (t : token_type) : bool :=
  match t with TR0 | TR1 | TR2 | TR3 => true | _ => false end.

(** * Token streams *)

(** [TokenStream::check_at], /repo/src/parser.rs 897-899 (with [peek_at], 884-891). *)
Definition check_at (n : nat) (p : token_type -> bool) (ts : stream) : bool :=
  match nth_error ts n with Some t => p t | None => false end.

(** [TokenStream::check], /repo/src/parser.rs 901-903. *)
Definition check (p : token_type -> bool) (ts : stream) : bool := check_at 0 p ts.

(** [TokenStream::is_empty], /repo/src/parser.rs 784-786. *)
Definition is_empty (ts : stream) : bool := match ts with [] => true | t :: _ => is_eof t end.

(** [TokenStream::next], /repo/src/parser.rs 873-877 (with [current], 866-871). *)
Definition next (ts : stream) : outcome (token_type * stream) :=
  match ts with [] => Err UnexpectedEof | t :: r => Ok (t, r) end.

(** [TokenStream::consume] of a comma, /repo/src/parser.rs 879-882 (with [assert], 905-914); the name of
    the token is [TokenType::name], /repo/src/lexer.rs 45-76. *)
Definition consume_comma (ts : stream) : outcome stream :=
  match ts with
  | [] => Err UnexpectedEof
  | TComma :: r => Ok r
  | _ => Err (ExpectedTokenNotFound "','")
  end.

(** [TokenStream::consume] of a right parenthesis, /repo/src/parser.rs 879-882. *)
Definition consume_right_paren (ts : stream) : outcome stream :=
  match ts with
  | [] => Err UnexpectedEof
  | TRightParen :: r => Ok r
  | _ => Err (ExpectedTokenNotFound "')'")
  end.

(** [TokenStream::consume] of a hash, /repo/src/parser.rs 879-882. *)
Definition consume_hash (ts : stream) : outcome stream :=
  match ts with
  | [] => Err UnexpectedEof
  | THash :: r => Ok r
  | _ => Err (ExpectedTokenNotFound "'#'")
  end.

(** [TokenStream::read_string], /repo/src/parser.rs 807-817. *)
Definition read_string (ts : stream) : outcome (string * stream) :=
  match ts with
  | [] => Err UnexpectedEof
  | TString s :: r => Ok (s, r)
  | _ => Err (ExpectedTokenNotFound "String")
  end.

(** [TokenStream::read_number], /repo/src/parser.rs 819-829. *)
Definition read_number (ts : stream) : outcome (Z * stream) :=
  match ts with
  | [] => Err UnexpectedEof
  | TNumber n _ :: r => Ok (n, r)
  | _ => Err (ExpectedTokenNotFound "Number")
  end.

(** [TokenStream::read_name], /repo/src/parser.rs 831-841. *)
Definition read_name (ts : stream) : outcome (string * stream) :=
  match ts with
  | [] => Err UnexpectedEof
  | TName n :: r => Ok (n, r)
  | _ => Err (ExpectedTokenNotFound "Name")
  end.

(** [TokenStream::read_macro_name], /repo/src/parser.rs 843-856. *)
Definition read_macro_name (ts : stream) : outcome (string * stream) :=
  match ts with
  | [] => Err UnexpectedEof
  | TMacroIdent n :: r => Ok (n, r)
  | _ => Err (ExpectedTokenNotFound "Macro Ident")
  end.

(** [TokenStream::read_include_type], /repo/src/parser.rs 788-805. *)
Definition read_include_type (ts : stream) : outcome (include_type * stream) :=
  if check (has_name "asm") ts then let! (_, r) := next ts in Ok (IncAsm, r)
  else if check (has_name "bytes") ts then let! (_, r) := next ts in Ok (IncBytes, r)
  else if check (has_name "cpp") ts then let! (_, r) := next ts in Ok (IncCHeader, r)
  else let! (_, _) := next ts in Err (ExpectedTokenNotFound "Include Type").

(** * Expressions *)

(** [ExprTokenType], /repo/src/parser.rs 1412-1428. *)
Inductive expr_token_type : Type :=
| XParen | XName | XNumber | XPlus | XTimes | XMinus | XDivide | XUpperByte | XLowerByte | XMacroLabel
| XMacroArg | XXor | XAnd | XOr.

(** [TokenType::expr_type], /repo/src/parser.rs 1430-1451. *)
Definition expr_type (t : token_type) : option expr_token_type :=
  match t with
  | TLeftParen => Some XParen
  | TName _ => Some XName
  | TNumber _ _ => Some XNumber
  | TPlus => Some XPlus
  | TTimes => Some XTimes
  | TMinus => Some XMinus
  | TDivide => Some XDivide
  | TUpperByte => Some XUpperByte
  | TLowerByte => Some XLowerByte
  | TMacroIdent _ => Some XMacroArg
  | TMacroLabel _ => Some XMacroLabel
  | TCaret => Some XXor
  | TAmpersand => Some XAnd
  | TPipe => Some XOr
  | _ => None
  end.

(** [Precedence], /repo/src/parser.rs 1116-1122. *)
Definition Bitwise : Z := 1.
(** [Precedence::Sum], /repo/src/parser.rs 1119. *)
Definition Sum : Z := 3.
(** [Precedence::Product], /repo/src/parser.rs 1120. *)
Definition Product : Z := 4.
(** [Precedence::Prefix], /repo/src/parser.rs 1121. *)
Definition Prefix : Z := 6.

(** The parselets of the prefix table, /repo/src/parser.rs 102-137 and 1206-1336. *)
Inductive prefix_parselet : Type :=
| ParenParselet | NameParselet | MacroLabelParselet | MacroArgParselet | NumberParselet | PrefixOperatorParselet.

(** The prefix table, /repo/src/parser.rs 102-137; all its precedences are [Precedence::Prefix]. *)
Definition prefix_table (x : expr_token_type) : option prefix_parselet :=
  match x with
  | XParen => Some ParenParselet
  | XName => Some NameParselet
  | XMacroLabel => Some MacroLabelParselet
  | XMacroArg => Some MacroArgParselet
  | XNumber => Some NumberParselet
  | XMinus => Some PrefixOperatorParselet
  | XUpperByte => Some PrefixOperatorParselet
  | XLowerByte => Some PrefixOperatorParselet
  | _ => None
  end.

(** The infix table, /repo/src/parser.rs 139-170: all parselets are [BinaryOperatorParselet], with this
    precedence. *)
Definition infix_table (x : expr_token_type) : option Z :=
  match x with
  | XPlus => Some Sum
  | XTimes => Some Product
  | XMinus => Some Sum
  | XDivide => Some Product
  | XXor => Some Bitwise
  | XAnd => Some Bitwise
  | XOr => Some Bitwise
  | _ => None
  end.

(** [expr_tok_type], /repo/src/parser.rs 1129-1135. *)
Definition expr_tok_type (t : token_type) : outcome expr_token_type :=
  match expr_type t with Some x => Ok x | None => Err InvalidExpression end.

(** [ExprParser::precedence], /repo/src/parser.rs 1154-1168. *)
Definition precedence (ts : stream) : Z :=
  match ts with
  | [] => 0
  | t :: _ => match expr_type t with
              | Some x => match infix_table x with Some p => p | None => 0 end
              | None => 0
              end
  end.

(** A parser for expressions: [ExprParser::parse] at some depth (/repo/src/parser.rs 1138). *)
Definition expr_parser : Type := Z -> stream -> outcome (expr * stream).

(** [PrefixParselet::parse], /repo/src/parser.rs 1196-1336. *)
Definition prefix_parse (parse : expr_parser) (p : prefix_parselet) (tok : token_type) (ts : stream)
  : outcome (expr * stream) :=
  match p with
  | ParenParselet => (* 1209-1218 *)
      let! (result, r) := parse 0%Z ts in
      let! r2 := consume_right_paren r in
      Ok (result, r2)
  | NameParselet => (* 1227-1237 *)
      match tok with TName n => Ok (EName n, ts) | _ => Err (ExpectedTokenNotFound "Name") end
  | MacroArgParselet => (* 1246-1261 *)
      match tok with TMacroIdent n => Ok (EMacroArg n, ts) | _ => Err (ExpectedTokenNotFound "Macro Arg") end
  | MacroLabelParselet => (* 1270-1285 *)
      match tok with TMacroLabel n => Ok (EMacroLabel n, ts) | _ => Err (ExpectedTokenNotFound "Macro Label") end
  | NumberParselet => (* 1294-1306 *)
      match tok with TNumber n r => Ok (ENumber n r, ts) | _ => Err (ExpectedTokenNotFound "Number") end
  | PrefixOperatorParselet => (* 1315-1332 *)
      let! (result, r) := parse Prefix ts in
      match tok with
      | TMinus => Ok (EUnaryMinus result, r)
      | TUpperByte => Ok (EUpperByte result, r)
      | TLowerByte => Ok (ELowerByte result, r)
      | _ => Err (ExpectedTokenNotFound "PrefixOperator")
      end
  end.

(** [BinaryOperatorParselet::parse], /repo/src/parser.rs 1354-1404. *)
Definition infix_parse (parse : expr_parser) (prec : Z) (lhs : expr) (tok : token_type) (ts : stream)
  : outcome (expr * stream) :=
  let! (rhs, r) := parse prec ts in
  match tok with
  | TPlus => Ok (EPlus lhs rhs, r)
  | TTimes => Ok (ETimes lhs rhs, r)
  | TMinus => Ok (EMinus lhs rhs, r)
  | TDivide => Ok (EDivide lhs rhs, r)
  | TCaret => Ok (EXor lhs rhs, r)
  | TAmpersand => Ok (EAnd lhs rhs, r)
  | TPipe => Ok (EOr lhs rhs, r)
  | _ => Err (ExpectedTokenNotFound "Binary Operator")
  end.

(** The [while] loop of [ExprParser::parse], /repo/src/parser.rs 1145-1151; every round consumes a
    token, so the length of the stream bounds the rounds. *)
Fixpoint infix_loop (parse : expr_parser) (fuel : nat) (prec : Z) (lhs : expr) (ts : stream) : outcome (expr * stream) :=
  if (prec <? precedence ts)%Z then
    match fuel with
    | O => Diverge
    | S f =>
        let! (next_tok, r) := next ts in
        let! next_typ := expr_tok_type next_tok in
        match infix_table next_typ with
        | None => Err InvalidExpression
        | Some p =>
            let! (lhs2, r2) := infix_parse parse p lhs next_tok r in
            infix_loop parse f prec lhs2 r2
        end
    end
  else Ok (lhs, ts).

(** [ExprParser::parse], /repo/src/parser.rs 1138-1152; every call consumes a token, so the length of the
    stream bounds the depth. *)
Fixpoint pratt (fuel : nat) (prec : Z) (ts : stream) : outcome (expr * stream) :=
  match fuel with
  | O => Diverge
  | S f =>
      let! (tok, r) := next ts in
      let! typ := expr_tok_type tok in
      match prefix_table typ with
      | None => Err InvalidExpression
      | Some p =>
          let! (lhs, r2) := prefix_parse (pratt f) p tok r in
          infix_loop (pratt f) f prec lhs r2
      end
  end.

(** [Parser::parse_expr], /repo/src/parser.rs 732-734. *)
Definition parse_expr (ts : stream) : outcome (expr * stream) := pratt (S (List.length ts)) 0 ts.

(** * Operands, directives, statements *)

(** The loop of [Parser::parse_list], /repo/src/parser.rs 535-539; every round consumes the comma. *)
Fixpoint list_loop {T : Type} (p : stream -> outcome (T * stream)) (fuel : nat) (ts : stream) : outcome (list T * stream) :=
  if is_empty ts then Ok ([], ts)
  else match fuel with
       | O => Diverge
       | S f =>
           let! r := consume_comma ts in
           let! (v, r2) := p r in
           let! (vs, r3) := list_loop p f r2 in
           Ok (v :: vs, r3)
       end.

(** [Parser::parse_list], /repo/src/parser.rs 525-542. *)
Definition parse_list {T : Type} (p : stream -> outcome (T * stream)) (ts : stream) : outcome (list T * stream) :=
  if is_empty ts then Ok ([], ts)
  else
    let! (v, r) := p ts in
    let! (vs, r2) := list_loop p (List.length r) r in
    Ok (v :: vs, r2).

(** [Parser::parse_im], /repo/src/parser.rs 741-755. *)
Definition parse_im (ts : stream) : outcome (imode * stream) :=
  let! (tok, r) := next ts in
  match tok with
  | TR0 => Ok (R0, r)
  | TR1 => Ok (R1, r)
  | TR2 => Ok (R2, r)
  | TR3 => Ok (R3, r)
  | _ => Err (ExpectedTokenNotFound "Indirection Mode (@R[0-3])")
  end.

(** [Parser::parse_i8], /repo/src/parser.rs 736-739. *)
Definition parse_i8 (ts : stream) : outcome (expr * stream) :=
  let! r := consume_hash ts in parse_expr r.

(** [Parser::parse_arg], /repo/src/parser.rs 717-730. *)
Definition parse_arg (ts : stream) : outcome (arg * stream) :=
  if check is_indirection_mode ts then
    let! (im, r) := parse_im ts in Ok (AIM im, r)
  else if check is_hash ts then
    let! (e, r) := parse_i8 ts in Ok (AImm e, r)
  else
    let! (e, r) := parse_expr ts in
    match e with
    | EMacroArg n => Ok (AMacroArg n, r)
    | _ => Ok (AEx e, r)
    end.

(** [Parser::parse_args], /repo/src/parser.rs 481-483. *)
Definition parse_args (ts : stream) : outcome (list arg * stream) := parse_list parse_arg ts.

(** [Parser::parse_exprs], /repo/src/parser.rs 485-487. *)
Definition parse_exprs (ts : stream) : outcome (list expr * stream) := parse_list parse_expr ts.

(** The bytes of a [String], as in /repo/src/parser.rs 547, 594 and 604 (ASCII text). *)
Definition string_bytes (s : string) : list Z :=
  map (fun c => Z.of_nat (nat_of_ascii c)) (list_ascii_of_string s).

(** The text of bytes that came from a string, [std::str::from_utf8] in /repo/src/parser.rs 642 and 664. *)
Definition bytes_string (l : list Z) : string :=
  string_of_list_ascii (map (fun z => ascii_of_nat (Z.to_nat z)) l).

(** [Parser::parse_byte_value], /repo/src/parser.rs 544-551. *)
Definition parse_byte_value (ts : stream) : outcome (byte_value * stream) :=
  if check is_string ts then
    let! (s, r) := read_string ts in Ok (BVString (string_bytes s), r)
  else let! (e, r) := parse_expr ts in Ok (BVExpr e, r).

(** [Parser::parse_byte_vals], /repo/src/parser.rs 489-491. *)
Definition parse_byte_vals (ts : stream) : outcome (list byte_value * stream) := parse_list parse_byte_value ts.

(** [Parser::parse_keyval_pair], /repo/src/parser.rs 493-511. *)
Definition parse_keyval_pair (ts : stream) : outcome ((string * byte_value) * stream) :=
  if check is_name ts then
    let! (name, r) := read_name ts in
    if check is_equ r then
      let! (_, r2) := next r in
      let! (bval, r3) := parse_byte_value r2 in
      Ok ((name, bval), r3)
    else let! (_, _) := next r in Err (ExpectedTokenNotFound "=")
  else let! (_, _) := next ts in Err (ExpectedTokenNotFound "Name").

(** [Parser::parse_keyval_pairs], /repo/src/parser.rs 513-523. *)
Definition parse_keyval_pairs (ts : stream) : outcome (smap byte_value * stream) :=
  let! (pairs, r) := parse_list parse_keyval_pair ts in
  Ok (fold_left (fun m p => minsert m (fst p) (snd p)) pairs [], r).

(** The sprite type among the properties, /repo/src/parser.rs 640-661. *)
Definition sprite_type_of (properties : smap byte_value) : outcome sprite_type :=
  match mget properties "type" with
  | Some (BVString value) =>
      if String.eqb (bytes_string value) "simple" then Ok Simple
      else if String.eqb (bytes_string value) "masked" then Ok Masked
      else Err InvalidSpriteType
  | Some (BVExpr _) => Err InvalidSpriteType
  | None => Ok Simple
  end.

(** The header choice among the properties, /repo/src/parser.rs 662-683. *)
Definition sprite_header_of (properties : smap byte_value) : outcome include_header :=
  match mget properties "header" with
  | Some (BVString value) =>
      if String.eqb (bytes_string value) "yes" then Ok HeaderYes
      else if String.eqb (bytes_string value) "no" then Ok HeaderNo
      else Err InvalidSpriteHeader
  | Some (BVExpr _) => Err InvalidSpriteHeader
  | None => Ok HeaderYes
  end.

(** The icon speed among the properties, /repo/src/parser.rs 621-629. *)
Definition icon_speed_of (properties : smap byte_value) : outcome (option expr) :=
  match mget properties "speed" with
  | Some (BVExpr e) => Ok (Some e)
  | Some _ => Err InvalidExpression
  | None => Ok None
  end.

(** The [.include] branch of [Parser::parse_directive], /repo/src/parser.rs 606-699; the stream begins
    after the word [.include]. *)
Definition parse_include (ts : stream) : outcome (directive * stream) :=
  if check is_string ts then
    let! (s, r) := read_string ts in Ok (DInclude IncAsm s, r)
  else if check (has_name "icon") ts then
    let! (_, r) := read_name ts in
    let! (s, r2) := read_string r in
    let! (properties, r3) := parse_keyval_pairs r2 in
    let! speed := icon_speed_of properties in
    Ok (DInclude (IncIcon speed (mget properties "eyecatch")) s, r3)
  else if check (has_name "sprite") ts then
    let! (_, r) := read_name ts in
    let! (s, r2) := read_string r in
    let! (properties, r3) := parse_keyval_pairs r2 in
    let! typ := sprite_type_of properties in
    let! header := sprite_header_of properties in
    Ok (DInclude (IncSprite typ header) s, r3)
  else
    let! (typ, r) := read_include_type ts in
    let! (s, r2) := read_string r in
    Ok (DInclude typ s, r2).

(** [Parser::parse_directive], /repo/src/parser.rs 553-715; [num as usize] keeps the number, which the
    lexer has made non-negative. *)
Definition parse_directive (ts : stream) : outcome (option statement * stream) :=
  match ts with
  | [] => Ok (None, ts)
  | tok :: r =>
      if has_name ".byte" tok then
        let! (vals, r2) := parse_byte_vals r in
        match vals with
        | [] => Err MissingBytes
        | _ => Ok (Some (SDirective (DByte vals)), r2)
        end
      else if has_name ".org" tok then
        let! (num, r2) := read_number r in Ok (Some (SDirective (DOrg num)), r2)
      else if has_name ".word" tok then
        let! (exprs, r2) := parse_exprs r in
        match exprs with
        | [] => Err MissingWords
        | _ => Ok (Some (SDirective (DWord exprs)), r2)
        end
      else if has_name ".text" tok then
        let! (n, r2) := read_number r in
        let! (s, r3) := read_string r2 in
        Ok (Some (SDirective (DText n (string_bytes s))), r3)
      else if has_name ".string" tok then
        let! (n, r2) := read_number r in
        let! (s, r3) := read_string r2 in
        Ok (Some (SDirective (DString n (string_bytes s))), r3)
      else if has_name ".include" tok then
        let! (d, r2) := parse_include r in Ok (Some (SDirective d), r2)
      else if has_name ".cnop" tok then
        let! (first, r2) := parse_expr r in
        let! r3 := consume_comma r2 in
        let! (second, r4) := parse_expr r3 in
        Ok (Some (SDirective (DCnop first second)), r4)
      else Ok (None, ts)
  end.

(** [Parser::parse_gen_instr], /repo/src/parser.rs 467-479. *)
Definition parse_gen_instr (ts : stream) : outcome ((string * list arg) * stream) :=
  let! (name, r) := read_name ts in
  let! (args, r2) := parse_args r in
  Ok ((name, args), r2).

(** [Parser::parse_instr], /repo/src/parser.rs 448-465. *)
Definition parse_instr (ts : stream) : outcome (option statement * stream) :=
  match ts with
  | TName n :: _ =>
      if negb (instr_exists n) then
        if negb (is_local n) then
          let! ((name, args), r) := parse_gen_instr ts in
          Ok (Some (SMacroCall name args), r)
        else Ok (None, ts)
      else
        let! ((name, args), r) := parse_gen_instr ts in
        let! i := make_instr name args in
        Ok (Some (SInstr i), r)
  | _ => Ok (None, ts)
  end.

(** The part of [Parser::parse_statement] after the attempts at an instruction and a directive,
    /repo/src/parser.rs 408-445. *)
Definition parse_other (ts : stream) : outcome (statement * stream) :=
  let! (tok, r) := next ts in
  if (is_name tok && is_empty r && is_local_name tok)%bool then
    match tok with TName n => Ok (SLabel n, r) | _ => Err UnexpectedToken end
  else if (is_name tok && check (has_name "equ") r)%bool then
    let! (_, r2) := next r in
    let! (e, r3) := parse_expr r2 in
    match tok with TName n => Ok (SAlias n e, r3) | _ => Panic end
  else if (is_name tok && check is_equ r)%bool then
    let! (_, r2) := next r in
    let! (e, r3) := parse_expr r2 in
    match tok with TName n => Ok (SVariable n e, r3) | _ => Panic end
  else if (is_name tok && is_local_name tok)%bool then Err UnknownDirective
  else if is_name tok then Err UnknownInstruction
  else Err UnexpectedToken.

(** [Parser::parse_statement], /repo/src/parser.rs 382-446, from the attempt at a directive on (403). *)
Definition parse_directive_or_other (ts : stream) : outcome (statement * stream) :=
  let! (d, r) := parse_directive ts in
  match d with
  | Some s => Ok (s, r)
  | None => parse_other ts
  end.

(** [Parser::parse_statement], /repo/src/parser.rs 382-446. *)
Definition parse_statement (ts : stream) : outcome (statement * stream) :=
  match ts with
  | TName n :: TColon :: r => Ok (SLabel n, r)
  | _ =>
      if (check is_name ts &&
          negb (check_at 1 (has_name "equ") ts || check_at 1 is_equ ts || check is_local_name ts))%bool then
        let! (i, r) := parse_instr ts in
        match i with
        | Some s => Ok (s, r)
        | None => parse_directive_or_other ts
        end
      else parse_directive_or_other ts
  end.

(** [Statement::is_label], /repo/src/ast.rs 446-451. *)
Definition is_label (s : statement) : bool := match s with SLabel _ => true | _ => false end.

(** [Parser::parse_line], /repo/src/parser.rs 356-380: the statements of one line. *)
Definition parse_line (ts : stream) : outcome (list statement) :=
  if negb (is_empty ts) then
    let! (stmt, r) := parse_statement ts in
    let! (more, r2) :=
      (if (is_label stmt && negb (is_empty r))%bool then
         let! (i, r2) := parse_instr r in
         match i with
         | Some s => Ok ([s], r2)
         | None => let! (_, _) := next r2 in Err InvalidInstruction
         end
       else Ok ([], r)) in
    if negb (is_empty r2) then let! (_, _) := next r2 in Err UnexpectedToken
    else Ok (stmt :: more)
  else Ok [].

(** * Lines and macros *)

(** [LineIterator] and [lines], /repo/src/parser.rs 43-78: the tokens of a line are those starting on the
    line, and in the file, where its first token ends. *)
Fixpoint lines_from (line file : nat) (cur : list token) (ts : list token) : list (list token) :=
  match ts with
  | [] => [rev cur]
  | t :: r =>
      if (Nat.eqb line (l_line (s_start (t_span t))) && Nat.eqb file (l_file (s_start (t_span t))))%bool then
        lines_from line file (t :: cur) r
      else rev cur :: lines_from (l_line (s_end (t_span t))) (l_file (s_end (t_span t))) [t] r
  end.

(** [lines], /repo/src/parser.rs 73-78. *)
Definition lines (ts : list token) : list (list token) :=
  match ts with
  | [] => []
  | t :: r => lines_from (l_line (s_end (t_span t))) (l_file (s_end (t_span t))) [t] r
  end.

(** [TokenStream::from], /repo/src/parser.rs 765-770. *)
Definition stream_of (line : list token) : stream := map t_type line.

(** The labels at the start of a line in a macro, /repo/src/parser.rs 185-212. *)
Definition parse_macro_label (ts : stream) : list macro_statement * stream :=
  match ts with
  | TName n :: TColon :: r => ([MLabel n], r)
  | TMacroLabel n :: TColon :: r => ([MMacroLabel n], r)
  | [TName n] => if is_local n then ([MLabel n], []) else ([], ts)
  | [TMacroLabel n] => if is_local n then ([MMacroLabel n], []) else ([], ts)
  | _ => ([], ts)
  end.

(** [Parser::parse_macro_statement], /repo/src/parser.rs 180-231. *)
Definition parse_macro_statement (ts : stream) : outcome (list macro_statement) :=
  let (stmts, r) := parse_macro_label ts in
  let! (more, r2) :=
    match r with
    | TName name :: _ =>
        if negb (is_local name) then
          let! ((name, args), r2) := parse_gen_instr r in
          Ok ([MInstr name args], r2)
        else Err UnknownInstruction
    | _ => Ok ([], r)
    end in
  if negb (is_empty r2) then let! (_, _) := next r2 in Err UnexpectedToken
  else Ok (stmts ++ more).

(** The loop over the parameters, /repo/src/parser.rs 259-274; [seen] holds the earlier names. *)
Fixpoint macro_params (seen : list string) (args : list arg) : outcome (list string) :=
  match args with
  | [] => Ok []
  | AMacroArg n :: t =>
      if existsb (String.eqb n) seen then Err DuplicateMacroArg
      else let! rest := macro_params (n :: seen) t in Ok (n :: rest)
  | _ :: _ => Err InvalidMacroArg
  end.

(** [Parser::parse_macro_header], /repo/src/parser.rs 233-281. *)
Definition parse_macro_header (ms : macros) (ts : stream) : outcome (string * list string) :=
  let! (_, r) := read_macro_name ts in
  let! (name, r2) := read_name r in
  if instr_exists name then Err (MacroNameConflictsWithInstruction name)
  else
    let! (args, r3) := parse_args r2 in
    match find_macro ms name (List.length args) with
    | Some _ => Err (MacroAlreadyExists name (List.length args))
    | None =>
        let! params := macro_params [] args in
        if negb (is_empty r3) then let! (_, _) := next r3 in Err UnexpectedToken
        else Ok (name, params)
    end.

(** [HashMap::insert] of a macro, /repo/src/parser.rs 327-330. *)
Definition add_macro (ms : macros) (name : string) (params : list string) (body : list macro_statement) : macros :=
  ((name, List.length params), mkMacro name params body) :: ms.

(** The two nested loops of [Parser::parse_macros], /repo/src/parser.rs 297-334; [inside] is the macro
    being read, if any.  The result holds the lines outside macros (336-341). *)
Fixpoint scan_macros (ms : macros) (inside : option (string * list string * list macro_statement))
    (ls : list stream) : outcome (list stream * macros) :=
  match ls with
  | [] =>
      match inside with
      | None => Ok ([], ms)
      | Some (name, params, body) => Ok ([], add_macro ms name params body)
      end
  | line :: rest =>
      match inside with
      | None =>
          if check (has_macro_name "%macro") line then
            let! (name, params) := parse_macro_header ms line in
            scan_macros ms (Some (name, params, [])) rest
          else
            let! (kept, ms2) := scan_macros ms None rest in
            Ok (line :: kept, ms2)
      | Some (name, params, body) =>
          if check (has_macro_name "%end") line then
            let! (_, r) := next line in
            if negb (is_empty r) then let! (_, _) := next r in Err UnexpectedToken
            else scan_macros (add_macro ms name params body) None rest
          else
            let! stmts := parse_macro_statement line in
            scan_macros ms (Some (name, params, body ++ stmts)) rest
      end
  end.

(** [Parser::parse_macros], /repo/src/parser.rs 283-344. *)
Definition parse_macros (ts : list token) : outcome (list stream * macros) :=
  scan_macros [] None (map stream_of (lines ts)).

(** The loop over the lines, /repo/src/parser.rs 349-352. *)
Fixpoint parse_lines (ls : list stream) : outcome (list statement) :=
  match ls with
  | [] => Ok []
  | line :: rest =>
      let! here := parse_line line in
      let! others := parse_lines rest in
      Ok (here ++ others)
  end.

(** [Parser::parse], /repo/src/parser.rs 346-354. *)
Definition parse (ts : list token) : outcome statements :=
  let! (ls, ms) := parse_macros ts in
  let! stmts := parse_lines ls in
  Ok (mkStatements ms stmts).
