(** The lexer and the parser with the places that Lexer.v and Parser.v leave out: /repo/src/lexer.rs 496-522,
    /repo/src/parser.rs 180-755 and /repo/src/cheader.rs 52-78.  The functions are those of Lexer.v, Parser.v and CHeader.v
    on tokens with spans; errors come with the spans they carry. *)
From Coq Require Import ZArith List String Ascii Bool Arith.
From Verif Require Import Base Expr Instr Ast Macro Lexer Parser CHeader Span.
Import ListNotations.
Open Scope string_scope.
Open Scope list_scope.

(** * The lexer *)

(** The loop of [lex_for_ws], /repo/src/lexer.rs 496-518; an unexpected character is reported at the end of the token
    before it (510). *)
Fixpoint lex_loop_s (skip : input -> option input) (fuel : nat) (i : input) : placed (list token) :=
  match fuel with
  | O => PDiverge
  | S f =>
      let? r := at_span (to_span (loc_of i)) (read_token skip i) in
      match r with
      | None => PErr (UnexpectedChar (Z.of_nat (i_pos i))) [to_span (loc_of i)]
      | Some (j, tok) =>
          match t_type tok with
          | TEOF => POk [mkToken TEOF (mkSpan (loc_of i) (loc_of i))]
          | _ => let? rest := lex_loop_s skip f j in POk (tok :: rest)
          end
      end
  end.

(** [lex_for_ws], /repo/src/lexer.rs 496-518. *)
Definition lex_for_ws_s (skip : input -> option input) (i : input) : placed (list token) :=
  lex_loop_s skip (S (String.length (i_rest i))) i.

(** [lex_input], /repo/src/lexer.rs 520-522. *)
Definition lex_input_s (i : input) : placed (list token) := lex_for_ws_s skip_asm i.

(** * Token streams *)

(** [Token::span], /repo/src/lexer.rs 128-130. *)
Definition tspan (t : token) : pspan := alone (t_span t).

(** [TokenStream::check_at], /repo/src/parser.rs 897-899. *)
Definition check_at_s (n : nat) (p : token_type -> bool) (ts : tokens) : bool :=
  match nth_error ts n with Some t => p (t_type t) | None => false end.

(** [TokenStream::check], /repo/src/parser.rs 901-903. *)
Definition check_s (p : token_type -> bool) (ts : tokens) : bool := check_at_s 0 p ts.

(** [TokenStream::is_empty], /repo/src/parser.rs 784-786. *)
Definition is_empty_s (ts : tokens) : bool := match ts with [] => true | t :: _ => is_eof (t_type t) end.

(** [TokenStream::consume] of a comma, /repo/src/parser.rs 879-882 and 905-914. *)
Definition consume_comma_s (ts : tokens) : placed tokens :=
  match ts with
  | [] => PErr UnexpectedEof []
  | t :: r => match t_type t with TComma => POk r | _ => PErr (ExpectedTokenNotFound "','") [tspan t] end
  end.

(** [TokenStream::consume] of a hash, /repo/src/parser.rs 879-882 and 905-914. *)
Definition consume_hash_s (ts : tokens) : placed tokens :=
  match ts with
  | [] => PErr UnexpectedEof []
  | t :: r => match t_type t with THash => POk r | _ => PErr (ExpectedTokenNotFound "'#'") [tspan t] end
  end.

(** [TokenStream::read_string], /repo/src/parser.rs 807-817. *)
Definition read_string_s (ts : tokens) : placed ((pspan * string) * tokens) :=
  match ts with
  | [] => PErr UnexpectedEof []
  | t :: r => match t_type t with TString s => POk ((tspan t, s), r) | _ => PErr (ExpectedTokenNotFound "String") [tspan t] end
  end.

(** [TokenStream::read_number], /repo/src/parser.rs 819-829. *)
Definition read_number_s (ts : tokens) : placed ((pspan * Z) * tokens) :=
  match ts with
  | [] => PErr UnexpectedEof []
  | t :: r => match t_type t with TNumber n _ => POk ((tspan t, n), r) | _ => PErr (ExpectedTokenNotFound "Number") [tspan t] end
  end.

(** [TokenStream::read_name], /repo/src/parser.rs 831-841. *)
Definition read_name_s (ts : tokens) : placed ((pspan * string) * tokens) :=
  match ts with
  | [] => PErr UnexpectedEof []
  | t :: r => match t_type t with TName n => POk ((tspan t, n), r) | _ => PErr (ExpectedTokenNotFound "Name") [tspan t] end
  end.

(** [TokenStream::read_macro_name], /repo/src/parser.rs 843-856. *)
Definition read_macro_name_s (ts : tokens) : placed ((pspan * string) * tokens) :=
  match ts with
  | [] => PErr UnexpectedEof []
  | t :: r => match t_type t with TMacroIdent n => POk ((tspan t, n), r) | _ => PErr (ExpectedTokenNotFound "Macro Ident") [tspan t] end
  end.

(** [TokenStream::read_include_type], /repo/src/parser.rs 788-805. *)
Definition read_include_type_s (ts : tokens) : placed (sinclude * tokens) :=
  if check_s (has_name "asm") ts then let? (_, r) := next_s ts in POk (SIAsm, r)
  else if check_s (has_name "bytes") ts then let? (_, r) := next_s ts in POk (SIBytes, r)
  else if check_s (has_name "cpp") ts then let? (_, r) := next_s ts in POk (SICHeader, r)
  else let? (t, _) := next_s ts in PErr (ExpectedTokenNotFound "Include Type") [tspan t].

(** An error at the next token, [tokens.next()?] or [tokens.current()?] in the argument of [Err], for instance
    /repo/src/parser.rs 227. *)
Definition err_next {A : Type} (e : error) (ts : tokens) : placed A :=
  let? (t, _) := next_s ts in PErr e [tspan t].

(** * Operands and lists *)

(** The loop of [Parser::parse_list], /repo/src/parser.rs 535-539. *)
Fixpoint list_loop_s {T : Type} (p : tokens -> placed (T * tokens)) (fuel : nat) (ts : tokens) : placed (list T * tokens) :=
  if is_empty_s ts then POk ([], ts)
  else match fuel with
       | O => PDiverge
       | S f =>
           let? r := consume_comma_s ts in
           let? (v, r2) := p r in
           let? (vs, r3) := list_loop_s p f r2 in
           POk (v :: vs, r3)
       end.

(** [Parser::parse_list], /repo/src/parser.rs 525-542. *)
Definition parse_list_s {T : Type} (p : tokens -> placed (T * tokens)) (ts : tokens) : placed (list T * tokens) :=
  if is_empty_s ts then POk ([], ts)
  else
    let? (v, r) := p ts in
    let? (vs, r2) := list_loop_s p (List.length r) r in
    POk (v :: vs, r2).

(** [Parser::parse_im], /repo/src/parser.rs 741-755. *)
Definition parse_im_s (ts : tokens) : placed ((pspan * imode) * tokens) :=
  let? (tok, r) := next_s ts in
  match t_type tok with
  | TR0 => POk ((tspan tok, R0), r)
  | TR1 => POk ((tspan tok, R1), r)
  | TR2 => POk ((tspan tok, R2), r)
  | TR3 => POk ((tspan tok, R3), r)
  | _ => PErr (ExpectedTokenNotFound "Indirection Mode (@R[0-3])") [tspan tok]
  end.

(** [Parser::parse_i8], /repo/src/parser.rs 736-739. *)
Definition parse_i8_s (ts : tokens) : placed (sexpr * tokens) :=
  let? r := consume_hash_s ts in parse_expr_s r.

(** [Parser::parse_arg], /repo/src/parser.rs 717-730. *)
Definition parse_arg_s (ts : tokens) : placed (sarg * tokens) :=
  if check_s is_indirection_mode ts then
    let? ((s, im), r) := parse_im_s ts in POk (SAIM s im, r)
  else if check_s is_hash ts then
    let? (e, r) := parse_i8_s ts in POk (SAImm e, r)
  else
    let? (e, r) := parse_expr_s ts in
    match e with
    | XMacroArg_ s n => POk (SAMacroArg s n, r)
    | _ => POk (SAEx e, r)
    end.

(** [Parser::parse_args], /repo/src/parser.rs 481-483. *)
Definition parse_args_s (ts : tokens) : placed (list sarg * tokens) := parse_list_s parse_arg_s ts.

(** [Parser::parse_exprs], /repo/src/parser.rs 485-487. *)
Definition parse_exprs_s (ts : tokens) : placed (list sexpr * tokens) := parse_list_s parse_expr_s ts.

(** [Parser::parse_byte_value], /repo/src/parser.rs 544-551. *)
Definition parse_byte_value_s (ts : tokens) : placed (sbyte * tokens) :=
  if check_s is_string ts then
    let? ((sp, s), r) := read_string_s ts in POk (SBString sp (string_bytes s), r)
  else let? (e, r) := parse_expr_s ts in POk (SBExpr e, r).

(** [Parser::parse_byte_vals], /repo/src/parser.rs 489-491. *)
Definition parse_byte_vals_s (ts : tokens) : placed (list sbyte * tokens) := parse_list_s parse_byte_value_s ts.

(** [Arg::span], /repo/src/expression.rs 576-583. *)
Definition arg_span (a : sarg) : pspan :=
  match a with SAImm e | SAEx e => span_of e | SAIM s _ | SAMacroArg s _ => s end.

(** [ByteValue::span], /repo/src/ast.rs 136-141. *)
Definition byte_span (b : sbyte) : pspan := match b with SBExpr e => span_of e | SBString s _ => s end.

(** [Span::from] of a span and the span of the last of a list, [x.last().unwrap().span()], for instance
    /repo/src/parser.rs 476; the lists there are not empty. *)
Definition through {T : Type} (s : pspan) (f : T -> pspan) (l : list T) : pspan := span_from s (last (map f l) s).

(** * Directives *)

(** [Parser::parse_keyval_pair], /repo/src/parser.rs 493-511; the span of the key is not used (520) and left out. *)
Definition parse_keyval_pair_s (ts : tokens) : placed ((string * sbyte) * tokens) :=
  if check_s is_name ts then
    let? ((_, name), r) := read_name_s ts in
    if check_s is_equ r then
      let? (_, r2) := next_s r in
      let? (bval, r3) := parse_byte_value_s r2 in
      POk ((name, bval), r3)
    else err_next (ExpectedTokenNotFound "=") r
  else err_next (ExpectedTokenNotFound "Name") ts.

(** [Parser::parse_keyval_pairs], /repo/src/parser.rs 513-523. *)
Definition parse_keyval_pairs_s (ts : tokens) : placed (smap sbyte * tokens) :=
  let? (pairs, r) := parse_list_s parse_keyval_pair_s ts in
  POk (fold_left (fun m p => minsert m (fst p) (snd p)) pairs [], r).

(** The sprite type among the properties, /repo/src/parser.rs 640-661. *)
Definition sprite_type_of_s (properties : smap sbyte) : placed sprite_type :=
  match mget properties "type" with
  | Some (SBString s value) =>
      if String.eqb (bytes_string value) "simple" then POk Simple
      else if String.eqb (bytes_string value) "masked" then POk Masked
      else PErr InvalidSpriteType [s]
  | Some (SBExpr e) => PErr InvalidSpriteType [span_of e]
  | None => POk Simple
  end.

(** The header choice among the properties, /repo/src/parser.rs 662-683. *)
Definition sprite_header_of_s (properties : smap sbyte) : placed include_header :=
  match mget properties "header" with
  | Some (SBString s value) =>
      if String.eqb (bytes_string value) "yes" then POk HeaderYes
      else if String.eqb (bytes_string value) "no" then POk HeaderNo
      else PErr InvalidSpriteHeader [s]
  | Some (SBExpr e) => PErr InvalidSpriteHeader [span_of e]
  | None => POk HeaderYes
  end.

(** The icon speed among the properties, /repo/src/parser.rs 621-629. *)
Definition icon_speed_of_s (properties : smap sbyte) : placed (option sexpr) :=
  match mget properties "speed" with
  | Some (SBExpr e) => POk (Some e)
  | Some (SBString s _) => PErr InvalidExpression [to_span (s_start (here s))]
  | None => POk None
  end.

(** The [.include] branch of [Parser::parse_directive], /repo/src/parser.rs 606-699; [ident] is the span of the word
    [.include], after which the stream begins. *)
Definition parse_include_s (ident : pspan) (ts : tokens) : placed (sdirective * tokens) :=
  if check_s is_string ts then
    let? ((sp, s), r) := read_string_s ts in POk (SDInclude (span_from ident sp) SIAsm s, r)
  else if check_s (has_name "icon") ts then
    let? (_, r) := read_name_s ts in
    let? ((sp, s), r2) := read_string_s r in
    let? (properties, r3) := parse_keyval_pairs_s r2 in
    let? speed := icon_speed_of_s properties in
    POk (SDInclude sp (SIIcon speed (mget properties "eyecatch")) s, r3)
  else if check_s (has_name "sprite") ts then
    let? (_, r) := read_name_s ts in
    let? ((sp, s), r2) := read_string_s r in
    let? (properties, r3) := parse_keyval_pairs_s r2 in
    let? typ := sprite_type_of_s properties in
    let? header := sprite_header_of_s properties in
    POk (SDInclude sp (SISprite typ header) s, r3)
  else
    let? (typ, r) := read_include_type_s ts in
    let? ((sp, s), r2) := read_string_s r in
    POk (SDInclude (span_from ident sp) typ s, r2).

(** [Parser::parse_directive], /repo/src/parser.rs 553-715. *)
Definition parse_directive_s (ts : tokens) : placed (option sstatement * tokens) :=
  match ts with
  | [] => POk (None, ts)
  | tok :: r =>
      let ident := tspan tok in
      if has_name ".byte" (t_type tok) then
        let? (vals, r2) := parse_byte_vals_s r in
        match vals with
        | [] => PErr MissingBytes [ident]
        | _ => POk (Some (SSDirective (SDByte (through ident byte_span vals) vals)), r2)
        end
      else if has_name ".org" (t_type tok) then
        let? ((sp, num), r2) := read_number_s r in POk (Some (SSDirective (SDOrg (span_from ident sp) num)), r2)
      else if has_name ".word" (t_type tok) then
        let? (exprs, r2) := parse_exprs_s r in
        match exprs with
        | [] => PErr MissingWords [ident]
        | _ => POk (Some (SSDirective (SDWord (through ident span_of exprs) exprs)), r2)
        end
      else if has_name ".text" (t_type tok) then
        let? ((_, n), r2) := read_number_s r in
        let? ((sp, s), r3) := read_string_s r2 in
        POk (Some (SSDirective (SDText (span_from ident sp) n (string_bytes s))), r3)
      else if has_name ".string" (t_type tok) then
        let? ((_, n), r2) := read_number_s r in
        let? ((sp, s), r3) := read_string_s r2 in
        POk (Some (SSDirective (SDString (span_from ident sp) n (string_bytes s))), r3)
      else if has_name ".include" (t_type tok) then
        let? (d, r2) := parse_include_s ident r in POk (Some (SSDirective d), r2)
      else if has_name ".cnop" (t_type tok) then
        let? (first, r2) := parse_expr_s r in
        let? r3 := consume_comma_s r2 in
        let? (second, r4) := parse_expr_s r3 in
        POk (Some (SSDirective (SDCnop (span_from ident (span_of second)) first second)), r4)
      else POk (None, ts)
  end.

(** * Statements and lines *)

(** [Parser::parse_gen_instr], /repo/src/parser.rs 467-479. *)
Definition parse_gen_instr_s (ts : tokens) : placed ((pspan * string * list sarg) * tokens) :=
  let? ((sp, name), r) := read_name_s ts in
  let? (args, r2) := parse_args_s r in
  match args with
  | [] => POk ((sp, name, args), r2)
  | _ => POk ((through sp arg_span args, name, args), r2)
  end.

(** [Parser::parse_instr], /repo/src/parser.rs 448-465. *)
Definition parse_instr_s (ts : tokens) : placed (option sstatement * tokens) :=
  match ts with
  | [] => POk (None, ts)
  | t :: _ =>
      match t_type t with
      | TName n =>
          if negb (instr_exists n) then
            if negb (is_local n) then
              let? ((sp, name, args), r) := parse_gen_instr_s ts in
              POk (Some (SSMacroCall sp name args), r)
            else POk (None, ts)
          else
            let? ((sp, name, args), r) := parse_gen_instr_s ts in
            let? i := make_instr_s sp name args in
            POk (Some (SSInstr sp i), r)
      | _ => POk (None, ts)
      end
  end.

(** The part of [Parser::parse_statement] after the attempts at an instruction and a directive,
    /repo/src/parser.rs 408-445. *)
Definition parse_other_s (ts : tokens) : placed (sstatement * tokens) :=
  let? (tok, r) := next_s ts in
  let ty := t_type tok in
  if (is_name ty && is_empty_s r && is_local_name ty)%bool then
    match ty with TName n => POk (SSLabel (tspan tok) n, r) | _ => PErr UnexpectedToken [tspan tok] end
  else if (is_name ty && check_s (has_name "equ") r)%bool then
    let? (_, r2) := next_s r in
    let? (e, r3) := parse_expr_s r2 in
    match ty with TName n => POk (SSAlias (span_from (tspan tok) (span_of e)) n e, r3) | _ => PPanic end
  else if (is_name ty && check_s is_equ r)%bool then
    let? (_, r2) := next_s r in
    let? (e, r3) := parse_expr_s r2 in
    match ty with TName n => POk (SSVariable (span_from (tspan tok) (span_of e)) n e, r3) | _ => PPanic end
  else if (is_name ty && is_local_name ty)%bool then PErr UnknownDirective [tspan tok]
  else if is_name ty then PErr UnknownInstruction [tspan tok]
  else PErr UnexpectedToken [tspan tok].

(** [Parser::parse_statement], /repo/src/parser.rs 382-446, from the attempt at a directive on (403). *)
Definition parse_directive_or_other_s (ts : tokens) : placed (sstatement * tokens) :=
  let? (d, r) := parse_directive_s ts in
  match d with
  | Some s => POk (s, r)
  | None => parse_other_s ts
  end.

(** A name and a colon at the start of a line, /repo/src/parser.rs 383-390 and 185-191: the name, the span from the name
    to the colon, and the rest. *)
Definition colon_label (ts : tokens) : option (string * pspan * tokens) :=
  match ts with
  | t :: c :: r =>
      match t_type t, t_type c with
      | TName n, TColon => Some (n, span_from (tspan t) (tspan c), r)
      | _, _ => None
      end
  | _ => None
  end.

(** [Parser::parse_statement], /repo/src/parser.rs 382-446. *)
Definition parse_statement_s (ts : tokens) : placed (sstatement * tokens) :=
  match colon_label ts with
  | Some (n, s, r) => POk (SSLabel s n, r)
  | None =>
      if (check_s is_name ts &&
          negb (check_at_s 1 (has_name "equ") ts || check_at_s 1 is_equ ts || check_s is_local_name ts))%bool then
        let? (i, r) := parse_instr_s ts in
        match i with
        | Some s => POk (s, r)
        | None => parse_directive_or_other_s ts
        end
      else parse_directive_or_other_s ts
  end.

(** [Statement::is_label], /repo/src/ast.rs 446-451. *)
Definition is_label_s (s : sstatement) : bool := match s with SSLabel _ _ => true | _ => false end.

(** [Parser::parse_line], /repo/src/parser.rs 356-380: the statements of one line. *)
Definition parse_line_s (ts : tokens) : placed (list sstatement) :=
  if negb (is_empty_s ts) then
    let? (stmt, r) := parse_statement_s ts in
    let? (more, r2) :=
      (if (is_label_s stmt && negb (is_empty_s r))%bool then
         let? (i, r2) := parse_instr_s r in
         match i with
         | Some s => POk ([s], r2)
         | None => err_next InvalidInstruction r2
         end
       else POk ([], r)) in
    if negb (is_empty_s r2) then err_next UnexpectedToken r2
    else POk (stmt :: more)
  else POk [].

(** * Macros *)

(** The labels at the start of a line in a macro, /repo/src/parser.rs 185-212. *)
Definition parse_macro_label_s (ts : tokens) : list smacro_statement * tokens :=
  match ts with
  | [t] =>
      match t_type t with
      | TName n => if is_local n then ([SMLabel (tspan t) n], []) else ([], ts)
      | TMacroLabel n => if is_local n then ([SMMacroLabel (tspan t) n], []) else ([], ts)
      | _ => ([], ts)
      end
  | t :: c :: r =>
      match t_type t, t_type c with
      | TName n, TColon => ([SMLabel (span_from (tspan t) (tspan c)) n], r)
      | TMacroLabel n, TColon => ([SMMacroLabel (span_from (tspan t) (tspan c)) n], r)
      | _, _ => ([], ts)
      end
  | [] => ([], ts)
  end.

(** [Parser::parse_macro_statement], /repo/src/parser.rs 180-231. *)
Definition parse_macro_statement_s (ts : tokens) : placed (list smacro_statement) :=
  let (stmts, r) := parse_macro_label_s ts in
  let? (more, r2) :=
    match r with
    | [] => POk ([], r)
    | t :: _ =>
        match t_type t with
        | TName name =>
            if negb (is_local name) then
              let? ((sp, name, args), r2) := parse_gen_instr_s r in
              POk ([SMInstr sp name args], r2)
            else PErr UnknownInstruction [tspan t]
        | _ => POk ([], r)
        end
    end in
  if negb (is_empty_s r2) then err_next UnexpectedToken r2
  else POk (stmts ++ more).

(** The loop over the parameters, /repo/src/parser.rs 259-274; [seen] holds the earlier names. *)
Fixpoint macro_params_s (seen : list string) (args : list sarg) : placed (list string) :=
  match args with
  | [] => POk []
  | SAMacroArg s n :: t =>
      if existsb (String.eqb n) seen then PErr DuplicateMacroArg [s]
      else let? rest := macro_params_s (n :: seen) t in POk (n :: rest)
  | other :: _ => PErr InvalidMacroArg [arg_span other]
  end.

(** [Parser::parse_macro_header], /repo/src/parser.rs 233-281. *)
Definition parse_macro_header_s (ms : smacros) (ts : tokens) : placed (pspan * string * list string) :=
  let? (_, r) := read_macro_name_s ts in
  let? ((sp, name), r2) := read_name_s r in
  if instr_exists name then PErr (MacroNameConflictsWithInstruction name) [sp]
  else
    let? (args, r3) := parse_args_s r2 in
    match find_macro_s ms name (List.length args) with
    | Some d => PErr (MacroAlreadyExists name (List.length args)) [sp; sm_span d]
    | None =>
        let? params := macro_params_s [] args in
        if negb (is_empty_s r3) then err_next UnexpectedToken r3
        else POk (sp, name, params)
    end.

(** [HashMap::insert] of a macro, /repo/src/parser.rs 327-330. *)
Definition add_macro_s (ms : smacros) (sp : pspan) (name : string) (params : list string) (body : list smacro_statement) : smacros :=
  ((name, List.length params), mkSMacro sp name params body) :: ms.

(** The two nested loops of [Parser::parse_macros], /repo/src/parser.rs 297-334; [inside] is the macro being read, if any.
    The result holds the lines outside macros (336-341). *)
Fixpoint scan_macros_s (ms : smacros) (inside : option (pspan * string * list string * list smacro_statement))
    (ls : list tokens) : placed (list tokens * smacros) :=
  match ls with
  | [] =>
      match inside with
      | None => POk ([], ms)
      | Some (sp, name, params, body) => POk ([], add_macro_s ms sp name params body)
      end
  | line :: rest =>
      match inside with
      | None =>
          if check_s (has_macro_name "%macro") line then
            let? (sp, name, params) := parse_macro_header_s ms line in
            scan_macros_s ms (Some (sp, name, params, [])) rest
          else
            let? (kept, ms2) := scan_macros_s ms None rest in
            POk (line :: kept, ms2)
      | Some (sp, name, params, body) =>
          if check_s (has_macro_name "%end") line then
            let? (_, r) := next_s line in
            if negb (is_empty_s r) then err_next UnexpectedToken r
            else scan_macros_s (add_macro_s ms sp name params body) None rest
          else
            let? stmts := parse_macro_statement_s line in
            scan_macros_s ms (Some (sp, name, params, body ++ stmts)) rest
      end
  end.

(** The loop over the lines, /repo/src/parser.rs 349-352. *)
Fixpoint parse_lines_s (ls : list tokens) : placed (list sstatement) :=
  match ls with
  | [] => POk []
  | line :: rest =>
      let? here := parse_line_s line in
      let? others := parse_lines_s rest in
      POk (here ++ others)
  end.

(** [Statements], /repo/src/ast.rs 530-534. *)
Record sstatements : Type := mkSStatements { ss_macros : smacros; ss_list : list sstatement }.

(** [Parser::parse], /repo/src/parser.rs 346-354, with [Parser::parse_macros] (283-344). *)
Definition parse_s (ts : list token) : placed sstatements :=
  let? (ls, ms) := scan_macros_s [] None (lines ts) in
  let? stmts := parse_lines_s ls in
  POk (mkSStatements ms stmts).

(** The program of Ast.v (/repo/src/ast.rs 530-534 without spans). *)
Definition erase_statements (s : sstatements) : statements :=
  mkStatements (erase_macros (ss_macros s)) (map erase_statement (ss_list s)).

(** * C headers *)

(** The body of the loop over the lines, /repo/src/cheader.rs 56-75. *)
Definition header_line_s (line : list token) : placed (list token) :=
  if (check_s is_hash line && check_at_s 1 (has_name "define") line)%bool then
    let? (_, r1) := next_s line in
    let? (_, r2) := next_s r1 in
    let? (_, r3) := read_name_s r2 in
    let? _ := parse_expr_s r3 in
    match line with
    | hash :: define :: name :: rest =>
        POk (name :: mkToken (TName "equ") (mkSpan (s_start (t_span hash)) (s_end (t_span define))) :: rest)
    | _ => PPanic
    end
  else POk line.

(** The loop over the lines, /repo/src/cheader.rs 56-76. *)
Fixpoint header_lines_s (ls : list (list token)) : placed (list token) :=
  match ls with
  | [] => POk []
  | l :: t =>
      let? a := header_line_s l in
      let? b := header_lines_s t in
      POk (a ++ b)
  end.

(** [lex_input], /repo/src/cheader.rs 52-78. *)
Definition header_lex_s (i : input) : placed (list token) :=
  let? raw := lex_for_ws_s skip_c i in
  header_lines_s (lines raw).
