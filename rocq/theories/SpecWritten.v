(** Where the statements of a program stand. *)
From Coq Require Import ZArith List String Ascii Bool.
From Verif Require Import Base Expr Instr Ast Lexer SpecParse Span SpanParser SpecSpan SpecIsa SpecMacro SpecLine SpecSyntax.
Import ListNotations.
Open Scope string_scope.
Open Scope list_scope.

(** The place of a token, and from a token to the end of a place. *)
Definition at_token (t : token) : pspan := mkP (t_span t) [].
Definition from_to (t : token) (p : pspan) : pspan := mkP (mkSpan (s_start (t_span t)) (s_end (here p))) [].

(** The expression is written with these tokens, and each of its parts with tokens among them: its place begins with the first of these
    and, without unary operators, ends with the last, parentheses aside. *)
Definition written (ts : list token) (e : sexpr) : Prop :=
  expression_of (types ts) (erase e) /\
  forall x, part_of x e -> exists before mid after l, ts = before ++ mid ++ after /\ expression l (types mid) (erase x) /\
    parents (span_of x) = [] /\ begins mid (span_of x) /\ (unary_free x -> SpecSpan.ends mid (span_of x)).

(** An operand and its place. *)
Inductive operand_written : list token -> sarg -> pspan -> Prop :=
| ow_mode : forall t m, In (t_type t, m) modes -> operand_written [t] (SAIM (at_token t) m) (at_token t)
| ow_immediate : forall h ts e, t_type h = THash -> written ts e -> operand_written (h :: ts) (SAImm e) (span_of e)
| ow_parameter : forall opening t closing n, t_type t = TMacroIdent n -> Forall (fun u => t_type u = TLeftParen) opening ->
    Forall (fun u => t_type u = TRightParen) closing -> operand_written (opening ++ t :: closing) (SAMacroArg (at_token t) n) (at_token t)
| ow_direct : forall ts e, written ts e -> (forall n, erase e <> EMacroArg n) -> operand_written ts (SAEx e) (span_of e).

(** A value of [.byte] or of a property, and its place. *)
Inductive value_written : list token -> sbyte -> pspan -> Prop :=
| vw_string : forall t s, t_type t = TString s -> value_written [t] (SBString (at_token t) (codes s)) (at_token t)
| vw_expression : forall ts e, written ts e -> value_written ts (SBExpr e) (span_of e).

(** A value of [.word], and its place. *)
Inductive word_written : list token -> sexpr -> pspan -> Prop :=
| ww_expression : forall ts e, written ts e -> word_written ts e (span_of e).

(** Several of them, and the place of the last. *)
Inductive commas {T : Type} (item : list token -> T -> pspan -> Prop) : list token -> list T -> pspan -> Prop :=
| co_one : forall ts x p, item ts x p -> commas item ts [x] p
| co_more : forall ts x p c rest xs q, item ts x p -> t_type c = TComma -> commas item rest xs q -> commas item (ts ++ c :: rest) (x :: xs) q.

(** A name with operands. *)
Inductive call_written : list token -> string -> list sarg -> pspan -> Prop :=
| cw_alone : forall t n, t_type t = TName n -> call_written [t] n [] (at_token t)
| cw_operands : forall t n ops args p, t_type t = TName n -> commas operand_written ops args p -> call_written (t :: ops) n args (from_to t p).

(** The expressions among operands. *)
Definition expressions (args : list sarg) : list sexpr := flat_map (fun a => match a with SAImm e | SAEx e => [e] | _ => [] end) args.

Inductive command_written : list token -> sstatement -> Prop :=
| mw_call : forall ts n args p, call_written ts n args p -> command_written ts (SSMacroCall p n args)
| mw_instr : forall ts n args p i, call_written ts n args p -> operand_exprs i = expressions args -> command_written ts (SSInstr p i).

(** The value of a property of an include. *)
Definition property_written (name : string) (props : list token) (b : option sbyte) : Prop :=
  match b with
  | Some v => exists value p, last_value name props value (erase_byte v) /\ value_written value v p
  | None => exists ps, maybe property (types props) ps /\ ~ In name (map fst ps)
  end.

Inductive directive_written : list token -> sdirective -> Prop :=
| dw_byte : forall t ts vs p, t_type t = TName ".byte" -> commas value_written ts vs p -> directive_written (t :: ts) (SDByte (from_to t p) vs)
| dw_org : forall t u n r, t_type t = TName ".org" -> t_type u = TNumber n r -> directive_written [t; u] (SDOrg (from_to t (at_token u)) n)
| dw_word : forall t ts vs p, t_type t = TName ".word" -> commas word_written ts vs p -> directive_written (t :: ts) (SDWord (from_to t p) vs)
| dw_text : forall t u n r w s, t_type t = TName ".text" -> t_type u = TNumber n r -> t_type w = TString s ->
    directive_written [t; u; w] (SDText (from_to t (at_token w)) n (codes s))
| dw_string : forall t u n r w s, t_type t = TName ".string" -> t_type u = TNumber n r -> t_type w = TString s ->
    directive_written [t; u; w] (SDString (from_to t (at_token w)) n (codes s))
| dw_cnop : forall t ts a c rest b, t_type t = TName ".cnop" -> written ts a -> t_type c = TComma -> written rest b ->
    directive_written (t :: ts ++ c :: rest) (SDCnop (from_to t (span_of b)) a b)
| dw_include : forall t f s, t_type t = TName ".include" -> t_type f = TString s -> directive_written [t; f] (SDInclude (from_to t (at_token f)) SIAsm s)
| dw_kind : forall t k f s kind typ, t_type t = TName ".include" -> t_type k = TName kind -> t_type f = TString s ->
    In (kind, typ) [("asm", SIAsm); ("bytes", SIBytes); ("cpp", SICHeader)] -> directive_written [t; k; f] (SDInclude (from_to t (at_token f)) typ s)
| dw_icon : forall t k f s props speed eyecatch, t_type t = TName ".include" -> t_type k = TName "icon" -> t_type f = TString s ->
    property_written "speed" props (option_map SBExpr speed) -> property_written "eyecatch" props eyecatch ->
    directive_written (t :: k :: f :: props) (SDInclude (at_token f) (SIIcon speed eyecatch) s)
| dw_sprite : forall t k f s props typ header, t_type t = TName ".include" -> t_type k = TName "sprite" -> t_type f = TString s ->
    directive_written (t :: k :: f :: props) (SDInclude (at_token f) (SISprite typ header) s).

Inductive statement_written : list token -> sstatement -> Prop :=
| sw_label : forall t c n, t_type t = TName n -> t_type c = TColon -> statement_written [t; c] (SSLabel (from_to t (at_token c)) n)
| sw_local : forall t n, t_type t = TName n -> dotted n -> statement_written [t] (SSLabel (at_token t) n)
| sw_command : forall ts s, command_written ts s -> statement_written ts s
| sw_directive : forall ts d, directive_written ts d -> statement_written ts (SSDirective d)
| sw_alias : forall t n u ts e, t_type t = TName n -> t_type u = TName "equ" -> written ts e ->
    statement_written (t :: u :: ts) (SSAlias (from_to t (span_of e)) n e)
| sw_variable : forall t n u ts e, t_type t = TName n -> t_type u = TEquals -> written ts e ->
    statement_written (t :: u :: ts) (SSVariable (from_to t (span_of e)) n e).

(** The statements of a line; what follows the mark of the end does not count. *)
Inductive line_written (ts : list token) : list sstatement -> Prop :=
| lw_none : ends (types ts) [] -> line_written ts []
| lw_one : forall front rest s, ts = front ++ rest -> ends (types rest) [] -> statement_written front s -> line_written ts [s]
| lw_two : forall t c front rest n s, ts = t :: c :: front ++ rest -> t_type t = TName n -> t_type c = TColon -> ends (types rest) [] ->
    command_written front s -> line_written ts [SSLabel (from_to t (at_token c)) n; s].

(** * Macros *)

Inductive body_written (ts : list token) : list smacro_statement -> Prop :=
| bw_none : ends (types ts) [] -> body_written ts []
| bw_local : forall t n, ts = [t] -> t_type t = TName n -> dotted n -> body_written ts [SMLabel (at_token t) n]
| bw_macro_local : forall t n, ts = [t] -> t_type t = TMacroLabel n -> dotted n -> body_written ts [SMMacroLabel (at_token t) n]
| bw_label : forall t c rest n s, ts = t :: c :: rest -> t_type c = TColon -> ends (types rest) [] ->
    (t_type t = TName n /\ s = SMLabel (from_to t (at_token c)) n) \/ (t_type t = TMacroLabel n /\ s = SMMacroLabel (from_to t (at_token c)) n) ->
    body_written ts [s]
| bw_instr : forall front rest n args p, ts = front ++ rest -> ends (types rest) [] -> call_written front n args p ->
    body_written ts [SMInstr p n args]
| bw_label_instr : forall t c front rest n s m args p, ts = t :: c :: front ++ rest -> t_type c = TColon -> ends (types rest) [] ->
    (t_type t = TName n /\ s = SMLabel (from_to t (at_token c)) n) \/ (t_type t = TMacroLabel n /\ s = SMMacroLabel (from_to t (at_token c)) n) ->
    call_written front m args p -> body_written ts [s; SMInstr p m args].

(** Several lines. *)
Inductive lines_written {T : Type} (one : list token -> list T -> Prop) : list (list token) -> list T -> Prop :=
| li_none : lines_written one [] []
| li_line : forall ts xs ls rest, one ts xs -> lines_written one ls rest -> lines_written one (ts :: ls) (xs ++ rest).

(** A macro definition: the first line, with the name, and the lines of the body. *)
Definition macro_written (head : list token) (body : list (list token)) (d : smacro_def) : Prop :=
  (exists m t r, head = m :: t :: r /\ t_type m = TMacroIdent "%macro" /\ t_type t = TName (sm_name d) /\ sm_span d = at_token t) /\
  header (types head) (sm_name d) (sm_args d) /\ lines_written body_written body (sm_body d).

(** The lines of a program: the lines outside of macros, and the definitions. *)
Inductive program_written : list (list token) -> list (list token) -> list smacro_def -> Prop :=
| pw_none : program_written [] [] []
| pw_line : forall ts rest kept defs, ~ first_is (TMacroIdent "%macro") (types ts) -> program_written rest kept defs ->
    program_written (ts :: rest) (ts :: kept) defs
| pw_macro : forall head body close rest kept d defs, macro_written head body d ->
    Forall (fun l => ~ first_is (TMacroIdent "%end") (types l)) body -> ends (types close) [TMacroIdent "%end"] -> program_written rest kept defs ->
    program_written (head :: body ++ close :: rest) kept (d :: defs)
| pw_unclosed : forall head body d, macro_written head body d -> Forall (fun l => ~ first_is (TMacroIdent "%end") (types l)) body ->
    program_written (head :: body) [] [d].
