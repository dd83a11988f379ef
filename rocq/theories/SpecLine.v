(** The grammar of a line of assembly: labels, instructions, macro calls, directives, constants.  Stated
    over tokens, without the functions of Parser.v. *)
From Coq Require Import ZArith List String Ascii Bool.
From Verif Require Import Base Expr Instr Ast Lexer SpecIsa SpecMacro SpecParse.
Import ListNotations.
Open Scope string_scope.
Open Scope list_scope.

(** Names that begin with a dot. *)
Definition dotted (n : string) : Prop := exists t, n = String "." t.

Definition directive_names : list string := [".byte"; ".org"; ".word"; ".text"; ".string"; ".include"; ".cnop"].

(** A list separated by commas, with at least one item. *)
Inductive separated {T : Type} (item : list token_type -> T -> Prop) : list token_type -> list T -> Prop :=
| sep_one : forall ts x, item ts x -> separated item ts [x]
| sep_more : forall ts x ts2 xs, item ts x -> separated item ts2 xs -> separated item (ts ++ TComma :: ts2) (x :: xs).

Definition maybe {T : Type} (item : list token_type -> T -> Prop) (ts : list token_type) (xs : list T) : Prop :=
  (ts = [] /\ xs = []) \/ separated item ts xs.

Definition modes : list (token_type * imode) := [(TR0, R0); (TR1, R1); (TR2, R2); (TR3, R3)].

Definition expression_of (ts : list token_type) (e : expr) : Prop := expression Bits ts e.

Inductive operand_of : list token_type -> arg -> Prop :=
| o_mode : forall t m, In (t, m) modes -> operand_of [t] (AIM m)
| o_immediate : forall ts e, expression_of ts e -> operand_of (THash :: ts) (AImm e)
| o_parameter : forall ts n, expression_of ts (EMacroArg n) -> operand_of ts (AMacroArg n)
| o_direct : forall ts e, expression_of ts e -> (forall n, e <> EMacroArg n) -> operand_of ts (AEx e).

(** The codes of the characters. *)
Definition codes (s : string) : list Z := map (fun c => Z.of_nat (nat_of_ascii c)) (list_ascii_of_string s).

Inductive byte_item : list token_type -> byte_value -> Prop :=
| b_string : forall s, byte_item [TString s] (BVString (codes s))
| b_expr : forall ts e, expression_of ts e -> byte_item ts (BVExpr e).

Inductive property : list token_type -> string * byte_value -> Prop :=
| prop_intro : forall n ts v, byte_item ts v -> property (TName n :: TEquals :: ts) (n, v).

(** The value given to a property; the last one counts. *)
Definition given (ps : list (string * byte_value)) (n : string) (v : option byte_value) : Prop :=
  match v with
  | None => forall w, ~ In (n, w) ps
  | Some w => exists a b, ps = a ++ (n, w) :: b /\ forall u, ~ In (n, u) b
  end.

Inductive speed_of (ps : list (string * byte_value)) : option expr -> Prop :=
| sp_none : given ps "speed" None -> speed_of ps None
| sp_some : forall e, given ps "speed" (Some (BVExpr e)) -> speed_of ps (Some e).

Inductive sprite_kind (ps : list (string * byte_value)) : sprite_type -> Prop :=
| sk_default : given ps "type" None -> sprite_kind ps Simple
| sk_simple : given ps "type" (Some (BVString (codes "simple"))) -> sprite_kind ps Simple
| sk_masked : given ps "type" (Some (BVString (codes "masked"))) -> sprite_kind ps Masked.

Inductive sprite_head (ps : list (string * byte_value)) : include_header -> Prop :=
| sh_default : given ps "header" None -> sprite_head ps HeaderYes
| sh_yes : given ps "header" (Some (BVString (codes "yes"))) -> sprite_head ps HeaderYes
| sh_no : given ps "header" (Some (BVString (codes "no"))) -> sprite_head ps HeaderNo.

Inductive directive_of : list token_type -> directive -> Prop :=
| d_byte : forall ts items, separated byte_item ts items -> directive_of (TName ".byte" :: ts) (DByte items)
| d_org : forall n r, directive_of [TName ".org"; TNumber n r] (DOrg n)
| d_word : forall ts es, separated expression_of ts es -> directive_of (TName ".word" :: ts) (DWord es)
| d_text : forall n r s, directive_of [TName ".text"; TNumber n r; TString s] (DText n (codes s))
| d_string : forall n r s, directive_of [TName ".string"; TNumber n r; TString s] (DString n (codes s))
| d_cnop : forall ts1 a ts2 m, expression_of ts1 a -> expression_of ts2 m ->
    directive_of (TName ".cnop" :: ts1 ++ TComma :: ts2) (DCnop a m)
| d_include : forall s, directive_of [TName ".include"; TString s] (DInclude IncAsm s)
| d_include_typed : forall w t s, In (w, t) [("asm", IncAsm); ("bytes", IncBytes); ("cpp", IncCHeader)] ->
    directive_of [TName ".include"; TName w; TString s] (DInclude t s)
| d_icon : forall s ts ps speed eye, maybe property ts ps -> speed_of ps speed -> given ps "eyecatch" eye ->
    directive_of (TName ".include" :: TName "icon" :: TString s :: ts) (DInclude (IncIcon speed eye) s)
| d_sprite : forall s ts ps k h, maybe property ts ps -> sprite_kind ps k -> sprite_head ps h ->
    directive_of (TName ".include" :: TName "sprite" :: TString s :: ts) (DInclude (IncSprite k h) s).

(** An instruction of the reference, or a macro call. *)
Inductive command : list token_type -> statement -> Prop :=
| c_instr : forall ts args f i, maybe operand_of ts args -> In f isa -> key i = (f_name f, f_kinds f) ->
    shapes (f_kinds f) args (op_list i) -> command (TName (f_name f) :: ts) (SInstr i)
| c_macro : forall n ts args, maybe operand_of ts args -> ~ known n -> ~ dotted n ->
    command (TName n :: ts) (SMacroCall n args).

Inductive line : list token_type -> list statement -> Prop :=
| l_empty : line [] []
| l_label : forall n, line [TName n; TColon] [SLabel n]
| l_label_command : forall n ts s, command ts s -> line (TName n :: TColon :: ts) [SLabel n; s]
| l_local_label : forall n, dotted n -> ~ In n directive_names -> line [TName n] [SLabel n]
| l_command : forall ts s, command ts s -> (forall a r, ts <> a :: TName "equ" :: r) -> line ts [s]
| l_directive : forall ts d, directive_of ts d -> line ts [SDirective d]
| l_alias : forall n ts e, expression_of ts e -> ~ In n directive_names -> line (TName n :: TName "equ" :: ts) [SAlias n e]
| l_variable : forall n ts e, expression_of ts e -> ~ In n directive_names -> line (TName n :: TEquals :: ts) [SVariable n e].

(** What comes before the end-of-file token. *)
Inductive ends : list token_type -> list token_type -> Prop :=
| ends_all : forall ts, ~ In TEOF ts -> ends ts ts
| ends_eof : forall ts rest, ~ In TEOF ts -> ends (ts ++ TEOF :: rest) ts.

(** * Macros and whole programs *)

(** The token [u] starts on the line where the token [t] ends. *)
Definition same_line (t u : token) : Prop :=
  l_line (s_start (t_span u)) = l_line (s_end (t_span t)) /\ l_file (s_start (t_span u)) = l_file (s_end (t_span t)).

(** Tokens grouped by lines. *)
Inductive grouped : list token -> list (list token) -> Prop :=
| gr_nil : grouped [] []
| gr_line : forall t same rest groups,
    Forall (same_line t) same -> (forall u r, rest = u :: r -> ~ same_line t u) -> grouped rest groups ->
    grouped (t :: same ++ rest) ((t :: same) :: groups).

(** The lines of a macro body.  A label without colon must be alone on its line, without even the
    end-of-file token. *)
Inductive body_line : list token_type -> list macro_statement -> Prop :=
| bl_empty : forall ts, ends ts [] -> body_line ts []
| bl_label : forall ts n, ends ts [TName n; TColon] -> body_line ts [MLabel n]
| bl_macro_label : forall ts n, ends ts [TMacroLabel n; TColon] -> body_line ts [MMacroLabel n]
| bl_local : forall n, dotted n -> body_line [TName n] [MLabel n]
| bl_macro_local : forall n, dotted n -> body_line [TMacroLabel n] [MMacroLabel n]
| bl_instr : forall ts n ops args, ends ts (TName n :: ops) -> ~ dotted n -> maybe operand_of ops args ->
    body_line ts [MInstr n args]
| bl_label_instr : forall ts l n ops args, ends ts (TName l :: TColon :: TName n :: ops) -> ~ dotted n ->
    maybe operand_of ops args -> body_line ts [MLabel l; MInstr n args]
| bl_macro_label_instr : forall ts l n ops args, ends ts (TMacroLabel l :: TColon :: TName n :: ops) -> ~ dotted n ->
    maybe operand_of ops args -> body_line ts [MMacroLabel l; MInstr n args].

Definition first_is (t : token_type) (ts : list token_type) : Prop := exists r, ts = t :: r.

(** The lines of a macro up to, and without, its end. *)
Inductive body_lines : list (list token_type) -> list macro_statement -> Prop :=
| bls_nil : body_lines [] []
| bls_cons : forall ts ss rest more, ~ first_is (TMacroIdent "%end") ts -> body_line ts ss -> body_lines rest more ->
    body_lines (ts :: rest) (ss ++ more).

Inductive header : list token_type -> string -> list string -> Prop :=
| header_intro : forall ts n ops params, ends ts (TMacroIdent "%macro" :: TName n :: ops) ->
    maybe operand_of ops (map AMacroArg params) -> NoDup params -> ~ known n -> header ts n params.

(** [program defs ls stmts all]: the lines [ls], after the macro definitions [defs], hold the statements
    [stmts] and define macros, which gives the definitions [all]; later definitions are in front. *)
Inductive program : list macro_def -> list (list token_type) -> list statement -> list macro_def -> Prop :=
| pg_nil : forall defs, program defs [] [] defs
| pg_line : forall defs ts front ss rest stmts all,
    ~ first_is (TMacroIdent "%macro") ts -> ends ts front -> line front ss -> program defs rest stmts all ->
    program defs (ts :: rest) (ss ++ stmts) all
| pg_macro : forall defs ts n params ls body close rest stmts all,
    header ts n params ->
    (forall d, In d defs -> ~ (m_name d = n /\ List.length (m_args d) = List.length params)) ->
    body_lines ls body -> ends close [TMacroIdent "%end"] ->
    program (mkMacro n params body :: defs) rest stmts all ->
    program defs (ts :: ls ++ close :: rest) stmts all
| pg_unclosed : forall defs ts n params ls body, (* [%end] may be missing at the end of the text *)
    header ts n params ->
    (forall d, In d defs -> ~ (m_name d = n /\ List.length (m_args d) = List.length params)) ->
    body_lines ls body ->
    program defs (ts :: ls) [] (mkMacro n params body :: defs).

(** Definitions as a map from name and number of parameters. *)
Definition by_name (defs : list macro_def) : macros :=
  map (fun d => ((m_name d, List.length (m_args d)), d)) defs.
