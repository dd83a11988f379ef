(** Where the errors of the parser should point. *)
From Coq Require Import ZArith List String Ascii Bool.
From Verif Require Import Base Expr Instr Ast Lexer SpecParse Span SpecSpan SpecIsa SpecMacro SpecLine.
Import ListNotations.
Open Scope string_scope.
Open Scope list_scope.

Definition language : Type := list token_type -> Prop.

(** The tokens can be completed. *)
Definition completable (G : language) (ts : list token_type) : Prop := exists more, G (ts ++ more).

(** The errors that say that something else was expected. *)
Inductive unexpected : error -> Prop :=
| un_token : unexpected UnexpectedToken
| un_expected : forall what, unexpected (ExpectedTokenNotFound what)
| un_expression : unexpected InvalidExpression
| un_instruction : unexpected InvalidInstruction
| un_unknown : unexpected UnknownInstruction.

(** The error is at a token, or at the place where it begins. *)
Definition marks (t : token) (e : error) (at_ : list pspan) : Prop :=
  unexpected e /\ (at_ = [mkP (t_span t) []] \/ at_ = [mkP (mkSpan (s_start (t_span t)) (s_start (t_span t))) []]).

(** The error is at the first token that cannot be right: the tokens before it can be completed, with it that is impossible.
    The mark of the end cannot be right if the tokens before it are not enough.  If the tokens end too soon there is no place. *)
Definition first_wrong (G : language) (ts : list token) (e : error) (at_ : list pspan) : Prop :=
  (e = UnexpectedEof /\ at_ = [] /\ completable G (types ts) /\ ~ G (types ts)) \/
  exists before t after, ts = before ++ t :: after /\ completable G (types before) /\
    ~ completable G (types before ++ [t_type t]) /\ marks t e at_ /\ (t_type t = TEOF -> ~ G (types before)).

(** * The lines of a program *)

(** A name with operands. *)
Inductive command_form : language :=
| cf_intro : forall n ts args, maybe operand_of ts args -> ~ dotted n -> command_form (TName n :: ts).

(** A directive, or an include with any properties. *)
Inductive directive_form : language :=
| df_directive : forall ts d, directive_of ts d -> directive_form ts
| df_icon : forall s ts ps, maybe property ts ps -> directive_form (TName ".include" :: TName "icon" :: TString s :: ts)
| df_sprite : forall s ts ps, maybe property ts ps -> directive_form (TName ".include" :: TName "sprite" :: TString s :: ts).

(** A line, except that instructions may have any operands and includes any properties. *)
Inductive line_form : language :=
| lf_line : forall ts ss, line ts ss -> line_form ts
| lf_label_command : forall n ts, command_form ts -> line_form (TName n :: TColon :: ts)
| lf_command : forall ts, command_form ts -> (forall a r, ts <> a :: TName "equ" :: r) -> line_form ts
| lf_directive : forall ts, directive_form ts -> line_form ts.

(** The property with this name that counts, the last one, and its value. *)
Definition last_value (name : string) (props value : list token) (v : byte_value) : Prop :=
  exists before k q after, props = before ++ k :: q :: value ++ after /\ t_type k = TName name /\ t_type q = TEquals /\
    byte_item (types value) v /\
    (after = [] \/ exists c more ps, after = c :: more /\ t_type c = TComma /\ separated property (types more) ps /\ ~ In name (map fst ps)).

(** Values that a property must not have. *)
Inductive refused : string -> string -> byte_value -> error -> Prop :=
| rf_speed : forall s, refused "icon" "speed" (BVString s) InvalidExpression
| rf_type : forall v, v <> BVString (codes "simple") -> v <> BVString (codes "masked") -> refused "sprite" "type" v InvalidSpriteType
| rf_header : forall v, v <> BVString (codes "yes") -> v <> BVString (codes "no") -> refused "sprite" "header" v InvalidSpriteHeader.

(** The place begins and ends with tokens of these, or it is where one of them begins. *)
Definition spans (ts : list token) (at_ : list pspan) : Prop :=
  exists s a b, at_ = [mkP s []] /\ In a ts /\ In b ts /\ s_start s = s_start (t_span a) /\
    (s_end s = s_end (t_span b) \/ s_end s = s_start s).

Definition begins_with (t : token) (at_ : list pspan) : Prop := exists s, at_ = [s] /\ s_start (here s) = s_start (t_span t).

(** What is wrong with a line. *)
Inductive wrong_line (ts : list token) : error -> list pspan -> Prop :=
| wl_syntax : forall e at_, first_wrong line_form ts e at_ -> wrong_line ts e at_
| wl_bytes : forall t r, ts = t :: r -> t_type t = TName ".byte" -> ends (types r) [] ->
    wrong_line ts MissingBytes [mkP (t_span t) []]
| wl_words : forall t r, ts = t :: r -> t_type t = TName ".word" -> ends (types r) [] ->
    wrong_line ts MissingWords [mkP (t_span t) []]
| wl_property : forall head props rest kind file ps name value v e at_, ts = head ++ props ++ rest ->
    types head = [TName ".include"; TName kind; TString file] -> maybe property (types props) ps -> ends (types rest) [] ->
    last_value name props value v -> refused kind name v e -> spans value at_ -> wrong_line ts e at_
| wl_directive : forall t u r n, ts = t :: u :: r -> t_type t = TName n -> dotted n -> ~ In n directive_names ->
    ~ In (t_type u) [TEOF; TColon; TEquals; TName "equ"] -> wrong_line ts UnknownDirective [mkP (t_span t) []]
| wl_operands : forall label t ops rest n args at_, ts = label ++ t :: ops ++ rest ->
    label = [] \/ (exists m, types label = [TName m; TColon]) -> t_type t = TName n ->
    maybe operand_of (types ops) args -> ends (types rest) [] -> known n -> ~ listed n args ->
    spans (t :: ops) at_ -> begins_with t at_ -> wrong_line ts (WrongInstructionArgs n) at_.

(** * Macro definitions *)

(** A line of a macro body. *)
Definition body_form : language := fun ts => ~ In TEOF ts /\ exists ss, body_line ts ss.

(** What is wrong with a line of a macro body.  A name with a dot is a label only if nothing follows, other
    names of labels need a colon. *)
Inductive wrong_body (ts : list token) : error -> list pspan -> Prop :=
| wb_syntax : forall e at_, first_wrong body_form ts e at_ -> wrong_body ts e at_
| wb_dotted : forall t u r n, ts = t :: u :: r -> t_type t = TName n -> dotted n -> t_type u <> TColon ->
    wrong_body ts UnknownInstruction [mkP (t_span t) []]
| wb_label : forall t r n, ts = t :: r -> t_type t = TMacroLabel n -> (forall c q, r = c :: q -> t_type c <> TColon) ->
    ~ (dotted n /\ r = []) -> wrong_body ts UnexpectedToken [mkP (t_span t) []].

(** The first line of a macro, with any operands. *)
Definition header_form : language := fun ts =>
  exists n ops args, ts = TMacroIdent "%macro" :: TName n :: ops /\ maybe operand_of ops args.

Definition end_form : language := fun ts => ts = [TMacroIdent "%end"].

(** A macro is known by its name and the number of its parameters; the token is that of the name. *)
Record definition : Type := mkDefinition { d_token : token; d_name : string; d_count : nat }.

(** What is wrong with the first line of a macro, after the definitions [defs]. *)
Inductive wrong_header (defs : list definition) (ts : list token) : error -> list pspan -> Prop :=
| wh_syntax : forall e at_, first_wrong header_form ts e at_ -> wrong_header defs ts e at_
| wh_instruction : forall m t r n, ts = m :: t :: r -> t_type t = TName n -> known n ->
    wrong_header defs ts (MacroNameConflictsWithInstruction n) [mkP (t_span t) []]
| wh_defined : forall m t ops rest args d, ts = m :: t :: ops ++ rest -> t_type t = TName (d_name d) -> maybe operand_of (types ops) args ->
    ends (types rest) [] -> In d defs -> d_count d = List.length args ->
    wrong_header defs ts (MacroAlreadyExists (d_name d) (List.length args)) [mkP (t_span t) []; mkP (t_span (d_token d)) []]
| wh_argument : forall m t before op after a at_, ts = m :: t :: before ++ op ++ after -> operand_of (types op) a ->
    (forall n, a <> AMacroArg n) -> spans op at_ -> wrong_header defs ts InvalidMacroArg at_
| wh_duplicate : forall m t before u after n, ts = m :: t :: before ++ u :: after -> t_type u = TMacroIdent n ->
    In (TMacroIdent n) (types before) -> wrong_header defs ts DuplicateMacroArg [mkP (t_span u) []].

(** * Programs *)

(** The first line of a macro, and the definition. *)
Definition good_header (defs : list definition) (ts : list token) (d : definition) : Prop :=
  (exists params, header (types ts) (d_name d) params /\ d_count d = List.length params) /\
  (forall x, In x defs -> ~ (d_name x = d_name d /\ d_count x = d_count d)) /\
  exists m r, ts = m :: d_token d :: r.

(** [wrong_macro defs ls e at_]: of the macro definitions in the lines [ls], after the definitions [defs], the first wrong line has this error. *)
Inductive wrong_macro : list definition -> list (list token) -> error -> list pspan -> Prop :=
| wm_line : forall defs ts rest e at_, ~ first_is (TMacroIdent "%macro") (types ts) -> wrong_macro defs rest e at_ ->
    wrong_macro defs (ts :: rest) e at_
| wm_header : forall defs ts rest e at_, first_is (TMacroIdent "%macro") (types ts) -> wrong_header defs ts e at_ ->
    wrong_macro defs (ts :: rest) e at_
| wm_body : forall defs ts d ls body bad rest e at_, good_header defs ts d -> body_lines (map types ls) body ->
    ~ first_is (TMacroIdent "%end") (types bad) -> wrong_body bad e at_ -> wrong_macro defs (ts :: ls ++ bad :: rest) e at_
| wm_end : forall defs ts d ls body close rest e at_, good_header defs ts d -> body_lines (map types ls) body ->
    first_is (TMacroIdent "%end") (types close) -> first_wrong end_form close e at_ -> wrong_macro defs (ts :: ls ++ close :: rest) e at_
| wm_macro : forall defs ts d ls body close rest e at_, good_header defs ts d -> body_lines (map types ls) body ->
    ends (types close) [TMacroIdent "%end"] -> wrong_macro (d :: defs) rest e at_ -> wrong_macro defs (ts :: ls ++ close :: rest) e at_.

(** The lines outside macro definitions. *)
Inductive outside : list (list token) -> list (list token) -> Prop :=
| os_nil : outside [] []
| os_line : forall ts rest kept, ~ first_is (TMacroIdent "%macro") (types ts) -> outside rest kept -> outside (ts :: rest) (ts :: kept)
| os_macro : forall ts ls close rest kept, first_is (TMacroIdent "%macro") (types ts) ->
    Forall (fun l => ~ first_is (TMacroIdent "%end") (types l)) ls -> first_is (TMacroIdent "%end") (types close) -> outside rest kept ->
    outside (ts :: ls ++ close :: rest) kept
| os_unclosed : forall ts ls, first_is (TMacroIdent "%macro") (types ts) ->
    Forall (fun l => ~ first_is (TMacroIdent "%end") (types l)) ls -> outside (ts :: ls) [].

(** What is wrong with a program: the first wrong line of the macro definitions, or else the first wrong line outside of them. *)
Inductive wrong_program (ls : list (list token)) : error -> list pspan -> Prop :=
| wp_macro : forall e at_, wrong_macro [] ls e at_ -> wrong_program ls e at_
| wp_line : forall before bad after e at_, outside ls (before ++ bad :: after) ->
    Forall (fun l => exists front ss, ends (types l) front /\ line front ss) before ->
    wrong_line bad e at_ -> wrong_program ls e at_.
