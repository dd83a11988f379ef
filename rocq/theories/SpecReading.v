(** Why a program cannot be read: what is wrong with a text, with an included file, with included data. *)
From Coq Require Import ZArith List String Ascii Bool.
From Verif Require Import Base Expr Instr Ast Lexer Files Img Span SpecLex SpecParse SpecSpan SpecIsa SpecMacro SpecLine SpecSyntax.
From Verif Require Import SpecHeader SpecFiles SpecInclude SpecImg SpecCmd SpecData.
From Verif Require SpecWritten SpecUtf8.
Import ListNotations.
Open Scope string_scope.
Open Scope list_scope.
Open Scope Z_scope.

(** * Texts *)

(** An error behind the tokens [ps] of the file number [f]. *)
Inductive after_tokens (f : nat) (ps : list piece) : error -> list pspan -> Prop :=
| at_char : after_tokens f ps (UnexpectedChar (Z.of_nat (String.length (behind "" ps))))
    [mkP (mkSpan (place f (behind "" ps)) (place f (behind "" ps))) []].

(** After the tokens [ps] there is something in the text that is no token, no blank and no comment; the error is where the
    last of the tokens ends. *)
Definition wrong_text (f : nat) (text : string) (e : error) (at_ : list pspan) : Prop :=
  exists ps g rest, text = source ps (g ++ rest) /\ pieces_ok "" ps (g ++ rest) /\ gap_after (behind "" ps) g rest /\
    unreadable (behind "" ps ++ g) rest /\ after_tokens f ps e at_.

(** The same in a C header, with its own comments. *)
Definition c_unreadable (rest : string) : Prop :=
  rest <> "" /\ (forall g r, rest = (g ++ r)%string -> c_gap g r -> g = "") /\
  (forall text ty r, rest = (text ++ r)%string -> writes text ty -> ~ complete text ty r).

Definition wrong_c_text (f : nat) (text : string) (e : error) (at_ : list pspan) : Prop :=
  exists ps g rest, text = source ps (g ++ rest) /\ c_pieces_ok ps (g ++ rest) /\ c_gap g rest /\ c_unreadable rest /\
    after_tokens f ps e at_.

(** A definition in a C header. *)
Definition define_form : language := fun ts =>
  exists n front e, ts = THash :: TName "define" :: TName n :: front /\ expression_of front e.

(** What is wrong with a C header: its text, or the first of its definitions that is wrong. *)
Inductive wrong_c_header (f : nat) (text : string) : error -> list pspan -> Prop :=
| wch_text : forall e at_, wrong_c_text f text e at_ -> wrong_c_header f text e at_
| wch_define : forall ps before bad after e at_, header_text text ps -> grouped (tokens_of f "" ps) (before ++ bad :: after) ->
    Forall (fun l => define_line (types l) -> good_define (types l)) before ->
    define_line (types bad) -> ~ good_define (types bad) -> first_wrong define_form bad e at_ -> wrong_c_header f text e at_.

(** * Included files *)

(** The file [q] is not in the table and cannot be read, or is not UTF-8. *)
Inductive cannot_load (w : fs) (T : source_files) (q : string) : error -> Prop :=
| cl_read : (forall f, In f (sf_list T) -> ~ same_path (sf_name f) q) -> read_bytes w q = None -> cannot_load w T q (FileLoadFailure q)
| cl_encoding : forall bytes, (forall f, In f (sf_list T) -> ~ same_path (sf_name f) q) -> read_bytes w q = Some bytes ->
    ~ SpecUtf8.utf8 bytes -> cannot_load w T q (FileUtf8Error q).

(** The tokens that include a file of assembly. *)
Inductive including : list token_type -> string -> Prop :=
| in_plain : forall p, including [TName ".include"; TString p] p
| in_typed : forall p, including [TName ".include"; TName "asm"; TString p] p.

(** [wrong_lines w T name ls e at_]: of the lines [ls] of the file [name], the first include that fails has this error; [T] is the
    table of the files read by then.  Something may be wrong behind an include whose file is right. *)
Inductive wrong_lines (w : fs) (T : source_files) : string -> list (list token) -> error -> list pspan -> Prop :=
| wi_lines : forall name before out bad after e at_, expands w T name before out -> wrong_include w T name bad e at_ ->
    wrong_lines w T name (before ++ bad :: after) e at_
with wrong_include (w : fs) (T : source_files) : string -> list token -> error -> list pspan -> Prop :=
| wi_file : forall name front rest p q e, including (types front) p -> meant w name p q -> cannot_load w T q e ->
    wrong_include w T name (front ++ rest) e []
| wi_text : forall name front rest p f e at_, including (types front) p -> refers w T name p f ->
    wrong_text (sf_id f) (sf_contents f) e at_ -> wrong_include w T name (front ++ rest) e at_
| wi_nested : forall name front rest p f toks ls e at_, including (types front) p -> refers w T name p f ->
    lex_input (new_input (sf_id f) (sf_contents f)) = Ok toks -> grouped toks ls -> wrong_lines w T (sf_name f) ls e at_ ->
    wrong_include w T name (front ++ rest) e at_
| wi_behind : forall name front t rest p f toks ls out, including (types front) p -> refers w T name p f ->
    lex_input (new_input (sf_id f) (sf_contents f)) = Ok toks -> grouped toks ls -> expands w T (sf_name f) ls out ->
    t_type t <> TEOF -> wrong_include w T name (front ++ t :: rest) UnexpectedToken [mkP (t_span t) []]
| wi_header_file : forall name line p q e, header_include (types line) p -> meant w name p q -> cannot_load w T q e ->
    wrong_include w T name line e []
| wi_header : forall name line p f e at_, header_include (types line) p -> refers w T name p f ->
    wrong_c_header (sf_id f) (sf_contents f) e at_ -> wrong_include w T name line e at_.

(** * Included data *)

(** What is wrong with an icon. *)
Inductive wrong_icon (pics : pictures) (q : string) : option string -> error -> Prop :=
| wn_file : forall eye e, pics q = Err e -> wrong_icon pics q eye e
| wn_colors : forall eye ds n, pics q = Ok ds -> colors ds n -> 16 < n -> wrong_icon pics q eye (InvalidPaletteSize n 16)
| wn_size : forall eye ds n d, pics q = Ok ds -> colors ds n -> n <= 16 -> In d ds -> ~ dims 32 32 d ->
    wrong_icon pics q eye (InvalidIconSize 32 32)
| wn_eyecatch_file : forall ds eye e, icon_input pics q ds -> pics eye = Err e -> wrong_icon pics q (Some eye) e
| wn_eyecatch_size : forall ds eye d more, icon_input pics q ds -> pics eye = Ok (d :: more) -> ~ dims 72 56 d ->
    wrong_icon pics q (Some eye) (InvalidIconSize 72 56).

(** Icons have no names, so that a speed is made of numbers. *)
Definition nameless : env := mkEnv "HashMap" (fun _ => None).

(** [wrong_data pr w pics root sp t p e at_]: an include of data of the kind [t] with the path [p], at the place [sp] of a program
    whose main file is [root], has this error.  Only what is in the directive itself has a place. *)
Inductive wrong_data (pr : profile) (w : fs) (pics : pictures) (root : string) (sp : pspan) :
  sinclude -> string -> error -> list pspan -> Prop :=
| wd_bytes : forall p q, found w root p q -> read_bytes w q = None -> wrong_data pr w pics root sp SIBytes p (FileLoadFailure q) []
| wd_speed : forall x eye p e at_, eval_s pr nameless x = PErr e at_ -> wrong_data pr w pics root sp (SIIcon (Some x) eye) p e at_
| wd_eyecatch : forall speed v x p, icon_speed pr (option_map erase speed) v ->
    wrong_data pr w pics root sp (SIIcon speed (Some (SBExpr x))) p InvalidPath [span_of x]
| wd_icon : forall speed v eye eq p q e, icon_speed pr (option_map erase speed) v ->
    eyecatch_path w root (option_map erase_byte eye) eq -> found w root p q -> wrong_icon pics q eq e ->
    wrong_data pr w pics root sp (SIIcon speed eye) p e []
| wd_sprite : forall t h p q e, found w root p q -> pics q = Err e -> wrong_data pr w pics root sp (SISprite t h) p e []
| wd_wide : forall t p q d more, found w root p q -> pics q = Ok (d :: more) -> 255 < Z.of_nat (d_width d) ->
    wrong_data pr w pics root sp (SISprite t HeaderYes) p (SpriteTooWide (Z.of_nat (d_width d))) [sp]
| wd_tall : forall t p q d more, found w root p q -> pics q = Ok (d :: more) -> Z.of_nat (d_width d) <= 255 -> 255 < Z.of_nat (d_height d) ->
    wrong_data pr w pics root sp (SISprite t HeaderYes) p (SpriteTooTall (Z.of_nat (d_height d))) [sp].

(** Every include of data has contents. *)
Definition has_contents (black : color -> bool) (pr : profile) (w : fs) (pics : pictures) (root : string) (s : sstatement) : Prop :=
  forall sp t p, s = SSDirective (SDInclude sp t p) -> exists bs, contents black pr w pics root (erase_include t) p bs.

(** The first include of data that fails. *)
Inductive wrong_statements (black : color -> bool) (pr : profile) (w : fs) (pics : pictures) (root : string) :
  list sstatement -> error -> list pspan -> Prop :=
| ws_data : forall before sp t p after e at_, Forall (has_contents black pr w pics root) before ->
    wrong_data pr w pics root sp t p e at_ ->
    wrong_statements black pr w pics root (before ++ SSDirective (SDInclude sp t p) :: after) e at_.

(** * Programs *)

(** The main file [root], the first one in the table. *)
Definition main_file (w : fs) (T : source_files) (root : string) (f : source_file) : Prop :=
  nth_error (sf_list T) 0 = Some f /\ sf_id f = 0%nat /\ sf_name f = root /\ read_bytes w root = Some (sf_contents f).

(** Why the program in the file [root] cannot be read: the file, its text, an include, the syntax, or included data, in this
    order; [T] is the table of the files read by then. *)
Inductive unreadable (black : color -> bool) (pr : profile) (w : fs) (pics : pictures) (root : string) (T : source_files)
  : error -> list pspan -> Prop :=
| ur_file : forall e, cannot_load w T root e -> unreadable black pr w pics root T e []
| ur_text : forall f e at_, main_file w T root f -> wrong_text (sf_id f) (sf_contents f) e at_ -> unreadable black pr w pics root T e at_
| ur_include : forall f toks ls e at_, main_file w T root f -> lex_input (new_input (sf_id f) (sf_contents f)) = Ok toks -> grouped toks ls ->
    wrong_lines w T root ls e at_ -> unreadable black pr w pics root T e at_
| ur_syntax : forall f toks ls out ls2 e at_, main_file w T root f -> lex_input (new_input (sf_id f) (sf_contents f)) = Ok toks ->
    grouped toks ls -> expands w T root ls out -> grouped (List.concat out) ls2 -> wrong_program ls2 e at_ ->
    unreadable black pr w pics root T e at_
| ur_data : forall f toks ls out ls2 kept defs l e at_, main_file w T root f -> lex_input (new_input (sf_id f) (sf_contents f)) = Ok toks ->
    grouped toks ls -> expands w T root ls out -> grouped (List.concat out) ls2 ->
    SpecWritten.program_written ls2 kept defs -> SpecWritten.lines_written SpecWritten.line_written kept l ->
    wrong_statements black pr w pics root l e at_ -> unreadable black pr w pics root T e at_.
