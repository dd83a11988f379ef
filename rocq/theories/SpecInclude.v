(** What include directives should mean: lines of one file standing in place of a line of another. *)
From Coq Require Import List String Ascii Bool.
From Verif Require Import Base Expr Ast Lexer CHeader Files SpecParse SpecLine SpecFiles.
Import ListNotations.
Open Scope string_scope.
Open Scope list_scope.

(** * Directives *)

(** A line that includes assembly; only the end-of-file token may follow. *)
Inductive asm_include : list token_type -> string -> Prop :=
| ai_plain : forall ts p, ends ts [TName ".include"; TString p] -> asm_include ts p
| ai_typed : forall ts p, ends ts [TName ".include"; TName "asm"; TString p] -> asm_include ts p.

(** A line that includes a C header; what follows the path is ignored. *)
Inductive header_include : list token_type -> string -> Prop :=
| hi_intro : forall p rest, header_include (TName ".include" :: TName "cpp" :: TString p :: rest) p.

(** Bytes, icons and sprites. *)
Definition data_kind (t : include_type) : Prop := t <> IncAsm /\ t <> IncCHeader.

Inductive data_include : list token_type -> string -> Prop :=
| di_intro : forall front rest t p, directive_of front (DInclude t p) -> data_kind t -> data_include (front ++ rest) p.

(** * Paths *)

(** The place of the relative path [p] beside the file [root], or below it when it is a directory. *)
Definition beside (w : fs) (root p c : string) : Prop :=
  (is_dir w root = true /\ c = join root p) \/
  (is_dir w root = false /\ exists d, parent root = Some d /\ c = join d p).

(** The file that [p] means in [root]: absolute paths mean themselves; a relative one is looked for beside
    [root], and if there is no such file, then in the working directory of the process. *)
Inductive found (w : fs) (root p : string) : string -> Prop :=
| fd_absolute : is_absolute p = true -> found w root p p
| fd_beside : forall c, is_absolute p = false -> beside w root p c -> is_file w c = true \/ is_file w p = false ->
    found w root p c
| fd_elsewhere : forall c, is_absolute p = false -> beside w root p c -> is_file w c = false -> is_file w p = true ->
    found w root p p.

(** The path is resolved twice: once for the directive and once again for loading. *)
Definition meant (w : fs) (root p q : string) : Prop := exists m, found w root p m /\ found w root m q.

(** * Expansion *)

(** The file of the table [T] that [p] means in the file [root]. *)
Definition refers (w : fs) (T : source_files) (root p : string) (f : source_file) : Prop :=
  exists q, meant w root p q /\ In f (sf_list T) /\ same_path (sf_name f) q.

(** One path instead of another. *)
Inductive renamed (p q : string) : token -> token -> Prop :=
| rn_path : forall sp, renamed p q (mkToken (TString p) sp) (mkToken (TString q) sp)
| rn_other : forall t, t_type t <> TString p -> renamed p q t t.

(** [expands w T name ls out]: with includes replaced, the lines [ls] of the file [name] are the lines
    [out]; [T] is the table of the files read. *)
Inductive expands (w : fs) (T : source_files) : string -> list (list token) -> list (list token) -> Prop :=
| ex_nil : forall name, expands w T name [] []
| ex_asm : forall name line p f toks ls inner rest more,
    asm_include (map t_type line) p -> refers w T name p f ->
    lex_input (new_input (sf_id f) (sf_contents f)) = Ok toks -> grouped toks ls ->
    expands w T (sf_name f) ls inner -> expands w T name rest more ->
    expands w T name (line :: rest) (inner ++ more)
| ex_header : forall name line p f toks ls rest more,
    header_include (map t_type line) p -> refers w T name p f ->
    header_lex (new_input (sf_id f) (sf_contents f)) = Ok toks -> grouped toks ls ->
    expands w T name rest more ->
    expands w T name (line :: rest) (ls ++ more)
| ex_data : forall name line p q line2 rest more,
    data_include (map t_type line) p -> found w name p q -> Forall2 (renamed p q) line line2 ->
    expands w T name rest more ->
    expands w T name (line :: rest) (line2 :: more)
| ex_line : forall name line rest more,
    (forall p, ~ asm_include (map t_type line) p) -> (forall p, ~ header_include (map t_type line) p) ->
    (forall front t p, ends (map t_type line) front -> ~ directive_of front (DInclude t p)) ->
    expands w T name rest more ->
    expands w T name (line :: rest) (line :: more).

(** * Statements *)

(** Consecutive lines that cannot be taken for one line: the tokens of a line are on the line where its
    first token ends, and the next line starts elsewhere. *)
Inductive separate : list (list token) -> Prop :=
| se_nil : separate []
| se_one : forall t same, Forall (same_line t) same -> separate [t :: same]
| se_more : forall t same u r ls, Forall (same_line t) same -> ~ same_line t u -> separate ((u :: r) :: ls) ->
    separate ((t :: same) :: (u :: r) :: ls).

(** A part of a program in which every macro has an end. *)
Inductive part : list macro_def -> list (list token_type) -> list statement -> list macro_def -> Prop :=
| pt_nil : forall defs, part defs [] [] defs
| pt_line : forall defs ts front ss rest stmts all,
    ~ first_is (TMacroIdent "%macro") ts -> ends ts front -> line front ss -> part defs rest stmts all ->
    part defs (ts :: rest) (ss ++ stmts) all
| pt_macro : forall defs ts n params ls body close rest stmts all,
    header ts n params ->
    (forall d, In d defs -> ~ (m_name d = n /\ List.length (m_args d) = List.length params)) ->
    body_lines ls body -> ends close [TMacroIdent "%end"] ->
    part (mkMacro n params body :: defs) rest stmts all ->
    part defs (ts :: ls ++ close :: rest) stmts all.

(** The table holds what is on disk. *)
Definition as_on_disk (w : fs) (T : source_files) : Prop :=
  forall f, In f (sf_list T) -> read_bytes w (sf_name f) = Some (sf_contents f).
