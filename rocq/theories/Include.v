(** From file names to images: include directives and the whole pipeline, /repo/src/asm.rs 23-237. *)
From Coq Require Import ZArith List String Ascii Bool Arith.
From Verif Require Import Base Expr Ast Macro Asm Lexer Parser Printer Files Img CHeader.
Import ListNotations.
Open Scope string_scope.
Open Scope list_scope.

(** [Statement::path] with [Directive::path], /repo/src/ast.rs 312-317 and 439-444, and the default of
    /repo/src/asm.rs 69-72; [to_string_lossy] is the path itself. *)
Definition original_path (s : statement) : string :=
  match s with SDirective (DInclude _ p) => p | _ => "" end.

(** [Statement::fixup_paths] with [Directive::fixup_paths], /repo/src/ast.rs 301-310 and 430-437. *)
Definition fixup_paths (w : fs) (s : source_files) (root : option string) (stmt : statement) : outcome statement :=
  match stmt with
  | SDirective (DInclude typ p) => let! q := path_of w s root p in Ok (SDirective (DInclude typ q))
  | _ => Ok stmt
  end.

(** The loop over the tokens of a binary include, /repo/src/asm.rs 103-115. *)
Definition rename_strings (old new : string) (line : list token) : list token :=
  map (fun t =>
         match t_type t with
         | TString s => if String.eqb s old then mkToken (TString new) (t_span t) else t
         | _ => t
         end) line.

(** The body of the loop of [replace_includes], /repo/src/asm.rs 65-129; [rec] is the recursive call.  The
    results are the tokens pushed and the source files. *)
Definition include_line (rec : string -> source_files -> list token -> outcome (list token * source_files))
    (w : fs) (filename : string) (s : source_files) (line : list token) : outcome (list token * source_files) :=
  match parse_directive (stream_of line) with
  | Ok (Some stmt, r) =>
      let! fixed := fixup_paths w s (Some filename) stmt in
      match fixed with
      | SDirective (DInclude typ path) =>
          match typ with
          | IncAsm =>
              let! (file, s2) := load w s (Some filename) path in
              let! toks := lex_input (new_input (sf_id file) (sf_contents file)) in
              let! (new, s3) := rec (sf_name file) s2 toks in
              if negb (is_empty r) then let! (_, _) := next r in Err UnexpectedToken
              else Ok (new, s3)
          | IncCHeader =>
              let! (file, s2) := load w s (Some filename) path in
              let! new := header_lex (new_input (sf_id file) (sf_contents file)) in
              Ok (new, s2)
          | IncBytes | IncIcon _ _ | IncSprite _ _ => Ok (rename_strings (original_path stmt) path line, s)
          end
      | _ => Ok (line, s)
      end
  | Ok (None, _) => Ok (line, s)
  | Err _ => Ok (line, s)
  | Panic => Panic
  | Diverge => Diverge
  end.

(** The loop of [replace_includes], /repo/src/asm.rs 65-130. *)
Fixpoint include_lines (rec : string -> source_files -> list token -> outcome (list token * source_files))
    (w : fs) (filename : string) (s : source_files) (ls : list (list token)) : outcome (list token * source_files) :=
  match ls with
  | [] => Ok ([], s)
  | line :: rest =>
      let! (a, s2) := include_line rec w filename s line in
      let! (b, s3) := include_lines rec w filename s2 rest in
      Ok (a ++ b, s3)
  end.

(** [replace_includes], /repo/src/asm.rs 58-132; [fuel] bounds the nesting of includes. *)
Fixpoint replace_includes (fuel : nat) (w : fs) (filename : string) (s : source_files) (tokens : list token)
  : outcome (list token * source_files) :=
  match fuel with
  | O => Diverge
  | S f => include_lines (replace_includes f w) w filename s (lines tokens)
  end.

(** The text of a byte string, [std::str::from_utf8] in /repo/src/asm.rs 167. *)
Definition text_of (bytes : list Z) : string :=
  string_of_list_ascii (map (fun b => ascii_of_nat (Z.to_nat b)) bytes).

(** The bytes of a file, /repo/src/asm.rs 149-153. *)
Definition byte_values (contents : string) : list byte_value :=
  map (fun c => BVExpr (num (Z.of_nat (nat_of_ascii c)))) (list_ascii_of_string contents).

(** One statement of [replace_byte_includes], /repo/src/asm.rs 140-228. *)
Definition byte_include (pr : profile) (w : fs) (pics : pictures) (filename : string) (s : source_files)
    (stmt : statement) : outcome (list statement) :=
  match stmt with
  | SDirective (DInclude typ path) =>
      match typ with
      | IncAsm => Panic
      | IncCHeader => Panic
      | IncBytes =>
          let! p := path_of w s (Some filename) path in
          match read_bytes w p with
          | None => Err (FileLoadFailure p)
          | Some contents => Ok [SDirective (DByte (byte_values contents))]
          end
      | IncIcon speed_opt eyecatch_opt =>
          let! speed :=
            match speed_opt with
            | Some e => let! v := eval pr (mkEnv "HashMap" (fun _ => None)) e in Ok (Some (wrap16 v))
            | None => Ok None
            end in
          let! eyecatch :=
            match eyecatch_opt with
            | Some (BVString value) => Ok (Some (text_of value))
            | None => Ok None
            | Some (BVExpr _) => Err InvalidPath
            end in
          let! p := path_of w s (Some filename) path in
          let! eye :=
            match eyecatch with
            | Some e => let! q := path_of w s (Some filename) e in Ok (Some q)
            | None => Ok None
            end in
          to_icon pics p speed eye
      | IncSprite t h =>
          let! p := path_of w s (Some filename) path in
          sprite_statements pics t h p
      end
  | _ => Ok [stmt]
  end.

(** The loop of [replace_byte_includes], /repo/src/asm.rs 139-228. *)
Fixpoint byte_includes (pr : profile) (w : fs) (pics : pictures) (filename : string) (s : source_files)
    (l : list statement) : outcome (list statement) :=
  match l with
  | [] => Ok []
  | stmt :: t =>
      let! a := byte_include pr w pics filename s stmt in
      let! b := byte_includes pr w pics filename s t in
      Ok (a ++ b)
  end.

(** [replace_byte_includes], /repo/src/asm.rs 134-230. *)
Definition replace_byte_includes (pr : profile) (w : fs) (pics : pictures) (filename : string) (s : source_files)
    (st : statements) : outcome statements :=
  let! l := byte_includes pr w pics filename s (st_list st) in
  Ok (mkStatements (st_macros st) l).

(** [read_statements], /repo/src/asm.rs 36-56. *)
Definition read_statements (pr : profile) (fuel : nat) (w : fs) (pics : pictures) (s : source_files) (name : string)
  : outcome statements :=
  let! filename := path_of w s None name in
  let! (file, s1) := load w s None filename in
  let! raw := lex_input (new_input (sf_id file) (sf_contents file)) in
  let! (tokens, s2) := replace_includes fuel w filename s1 raw in
  let! stmts := parse tokens in
  replace_byte_includes pr w pics filename s2 stmts.

(** [assemble_file], /repo/src/asm.rs 23-27; [uuid] stands for [Uuid::new_v4], as in Macro.v. *)
Definition assemble_file (uuid : nat -> string) (pr : profile) (fuel : nat) (w : fs) (pics : pictures)
    (s : source_files) (name : string) : outcome (list Z) :=
  let! stmts := read_statements pr fuel w pics s name in
  let! expanded := expand_macros uuid fuel stmts in
  assemble pr (st_list expanded).

(** [expand_file], /repo/src/asm.rs 29-34: the text printed. *)
Definition expand_file (uuid : nat -> string) (pr : profile) (fuel : nat) (w : fs) (pics : pictures)
    (s : source_files) (name : string) : outcome string :=
  let! stmts := read_statements pr fuel w pics s name in
  let! expanded := expand_macros uuid fuel stmts in
  Ok (expand_output (st_list expanded)).
