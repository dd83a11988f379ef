(** From file names to images with the spans of errors, and the source files known when an error comes up: /repo/src/asm.rs 23-237
    and 700-714. *)
From Coq Require Import ZArith List String Ascii Bool Arith.
From Verif Require Import Base Expr Instr Ast Lexer Parser Printer Files Img Include Span SpanParser SpanAsm.
Import ListNotations.
Open Scope string_scope.
Open Scope list_scope.

(** A result and the source files afterwards, which are also there after an error: [files] is [&mut] in
    /repo/src/asm.rs 23 and used by [print_error] (/repo/src/lib.rs 515-527). *)
Definition traced (A : Type) : Type := (placed A * source_files)%type.

(** [?] on such results (/repo/src/asm.rs 24-55). *)
Definition tbind {A B : Type} (x : traced A) (f : A -> source_files -> traced B) : traced B :=
  match x with
  | (POk a, s) => f a s
  | (PErr e at_, s) => (PErr e at_, s)
  | (PPanic, s) => (PPanic, s)
  | (PDiverge, s) => (PDiverge, s)
  end.

(** [SourceFiles::load], /repo/src/files.rs 157-178: the files change only if the file could be read. *)
Definition load_s (w : fs) (s : source_files) (root : option string) (filename : string) : traced source_file :=
  match load w s root filename with
  | Ok (f, s2) => (POk f, s2)
  | Err e => (PErr e [], s)
  | Panic => (PPanic, s)
  | Diverge => (PDiverge, s)
  end.

(** [Statement::path] with the default of /repo/src/asm.rs 69-72. *)
Definition original_path_s (s : sstatement) : string :=
  match s with SSDirective (SDInclude _ _ p) => p | _ => "" end.

(** [Statement::fixup_paths], /repo/src/ast.rs 301-310 and 430-437. *)
Definition fixup_paths_s (w : fs) (s : source_files) (root : option string) (stmt : sstatement) : placed sstatement :=
  match stmt with
  | SSDirective (SDInclude sp typ p) => let? q := no_place (path_of w s root p) in POk (SSDirective (SDInclude sp typ q))
  | _ => POk stmt
  end.

(** The body of the loop of [replace_includes], /repo/src/asm.rs 65-129; [rec] is the recursive call. *)
Definition include_line_s (rec : string -> source_files -> tokens -> traced tokens)
    (w : fs) (filename : string) (s : source_files) (line : tokens) : traced tokens :=
  match parse_directive_s line with
  | POk (Some stmt, r) =>
      tbind (fixup_paths_s w s (Some filename) stmt, s) (fun fixed s =>
      match fixed with
      | SSDirective (SDInclude _ typ path) =>
          match typ with
          | SIAsm =>
              tbind (load_s w s (Some filename) path) (fun file s2 =>
              tbind (lex_input_s (new_input (sf_id file) (sf_contents file)), s2) (fun toks s2 =>
              tbind (rec (sf_name file) s2 toks) (fun new s3 =>
              if negb (is_empty_s r) then (err_next UnexpectedToken r, s3) else (POk new, s3))))
          | SICHeader =>
              tbind (load_s w s (Some filename) path) (fun file s2 =>
              (header_lex_s (new_input (sf_id file) (sf_contents file)), s2))
          | SIBytes | SIIcon _ _ | SISprite _ _ => (POk (rename_strings (original_path_s stmt) path line), s)
          end
      | _ => (POk line, s)
      end)
  | POk (None, _) => (POk line, s)
  | PErr _ _ => (POk line, s)
  | PPanic => (PPanic, s)
  | PDiverge => (PDiverge, s)
  end.

(** The loop of [replace_includes], /repo/src/asm.rs 65-130. *)
Fixpoint include_lines_s (rec : string -> source_files -> tokens -> traced tokens)
    (w : fs) (filename : string) (s : source_files) (ls : list tokens) : traced tokens :=
  match ls with
  | [] => (POk [], s)
  | line :: rest =>
      tbind (include_line_s rec w filename s line) (fun a s2 =>
      tbind (include_lines_s rec w filename s2 rest) (fun b s3 => (POk (a ++ b), s3)))
  end.

(** [replace_includes], /repo/src/asm.rs 58-132; [fuel] bounds the nesting of includes. *)
Fixpoint replace_includes_s (fuel : nat) (w : fs) (filename : string) (s : source_files) (ts : tokens) : traced tokens :=
  match fuel with
  | O => (PDiverge, s)
  | S f => include_lines_s (replace_includes_s f w) w filename s (lines ts)
  end.

(** [Span::default()]: /repo/src/location.rs 22-24 and 79-81. *)
Definition default_span : pspan := alone (mkSpan (mkLoc 0 0 1 0) (mkLoc 0 0 1 0)).

(** An expression made by the assembler, with default spans (/repo/src/expression.rs 79-97). *)
Fixpoint made_expr (e : expr) : sexpr :=
  match e with
  | EName n => XName_ default_span n
  | ENumber n r => XNumber_ default_span n r
  | EMacroLabel n => XMacroLabel_ default_span n
  | EMacroArg n => XMacroArg_ default_span n
  | EUnaryMinus a => XUn UMinus default_span (made_expr a)
  | EUpperByte a => XUn UUpper default_span (made_expr a)
  | ELowerByte a => XUn ULower default_span (made_expr a)
  | EPlus a b => XBin BPlus default_span (made_expr a) (made_expr b)
  | EMinus a b => XBin BMinus default_span (made_expr a) (made_expr b)
  | ETimes a b => XBin BTimes default_span (made_expr a) (made_expr b)
  | EDivide a b => XBin BDivide default_span (made_expr a) (made_expr b)
  | EXor a b => XBin BXor default_span (made_expr a) (made_expr b)
  | EAnd a b => XBin BAnd default_span (made_expr a) (made_expr b)
  | EOr a b => XBin BOr default_span (made_expr a) (made_expr b)
  end.

(** A byte value made by the assembler (/repo/src/asm.rs 152, /repo/src/img.rs 344-437). *)
Definition made_byte (b : byte_value) : sbyte :=
  match b with BVExpr e => SBExpr (made_expr e) | BVString bs => SBString default_span bs end.

(** A kind of include; never made by the assembler, kept so that the next function is total (/repo/src/ast.rs 189-196). *)
Definition made_include (t : include_type) : sinclude :=
  match t with
  | IncAsm => SIAsm
  | IncBytes => SIBytes
  | IncCHeader => SICHeader
  | IncIcon sp eye => SIIcon (option_map made_expr sp) (option_map made_byte eye)
  | IncSprite t h => SISprite t h
  end.

(** An argument; as above (/repo/src/expression.rs 556-562). *)
Definition made_arg (a : arg) : sarg :=
  match a with
  | AEx e => SAEx (made_expr e)
  | AImm e => SAImm (made_expr e)
  | AIM m => SAIM default_span m
  | AMacroArg n => SAMacroArg default_span n
  end.

(** A statement made from an image: [Statement::word], [byte], [comment] with default spans, /repo/src/ast.rs 453-474 and
    /repo/src/img.rs 344-437, 553-635.  Simplified: given for every statement, although only words, bytes and comments are made. *)
Definition made_statement (s : statement) : sstatement :=
  match s with
  | SDirective (DByte items) => SSDirective (SDByte default_span (map made_byte items))
  | SDirective (DOrg l) => SSDirective (SDOrg default_span l)
  | SDirective (DWord words) => SSDirective (SDWord default_span (map made_expr words))
  | SDirective (DText n bs) => SSDirective (SDText default_span n bs)
  | SDirective (DString n bs) => SSDirective (SDString default_span n bs)
  | SDirective (DInclude t p) => SSDirective (SDInclude default_span (made_include t) p)
  | SDirective (DCnop a m) => SSDirective (SDCnop default_span (made_expr a) (made_expr m))
  | SLabel n => SSLabel default_span n
  | SInstr i => SSInstr default_span (map_instr made_expr i)
  | SVariable n e => SSVariable default_span n (made_expr e)
  | SAlias n e => SSAlias default_span n (made_expr e)
  | SComment t => SSComment t
  | SMacroCall n args => SSMacroCall default_span n (map made_arg args)
  end.

(** The sprite part of [replace_byte_includes], /repo/src/asm.rs 184-223: a sprite too large is reported at the directive, a file
    that cannot be read without a place. *)
Definition sprite_s (pics : pictures) (sp : pspan) (t : sprite_type) (h : include_header) (path : string) : placed (list sstatement) :=
  let? img := no_place (load_image pics path) in
  let? _ :=
    match h with
    | HeaderYes =>
        let? w := no_place (image_width img) in
        if (255 <? w)%Z then PErr (SpriteTooWide w) [sp]
        else
          let? n := no_place (image_height img) in
          if (255 <? n)%Z then PErr (SpriteTooTall n) [sp] else POk tt
    | HeaderNo => POk tt
    end in
  let hdr := match h with HeaderYes => true | HeaderNo => false end in
  let? stmts := no_place (image_1bit img (match t with Simple => false | Masked => true end) hdr) in
  POk (SSComment (String "010" "Sprite """ ++ path ++ """ (" ++ show_sprite_type t ++ ", " ++
                  (if hdr then "include" else "exclude") ++ " header)") :: map made_statement stmts).

(** One statement of [replace_byte_includes], /repo/src/asm.rs 140-228. *)
Definition byte_include_s (pr : profile) (w : fs) (pics : pictures) (filename : string) (s : source_files)
    (stmt : sstatement) : placed (list sstatement) :=
  match stmt with
  | SSDirective (SDInclude sp typ path) =>
      match typ with
      | SIAsm => PPanic
      | SICHeader => PPanic
      | SIBytes =>
          let? p := no_place (path_of w s (Some filename) path) in
          match read_bytes w p with
          | None => PErr (FileLoadFailure p) []
          | Some contents => POk [SSDirective (SDByte sp (map made_byte (byte_values contents)))]
          end
      | SIIcon speed_opt eyecatch_opt =>
          let? speed :=
            match speed_opt with
            | Some e => let? v := eval_s pr (mkEnv "HashMap" (fun _ => None)) e in POk (Some (wrap16 v))
            | None => POk None
            end in
          let? eyecatch :=
            match eyecatch_opt with
            | Some (SBString _ value) => POk (Some (text_of value))
            | None => POk None
            | Some (SBExpr e) => PErr InvalidPath [span_of e]
            end in
          let? p := no_place (path_of w s (Some filename) path) in
          let? eye :=
            match eyecatch with
            | Some e => let? q := no_place (path_of w s (Some filename) e) in POk (Some q)
            | None => POk None
            end in
          let? l := no_place (to_icon pics p speed eye) in
          POk (map made_statement l)
      | SISprite t h =>
          let? p := no_place (path_of w s (Some filename) path) in
          sprite_s pics sp t h p
      end
  | _ => POk [stmt]
  end.

(** The loop of [replace_byte_includes], /repo/src/asm.rs 139-228. *)
Fixpoint byte_includes_s (pr : profile) (w : fs) (pics : pictures) (filename : string) (s : source_files)
    (l : list sstatement) : placed (list sstatement) :=
  match l with
  | [] => POk []
  | stmt :: t =>
      let? a := byte_include_s pr w pics filename s stmt in
      let? b := byte_includes_s pr w pics filename s t in
      POk (a ++ b)
  end.

(** [read_statements], /repo/src/asm.rs 36-56, with [replace_byte_includes] (134-230). *)
Definition read_statements_s (pr : profile) (fuel : nat) (w : fs) (pics : pictures) (s : source_files) (name : string)
  : traced sstatements :=
  tbind (no_place (path_of w s None name), s) (fun filename s =>
  tbind (load_s w s None filename) (fun file s1 =>
  tbind (lex_input_s (new_input (sf_id file) (sf_contents file)), s1) (fun raw s1 =>
  tbind (replace_includes_s fuel w filename s1 raw) (fun ts s2 =>
  tbind (parse_s ts, s2) (fun stmts s2 =>
  tbind (byte_includes_s pr w pics filename s2 (ss_list stmts), s2) (fun l s2 =>
  (POk (mkSStatements (ss_macros stmts) l), s2))))))).

Section Expand.

(** [Uuid::new_v4()], as in Macro.v (/repo/src/asm.rs 761). *)
Variable uuid : nat -> string.

(** The loop of [expand_macros], /repo/src/asm.rs 701-712. *)
Fixpoint expand_list_s (fuel : nat) (ms : smacros) (n : nat) (l : list sstatement) : placed (list sstatement * nat) :=
  match l with
  | [] => POk ([], n)
  | SSMacroCall sp name args :: t =>
      let? (here, n1) := expand_s uuid fuel ms n sp name args in
      let? (rest, n2) := expand_list_s fuel ms n1 t in
      POk (here ++ rest, n2)
  | s :: t =>
      let? (rest, n2) := expand_list_s fuel ms n t in
      POk (s :: rest, n2)
  end.

(** [assemble_file], /repo/src/asm.rs 23-27, with [expand_macros] (700-714). *)
Definition assemble_file_s (pr : profile) (fuel : nat) (w : fs) (pics : pictures) (s : source_files) (name : string)
  : traced (list Z) :=
  tbind (read_statements_s pr fuel w pics s name) (fun stmts s2 =>
  tbind (expand_list_s fuel (ss_macros stmts) 0 (ss_list stmts), s2) (fun expanded s2 =>
  (assemble_s pr (fst expanded), s2))).

End Expand.
