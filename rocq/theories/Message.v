(** The text under an error message: the place, the quoted line, and the macro calls it was expanded from:
    /repo/src/lib.rs 1045-1122. *)
From Coq Require Import ZArith List String Ascii Bool.
From Verif Require Import Base Expr Lexer Files Printer Report Span.
Import ListNotations.
Open Scope string_scope.

(** A line break, as written by [newline] and [writeln] of [ColorWriter] (/repo/src/lib.rs 1080). *)
Definition nl : string := String LF EmptyString.

(** The [path] of /repo/src/lib.rs 1057-1065. *)
Definition shown_path (fs : source_files) (f : source_file) : string :=
  let dir := working_dir fs ++ "/" in
  if prefix dir (sf_name f)
  then substring (String.length dir) (String.length (sf_name f) - String.length dir) (sf_name f)
  else sf_name f.

(** [new_indent], /repo/src/lib.rs 1090-1099. *)
Definition new_indent (indent : string) : string :=
  if (4 <=? String.length indent)%nat then indent else times (String.length indent) " " ++ "  | ".

(** [highlight_line_indented], /repo/src/lib.rs 1049-1122: the text written; colours are left out, and so is what
    was written before a panic. *)
Fixpoint highlight (pr : profile) (fs : source_files) (indent : string) (s : span) (ps : list span) (msg : string)
  : outcome string :=
  match for_id fs (l_file (s_start s)) with
  | None => Panic
  | Some file =>
      let! line := line_for_pos pr (l_pos (s_start s)) (sf_contents file) in
      let column := l_col (s_start s) in
      let end_column := l_col (s_end s) in
      let text :=
        indent ++ shown_path fs file ++ ":" ++ show_dec (Z.of_nat (l_line (s_start s))) ++ ":" ++
        show_dec (Z.of_nat column) ++
        (if (column =? end_column)%nat then "" else "-" ++ show_dec (Z.of_nat end_column)) ++ nl ++
        indent ++ "  " ++ line ++ nl ++
        indent ++ "  " ++ caret column end_column line msg ++ nl in
      match ps with
      | [] => Ok text
      | p :: rest =>
          let ni := new_indent indent in
          let! more := highlight pr fs ni p rest "" in
          Ok (text ++ ni ++ nl ++ ni ++ "...expanded from" ++ nl ++ ni ++ nl ++ more)
      end
  end.

(** [highlight_line], /repo/src/lib.rs 1045-1047. *)
Definition highlight_line (pr : profile) (fs : source_files) (s : pspan) (msg : string) : outcome string :=
  highlight pr fs "" (here s) (parents s) msg.

(** What [print_error] writes beside the carets at each place it shows, /repo/src/lib.rs 562-1043.  The headings above
    the places are left out: they name the kind of the error and repeat the values it carries. *)
Definition remarks (e : error) : list string :=
  match e with
  | NameNotFound _ _ => ["Unknown name"]
  | NameAlreadyExists _ => ["Duplicate"; "Original"]
  | MacroAlreadyExists _ _ => [""; "Existing definition"]
  | WrongNumberOfMacroArgs expected got =>
      ["Found " ++ show_dec (Z.of_nat got) ++ " args"; "Expected " ++ show_dec (Z.of_nat expected) ++ " args"]
  | SpriteTooWide w => ["width " ++ show_dec w ++ " > 255 max"]
  | SpriteTooTall h => ["height " ++ show_dec h ++ " > 255 max"]
  | InvalidSpriteHeader => ["Should be ""yes"" or ""no"""]
  | UnexpectedEof | FileLoadFailure _ | FileUtf8Error _ | InvalidIconSize _ _ | InvalidPaletteSize _ _ | ImageParseError => []
  | _ => [""]
  end.

(** The calls of [highlight_line] in [print_error], /repo/src/lib.rs 562-1043: one text for each place, in this order. *)
Fixpoint print_places (pr : profile) (fs : source_files) (at_ : list pspan) (msgs : list string) : outcome (list string) :=
  match at_, msgs with
  | p :: at_, m :: msgs =>
      let! b := highlight_line pr fs p m in
      let! l := print_places pr fs at_ msgs in
      Ok (b :: l)
  | _, _ => Ok []
  end.

(** [print_error], /repo/src/lib.rs 562-1043, without the headings. *)
Definition print_error (pr : profile) (fs : source_files) (e : error) (at_ : list pspan) : outcome (list string) :=
  print_places pr fs at_ (remarks e).
