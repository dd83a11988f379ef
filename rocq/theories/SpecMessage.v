(** What is printed under an error message. *)
From Coq Require Import ZArith List String Ascii Bool.
From Verif Require Import Base Lexer Files Report Printer.
Import ListNotations.
Open Scope string_scope.

Definition line_feed : string := String "010" "".

(** How a file is called: without the working directory if it lies in it. *)
Definition called (fs : source_files) (file : source_file) (path : string) : Prop :=
  sf_name file = working_dir fs ++ "/" ++ path \/
  ((forall p, sf_name file <> working_dir fs ++ "/" ++ p) /\ path = sf_name file).

(** The columns of a place on a line. *)
Definition columns (a b : nat) : string :=
  if Nat.eq_dec a b then show_dec (Z.of_nat a) else show_dec (Z.of_nat a) ++ "-" ++ show_dec (Z.of_nat b).

(** Three lines: file, line number and columns; the line of the source; the carets. *)
Definition three_lines (indent path : string) (s : span) (quoted marks : string) : string :=
  indent ++ path ++ ":" ++ show_dec (Z.of_nat (l_line (s_start s))) ++ ":" ++
    columns (l_col (s_start s)) (l_col (s_end s)) ++ line_feed ++
  indent ++ "  " ++ quoted ++ line_feed ++
  indent ++ "  " ++ marks ++ line_feed.

(** The lines about one place. *)
Definition about (pr : profile) (fs : source_files) (indent : string) (s : span) (msg : string) (text : string) : Prop :=
  exists file path line, for_id fs (l_file (s_start s)) = Some file /\ called fs file path /\
    line_for_pos pr (l_pos (s_start s)) (sf_contents file) = Ok line /\
    text = three_lines indent path s line (caret (l_col (s_start s)) (l_col (s_end s)) line msg).

(** Between a place and the call it was expanded from. *)
Definition expanded_from : string :=
  "  | " ++ line_feed ++ "  | ...expanded from" ++ line_feed ++ "  | " ++ line_feed.

(** The text about a place: its lines, and those of the calls it was expanded from. *)
Definition shown (pr : profile) (fs : source_files) (here : span) (calls : list span) (msg : string) (text : string) : Prop :=
  exists first blocks, about pr fs "" here msg first /\ Forall2 (fun c b => about pr fs "  | " c "" b) calls blocks /\
    text = first ++ String.concat "" (map (fun b => expanded_from ++ b) blocks).

(** What stands beside the carets at a place of an error; the first place has number 0. *)
Definition note (e : error) (n : nat) : string :=
  match e, n with
  | NameNotFound _ _, 0 => "Unknown name"
  | NameAlreadyExists _, 0 => "Duplicate"
  | NameAlreadyExists _, 1 => "Original"
  | MacroAlreadyExists _ _, 1 => "Existing definition"
  | WrongNumberOfMacroArgs _ got, 0 => "Found " ++ show_dec (Z.of_nat got) ++ " args"
  | WrongNumberOfMacroArgs expected _, 1 => "Expected " ++ show_dec (Z.of_nat expected) ++ " args"
  | SpriteTooWide w, 0 => "width " ++ show_dec w ++ " > 255 max"
  | SpriteTooTall h, 0 => "height " ++ show_dec h ++ " > 255 max"
  | InvalidSpriteHeader, 0 => "Should be ""yes"" or ""no"""
  | _, _ => ""
  end%nat.
