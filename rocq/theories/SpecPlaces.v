(** What the places of the errors of a whole run should be. *)
From Coq Require Import ZArith List String Ascii Bool.
From Verif Require Import Base Lexer Files SpecLex Span.
Import ListNotations.
Open Scope string_scope.
Open Scope list_scope.

(** How many places an error message shows. *)
Definition place_count (e : error) : nat :=
  match e with
  | UnexpectedEof | FileLoadFailure _ | FileUtf8Error _ | InvalidIconSize _ _ | InvalidPaletteSize _ _ | ImageParseError => 0
  | NameAlreadyExists _ | MacroAlreadyExists _ _ | WrongNumberOfMacroArgs _ _ => 2
  | _ => 1
  end.

(** A location in a file that was read: after some part of its text, with the line and the column counted in that part. *)
Definition true_location (fs : source_files) (l : location) : Prop :=
  exists file before after, nth_error (sf_list fs) (l_file l) = Some file /\
    sf_contents file = (before ++ after)%string /\ l = place (l_file l) before.

(** A place whose two ends are such locations. *)
Definition true_span (fs : source_files) (s : span) : Prop := true_location fs (s_start s) /\ true_location fs (s_end s).

(** A place and the macro calls it comes from. *)
Definition true_place (fs : source_files) (p : pspan) : Prop :=
  true_span fs (here p) /\ Forall (true_span fs) (parents p).
