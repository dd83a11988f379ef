(** What an error message should quote, stated on pieces of the text. *)
From Coq Require Import ZArith List String Ascii Bool Arith.
From Verif Require Import Base Lexer SpecLex.
Import ListNotations.
Open Scope string_scope.
Local Open Scope nat_scope.

(** The line [line] stands between [pre] and [post]: [pre] ends with a line feed or is empty, and [post]
    begins with the next line break or is empty. *)
Definition one_line (pre line post : string) : Prop := line_start pre /\ rest_of_line line post.

(** The offset lies on the line (or at its end). *)
Definition on_line (pos : nat) (pre line : string) : Prop :=
  String.length pre <= pos <= String.length pre + String.length line.

(** Nothing but a line break. *)
Definition only_break (s : string) : Prop := s = String "010" "" \/ s = String "013" (String "010" "").

(** The columns of [left] left free: blanks stay as they are, so that tabs keep their width. *)
Fixpoint margin (left : string) : string :=
  match left with
  | EmptyString => EmptyString
  | String c t => String (if in_dec ascii_dec c ["009"; "010"; "011"; "012"; "013"; " "]%char then c else " ") (margin t)
  end.

Fixpoint carets (n : nat) : string := match n with O => EmptyString | S m => String "^" (carets m) end.

(** The message behind the carets. *)
Definition remark (msg : string) : string := match msg with EmptyString => EmptyString | _ => " " ++ msg end.
