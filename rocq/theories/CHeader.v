(** Reading C headers: /repo/src/cheader.rs.  Simplified as everywhere: text is ASCII (the byte-wise search
    of [skip_multiline_comment] would panic within a longer character). *)
From Coq Require Import ZArith List String Ascii Bool Arith.
From Verif Require Import Base Expr Ast Lexer Parser.
Import ListNotations.
Open Scope string_scope.
Open Scope list_scope.
Local Open Scope nat_scope.

(** The search for the end of a comment, /repo/src/cheader.rs 14-21, on the text after [/*]: the number of
    characters up to and including [*/], or all of them. *)
Fixpoint close_len (s : string) : nat :=
  match s with
  | EmptyString => 0
  | String _ t => if String.prefix "*/" s then 2 else S (close_len t)
  end.

(** [skip_multiline_comment], /repo/src/cheader.rs 10-25. *)
Definition skip_multiline_comment (i : input) : input :=
  if String.prefix "/*" (i_rest i)
  then update i (2 + close_len (substring 2 (String.length (i_rest i) - 2) (i_rest i)))
  else i.

(** [skip_line_comment], /repo/src/cheader.rs 27-33. *)
Definition skip_line_comment (i : input) : input :=
  if String.prefix "//" (i_rest i) then skip_to_eol i else i.

(** The body of the loop of [skip_whitespace_and_comments], /repo/src/cheader.rs 43-46. *)
Definition c_step (j : input) : input := skip_multiline_comment (skip_line_comment (skip_whitespace j)).

(** [skip_whitespace_and_comments], /repo/src/cheader.rs 35-50. *)
Definition skip_c (i : input) : option input := skip_by c_step i.

(** The body of the loop over the lines, /repo/src/cheader.rs 56-75. *)
Definition header_line (line : list token) : outcome (list token) :=
  let ts := stream_of line in
  if (check is_hash ts && check_at 1 (has_name "define") ts)%bool then
    let! (_, r1) := next ts in
    let! (_, r2) := next r1 in
    let! (_, r3) := read_name r2 in
    let! _ := parse_expr r3 in
    match line with
    | hash :: define :: name :: rest =>
        Ok (name :: mkToken (TName "equ") (mkSpan (s_start (t_span hash)) (s_end (t_span define))) :: rest)
    | _ => Panic
    end
  else Ok line.

(** The loop over the lines, /repo/src/cheader.rs 56-76. *)
Fixpoint header_lines (ls : list (list token)) : outcome (list token) :=
  match ls with
  | [] => Ok []
  | l :: t =>
      let! a := header_line l in
      let! b := header_lines t in
      Ok (a ++ b)
  end.

(** [lex_input], /repo/src/cheader.rs 52-78. *)
Definition header_lex (i : input) : outcome (list token) :=
  let! raw := lex_for_ws skip_c i in
  header_lines (lines raw).
