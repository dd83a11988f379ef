(** The lexers on text that is not ASCII: /repo/src/input.rs, /repo/src/lexer.rs and /repo/src/cheader.rs.  Text is the
    string of its UTF-8 bytes, as in [Lexer.v], but it is read in grapheme clusters and with the white space of Unicode, as in the
    code.  The regular expressions of the tokens match the same bytes as in [Lexer.v]: outside of string literals they
    match ASCII only, and inside they match up to the closing quote. *)
From Coq Require Import ZArith List String Ascii Bool Arith.
From Verif Require Import Base Expr Ast Lexer Parser CHeader.
Import ListNotations.
Open Scope string_scope.
Open Scope list_scope.
Local Open Scope nat_scope.

(** Slicing off the first bytes, [text[n..]], /repo/src/input.rs 90. *)
Fixpoint drop_bytes (n : nat) (s : string) : string :=
  match n, s with
  | S m, String _ t => drop_bytes m t
  | _, _ => s
  end.

(** Whether the byte before the position is LF, /repo/src/input.rs 29, after the bytes [p]. *)
Fixpoint after_lf (bol : bool) (p : string) : bool :=
  match p with
  | EmptyString => bol
  | String c t => after_lf (Ascii.eqb c LF) t
  end.

(** The loop of [Input::update], /repo/src/input.rs 91-106, over the clusters [ps] of the text [rest]; [n] bytes are left to advance. *)
Fixpoint take_clusters (n : nat) (ps : list string) (rest : string) (bol : bool) (pos line col : nat)
  : string * bool * (nat * nat * nat) :=
  match ps with
  | [] => (rest, bol, (pos, line, col))
  | p :: t =>
      let k := String.length p in
      if Nat.ltb n k then (rest, bol, (pos, line, col))
      else if (String.eqb p (String CR (String LF "")) || String.eqb p (String LF ""))%bool
           then take_clusters (n - k) t (drop_bytes k rest) (after_lf bol p) (pos + k) (line + 1) 0
           else take_clusters (n - k) t (drop_bytes k rest) (after_lf bol p) (pos + k) line (col + 1)
  end.

(** White space at the start of a text, in bytes, 0 if there is none: [\s] of /repo/src/input.rs 74, which is the property
    White_Space of Unicode: U+0009 to U+000D, U+0020, U+0085, U+00A0, U+1680, U+2000 to U+200A, U+2028, U+2029, U+202F, U+205F and
    U+3000. *)
Definition space_at (s : string) : nat :=
  match s with
  | EmptyString => 0
  | String a t =>
      if is_space a then 1
      else match t with
           | EmptyString => 0
           | String b t2 =>
               if (Ascii.eqb a "194" && (Ascii.eqb b "133" || Ascii.eqb b "160"))%bool then 2
               else match t2 with
                    | EmptyString => 0
                    | String c _ =>
                        if ((Ascii.eqb a "225" && Ascii.eqb b "154" && Ascii.eqb c "128")
                            || (Ascii.eqb a "226" && Ascii.eqb b "128"
                                && (between "128" "138" c || Ascii.eqb c "168" || Ascii.eqb c "169" || Ascii.eqb c "175"))
                            || (Ascii.eqb a "226" && Ascii.eqb b "129" && Ascii.eqb c "159")
                            || (Ascii.eqb a "227" && Ascii.eqb b "128" && Ascii.eqb c "128"))%bool
                        then 3 else 0
                    end
           end
  end.

(** The length of the match of [^\s+], /repo/src/input.rs 74-79; [skip] bytes of a character are left. *)
Fixpoint spaces_len (skip : nat) (s : string) : nat :=
  match s with
  | EmptyString => 0
  | String _ t =>
      match skip with
      | S k => S (spaces_len k t)
      | O => match space_at s with
             | O => 0
             | S k => S (spaces_len k t)
             end
      end
  end.

(** A byte within a character, not at its start: slicing a text there panics (/repo/src/cheader.rs 15). *)
Definition inside_char (c : ascii) : bool := between "128" "191" c.

(** The search for the end of a comment, /repo/src/cheader.rs 14-21, on the text after [/*], with the slices [text[skipped..]]. *)
Fixpoint close_bytes (s : string) : outcome nat :=
  match s with
  | EmptyString => Ok 0
  | String c t =>
      if inside_char c then Panic
      else if String.prefix "*/" s then Ok 2
      else let! n := close_bytes t in Ok (S n)
  end.

Section Clusters.

(** [UnicodeSegmentation::graphemes(text, true)], /repo/src/input.rs 90, an external function. *)
Variable seg : string -> list string.

(** [Input::update], /repo/src/input.rs 86-108. *)
Definition update_u (i : input) (n : nat) : input :=
  let '(rest, bol, (pos, line, col)) := take_clusters n (seg (i_rest i)) (i_rest i) (i_bol i) (i_pos i) (i_line i) (i_col i) in
  mkInput (i_file i) rest bol pos line col.

(** [Input::skip_whitespace], /repo/src/input.rs 72-82. *)
Definition skip_whitespace_u (i : input) : input := update_u i (spaces_len 0 (i_rest i)).

(** [skip_to_eol], /repo/src/lexer.rs 359-366. *)
Definition skip_to_eol_u (i : input) : input := update_u i (eol_len (i_rest i)).

(** [skip_star_comment], /repo/src/lexer.rs 368-374. *)
Definition skip_star_comment_u (i : input) : input :=
  match i_rest i with
  | String c _ => if (i_bol i && Ascii.eqb c "*")%bool then skip_to_eol_u i else i
  | EmptyString => i
  end.

(** [skip_comment], /repo/src/lexer.rs 376-382. *)
Definition skip_comment_u (i : input) : input :=
  match i_rest i with
  | String c _ => if Ascii.eqb c ";" then skip_to_eol_u i else i
  | EmptyString => i
  end.

(** The body of the loop of [skip_whitespace_and_comments], /repo/src/lexer.rs 393-396. *)
Definition asm_step_u (i : input) : outcome input := Ok (skip_comment_u (skip_star_comment_u (skip_whitespace_u i))).

(** [skip_line_comment], /repo/src/cheader.rs 27-33. *)
Definition skip_line_comment_u (i : input) : input :=
  if String.prefix "//" (i_rest i) then skip_to_eol_u i else i.

(** [skip_multiline_comment], /repo/src/cheader.rs 10-25. *)
Definition skip_multiline_comment_u (i : input) : outcome input :=
  if String.prefix "/*" (i_rest i)
  then let! n := close_bytes (drop_bytes 2 (i_rest i)) in Ok (update_u i (2 + n))
  else Ok i.

(** The body of the loop of [skip_whitespace_and_comments], /repo/src/cheader.rs 43-46. *)
Definition c_step_u (i : input) : outcome input := skip_multiline_comment_u (skip_line_comment_u (skip_whitespace_u i)).

(** The loop of [skip_whitespace_and_comments], /repo/src/lexer.rs 384-399 and /repo/src/cheader.rs 35-50, with fuel. *)
Fixpoint skip_loop_u (step : input -> outcome input) (fuel : nat) (i : input) : outcome input :=
  match fuel with
  | O => Diverge
  | S f =>
      let! j := step i in
      if Nat.ltb (i_pos i) (i_pos j) then skip_loop_u step f j else Ok j
  end.

(** [Matcher::do_match], /repo/src/lexer.rs 325-337. *)
Definition do_match_u (m : matcher) (i : input) : option (outcome (input * token)) :=
  match m_len m (i_rest i) with
  | Some n =>
      Some (let! ty := m_convert m (substring 0 n (i_rest i)) in
            let j := update_u i n in
            Ok (j, mkToken ty (mkSpan (loc_of i) (loc_of j))))
  | None => None
  end.

(** The loop over the matchers, /repo/src/lexer.rs 486-492. *)
Fixpoint first_match_u (ms : list matcher) (i : input) : option (outcome (input * token)) :=
  match ms with
  | [] => None
  | m :: t => match do_match_u m i with Some r => Some r | None => first_match_u t i end
  end.

(** [read_token], /repo/src/lexer.rs 421-494. *)
Definition read_token_u (step : input -> outcome input) (i : input) : outcome (option (input * token)) :=
  let! j := skip_loop_u step (S (String.length (i_rest i))) i in
  if eof j then Ok (Some (j, mkToken TEOF (mkSpan (loc_of j) (loc_of j))))
  else match first_match_u matchers j with
       | None => Ok None
       | Some r => let! x := r in Ok (Some x)
       end.

(** The loop of [lex_for_ws], /repo/src/lexer.rs 496-518, with fuel for its rounds. *)
Fixpoint lex_loop_u (step : input -> outcome input) (fuel : nat) (i : input) : outcome (list token) :=
  match fuel with
  | O => Diverge
  | S f =>
      let! r := read_token_u step i in
      match r with
      | None => Err (UnexpectedChar (Z.of_nat (i_pos i)))
      | Some (j, tok) =>
          match t_type tok with
          | TEOF => Ok [mkToken TEOF (mkSpan (loc_of i) (loc_of i))]
          | _ => let! rest := lex_loop_u step f j in Ok (tok :: rest)
          end
      end
  end.

(** [lex_input], /repo/src/lexer.rs 520-522. *)
Definition lex_input_u (fuel : nat) (i : input) : outcome (list token) := lex_loop_u asm_step_u fuel i.

(** [lex_input] of C headers up to the loop over the lines, /repo/src/cheader.rs 53. *)
Definition header_tokens_u (fuel : nat) (i : input) : outcome (list token) := lex_loop_u c_step_u fuel i.

End Clusters.
