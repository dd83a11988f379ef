(** Source text positions and the lexer: /repo/src/location.rs, /repo/src/input.rs and
    /repo/src/lexer.rs.  Text is a string of one-byte characters; the model is meant for ASCII text,
    in which every character is a grapheme cluster except the pair CR LF. *)
From Coq Require Import ZArith List String Ascii Bool Arith.
From Verif Require Import Base Expr.
Import ListNotations.
Open Scope string_scope.
Open Scope list_scope.
Local Open Scope nat_scope.

(** [Location], /repo/src/location.rs 4-10. *)
Record location : Type := mkLoc { l_file : nat; l_pos : nat; l_line : nat; l_col : nat }.

(** [Span] without its [parent], /repo/src/location.rs 50-55; tokens never have a parent. *)
Record span : Type := mkSpan { s_start : location; s_end : location }.

(** [TokenType], /repo/src/lexer.rs 15-43.  [Radix] (7-13) is shared with the expressions. *)
Inductive token_type : Type :=
| TAmpersand | TCaret | TPipe | TLeftParen | TRightParen | THash | TComma | TColon | TDoubleColon
| TName (name : string)
| TNumber (num : Z) (r : radix)
| TEquals | TPlus | TTimes | TMinus | TDivide | TUpperByte | TLowerByte
| TString (text : string)
| TMacroIdent (name : string)
| TMacroLabel (name : string)
| TR0 | TR1 | TR2 | TR3
| TEOF.

(** [Token], /repo/src/lexer.rs 78-82. *)
Record token : Type := mkToken { t_type : token_type; t_span : span }.

(** Carriage return, /repo/src/input.rs 97. *)
Definition CR : ascii := "013".
(** Line feed, /repo/src/input.rs 97. *)
Definition LF : ascii := "010".

(** [Input], /repo/src/input.rs 8-15.  [i_rest] is [text[pos..]]; of the text before [pos] only the last
    byte is ever consulted (line 29), and [i_bol] says whether [start_of_line] (28-30) holds. *)
Record input : Type := mkInput {
  i_file : nat; i_rest : string; i_bol : bool; i_pos : nat; i_line : nat; i_col : nat }.

(** [Input::new], /repo/src/input.rs 18-26. *)
Definition new_input (file : nat) (text : string) : input := mkInput file text true 0 1 0.

(** [Input::location], /repo/src/input.rs 44-46. *)
Definition loc_of (i : input) : location := mkLoc (i_file i) (i_pos i) (i_line i) (i_col i).

(** [Input::eof], /repo/src/input.rs 40-42. *)
Definition eof (i : input) : bool := match i_rest i with EmptyString => true | _ => false end.

(** [Input::update], /repo/src/input.rs 86-108: advance by at most [n] bytes, grapheme by grapheme; the
    pair CR LF is one grapheme and is not split. *)
Fixpoint advance (n : nat) (rest : string) (bol : bool) (pos line col : nat) : string * bool * (nat * nat * nat) :=
  match rest with
  | EmptyString => (rest, bol, (pos, line, col))
  | String c t =>
      match n with
      | O => (rest, bol, (pos, line, col))
      | S n1 =>
          if Ascii.eqb c LF then advance n1 t true (pos + 1) (line + 1) 0
          else
            match t with
            | String d t2 =>
                if (Ascii.eqb c CR && Ascii.eqb d LF)%bool then
                  match n1 with
                  | O => (rest, bol, (pos, line, col))
                  | S n2 => advance n2 t2 true (pos + 2) (line + 1) 0
                  end
                else advance n1 t false (pos + 1) line (col + 1)
            | EmptyString => advance n1 t false (pos + 1) line (col + 1)
            end
      end
  end.

(** [Input::update], /repo/src/input.rs 86-108. *)
Definition update (i : input) (n : nat) : input :=
  let '(rest, bol, (pos, line, col)) := advance n (i_rest i) (i_bol i) (i_pos i) (i_line i) (i_col i) in
  mkInput (i_file i) rest bol pos line col.

(** Length of the longest prefix of characters satisfying [p]: the greedy [*] of the character classes
    in /repo/src/lexer.rs 434 and /repo/src/input.rs 74. *)
Fixpoint span_len (p : ascii -> bool) (s : string) : nat :=
  match s with
  | EmptyString => 0
  | String c t => if p c then S (span_len p t) else 0
  end.

(** A range of a character class, as in /repo/src/lexer.rs 434. *)
Definition between (lo hi c : ascii) : bool :=
  (Nat.leb (nat_of_ascii lo) (nat_of_ascii c) && Nat.leb (nat_of_ascii c) (nat_of_ascii hi))%bool.

(** [\s] of /repo/src/input.rs 74 on ASCII: tab, LF, vertical tab, form feed, CR, space. *)
Definition is_space (c : ascii) : bool := (between "009" "013" c || Ascii.eqb c " ")%bool.

(** [Input::skip_whitespace], /repo/src/input.rs 72-82. *)
Definition skip_whitespace (i : input) : input := update i (span_len is_space (i_rest i)).

(** [skip_to_eol] and [end_of_line], /repo/src/lexer.rs 351-366: the number of bytes before the first
    LF or CR LF.  (The subtraction [text.len() - 1] in line 353 is not reached with an empty text.) *)
Fixpoint eol_len (s : string) : nat :=
  match s with
  | EmptyString => 0
  | String c t =>
      if Ascii.eqb c LF then 0
      else match t with
           | String d _ => if (Ascii.eqb c CR && Ascii.eqb d LF)%bool then 0 else S (eol_len t)
           | EmptyString => S (eol_len t)
           end
  end.

(** [skip_to_eol], /repo/src/lexer.rs 359-366. *)
Definition skip_to_eol (i : input) : input := update i (eol_len (i_rest i)).

(** [skip_star_comment], /repo/src/lexer.rs 368-374. *)
Definition skip_star_comment (i : input) : input :=
  match i_rest i with
  | String c _ => if (i_bol i && Ascii.eqb c "*")%bool then skip_to_eol i else i
  | EmptyString => i
  end.

(** [skip_comment], /repo/src/lexer.rs 376-382. *)
Definition skip_comment (i : input) : input :=
  match i_rest i with
  | String c _ => if Ascii.eqb c ";" then skip_to_eol i else i
  | EmptyString => i
  end.

(** The loop of [skip_whitespace_and_comments], /repo/src/lexer.rs 384-399 (and of its namesake in
    /repo/src/cheader.rs 36-51): [step] is repeated until the position no longer grows.  Each round
    but the last advances, so the number of characters left plus one bounds the rounds; running
    out of them is [None]. *)
Fixpoint skip_loop (step : input -> input) (fuel : nat) (i : input) : option input :=
  match fuel with
  | O => None
  | S f =>
      let j := step i in
      if Nat.ltb (i_pos i) (i_pos j) then skip_loop step f j else Some j
  end.

(** The loop with its bound, /repo/src/lexer.rs 384-399. *)
Definition skip_by (step : input -> input) (i : input) : option input :=
  skip_loop step (S (String.length (i_rest i))) i.

(** [skip_whitespace_and_comments], /repo/src/lexer.rs 384-399. *)
Definition skip_asm (i : input) : option input :=
  skip_by (fun j => skip_comment (skip_star_comment (skip_whitespace j))) i.

(** [clean_str], /repo/src/lexer.rs 278-310, on the text between the quotes (the first and last byte are
    skipped by lines 283-285). *)
Fixpoint clean (escape : bool) (s : string) : string :=
  match s with
  | EmptyString => if escape then "\" else ""
  | String c t =>
      if escape then
        String (if Ascii.eqb c "r" then "013"
                else if Ascii.eqb c "n" then "010"
                else if Ascii.eqb c "t" then "009"
                else if Ascii.eqb c "b" then "008"
                else if Ascii.eqb c "0" then "000"
                else c) (clean false t)
      else if Ascii.eqb c "\" then clean true t
      else String c (clean false t)
  end.

(** [clean_str], /repo/src/lexer.rs 278-310. *)
Definition clean_str (s : string) : string := clean false (substring 1 (String.length s - 2) s).

(** [a-zA-Z], /repo/src/lexer.rs 434. *)
Definition is_alpha (c : ascii) : bool := (between "a" "z" c || between "A" "Z" c)%bool.
(** [0-9], /repo/src/lexer.rs 442. *)
Definition is_dec (c : ascii) : bool := between "0" "9" c.
(** [a-fA-F0-9], /repo/src/lexer.rs 437. *)
Definition is_hex (c : ascii) : bool := (between "a" "f" c || between "A" "F" c || between "0" "9" c)%bool.
(** [01], /repo/src/lexer.rs 439. *)
Definition is_bin (c : ascii) : bool := between "0" "1" c.
(** [0-7], /repo/src/lexer.rs 441. *)
Definition is_oct (c : ascii) : bool := between "0" "7" c.
(** First character of an identifier, /repo/src/lexer.rs 434. *)
Definition ident_start (c : ascii) : bool := (is_alpha c || Ascii.eqb c "_" || Ascii.eqb c ".")%bool.
(** Further characters of an identifier, /repo/src/lexer.rs 434. *)
Definition ident_char (c : ascii) : bool :=
  (is_alpha c || Ascii.eqb c "$" || is_dec c || Ascii.eqb c "_" || Ascii.eqb c ".")%bool.

(** The regular expressions of /repo/src/lexer.rs 427-478, each as the length of its match at the start
    of a text.  [ident], 434. *)
Definition m_ident (s : string) : option nat :=
  match s with
  | String c t => if ident_start c then Some (S (span_len ident_char t)) else None
  | EmptyString => None
  end.

(** [macro_ident], /repo/src/lexer.rs 435. *)
Definition m_macro_ident (s : string) : option nat :=
  match s with
  | String c t => if Ascii.eqb c "%" then option_map S (m_ident t) else None
  | EmptyString => None
  end.

(** [macro_label], /repo/src/lexer.rs 436.  The percent sign is no identifier character, so the
    identifier part is the longest possible one. *)
Definition m_macro_label (s : string) : option nat :=
  match m_ident s with
  | Some n => match get n s with
              | Some c => if Ascii.eqb c "%" then Some (S n) else None
              | None => None
              end
  | None => None
  end.

(** A fixed text, /repo/src/lexer.rs 451-466. *)
Definition m_text (w : string) (s : string) : option nat :=
  if String.prefix w s then Some (String.length w) else None.

(** The inside of a string literal up to and including the closing quote, /repo/src/lexer.rs 467; [.]
    does not match LF. *)
Fixpoint string_tail (s : string) : option nat :=
  match s with
  | EmptyString => None
  | String c t =>
      if Ascii.eqb c """" then Some 1
      else if Ascii.eqb c "\" then
        match t with
        | String d t2 => if Ascii.eqb d LF then None else option_map (fun n => S (S n)) (string_tail t2)
        | EmptyString => None
        end
      else option_map S (string_tail t)
  end.

(** The string matcher, /repo/src/lexer.rs 467. *)
Definition m_string (s : string) : option nat :=
  match s with
  | String c t => if Ascii.eqb c """" then option_map S (string_tail t) else None
  | EmptyString => None
  end.

(** [@[rR][0123]], /repo/src/lexer.rs 470. *)
Definition m_indr (s : string) : option nat :=
  match s with
  | String a (String r (String d _)) =>
      if (Ascii.eqb a "@" && (Ascii.eqb r "r" || Ascii.eqb r "R") && between "0" "3" d)%bool then Some 3 else None
  | _ => None
  end.

(** The repetition [(?:'digit|digit)*] of /repo/src/lexer.rs 427-433. *)
Fixpoint digits_len (digit : ascii -> bool) (s : string) : nat :=
  match s with
  | EmptyString => 0
  | String c t =>
      if digit c then S (digits_len digit t)
      else if Ascii.eqb c "'" then
        match t with
        | String d t2 => if digit d then S (S (digits_len digit t2)) else 0
        | EmptyString => 0
        end
      else 0
  end.

(** [number], /repo/src/lexer.rs 427-433, without a prefix. *)
Definition m_digits (digit : ascii -> bool) (s : string) : option nat :=
  match s with
  | String c t => if digit c then Some (S (digits_len digit t)) else None
  | EmptyString => None
  end.

(** [number] with a one-character prefix, /repo/src/lexer.rs 437 and 439. *)
Definition m_number1 (p : ascii) (digit : ascii -> bool) (s : string) : option nat :=
  match s with
  | String c t => if Ascii.eqb c p then option_map S (m_digits digit t) else None
  | EmptyString => None
  end.

(** [number] with a prefix [0[xX]] and the like, /repo/src/lexer.rs 438, 440 and 441. *)
Definition m_number2 (p q : ascii) (digit : ascii -> bool) (s : string) : option nat :=
  match s with
  | String z (String c t) =>
      if (Ascii.eqb z "0" && (Ascii.eqb c p || Ascii.eqb c q))%bool then option_map (fun n => S (S n)) (m_digits digit t)
      else None
  | _ => None
  end.

(** The value of a digit character, as in [i32::from_str_radix] (/repo/src/lexer.rs 402). *)
Definition digit_val (c : ascii) : Z :=
  let n := Z.of_nat (nat_of_ascii c) in
  if is_dec c then n - 48 else if between "a" "f" c then n - 87 else n - 55.

(** [str::replace('\'', "")], /repo/src/lexer.rs 402. *)
Fixpoint strip_quotes (s : string) : string :=
  match s with
  | EmptyString => EmptyString
  | String c t => if Ascii.eqb c "'" then strip_quotes t else String c (strip_quotes t)
  end.

(** [i32::from_str_radix], /repo/src/lexer.rs 402; called on texts that the matchers have restricted to
    digits of the base.  A value above [i32::MAX] is an error, which [unwrap] turns into a panic. *)
Fixpoint from_str_radix (base acc : Z) (s : string) : outcome Z :=
  match s with
  | EmptyString => Ok acc
  | String c t =>
      let v := (acc * base + digit_val c)%Z in
      if (2147483647 <? v)%Z then Panic else from_str_radix base v t
  end.

(** [to_hex_num], [to_oct_num], [to_bin_num], [to_dec_num], /repo/src/lexer.rs 401-419: the text without
    its prefix and separators. *)
Definition to_num (base : Z) (r : radix) (prefix : nat) (text : string) : outcome token_type :=
  let! n := from_str_radix base 0 (strip_quotes (substring prefix (String.length text - prefix) text)) in
  Ok (TNumber n r).

(** [to_indr_mode], /repo/src/lexer.rs 340-349. *)
Definition to_indr_mode (text : string) : outcome token_type :=
  match get 2 text with
  | Some "0"%char => Ok TR0
  | Some "1"%char => Ok TR1
  | Some "2"%char => Ok TR2
  | Some "3"%char => Ok TR3
  | _ => Panic
  end.

(** [Matcher], /repo/src/lexer.rs 312-323. *)
Record matcher : Type := mkMatcher { m_len : string -> option nat; m_convert : string -> outcome token_type }.

(** The matchers, /repo/src/lexer.rs 444-478, in order. *)
Definition matchers : list matcher := [
  mkMatcher m_macro_ident (fun t => Ok (TMacroIdent (lower t)));
  mkMatcher m_macro_label (fun t => Ok (TMacroLabel (lower t)));
  mkMatcher (m_text "(") (fun _ => Ok TLeftParen);
  mkMatcher (m_text ")") (fun _ => Ok TRightParen);
  mkMatcher (m_text "#") (fun _ => Ok THash);
  mkMatcher (m_text ",") (fun _ => Ok TComma);
  mkMatcher (m_text "::") (fun _ => Ok TDoubleColon);
  mkMatcher (m_text ":") (fun _ => Ok TColon);
  mkMatcher (m_text "=") (fun _ => Ok TEquals);
  mkMatcher (m_text "+") (fun _ => Ok TPlus);
  mkMatcher (m_text "*") (fun _ => Ok TTimes);
  mkMatcher (m_text "-") (fun _ => Ok TMinus);
  mkMatcher (m_text "/") (fun _ => Ok TDivide);
  mkMatcher (m_text "&") (fun _ => Ok TAmpersand);
  mkMatcher (m_text "|") (fun _ => Ok TPipe);
  mkMatcher (m_text "^") (fun _ => Ok TCaret);
  mkMatcher (m_text ">") (fun _ => Ok TUpperByte);
  mkMatcher (m_text "<") (fun _ => Ok TLowerByte);
  mkMatcher m_string (fun t => Ok (TString (clean_str t)));
  mkMatcher m_indr to_indr_mode;
  mkMatcher m_ident (fun t => Ok (TName (lower t)));
  mkMatcher (m_number1 "$" is_hex) (to_num 16 Hex 1);
  mkMatcher (m_number2 "o" "O" is_oct) (to_num 8 Octal 2);
  mkMatcher (m_number2 "x" "X" is_hex) (to_num 16 Hex 2);
  mkMatcher (m_number1 "%" is_bin) (to_num 2 Binary 1);
  mkMatcher (m_number2 "b" "B" is_bin) (to_num 2 Binary 2);
  mkMatcher (m_digits is_dec) (to_num 10 Decimal 0)
].

(** [Matcher::do_match], /repo/src/lexer.rs 325-337. *)
Definition do_match (m : matcher) (i : input) : option (outcome (input * token)) :=
  match m_len m (i_rest i) with
  | Some n =>
      Some (let! ty := m_convert m (substring 0 n (i_rest i)) in
            let j := update i n in
            Ok (j, mkToken ty (mkSpan (loc_of i) (loc_of j))))
  | None => None
  end.

(** The loop over the matchers, /repo/src/lexer.rs 486-492. *)
Fixpoint first_match (ms : list matcher) (i : input) : option (outcome (input * token)) :=
  match ms with
  | [] => None
  | m :: t => match do_match m i with Some r => Some r | None => first_match t i end
  end.

(** [read_token], /repo/src/lexer.rs 421-494; the outer [option] of the code's result, [Diverge] when the
    skip function did not finish. *)
Definition read_token (skip : input -> option input) (i : input) : outcome (option (input * token)) :=
  match skip i with
  | None => Diverge
  | Some j =>
      if eof j then Ok (Some (j, mkToken TEOF (mkSpan (loc_of j) (loc_of j))))
      else match first_match matchers j with
           | None => Ok None
           | Some r => let! x := r in Ok (Some x)
           end
  end.

(** The loop of [lex_for_ws], /repo/src/lexer.rs 496-518; [i] is [cinput].  Every token consumes text, so
    the length of the text plus one bounds the rounds. *)
Fixpoint lex_loop (skip : input -> option input) (fuel : nat) (i : input) : outcome (list token) :=
  match fuel with
  | O => Diverge
  | S f =>
      let! r := read_token skip i in
      match r with
      | None => Err (UnexpectedChar (Z.of_nat (i_pos i)))
      | Some (j, tok) =>
          match t_type tok with
          | TEOF => Ok [mkToken TEOF (mkSpan (loc_of i) (loc_of i))]
          | _ => let! rest := lex_loop skip f j in Ok (tok :: rest)
          end
      end
  end.

(** [lex_for_ws], /repo/src/lexer.rs 496-518. *)
Definition lex_for_ws (skip : input -> option input) (i : input) : outcome (list token) :=
  lex_loop skip (S (String.length (i_rest i))) i.

(** [lex_input], /repo/src/lexer.rs 520-522. *)
Definition lex_input (i : input) : outcome (list token) := lex_for_ws skip_asm i.
