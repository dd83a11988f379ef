(** What the lexer should do, stated without its matchers: how each token is written, what lies between
    tokens, and where every token is. *)
From Coq Require Import ZArith List String Ascii Bool.
From Verif Require Import Base Expr Lexer.
Import ListNotations.
Open Scope string_scope.
Open Scope list_scope.
Local Open Scope nat_scope.

(** * Positions *)

Fixpoint count (c : ascii) (s : string) : nat :=
  match s with
  | EmptyString => 0
  | String d t => (if ascii_dec c d then 1 else 0) + count c t
  end.

(** Characters after the last line feed. *)
Fixpoint after_last_lf (s : string) (sofar : nat) : nat :=
  match s with
  | EmptyString => sofar
  | String d t => if ascii_dec "010" d then after_last_lf t 0 else after_last_lf t (S sofar)
  end.

(** The location of the character that follows the text [before] in file [f]: lines count from one,
    columns from zero. *)
Definition place (f : nat) (before : string) : location :=
  mkLoc f (String.length before) (1 + count "010" before) (after_last_lf before 0).

Definition line_start (before : string) : Prop :=
  before = "" \/ exists p, before = (p ++ String "010" "")%string.

(** * Between tokens *)

Definition blank (c : ascii) : Prop := In c ["009"; "010"; "011"; "012"; "013"; " "]%char.

(** A line ends at a line feed, at a carriage return followed by one, and at the end of the text. *)
Definition at_eol (s : string) : Prop :=
  s = "" \/ (exists t, s = String "010" t) \/ (exists t, s = String "013" (String "010" t)).

(** [body] is the whole rest of a line and [after] what follows the line. *)
Definition rest_of_line (body after : string) : Prop :=
  at_eol after /\ forall p q, body = (p ++ q)%string -> q <> "" -> ~ at_eol (q ++ after).

(** [gap b g rest]: [g], followed by [rest], consists of blanks and comments; [b] says that it begins at
    the start of a line. *)
Inductive gap : bool -> string -> string -> Prop :=
| gap_nil : forall b rest, gap b "" rest
| gap_blank : forall b c g rest,
    blank c -> gap (if ascii_dec c "010" then true else false) g rest -> gap b (String c g) rest
| gap_comment : forall b c body g rest,
    c = ";"%char \/ (b = true /\ c = "*"%char) ->
    rest_of_line body (g ++ rest) ->
    gap false g rest ->
    gap b (String c (body ++ g)) rest.

(** * Tokens *)

Fixpoint all_chars (P : ascii -> Prop) (s : string) : Prop :=
  match s with
  | EmptyString => True
  | String c t => P c /\ all_chars P t
  end.

Definition letters : list ascii :=
  list_ascii_of_string "abcdefghijklmnopqrstuvwxyzABCDEFGHIJKLMNOPQRSTUVWXYZ".

Definition name_start (c : ascii) : Prop := In c letters \/ In c ["_"; "."]%char.
Definition name_char (c : ascii) : Prop :=
  In c letters \/ In c (list_ascii_of_string "0123456789$_.").

Definition identifier (w : string) : Prop :=
  match w with
  | EmptyString => False
  | String c t => name_start c /\ all_chars name_char t
  end.

(** ** Numbers *)

Definition digit_chars : list (ascii * Z) :=
  [("0", 0); ("1", 1); ("2", 2); ("3", 3); ("4", 4); ("5", 5); ("6", 6); ("7", 7); ("8", 8); ("9", 9);
   ("a", 10); ("b", 11); ("c", 12); ("d", 13); ("e", 14); ("f", 15);
   ("A", 10); ("B", 11); ("C", 12); ("D", 13); ("E", 14); ("F", 15)]%char%Z.

Definition digit (base : Z) (c : ascii) (v : Z) : Prop := In (c, v) digit_chars /\ (v < base)%Z.

(** Digits after the first, each possibly preceded by a separator. *)
Inductive more_digits (base : Z) : string -> list Z -> Prop :=
| md_nil : more_digits base "" []
| md_digit : forall c v t vs, digit base c v -> more_digits base t vs -> more_digits base (String c t) (v :: vs)
| md_sep : forall c v t vs,
    digit base c v -> more_digits base t vs -> more_digits base (String "'" (String c t)) (v :: vs).

Definition some_digits (base : Z) (s : string) (vs : list Z) : Prop :=
  exists c v t ws, s = String c t /\ vs = v :: ws /\ digit base c v /\ more_digits base t ws.

Fixpoint positional (base : Z) (vs : list Z) : Z :=
  match vs with
  | [] => 0
  | v :: t => v * base ^ Z.of_nat (List.length t) + positional base t
  end%Z.

Definition notations : list (string * Z * radix) :=
  [("$", 16, Hex); ("0x", 16, Hex); ("0X", 16, Hex); ("0o", 8, Octal); ("0O", 8, Octal);
   ("%", 2, Binary); ("0b", 2, Binary); ("0B", 2, Binary); ("", 10, Decimal)]%Z.

(** [numeral text n r]: [text] is a literal of notation [r] whose digits denote [n]. *)
Definition numeral (text : string) (n : Z) (r : radix) : Prop :=
  exists prefix base body vs,
    In (prefix, base, r) notations /\ text = (prefix ++ body)%string /\ some_digits base body vs /\
    n = positional base vs.

(** ** Strings *)

Inductive item : Type := Plain (c : ascii) | Escaped (c : ascii).

Definition item_ok (i : item) : Prop :=
  match i with
  | Plain c => c <> """"%char /\ c <> "\"%char
  | Escaped c => c <> "010"%char
  end.

Fixpoint written (l : list item) : string :=
  match l with
  | [] => ""
  | Plain c :: t => String c (written t)
  | Escaped c :: t => String "\" (String c (written t))
  end.

Definition escapes : list (ascii * ascii) :=
  [("r", "013"); ("n", "010"); ("t", "009"); ("b", "008"); ("0", "000")]%char.

(** The character an item stands for. *)
Definition item_char (i : item) (c : ascii) : Prop :=
  match i with
  | Plain d => c = d
  | Escaped d => In (d, c) escapes \/ ((forall x, ~ In (d, x) escapes) /\ c = d)
  end.

Definition quoted (s : string) : string := String """" (s ++ String """" "").

Definition punctuation : list (string * token_type) :=
  [("(", TLeftParen); (")", TRightParen); ("#", THash); (",", TComma); ("::", TDoubleColon); (":", TColon);
   ("=", TEquals); ("+", TPlus); ("*", TTimes); ("-", TMinus); ("/", TDivide); ("&", TAmpersand);
   ("|", TPipe); ("^", TCaret); (">", TUpperByte); ("<", TLowerByte);
   ("@r0", TR0); ("@R0", TR0); ("@r1", TR1); ("@R1", TR1); ("@r2", TR2); ("@R2", TR2); ("@r3", TR3); ("@R3", TR3)].

(** [writes text ty]: [text] is a way to write the token [ty]. *)
Inductive writes : string -> token_type -> Prop :=
| w_punct : forall text ty, In (text, ty) punctuation -> writes text ty
| w_name : forall w, identifier w -> writes w (TName (lower w))
| w_macro_ident : forall w, identifier w -> writes (String "%" w) (TMacroIdent (String "%" (lower w)))
| w_macro_label : forall w, identifier w -> writes (w ++ "%") (TMacroLabel (lower w ++ "%"))
| w_string : forall l s,
    Forall item_ok l -> Forall2 item_char l (list_ascii_of_string s) -> writes (quoted (written l)) (TString s)
| w_number : forall text n r, numeral text n r -> writes text (TNumber n r).

(** Numbers must fit a signed 32-bit integer. *)
Definition fits (ty : token_type) : Prop :=
  match ty with
  | TNumber n _ => (n <= 2147483647)%Z
  | _ => True
  end.

Definition starts (P : ascii -> Prop) (s : string) : Prop :=
  match s with EmptyString => False | String c _ => P c end.

(** [s] would go on with the digits of a number. *)
Definition more_number (base : Z) (s : string) : Prop :=
  match s with
  | EmptyString => False
  | String c t =>
      (exists v, digit base c v) \/ (c = "'"%char /\ starts (fun d => exists v, digit base d v) t)
  end.

(** [s] would turn a zero before it into the prefix of a number in another notation. *)
Definition prefixes_number (s : string) : Prop :=
  exists p base r t, In (String "0" p, base, r) notations /\ s = (p ++ t)%string /\ (exists c u, t = String c u /\ exists v, digit base c v).

(** [complete text ty rest]: the token does not continue into [rest]. *)
Definition complete (text : string) (ty : token_type) (rest : string) : Prop :=
  match ty with
  | TName _ => ~ starts (fun c => name_char c \/ c = "%"%char) rest
  | TMacroIdent _ => ~ starts name_char rest
  | TColon => ~ starts (fun c => c = ":"%char) rest
  | TNumber _ Hex => ~ more_number 16 rest
  | TNumber _ Octal => ~ more_number 8 rest
  | TNumber _ Binary => ~ more_number 2 rest
  | TNumber _ Decimal => ~ more_number 10 rest /\ ~ (text = "0" /\ prefixes_number rest)
  | _ => True
  end.

(** * Whole texts *)

Record piece : Type := mkPiece { p_gap : string; p_text : string; p_type : token_type }.

(** The text made of the pieces and a final gap. *)
Fixpoint source (ps : list piece) (tail : string) : string :=
  match ps with
  | [] => tail
  | p :: t => p_gap p ++ p_text p ++ source t tail
  end.

Definition starts_line (before : string) (b : bool) : Prop := b = true <-> line_start before.

(** The pieces follow the text [before]; what comes after them is [rest]. *)
Fixpoint pieces_ok (before : string) (ps : list piece) (rest : string) : Prop :=
  match ps with
  | [] => True
  | p :: t =>
      (exists b, starts_line before b /\ gap b (p_gap p) (p_text p ++ source t rest)) /\
      writes (p_text p) (p_type p) /\ fits (p_type p) /\
      complete (p_text p) (p_type p) (source t rest) /\
      ~ (p_text p = "*" /\ line_start (before ++ p_gap p)) /\
      pieces_ok (before ++ p_gap p ++ p_text p) t rest
  end.

(** The text that ends with the last of the pieces. *)
Fixpoint behind (before : string) (ps : list piece) : string :=
  match ps with
  | [] => before
  | p :: t => behind (before ++ p_gap p ++ p_text p) t
  end.

Definition gap_after (before g rest : string) : Prop := exists b, starts_line before b /\ gap b g rest.

(** The tokens of the pieces, each with the places of its first character and of the one after it; the
    end-of-file token is placed at the end of the last token. *)
Fixpoint tokens_of (f : nat) (before : string) (ps : list piece) : list token :=
  match ps with
  | [] => [mkToken TEOF (mkSpan (place f before) (place f before))]
  | p :: t =>
      mkToken (p_type p)
        (mkSpan (place f (before ++ p_gap p)) (place f (before ++ p_gap p ++ p_text p)))
      :: tokens_of f (before ++ p_gap p ++ p_text p) t
  end.

(** At [rest], which follows the text [before], there is neither the end of the text nor a blank, a
    comment or a token. *)
Definition unreadable (before rest : string) : Prop :=
  rest <> "" /\
  (forall g r, rest = (g ++ r)%string -> gap_after before g r -> g = "") /\
  (forall text ty r, rest = (text ++ r)%string -> writes text ty -> complete text ty r -> text = "*" /\ line_start before).

(** * Changes of letter case *)

(** The same character, or a capital and a small letter at the same place of the alphabet. *)
Definition same_letter (c d : ascii) : Prop :=
  c = d \/ exists n, (n < 26)%nat /\
    ((c = ascii_of_nat (65 + n) /\ d = ascii_of_nat (97 + n)) \/ (c = ascii_of_nat (97 + n) /\ d = ascii_of_nat (65 + n))).

Fixpoint same_letters (s t : string) : Prop :=
  match s, t with
  | EmptyString, EmptyString => True
  | String c s', String d t' => same_letter c d /\ same_letters s' t'
  | _, _ => False
  end.

(** [recase b s t]: [t] is [s] with letters changed in case anywhere but in string literals; [b] says
    that the texts begin at the start of a line. *)
Inductive recase : bool -> string -> string -> Prop :=
| rc_nil : forall b, recase b "" ""
| rc_char : forall b c d s t,
    same_letter c d -> c <> """"%char -> c <> ";"%char -> ~ (b = true /\ c = "*"%char) ->
    recase (if ascii_dec c "010" then true else false) s t ->
    recase b (String c s) (String d t)
| rc_string : forall b l s t,
    Forall item_ok l -> recase false s t ->
    recase b (quoted (written l) ++ s) (quoted (written l) ++ t)
| rc_comment : forall b c body body' s t,
    c = ";"%char \/ (b = true /\ c = "*"%char) ->
    same_letters body body' -> rest_of_line body s -> recase false s t ->
    recase b (String c (body ++ s)) (String c (body' ++ t))
| rc_open : forall b s, (* a quote that opens no literal *)
    recase b (String """" s) (String """" s).
