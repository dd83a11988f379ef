(** What a C header should contribute, stated without the functions of CHeader.v: comments in the manner of
    C, and definitions rewritten as constants. *)
From Coq Require Import ZArith List String Ascii Bool.
From Verif Require Import Base Expr Ast Lexer SpecLex SpecParse SpecLine.
Import ListNotations.
Open Scope string_scope.
Open Scope list_scope.

(** The first [*/] of [body */] is the one at its end. *)
Definition closes (body : string) : Prop :=
  forall p q, (body ++ "*/" = p ++ "*/" ++ q)%string -> q = "".

(** [c_gap g rest]: [g], followed by [rest], consists of blanks and C comments.  A comment that is not closed
    reaches to the end of the text. *)
Inductive c_gap : string -> string -> Prop :=
| cg_nil : forall rest, c_gap "" rest
| cg_blank : forall c g rest, blank c -> c_gap g rest -> c_gap (String c g) rest
| cg_line : forall body g rest, rest_of_line body (g ++ rest) -> c_gap g rest -> c_gap ("//" ++ body ++ g) rest
| cg_block : forall body g rest, closes body -> c_gap g rest -> c_gap ("/*" ++ body ++ "*/" ++ g) rest
| cg_open : forall body, (forall p q, body <> (p ++ "*/" ++ q)%string) -> c_gap ("/*" ++ body) "".

(** The pieces of a header; what comes after them is [rest].  A slash that would begin a comment is no token. *)
Fixpoint c_pieces_ok (ps : list piece) (rest : string) : Prop :=
  match ps with
  | [] => True
  | p :: t =>
      c_gap (p_gap p) (p_text p ++ source t rest) /\
      writes (p_text p) (p_type p) /\ fits (p_type p) /\
      complete (p_text p) (p_type p) (source t rest) /\
      ~ (p_text p = "/" /\ starts (fun c => c = "/"%char \/ c = "*"%char) (source t rest)) /\
      c_pieces_ok t rest
  end.

(** [header_text text ps]: the header [text] consists of the tokens [ps], blanks and comments. *)
Definition header_text (text : string) (ps : list piece) : Prop :=
  exists tail, text = source ps tail /\ c_pieces_ok ps tail /\ c_gap tail "".

(** A line that begins with [# define]. *)
Definition define_line (ts : list token_type) : Prop := exists r, ts = THash :: TName "define" :: r.

(** [# define NAME] followed by an expression, and possibly by more. *)
Definition good_define (ts : list token_type) : Prop :=
  exists n front e rest, ts = THash :: TName "define" :: TName n :: front ++ rest /\ expression_of front e /\ ~ continues rest.

(** A line of a header and the line it becomes: [# define NAME ...] becomes [NAME equ ...], where [equ] takes
    the place of [# define]; other lines stay. *)
Inductive converted : list token -> list token -> Prop :=
| cv_define : forall hash define name n ts,
    t_type hash = THash -> t_type define = TName "define" -> t_type name = TName n ->
    converted (hash :: define :: name :: ts)
      (name :: mkToken (TName "equ") (mkSpan (s_start (t_span hash)) (s_end (t_span define))) :: ts)
| cv_other : forall ts, ~ define_line (map t_type ts) -> converted ts ts.

(** [constants ls cs]: each of the lines [ls] is empty or defines a constant, and the constants are [cs]. *)
Inductive constants : list (list token_type) -> list (string * expr) -> Prop :=
| cs_nil : constants [] []
| cs_empty : forall ts ls cs, ends ts [] -> constants ls cs -> constants (ts :: ls) cs
| cs_define : forall ts n ets e ls cs, ends ts (THash :: TName "define" :: TName n :: ets) -> expression_of ets e ->
    ~ In n directive_names -> constants ls cs -> constants (ts :: ls) ((n, e) :: cs).

(** The same, written with [equ]. *)
Inductive equ_lines : list (list token_type) -> list (string * expr) -> Prop :=
| eq_nil : equ_lines [] []
| eq_empty : forall ts ls cs, ends ts [] -> equ_lines ls cs -> equ_lines (ts :: ls) cs
| eq_equ : forall ts n ets e ls cs, ends ts (TName n :: TName "equ" :: ets) -> expression_of ets e ->
    ~ In n directive_names -> equ_lines ls cs -> equ_lines (ts :: ls) ((n, e) :: cs).
