(** The ways in which assembling a program can crash.  Nothing here refers to Include.v. *)
From Coq Require Import ZArith List String Ascii Bool.
From Verif Require Import Base Expr Ast Lexer Parser Files Img.
From Verif Require Import SpecExpr SpecAsm SpecLex SpecParse SpecLine SpecFiles SpecHeader SpecInclude.
Import ListNotations.
Open Scope string_scope.
Open Scope list_scope.

(** The text holds a number that is too large, where a token is to be read: not in a comment or a string. *)
Definition too_large (text : string) : Prop :=
  exists ps gap lit rest n r, text = source ps (gap ++ lit ++ rest) /\ pieces_ok "" ps (gap ++ lit ++ rest) /\
    gap_after (behind "" ps) gap (lit ++ rest) /\ numeral lit n r /\ complete lit (TNumber n r) rest /\ (2147483647 < n)%Z.

(** The same for the text of a C header. *)
Definition too_large_header (text : string) : Prop :=
  exists ps gap lit rest n r, text = source ps (gap ++ lit ++ rest) /\ c_pieces_ok ps (gap ++ lit ++ rest) /\
    c_gap gap (lit ++ rest) /\ numeral lit n r /\ complete lit (TNumber n r) rest /\ (2147483647 < n)%Z.

(** A line that begins like the inclusion of assembly. *)
Inductive opens : list token_type -> string -> Prop :=
| op_plain : forall p rest, opens (TName ".include" :: TString p :: rest) p
| op_typed : forall p rest, opens (TName ".include" :: TName "asm" :: TString p :: rest) p.

(** The line [l] is one of the file [f]. *)
Definition line_of (w : fs) (f : string) (l : list token) : Prop :=
  exists text id toks ls, read_bytes w f = Some text /\ lex_input (new_input id text) = Ok toks /\ grouped toks ls /\ In l ls.

(** The files of assembly that a program may consist of: the main file and what they include. *)
Inductive reached (w : fs) (main : string) : string -> Prop :=
| rc_main : reached w main main
| rc_include : forall f l p q g, reached w main f -> line_of w f l -> opens (map t_type l) p -> meant w f p q -> same_path g q ->
    reached w main g.

(** The C headers that they include. *)
Definition reached_header (w : fs) (main g : string) : Prop :=
  exists f l p q, reached w main f /\ line_of w f l /\ header_include (map t_type l) p /\ meant w f p q /\ same_path g q.

(** What can be read lies in a directory. *)
Definition rooted (w : fs) : Prop := forall p, read_bytes w p <> None -> parent p <> None.

(** The statements of the program [name] before bytes, icons and sprites are included. *)
Definition program_of (w : fs) (wd name : string) (stmts : list statement) : Prop :=
  exists id text toks ls L T st, read_bytes w (join wd name) = Some text /\ lex_input (new_input id text) = Ok toks /\ grouped toks ls /\
    expands w T (join wd name) ls L /\ as_on_disk w T /\ parse (List.concat L) = Ok st /\ stmts = st_list st.

(** The statements at which inclusion stops the process: an inclusion of assembly or of a header that is
    still there, a speed whose computation leaves the 32-bit range, and pictures without any frame. *)
Inductive explosive (w : fs) (pics : pictures) (main : string) : statement -> Prop :=
| xp_asm : forall p, explosive w pics main (SDirective (DInclude IncAsm p))
| xp_header : forall p, explosive w pics main (SDirective (DInclude IncCHeader p))
| xp_speed : forall e eye p, ~ SpecExpr.fits (fun _ => None) e -> explosive w pics main (SDirective (DInclude (IncIcon (Some e) eye) p))
| xp_eyecatch : forall speed s p q, found w main s q -> pics q = Ok [] ->
    explosive w pics main (SDirective (DInclude (IncIcon speed (Some (BVString (codes s)))) p))
| xp_sprite : forall k p q, found w main p q -> pics q = Ok [] ->
    explosive w pics main (SDirective (DInclude (IncSprite k HeaderYes) p)).

(** The reasons why reading the program may crash. *)
Inductive reading_hazard (w : fs) (pics : pictures) (wd name : string) : Prop :=
| rh_number : forall g text, reached w (join wd name) g -> read_bytes w g = Some text -> too_large text -> reading_hazard w pics wd name
| rh_header : forall g text, reached_header w (join wd name) g -> read_bytes w g = Some text -> too_large_header text ->
    reading_hazard w pics wd name
| rh_statement : forall l s, program_of w wd name l -> In s l -> explosive w pics (join wd name) s -> reading_hazard w pics wd name.

(** No value computed in the program leaves the 32-bit range. *)
Definition arithmetic_fits (pr : profile) (prog : list statement) : Prop :=
  (forall k s n e, nth_error prog k = Some s -> var_def s = Some (n, e) -> SpecExpr.fits (visible pr prog k) e) /\
  (forall k s get e, nth_error prog k = Some s -> env_at pr prog k get -> In e (stmt_exprs s) -> SpecExpr.fits get e).
