(** C65: errors of the parser point at the first line and the first token that is wrong. *)
From Coq Require Import ZArith List String Ascii Bool Arith Lia.
From Verif Require Import Base Expr Instr Ast Macro Lexer Parser SpecParse ParseProofs Span SpanParser SpecSpan.
From Verif Require Import SpecIsa SpecMacro SpecLine LineProofs LineProofs2 LineProofs3 SpecSyntax SyntaxProofs SyntaxProofs5 SyntaxProofs8 SyntaxProofs9.
Import ListNotations.
Open Scope string_scope.
Open Scope list_scope.
Local Open Scope nat_scope.

(** A refused line is wrong, at the place that is shown. *)
Theorem C65_line : forall ts e at_, parse_line_s ts = PErr e at_ -> wrong_line ts e at_.
Proof. exact line_errors. Qed.
Print Assumptions C65_line.

(** A refused line of a macro body as well. *)
Theorem C65_body : forall ts e at_, parse_macro_statement_s ts = PErr e at_ -> wrong_body ts e at_.
Proof. exact body_errors. Qed.
Print Assumptions C65_body.

(** A refused program: the first wrong line of the macro definitions, or else the first wrong line outside of them. *)
Theorem C65_program : forall toks e at_, parse_s toks = PErr e at_ ->
  exists ls, grouped toks ls /\ wrong_program ls e at_.
Proof.
  intros toks e at_ H. exists (lines toks). split; [now apply lines_iff|]. now apply program_errors.
Qed.
Print Assumptions C65_program.

(** ** What the specification says *)

(** There is only one first wrong token. *)
Theorem C65_unique : forall G ts e1 at1 e2 at2, first_wrong G ts e1 at1 -> first_wrong G ts e2 at2 ->
  (at1 = [] /\ at2 = []) \/ exists before t after, ts = before ++ t :: after /\ marks t e1 at1 /\ marks t e2 at2.
Proof.
  intros G ts e1 at1 e2 at2 F1 F2.
  assert (ONE: forall e at_ b t a, completable G (types ts) -> ts = b ++ t :: a -> ~ completable G (types b ++ [t_type t]) -> marks t e at_ -> False).
  { intros e at_ b t a (m & C) -> N _. apply N. exists (types a ++ m). unfold types in *. rewrite map_app in C. cbn in C. rewrite <- !app_assoc in *. exact C. }
  destruct F1 as [(-> & -> & C1 & N1)|(b1 & t1 & a1 & E1 & C1 & N1 & M1 & _)], F2 as [(-> & -> & C2 & N2)|(b2 & t2 & a2 & E2 & C2 & N2 & M2 & _)].
  - now left.
  - exfalso. now apply (ONE e2 at2 b2 t2 a2).
  - exfalso. now apply (ONE e1 at1 b1 t1 a1).
  - right. exists b1, t1, a1. split; auto. split; auto. assert (E := E1). rewrite E2 in E. symmetry in E.
    assert (PRE: forall (b c : list token) t x, completable G (types (b ++ t :: x)) -> completable G (types b ++ [t_type t])).
    { intros b c t x (m & C). exists (types x ++ m). unfold types in *. rewrite map_app in C. cbn in C. rewrite <- !app_assoc in *. exact C. }
    destruct (prefixes _ _ _ _ E) as [[-> Q]|[(y & n & Q & R)|(y & n & Q & R)]].
    + injection Q as -> _. exact M2.
    + exfalso. subst b2. injection R as -> _. apply N1. now apply (PRE _ b1 y n).
    + exfalso. subst b1. injection R as -> _. apply N2. now apply (PRE _ b2 y n).
Qed.
Print Assumptions C65_unique.

(** Tokens with a first wrong token are not in the language, also if the mark of the end and more follow. *)
Theorem C65_wrong : forall (G : language) ts e at_ front, (forall w, G w -> ~ In TEOF w) -> first_wrong G ts e at_ -> ends (types ts) front -> ~ G front.
Proof.
  intros G ts e at_ front NE F E X.
  assert (NO: forall w, completable G w -> ~ In TEOF w) by (intros w (m & C) I; apply (NE _ C), in_or_app; now left).
  destruct F as [(_ & _ & C & N)|(b & t & a & -> & C & N & _ & K)].
  - inversion E as [ts2 I E1|ts2 rest I E1]; subst; [contradiction|]. apply (NO _ C). rewrite <- E1. apply in_or_app. right. now left.
  - rewrite tapp in E. apply ends_split in E as (rest & E & F & I).
    destruct (prefixes _ _ _ _ E) as [[Q R]|[(y & n & Q & R)|(y & n & Q & R)]].
    + subst front. destruct F as [-> |(q & ->)]; [discriminate|]. injection R as R _. now apply K.
    + apply N. injection R as -> _. exists n. rewrite <- app_assoc. cbn. now rewrite <- Q.
    + destruct F as [-> |(q & ->)]; [discriminate|]. injection R as <- _. apply (NO _ C). rewrite Q. apply in_or_app. right. now left.
Qed.
Print Assumptions C65_wrong.

(** So a line with a first wrong token is none, and neither is a line of a macro body, a first or a last line of a macro. *)
Theorem C65_no_line : forall ts e at_ front ss, first_wrong line_form ts e at_ -> ends (types ts) front -> ~ line front ss.
Proof.
  intros ts e at_ front ss F E L. apply (C65_wrong line_form ts e at_ front); auto; [|now apply lf_line in L].
  intros w [ts2 ss2 L2|n ts2 C|ts2 C _|ts2 [ts3 d D|s ts3 ps P|s ts3 ps P]].
  - now apply line_no_eof in L2.
  - intros [I|[I|I]]; try discriminate. now apply (command_eof _ C).
  - now apply command_eof.
  - now apply directive_no_eof in D.
  - intros [I|[I|[I|I]]]; try discriminate. revert I. apply (maybe_no_eof property _ ps); auto. apply property_no_eof.
  - intros [I|[I|[I|I]]]; try discriminate. revert I. apply (maybe_no_eof property _ ps); auto. apply property_no_eof.
Qed.
Print Assumptions C65_no_line.

(** ** Cases *)

Definition one_line : string := String "010" "".
Definition place (pos line from to : nat) : pspan := mkP (mkSpan (mkLoc 0 pos line from) (mkLoc 0 (pos + (to - from)) line to)) [].

(** The second operand stands where a comma should be. *)
Example C65_line_case : exists toks, lex_input_s (new_input 0 " add 1 2") = POk toks /\
  parse_line_s toks = PErr (ExpectedTokenNotFound "','") [place 7 1 7 8] /\
  first_wrong line_form toks (ExpectedTokenNotFound "','") [place 7 1 7 8].
Proof.
  eexists. split; [vm_compute; reflexivity|]. assert (H: parse_line_s [mkToken (TName "add") (here (place 1 1 1 4)); mkToken (TNumber 1 Decimal) (here (place 5 1 5 6));
    mkToken (TNumber 2 Decimal) (here (place 7 1 7 8)); mkToken TEOF (here (place 8 1 8 8))] = PErr (ExpectedTokenNotFound "','") [place 7 1 7 8]) by (vm_compute; reflexivity).
  split; [exact H|]. apply C65_line in H. inversion H; subst; try discriminate; auto. match goal with R : refused _ _ _ _ |- _ => inversion R end.
Qed.

(** A label with a dot before an operand, in a macro. *)
Example C65_body_case : exists toks, lex_input_s (new_input 0 " .x 1") = POk toks /\ parse_macro_statement_s toks = PErr UnknownInstruction [place 1 1 1 3].
Proof. eexists. split; vm_compute; reflexivity. Qed.

(** The first line lacks an operand, but the macro is read first. *)
Example C65_program_case : exists toks,
  lex_input_s (new_input 0 (" push" ++ one_line ++ "%macro f %a" ++ one_line ++ " .x 1" ++ one_line ++ "%end")%string) = POk toks /\
  parse_s toks = PErr UnknownInstruction [place 19 3 1 3].
Proof. eexists. split; vm_compute; reflexivity. Qed.

(** A macro that is defined twice is shown where its name stands, now and before. *)
Example C65_defined_case : exists toks,
  lex_input_s (new_input 0 ("%macro f %a" ++ one_line ++ "%end" ++ one_line ++ "%macro f %b" ++ one_line ++ "%end 2")%string) = POk toks /\
  parse_s toks = PErr (MacroAlreadyExists "f" 1) [place 24 3 7 8; place 7 1 7 8].
Proof. eexists. split; vm_compute; reflexivity. Qed.

(** Not every error of the parser has a place: a line that ends too soon has none, except for the last one of a file. *)
Theorem C65_placed_refuted : exists text toks, lex_input_s (new_input 0 text) = POk toks /\ parse_s toks = PErr UnexpectedEof [].
Proof. exists (" .org" ++ one_line ++ " nop")%string. eexists. split; vm_compute; reflexivity. Qed.
Print Assumptions C65_placed_refuted.
