(** C66: statements stand where they are written. *)
From Coq Require Import ZArith List String Ascii Bool Arith Lia.
From Verif Require Import Base Expr Instr Ast Macro Lexer Parser SpecParse Span SpanParser SpecSpan.
From Verif Require Import SpecIsa SpecMacro SpecLine SpecSyntax SpecWritten WrittenProofs.
Import ListNotations.
Open Scope string_scope.
Open Scope list_scope.
Local Open Scope nat_scope.

(** The statements of a line. *)
Theorem C66_line : forall ts ss, parse_line_s ts = POk ss -> line_written ts ss.
Proof. exact line_is_written. Qed.
Print Assumptions C66_line.

(** The statements of a line of a macro body. *)
Theorem C66_body : forall ts ss, parse_macro_statement_s ts = POk ss -> body_written ts ss.
Proof. exact body_is_written. Qed.
Print Assumptions C66_body.

(** A whole program: its statements and its macros, the last one first. *)
Theorem C66_program : forall toks st, parse_s toks = POk st -> exists ls kept defs, grouped toks ls /\ program_written ls kept defs /\
  lines_written line_written kept (ss_list st) /\ map snd (ss_macros st) = rev defs.
Proof. exact program_is_written. Qed.
Print Assumptions C66_program.

(** ** What the specification says *)

(** The place of a statement. *)
Definition stands_at (s : sstatement) : option pspan :=
  match s with
  | SSDirective (SDByte p _) | SSDirective (SDOrg p _) | SSDirective (SDWord p _) | SSDirective (SDText p _ _) | SSDirective (SDString p _ _)
  | SSDirective (SDCnop p _ _) | SSDirective (SDInclude p _ _) | SSLabel p _ | SSVariable p _ _ | SSAlias p _ _ | SSInstr p _ | SSMacroCall p _ _ => Some p
  | SSComment _ => None
  end.

(** Every statement but the includes of pictures begins with the first of its tokens. *)
Definition picture (s : sstatement) : bool :=
  match s with SSDirective (SDInclude _ (SIIcon _ _) _) | SSDirective (SDInclude _ (SISprite _ _) _) => true | _ => false end.

Theorem C66_begins : forall ts s, statement_written ts s -> picture s = false ->
  exists t r p, ts = t :: r /\ stands_at s = Some p /\ s_start (here p) = s_start (t_span t) /\ parents p = [].
Proof.
  intros ts s [t c n _ _|t n _ _|ts2 s2 C|ts2 d D|t n u ts2 e _ _ _|t n u ts2 e _ _ _] P.
  3: destruct C as [ts2 n args p C|ts2 n args p i C _]; destruct C.
  7: destruct D; try discriminate P.
  all: eexists _, _, _; (split; [reflexivity|]); (split; [reflexivity|]); auto.
Qed.
Print Assumptions C66_begins.

(** So every such statement of a line begins with one of its tokens. *)
Theorem C66_tokens : forall ts ss, line_written ts ss -> forall s, In s ss -> picture s = false ->
  exists t p, In t ts /\ stands_at s = Some p /\ s_start (here p) = s_start (t_span t).
Proof.
  intros ts ss [_|front rest s0 -> _ W|t c front rest n s0 -> _ _ _ W] s I P.
  - destruct I.
  - destruct I as [<-|[]]. destruct (C66_begins _ _ W P) as (t & r & p & -> & S & E & _). exists t, p. split; [now left|auto].
  - destruct I as [<-|[<-|[]]].
    + eexists t, _. split; [now left|]. split; reflexivity.
    + destruct (C66_begins front s0 (sw_command _ _ W) P) as (t2 & r & p & -> & S & E & _). exists t2, p. split; [|auto]. right; right. now left.
Qed.
Print Assumptions C66_tokens.

(** ** Cases *)

Definition new_line : string := String "010" "".
Definition stretch (pos line from to : nat) : pspan := mkP (mkSpan (mkLoc 0 pos line from) (mkLoc 0 (pos + (to - from)) line to)) [].

(** A label and an instruction on one line. *)
Example C66_line_case : exists toks, lex_input_s (new_input 0 "a: ld 1+b") = POk toks /\
  parse_line_s toks = POk [SSLabel (stretch 0 1 0 2) "a"; SSInstr (stretch 3 1 3 9)
    (Ld_d9 (XBin BPlus (stretch 6 1 6 9) (XNumber_ (stretch 6 1 6 7) 1%Z Decimal) (XName_ (stretch 8 1 8 9) "b")))].
Proof. eexists. split; [vm_compute; reflexivity|]. vm_compute. reflexivity. Qed.

(** Two lines of data. *)
Example C66_data_case : exists toks st, lex_input_s (new_input 0 (".byte 1, 2" ++ new_line ++ "x = 3")%string) = POk toks /\
  parse_s toks = POk st /\
  ss_list st = [SSDirective (SDByte (stretch 0 1 0 10) [SBExpr (XNumber_ (stretch 6 1 6 7) 1%Z Decimal); SBExpr (XNumber_ (stretch 9 1 9 10) 2%Z Decimal)]);
    SSVariable (stretch 11 2 0 5) "x" (XNumber_ (stretch 15 2 4 5) 3%Z Decimal)].
Proof. eexists. eexists. split; [vm_compute; reflexivity|]. split; [vm_compute; reflexivity|]. reflexivity. Qed.

(** A macro and its call. *)
Example C66_macro_case : exists toks st, lex_input_s (new_input 0 ("%macro m %x" ++ new_line ++ " l: inc %x" ++ new_line ++ "%end" ++ new_line ++ " m 5")%string) = POk toks /\
  parse_s toks = POk st /\
  ss_macros st = [(("m", 1), mkSMacro (stretch 7 1 7 8) "m" ["%x"] [SMLabel (stretch 13 2 1 3) "l"; SMInstr (stretch 16 2 4 10) "inc" [SAMacroArg (stretch 20 2 8 10) "%x"]])] /\
  ss_list st = [SSMacroCall (stretch 29 4 1 4) "m" [SAEx (XNumber_ (stretch 31 4 3 4) 5%Z Decimal)]].
Proof. eexists. eexists. split; [vm_compute; reflexivity|]. split; [vm_compute; reflexivity|]. split; reflexivity. Qed.

(** The place of an instruction begins with its name. *)
Example C66_begins_case : exists t ts p, lex_input_s (new_input 0 " ld 1") = POk (t :: ts) /\ parse_line_s (t :: ts) = POk [SSInstr p (Ld_d9 (XNumber_ (stretch 4 1 4 5) 1%Z Decimal))] /\
  line_written (t :: ts) [SSInstr p (Ld_d9 (XNumber_ (stretch 4 1 4 5) 1%Z Decimal))] /\ s_start (here p) = s_start (t_span t).
Proof.
  eexists _, _, (stretch 1 1 1 5). split; [vm_compute; reflexivity|]. assert (H: parse_line_s
    [mkToken (TName "ld") (here (stretch 1 1 1 3)); mkToken (TNumber 1 Decimal) (here (stretch 4 1 4 5)); mkToken TEOF (here (stretch 5 1 5 5))] =
    POk [SSInstr (stretch 1 1 1 5) (Ld_d9 (XNumber_ (stretch 4 1 4 5) 1%Z Decimal))]) by (vm_compute; reflexivity).
  split; [exact H|]. split; [|reflexivity]. apply C66_line. exact H.
Qed.
