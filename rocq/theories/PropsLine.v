(** Properties of the parser above expressions: lines, macro definitions and whole programs (C46, C47). *)
From Coq Require Import ZArith List String Ascii Bool Arith Lia.
From Verif Require Import Base Expr Instr Ast Macro Lexer Parser SpecIsa SpecMacro MacroProofs SpecParse SpecLine LineProofs LineProofs2 LineProofs3.
Import ListNotations.
Open Scope string_scope.
Open Scope list_scope.

(** ** C46: lines *)

(** A line parses to exactly the statements the grammar gives to the tokens before the end-of-file token. *)
Theorem C46_line_iff : forall ts stmts,
  parse_line ts = Ok stmts <-> exists front, ends ts front /\ line front stmts.
Proof. exact parse_line_iff. Qed.
Print Assumptions C46_line_iff.

(** [loop: mov #1, acc] *)
Example C46_case_label_instr :
  line [TName "loop"; TColon; TName "mov"; THash; TNumber 1 Decimal; TComma; TName "acc"]
       [SLabel "loop"; SInstr (Mov_d9 (ENumber 1 Decimal) (EName "acc"))].
Proof.
  apply l_label_command.
  destruct (proj1 (make_instr_iff "mov" [AImm (ENumber 1 Decimal); AEx (EName "acc")] _) eq_refl) as (f & I & E & K & S).
  rewrite <- E. apply c_instr with (args := [AImm (ENumber 1 Decimal); AEx (EName "acc")]); auto.
  right. apply (sep_more operand_of [THash; TNumber 1 Decimal] _ [TName "acc"]).
  - apply o_immediate. repeat (apply g_tighter; [|discriminate]). apply g_number.
  - apply sep_one. apply o_direct; [|discriminate]. repeat (apply g_tighter; [|discriminate]). apply g_name.
Qed.

(** [.include sprite "a.png" type = "masked", header = "no"] *)
Example C46_case_sprite :
  parse_line [TName ".include"; TName "sprite"; TString "a.png"; TName "type"; TEquals; TString "masked"; TComma;
              TName "header"; TEquals; TString "no"; TEOF] = Ok [SDirective (DInclude (IncSprite Masked HeaderNo) "a.png")] /\
  exists front, ends [TName ".include"; TName "sprite"; TString "a.png"; TName "type"; TEquals; TString "masked"; TComma;
              TName "header"; TEquals; TString "no"; TEOF] front /\
    line front [SDirective (DInclude (IncSprite Masked HeaderNo) "a.png")].
Proof. assert (P: parse_line [TName ".include"; TName "sprite"; TString "a.png"; TName "type"; TEquals; TString "masked"; TComma;
              TName "header"; TEquals; TString "no"; TEOF] = Ok [SDirective (DInclude (IncSprite Masked HeaderNo) "a.png")])
    by (vm_compute; reflexivity).
  split; [exact P|]. now apply parse_line_iff in P.
Qed.

(** The grammar gives a line at most one reading. *)
Theorem C46_unambiguous : forall ts s1 s2, line ts s1 -> line ts s2 -> s1 = s2.
Proof. exact line_unique. Qed.
Print Assumptions C46_unambiguous.

Example C46_unambiguous_case : forall s, line [TName "x"; TName "equ"; TNumber 5 Decimal] s -> s = [SAlias "x" (ENumber 5 Decimal)].
Proof.
  intros s H. apply (line_unique _ _ _ H). apply l_alias.
  - repeat (apply g_tighter; [|discriminate]). apply g_number.
  - cbn. intros I. repeat destruct I as [I|I]; try discriminate; exact I.
Qed.

(** Anything else is reported as an error: no panic, no endless loop. *)
Theorem C46_total : forall ts, (exists stmts, parse_line ts = Ok stmts) \/ exists er, parse_line ts = Err er.
Proof. exact parse_line_total. Qed.
Print Assumptions C46_total.

Example C46_total_case : (exists er, parse_line [TName "x"; TColon; TName ".byte"; TNumber 1 Decimal; TEOF] = Err er) /\
  (exists er, parse_line [TName ".byte"; TEOF] = Err er).
Proof. split; eexists; vm_compute; reflexivity. Qed.

(** ** C47: macro definitions and whole programs *)

(** A token sequence parses to a program exactly when its lines are statements and macro definitions that
    make up this program. *)
Theorem C47_program_iff : forall ts p, parse ts = Ok p <->
  exists groups defs stmts, grouped ts groups /\ program [] (map (map t_type) groups) stmts defs /\
    p = mkStatements (by_name defs) stmts.
Proof. exact parse_iff. Qed.
Print Assumptions C47_program_iff.

Local Definition LFs : string := String "010" "".

Example C47_case : exists toks,
  lex_input (new_input 0 ("%macro inc2 %a" ++ LFs ++ "x%: inc %a" ++ LFs ++ "  inc %a" ++ LFs ++ "%end" ++ LFs ++ "  inc2 acc" ++ LFs)%string) = Ok toks /\
  parse toks = Ok (mkStatements
    [(("inc2", 1%nat), mkMacro "inc2" ["%a"] [MMacroLabel "x%"; MInstr "inc" [AMacroArg "%a"]; MInstr "inc" [AMacroArg "%a"]])]
    [SMacroCall "inc2" [AEx (EName "acc")]]).
Proof. eexists. split; [vm_compute; reflexivity|vm_compute; reflexivity]. Qed.

(** The grouping into lines is determined by the positions of the tokens. *)
Theorem C47_lines_iff : forall ts gs, lines ts = gs <-> grouped ts gs.
Proof. exact lines_iff. Qed.
Print Assumptions C47_lines_iff.

(** A definition that is never closed takes the rest of the text without complaint. *)
Theorem C47_must_be_closed_refuted : exists text toks p,
  lex_input (new_input 0 text) = Ok toks /\ parse toks = Ok p /\
  (exists tok, In tok toks /\ t_type tok = TMacroIdent "%macro") /\ (forall tok, In tok toks -> t_type tok <> TMacroIdent "%end").
Proof.
  exists ("%macro m" ++ LFs ++ "  nop" ++ LFs)%string. eexists _, _. split; [vm_compute; reflexivity|]. split; [vm_compute; reflexivity|].
  split; [eexists; split; [left; reflexivity|reflexivity]|]. intros tok I. cbn in I.
  repeat destruct I as [<-|I]; try discriminate; destruct I.
Qed.
Print Assumptions C47_must_be_closed_refuted.

Theorem C47_total : forall ts, (exists p, parse ts = Ok p) \/ exists er, parse ts = Err er.
Proof. exact parse_total. Qed.
Print Assumptions C47_total.
