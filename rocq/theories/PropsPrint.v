(** Properties C25, C26 and C48: printed expressions, instructions and programs are read back. *)
From Coq Require Import ZArith List String Ascii Bool Arith Lia.
From Verif Require Import Base Expr Instr Ast Lexer Parser Printer SpecIsa SpecLex SpecLine SpecPrint
  PrintProofs PrintProofs2 PrintProofs3 PrintProofs4 PrintProofs5.
Import ListNotations.
Open Scope string_scope.
Open Scope list_scope.
Local Open Scope nat_scope.

(** ** C25: expressions *)

(** An expression that the parser reads anywhere in a text, and that has no octal literal, is read back from
    its printed form as the very same tree. *)
Theorem C25_parses_back : forall f text toks a b e rest,
  lex_input (new_input f text) = Ok toks -> toks = a ++ b -> parse_expr (map t_type b) = Ok (e, rest) -> octal_free e ->
  exists toks', lex_input (new_input f (show_expr e)) = Ok toks' /\ parse_expr (map t_type toks') = Ok (e, [TEOF]).
Proof. exact parsed_expr_reads. Qed.
Print Assumptions C25_parses_back.

Definition expr_of (text : string) : outcome expr :=
  match lex_input (new_input 0 text) with
  | Ok toks => match parse_expr (map t_type toks) with Ok (e, _) => Ok e | _ => Panic end
  | _ => Panic
  end.

(** Nested operators of every precedence, a literal of each kept notation, a macro label and argument. *)
Example C25_case : exists e, expr_of "-(A + %101*$ff) / (b - (c - >x%)) & %arg ^ <1'0" = Ok e /\ octal_free e /\
  show_expr e = "(((-(a + (%00000101 * $FF))) / (b - (c - (>x%)))) & %arg) ^ (<10)" /\
  expr_of (show_expr e) = Ok e.
Proof.
  eexists. split; [vm_compute; reflexivity|]. split; [cbn; repeat split; discriminate|]. split; vm_compute; reflexivity.
Qed.

(** The same for the trees themselves, however they came about: this covers the expressions made by macro
    expansion and by the disassembler. *)
Theorem C25_printable_parses_back : forall f e, printable e ->
  exists toks, lex_input (new_input f (show_expr e)) = Ok toks /\ parse_expr (map t_type toks) = Ok (e, [TEOF]).
Proof. exact expr_reads. Qed.
Print Assumptions C25_printable_parses_back.

Example C25_printable_case : printable (EMinus (EName "a") (EMinus (ENumber 300 Hex) (EUnaryMinus (EName "b.$2")))).
Proof.
  split; cbn [lexable octal_free]; [|repeat split; discriminate].
  split; [apply plain_test; reflexivity|]. split; [lia|apply plain_test; reflexivity].
Qed.

(** An octal literal keeps its value exactly if it has one digit: it is printed as a hexadecimal literal. *)
Theorem C25_octal_iff : forall f n pr en, (0 <= n <= 2147483647)%Z ->
  ((exists toks e rest, lex_input (new_input f (show_expr (ENumber n Octal))) = Ok toks /\
     parse_expr (map t_type toks) = Ok (e, rest) /\ eval pr en e = Ok n) <-> (n < 8)%Z).
Proof. exact octal_reads. Qed.
Print Assumptions C25_octal_iff.

(** So printing does not keep the value of every expression the parser produces. *)
Theorem C25_value_kept_refuted : exists text e e', expr_of text = Ok e /\ expr_of (show_expr e) = Ok e' /\
  forall pr en, eval pr en e = Ok 15%Z /\ eval pr en e' = Ok 23%Z.
Proof.
  exists "0o17". eexists _, _. split; [vm_compute; reflexivity|]. split; [vm_compute; reflexivity|]. intros. split; reflexivity.
Qed.
Print Assumptions C25_value_kept_refuted.

(** ** C26: instructions *)

(** The instructions that the parser reads from a line of a text are printable if they are free of octal
    literals. *)
Theorem C26_parsed_printable : forall f text toks a b c stmts i,
  lex_input (new_input f text) = Ok toks -> toks = a ++ b ++ c -> parse_line (map t_type b) = Ok stmts -> In (SInstr i) stmts ->
  Forall (fun o => match o with inl e => octal_free e | inr _ => True end) (op_list i) -> printable_instr i.
Proof. exact parsed_instr_printable. Qed.
Print Assumptions C26_parsed_printable.

(** A printable instruction is read back from its printed line as itself, unless its first operand makes the
    line look like the definition of a constant. *)
Theorem C26_parses_back_iff : forall f i, printable_instr i ->
  ((exists toks, lex_input (new_input f (show_instr i)) = Ok toks /\ parse_line (map t_type toks) = Ok [SInstr i]) <->
   ~ reads_as_equ i).
Proof. exact instr_reads_iff. Qed.
Print Assumptions C26_parses_back_iff.

Example C26_case :
  printable_instr (Be_Rj R2 (EPlus (EName "x") (ENumber 1 Decimal)) (EName ".loop")) /\
  ~ reads_as_equ (Be_Rj R2 (EPlus (EName "x") (ENumber 1 Decimal)) (EName ".loop")) /\
  show_instr (Be_Rj R2 (EPlus (EName "x") (ENumber 1 Decimal)) (EName ".loop")) = "be    @R2, #x + 1, .loop".
Proof.
  split; [|split; [|reflexivity]].
  - unfold printable_instr. cbn [key snd op_list]. repeat apply Forall2_cons; try apply Forall2_nil; cbn; try exact Logic.I.
    + split; [|now left]. split; cbn; [|split; [exact Logic.I|discriminate]]. split; [apply plain_test; reflexivity|lia].
    + split; [|right; discriminate]. split; [apply plain_test; reflexivity|exact Logic.I].
  - intros (k & ks & e & os & _ & _ & O & _). discriminate.
Qed.

(** Behind a label every printable instruction is read back. *)
Theorem C26_labelled_parses_back : forall f n i, plain_name n -> printable_instr i ->
  exists toks, lex_input (new_input f (n ++ ": " ++ show_instr i)) = Ok toks /\
    parse_line (map t_type toks) = Ok [SLabel n; SInstr i].
Proof. exact labelled_instr_reads. Qed.
Print Assumptions C26_labelled_parses_back.

(** The exception happens: the instruction of the line [l: add equ - 1] prints as the definition of a
    constant named [add]. *)
Theorem C26_every_instruction_refuted : exists text toks i toks',
  lex_input (new_input 0 text) = Ok toks /\ parse_line (map t_type toks) = Ok [SLabel "l"; SInstr i] /\ printable_instr i /\
  lex_input (new_input 0 (show_instr i)) = Ok toks' /\
  parse_line (map t_type toks') = Ok [SAlias "add" (EUnaryMinus (ENumber 1 Decimal))].
Proof.
  exists "l: add equ - 1". eexists _, _, _. split; [vm_compute; reflexivity|]. split; [vm_compute; reflexivity|]. split.
  - unfold printable_instr. cbn [key snd op_list]. apply Forall2_cons; [|apply Forall2_nil]. split; [|right; discriminate].
    split; cbn; [|split; [exact Logic.I|discriminate]]. split; [apply plain_test; reflexivity|lia].
  - split; [vm_compute; reflexivity|vm_compute; reflexivity].
Qed.
Print Assumptions C26_every_instruction_refuted.

(** ** C48: printed programs *)

(** The printed form of a list of printable statements is read back as these statements without the
    comments. *)
Theorem C48_parses_back : forall f l, Forall printable_statement l ->
  exists toks, lex_input (new_input f (expand_output l)) = Ok toks /\
    parse toks = Ok (mkStatements [] (filter (fun s => negb (is_comment s)) l)).
Proof. exact output_reads. Qed.
Print Assumptions C48_parses_back.

Definition some_program : list statement :=
  [SDirective (DOrg 256); SComment " start"; SLabel "main"; SAlias "x" (ENumber 5 Binary);
   SInstr (Mov_d9 (EName "x") (EName "acc")); SDirective (DByte [BVString [104; 10]%Z; BVExpr (ENumber 0 Decimal)]); SComment ""].

Example C48_case : Forall printable_statement some_program /\ expand_output some_program = "  .org $0100
  ;;  start
main:
x EQU %00000101
  mov   #x, acc
  .byte ""h\n"",0

".
Proof.
  split; [|vm_compute; reflexivity]. unfold some_program. repeat apply Forall_cons; try apply Forall_nil; cbn [printable_statement].
  - cbn. lia.
  - right. left. cbn. unfold no_break. repeat split; discriminate.
  - apply plain_test. reflexivity.
  - split; [apply plain_test; reflexivity|]. split; [cbn; intuition discriminate|]. split; [cbn; lia|discriminate].
  - split.
    + unfold printable_instr. cbn [key snd op_list]. repeat apply Forall2_cons; try apply Forall2_nil.
      * split; [|now left]. split; [apply plain_test; reflexivity|exact Logic.I].
      * split; [|right; discriminate]. split; [apply plain_test; reflexivity|exact Logic.I].
    + intros (k & ks & e & os & K & N & _). cbn in K. injection K as <- _. congruence.
  - split; [discriminate|]. apply Forall_cons; [|apply Forall_cons; [|apply Forall_nil]].
    + apply Forall_cons; [|apply Forall_cons; [|apply Forall_nil]]; (split; [lia|cbn; intuition discriminate]).
    + split; [cbn; lia|discriminate].
  - now left.
Qed.

(** Strings are not printed faithfully in general: a quote inside one ends it. *)
Theorem C48_strings_refuted : exists text toks d, lex_input (new_input 0 text) = Ok toks /\
  parse toks = Ok (mkStatements [] [SDirective d]) /\
  lex_input (new_input 0 (expand_output [SDirective d])) = Err (UnexpectedChar 12).
Proof.
  exists ".byte ""a\""b""". eexists _, _. split; [vm_compute; reflexivity|]. split; [vm_compute; reflexivity|]. vm_compute. reflexivity.
Qed.
Print Assumptions C48_strings_refuted.

(** [.text] and [.string] are printed without quotes, so that what is read back is not even a directive. *)
Theorem C48_text_refuted : exists text toks d toks' er, lex_input (new_input 0 text) = Ok toks /\
  parse toks = Ok (mkStatements [] [SDirective d]) /\
  lex_input (new_input 0 (expand_output [SDirective d])) = Ok toks' /\ parse toks' = Err er.
Proof.
  exists ".text 4 ""ab""". eexists _, _, _, _. split; [vm_compute; reflexivity|]. split; [vm_compute; reflexivity|].
  split; [vm_compute; reflexivity|vm_compute; reflexivity].
Qed.
Print Assumptions C48_text_refuted.
