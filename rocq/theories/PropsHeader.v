(** Properties of C headers (C41). *)
From Coq Require Import ZArith List String Ascii Bool Arith Lia.
From Verif Require Import Base Expr Instr Ast Lexer Parser CHeader SpecLex SpecParse SpecLine SpecHeader LineProofs3 HeaderProofs HeaderProofs2.
Import ListNotations.
Open Scope string_scope.
Open Scope list_scope.

Local Definition NL : string := String "010" "".

(** A header with both kinds of comments, one of them over two lines and one not closed. *)
Definition some_header : string :=
  ("// flags" ++ NL ++ "#define A 1 /* one // " ++ NL ++ " ** */" ++ NL ++ "# DEFINE b (A+0x10)/2 // #define C" ++ NL ++ "/* the end")%string.

(** ** The tokens of a header *)

(** A header is split exactly into its tokens, with their places, whatever comments and blanks are between. *)
Theorem C41_tokens_iff : forall f text toks,
  lex_for_ws skip_c (new_input f text) = Ok toks <-> exists ps, header_text text ps /\ toks = tokens_of f "" ps.
Proof. exact header_tokens_iff. Qed.
Print Assumptions C41_tokens_iff.

Example C41_tokens_case : exists toks, lex_for_ws skip_c (new_input 0 some_header) = Ok toks /\
  map t_type toks = [THash; TName "define"; TName "a"; TNumber 1 Decimal;
    THash; TName "define"; TName "b"; TLeftParen; TName "a"; TPlus; TNumber 16 Hex; TRightParen; TDivide; TNumber 2 Decimal; TEOF].
Proof. eexists. split; [vm_compute; reflexivity|vm_compute; reflexivity]. Qed.

(** ** The lines of a header *)

(** Each line [# define NAME ...] becomes [NAME equ ...]; every other line is kept as it is.  The lines of
    the result are these lines, none joined or split. *)
Theorem C41_lines : forall f text out, header_lex (new_input f text) = Ok out ->
  exists ps gs gs', header_text text ps /\ grouped (tokens_of f "" ps) gs /\
    Forall2 converted gs gs' /\ out = List.concat gs' /\ grouped out gs'.
Proof.
  intros f text out H. apply header_lex_iff in H as (ps & gs & gs' & A & B & _ & C & D & E).
  exists ps, gs, gs'. auto.
Qed.
Print Assumptions C41_lines.

Example C41_lines_case : exists out, header_lex (new_input 0 (some_header)) = Ok out /\
  map (map t_type) (lines out) = [[TName "a"; TName "equ"; TNumber 1 Decimal];
    [TName "b"; TName "equ"; TLeftParen; TName "a"; TPlus; TNumber 16 Hex; TRightParen; TDivide; TNumber 2 Decimal; TEOF]].
Proof. eexists. split; [vm_compute; reflexivity|vm_compute; reflexivity]. Qed.

(** A header whose text consists of tokens is accepted exactly when each line that begins with [# define]
    goes on with a name and an expression; otherwise there is an error. *)
Theorem C41_accepted_iff : forall f text ps gs, header_text text ps -> grouped (tokens_of f "" ps) gs ->
  ((exists out, header_lex (new_input f text) = Ok out) <->
   Forall (fun g => define_line (map t_type g) -> good_define (map t_type g)) gs) /\
  (~ Forall (fun g => define_line (map t_type g) -> good_define (map t_type g)) gs ->
   exists er, header_lex (new_input f text) = Err er).
Proof. exact header_accepts. Qed.
Print Assumptions C41_accepted_iff.

Example C41_accepted_case :
  (exists out, header_lex (new_input 0 ("#define X 3" ++ NL ++ "#undef X")) = Ok out) /\
  (exists er, header_lex (new_input 0 ("#define X 3" ++ NL ++ "#define Y")) = Err er) /\
  (exists er, header_lex (new_input 0 "#define x 1 +") = Err er).
Proof. repeat split; eexists; vm_compute; reflexivity. Qed.

(** ** Constants *)

(** A header of empty lines and definitions gives exactly these constants, in this order. *)
Theorem C41_constants : forall f text ps gs cs,
  header_text text ps -> grouped (tokens_of f "" ps) gs -> constants (map (map t_type) gs) cs ->
  exists out, header_lex (new_input f text) = Ok out /\
    parse out = Ok (mkStatements [] (map (fun c => SAlias (fst c) (snd c)) cs)).
Proof. exact header_constants. Qed.
Print Assumptions C41_constants.

Local Ltac not_directive := cbn; intros I; repeat destruct I as [I|I]; try discriminate; exact I.
Local Ltac no_eof := cbn; intros I; repeat destruct I as [I|I]; try discriminate; exact I.

(** The header above meets the hypotheses. *)
Lemma some_header_constants : exists ps gs, header_text some_header ps /\ grouped (tokens_of 7 "" ps) gs /\
  constants (map (map t_type) gs) [("a", ENumber 1 Decimal); ("b", EDivide (EPlus (EName "a") (ENumber 16 Hex)) (ENumber 2 Decimal))].
Proof.
  assert (T: exists toks, lex_for_ws skip_c (new_input 7 some_header) = Ok toks /\
    map (map t_type) (lines toks) = [[THash; TName "define"; TName "a"; TNumber 1 Decimal];
      [THash; TName "define"; TName "b"; TLeftParen; TName "a"; TPlus; TNumber 16 Hex; TRightParen; TDivide; TNumber 2 Decimal; TEOF]]).
  { eexists. split; [vm_compute; reflexivity|vm_compute; reflexivity]. }
  destruct T as (toks & T & E). apply header_tokens_iff in T as (ps & HT & ->).
  exists ps, (lines (tokens_of 7 "" ps)). split; [exact HT|]. split; [apply lines_grouped|]. rewrite E.
  apply cs_define with (ets := [TNumber 1 Decimal]).
  - apply ends_all. no_eof.
  - repeat (apply g_tighter; [|discriminate]). apply g_number.
  - not_directive.
  - apply cs_define with (ets := [TLeftParen; TName "a"; TPlus; TNumber 16 Hex; TRightParen; TDivide; TNumber 2 Decimal]).
    + apply (ends_eof [THash; TName "define"; TName "b"; TLeftParen; TName "a"; TPlus; TNumber 16 Hex; TRightParen; TDivide; TNumber 2 Decimal] []).
      no_eof.
    + assert (P: parse_expr [TLeftParen; TName "a"; TPlus; TNumber 16 Hex; TRightParen; TDivide; TNumber 2 Decimal] =
        Ok (EDivide (EPlus (EName "a") (ENumber 16 Hex)) (ENumber 2 Decimal), [])) by (vm_compute; reflexivity).
      apply ParseProofs.parse_expr_iff in P as (front & P & X & _). rewrite app_nil_r in P. subst front. exact X.
    + not_directive.
    + constructor.
Qed.

Example C41_constants_case : exists out, header_lex (new_input 7 some_header) = Ok out /\
  parse out = Ok (mkStatements [] [SAlias "a" (ENumber 1 Decimal);
    SAlias "b" (EDivide (EPlus (EName "a") (ENumber 16 Hex)) (ENumber 2 Decimal))]).
Proof.
  destruct some_header_constants as (ps & gs & A & B & C).
  exact (C41_constants 7 some_header ps gs _ A B C).
Qed.

(** The header means the same as any assembly text that gives these constants with [equ]. *)
Theorem C41_equivalent : forall f text ps gs cs f2 text2 toks2 gs2,
  header_text text ps -> grouped (tokens_of f "" ps) gs -> constants (map (map t_type) gs) cs ->
  lex_input (new_input f2 text2) = Ok toks2 -> grouped toks2 gs2 -> equ_lines (map (map t_type) gs2) cs ->
  exists out, header_lex (new_input f text) = Ok out /\ parse out = parse toks2.
Proof. exact header_equivalent. Qed.
Print Assumptions C41_equivalent.

Example C41_equivalent_case : exists toks2 out,
  lex_input (new_input 0 ("A equ 1 ; one" ++ NL ++ NL ++ "* b" ++ NL ++ "b equ (a+$10)/2")) = Ok toks2 /\
  header_lex (new_input 7 some_header) = Ok out /\ parse out = parse toks2 /\ exists p, parse out = Ok p.
Proof.
  eexists. eexists. split; [vm_compute; reflexivity|]. split; [vm_compute; reflexivity|]. split; [vm_compute; reflexivity|].
  eexists. vm_compute. reflexivity.
Qed.

(** ** Everything else is not ignored *)

(** Other lines are kept: an include guard makes the parser fail, a line of assembly is assembled, and a
    definition without value or an ordinary C declaration is rejected at once. *)
Theorem C41_ignores_everything_else_refuted : exists guard code bare decl,
  guard = ("#ifdef A" ++ NL ++ "#define B 1" ++ NL ++ "#endif")%string /\
  code = ("#define B 1" ++ NL ++ "  nop")%string /\
  bare = ("#define A" ++ NL ++ "#define B 1")%string /\
  decl = ("int x;" ++ NL ++ "#define B 1")%string /\
  (exists out er, header_lex (new_input 0 guard) = Ok out /\ parse out = Err er) /\
  (exists out, header_lex (new_input 0 code) = Ok out /\
     parse out = Ok (mkStatements [] [SAlias "b" (ENumber 1 Decimal); SInstr Nop])) /\
  (exists er, header_lex (new_input 0 bare) = Err er) /\
  (exists er, header_lex (new_input 0 decl) = Err er).
Proof.
  do 4 eexists. do 4 (split; [reflexivity|]). repeat split.
  - eexists. eexists. split; [vm_compute; reflexivity|vm_compute; reflexivity].
  - eexists. split; [vm_compute; reflexivity|vm_compute; reflexivity].
  - eexists. vm_compute. reflexivity.
  - eexists. vm_compute. reflexivity.
Qed.
Print Assumptions C41_ignores_everything_else_refuted.
