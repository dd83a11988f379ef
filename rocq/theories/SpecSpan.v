(** What the places in expressions and error messages should be, stated on the tokens as they were written. *)
From Coq Require Import ZArith List String Ascii Bool.
From Verif Require Import Base Expr Instr Lexer Parser SpecParse Span.
Import ListNotations.
Open Scope list_scope.

(** A result without the place of its error. *)
Definition unplaced {A B : Type} (f : A -> B) (x : placed A) : outcome B :=
  match x with POk a => Ok (f a) | PErr e _ => Err e | PPanic => Panic | PDiverge => Diverge end.

Definition types (ts : list token) : list token_type := map t_type ts.

(** A subexpression, the expression itself included. *)
Inductive part_of : sexpr -> sexpr -> Prop :=
| part_self : forall e, part_of e e
| part_under : forall x op s e, part_of x e -> part_of x (XUn op s e)
| part_left : forall x op s l r, part_of x l -> part_of x (XBin op s l r)
| part_right : forall x op s l r, part_of x r -> part_of x (XBin op s l r).

Fixpoint unary_free (e : sexpr) : Prop :=
  match e with
  | XUn _ _ _ => False
  | XBin _ _ l r => unary_free l /\ unary_free r
  | _ => True
  end.

(** The place begins with the first token that is not an opening parenthesis. *)
Definition begins (ts : list token) (s : pspan) : Prop :=
  exists parens t r, ts = parens ++ t :: r /\ Forall (fun u => t_type u = TLeftParen) parens /\
    t_type t <> TLeftParen /\ s_start (here s) = s_start (t_span t).

(** The place ends with the last token that is not a closing parenthesis. *)
Definition ends (ts : list token) (s : pspan) : Prop :=
  exists r t parens, ts = r ++ t :: parens /\ Forall (fun u => t_type u = TRightParen) parens /\
    t_type t <> TRightParen /\ s_end (here s) = s_end (t_span t).

(** The tokens can still be completed to an expression. *)
Definition viable (ts : list token_type) : Prop := exists more e, expression Bits (ts ++ more) e.

(** The name has a value. *)
Definition known (en : env) (n : string) : Prop := env_get en (lower n) <> None.

(** * Macros *)

(** The definition of a name with a number of arguments. *)
Definition defined_as (ms : smacros) (name : string) (arity : nat) (d : smacro_def) : Prop :=
  exists before after, ms = before ++ ((name, arity), d) :: after /\ forall d2, ~ In ((name, arity), d2) before.

(** No macro, so an instruction. *)
Definition no_macro (ms : smacros) (name : string) (arity : nat) : Prop := forall d, ~ In ((name, arity), d) ms.

(** [reached ms call d0 d calls]: the expansion of [call], a call of [d0], comes to the body of [d] through these calls,
    the innermost first. *)
Inductive reached (ms : smacros) (call : list span) (d0 : smacro_def) : smacro_def -> list span -> Prop :=
| reached_call : reached ms call d0 d0 call
| reached_nested : forall d calls s name args d2,
    reached ms call d0 d calls -> In (SMInstr s name args) (sm_body d) -> defined_as ms name (List.length args) d2 ->
    reached ms call d0 d2 (here s :: calls).

(** The expressions of arguments. *)
Inductive in_args : list sarg -> sexpr -> Prop :=
| in_imm : forall args e x, In (SAImm e) args -> part_of x e -> in_args args x
| in_ex : forall args e x, In (SAEx e) args -> part_of x e -> in_args args x.

(** The operands of an instruction that are expressions. *)
Definition operand_exprs {E I : Type} (i : instr E I) : list E :=
  match i with
  | Add_i8 a => [a]
  | Add_d9 a => [a]
  | Add_Ri _ => []
  | Addc_i8 a => [a]
  | Addc_d9 a => [a]
  | Addc_Ri _ => []
  | Sub_i8 a => [a]
  | Sub_d9 a => [a]
  | Sub_Ri _ => []
  | Subc_i8 a => [a]
  | Subc_d9 a => [a]
  | Subc_Ri _ => []
  | Inc_d9 a => [a]
  | Inc_Ri _ => []
  | Dec_d9 a => [a]
  | Dec_Ri _ => []
  | Mul => []
  | Div => []
  | And_i8 a => [a]
  | And_d9 a => [a]
  | And_Ri _ => []
  | Or_i8 a => [a]
  | Or_d9 a => [a]
  | Or_Ri _ => []
  | Xor_i8 a => [a]
  | Xor_d9 a => [a]
  | Xor_Ri _ => []
  | Rol => []
  | Rolc => []
  | Ror => []
  | Rorc => []
  | Ld_d9 a => [a]
  | Ld_Ri _ => []
  | St_d9 a => [a]
  | St_Ri _ => []
  | Mov_d9 a b => [a; b]
  | Mov_Rj a _ => [a]
  | Ldc => []
  | Push a => [a]
  | Pop a => [a]
  | Xch_d9 a => [a]
  | Xch_Ri _ => []
  | Jmp a => [a]
  | Jmpf a => [a]
  | Br a => [a]
  | Brf a => [a]
  | Bz a => [a]
  | Bnz a => [a]
  | Bp a b c => [a; b; c]
  | Bpc a b c => [a; b; c]
  | Bn a b c => [a; b; c]
  | Dbnz_d9 a b => [a; b]
  | Dbnz_Ri _ b => [b]
  | Be_i8 a b => [a; b]
  | Be_d9 a b => [a; b]
  | Be_Rj _ b c => [b; c]
  | Bne_i8 a b => [a; b]
  | Bne_d9 a b => [a; b]
  | Bne_Rj _ b c => [b; c]
  | Call a => [a]
  | Callf a => [a]
  | Callr a => [a]
  | Ret => []
  | Reti => []
  | Clr1 a b => [a; b]
  | Set1 a b => [a; b]
  | Not1 a b => [a; b]
  | Nop => []
  | Ldf => []
  | Stf => []
  end.

(** The expressions of an instruction. *)
Definition in_instr (i : instr sexpr imode) (x : sexpr) : Prop := exists e, In e (operand_exprs i) /\ part_of x e.

(** Neither a whole argument nor a part of one is a macro parameter. *)
Definition without_parameters (args : list sarg) : Prop :=
  (forall s n, ~ In (SAMacroArg s n) args) /\ (forall s n, ~ in_args args (XMacroArg_ s n)).

(** An expression as it is written: in the arguments of the call or in the body of a macro that is reached. *)
Definition as_written (ms : smacros) (call : list span) (d0 : smacro_def) (args : list sarg) (x : sexpr) : Prop :=
  in_args args x \/
  exists d calls s name bargs, reached ms call d0 d calls /\ In (SMInstr s name bargs) (sm_body d) /\ in_args bargs x.

(** Where something stands that takes part in the expansion: the call, the head of a macro that is reached, a statement
    in its body, an argument that is a parameter, or an expression. *)
Definition stands (ms : smacros) (call : pspan) (d0 : smacro_def) (args : list sarg) (place : span) : Prop :=
  place = here call \/
  (exists d calls, reached ms (here call :: parents call) d0 d calls /\ place = here (sm_span d)) \/
  (exists d calls st, reached ms (here call :: parents call) d0 d calls /\ In st (sm_body d) /\
     match st with
     | SMInstr s _ bargs => place = here s \/ exists p n, In (SAMacroArg p n) bargs /\ place = here p
     | SMLabel s _ | SMMacroLabel s _ => place = here s
     end) \/
  exists x, as_written ms (here call :: parents call) d0 args x /\ place = here (span_of x).
