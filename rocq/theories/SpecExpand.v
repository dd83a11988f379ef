(** Which expanded programs survive being printed and read again.  Nothing here refers to Printer.v. *)
From Coq Require Import ZArith List String Ascii Bool.
From Verif Require Import Base Expr Instr Ast SpecIsa SpecLex SpecPrint.
Import ListNotations.
Open Scope string_scope.
Open Scope list_scope.

(** No octal literals, and only literals that can be written. *)
Fixpoint ordinary_expr (e : expr) : Prop :=
  match e with
  | ENumber n r => r <> Octal /\ (0 <= n <= 2147483647)%Z
  | EName _ | EMacroLabel _ | EMacroArg _ => True
  | EPlus l r | EMinus l r | ETimes l r | EDivide l r | EXor l r | EAnd l r | EOr l r => ordinary_expr l /\ ordinary_expr r
  | EUnaryMinus x | EUpperByte x | ELowerByte x => ordinary_expr x
  end.

(** No [.text] and [.string], which are printed without quotes; no data directive without data, as
    including an empty file makes one; no difficult characters in strings; no instruction that looks like
    the definition of a constant; comments on one line. *)
Definition ordinary_statement (s : statement) : Prop :=
  match s with
  | SDirective (DByte items) =>
      items <> [] /\ Forall (fun b => match b with BVExpr e => ordinary_expr e | BVString bytes => Forall printable_byte bytes end) items
  | SDirective (DWord es) => es <> [] /\ Forall ordinary_expr es
  | SDirective (DCnop a m) => ordinary_expr a /\ ordinary_expr m
  | SDirective (DText _ _) | SDirective (DString _ _) => False
  | SDirective (DOrg _) | SDirective (DInclude _ _) | SLabel _ | SMacroCall _ _ => True
  | SInstr i => Forall (fun o => match o with inl e => ordinary_expr e | inr _ => True end) (op_list i) /\ ~ reads_as_equ i
  | SVariable _ e | SAlias _ e => ordinary_expr e
  | SComment c => c = "" \/ all_chars no_break c \/ exists t, c = String "010" t /\ all_chars no_break t
  end.

(** Identifiers drawn for macro labels consist of hexadecimal digits in lower case. *)
Definition proper_uuid (uuid : nat -> string) : Prop :=
  forall n, all_chars (fun c => In c (list_ascii_of_string "0123456789abcdef")) (uuid n).
