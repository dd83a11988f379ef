(** Which expressions, operands and statements the lexer and parser can produce, and which of them can be
    printed so that they are read back.  Nothing here refers to Printer.v. *)
From Coq Require Import ZArith List String Ascii Bool.
From Verif Require Import Base Expr Instr Ast Lexer SpecIsa SpecLex SpecLine.
Import ListNotations.
Open Scope string_scope.
Open Scope list_scope.

(** A name in lower case. *)
Definition plain_name (n : string) : Prop := identifier n /\ lower n = n.

(** Names and numbers as the lexer makes them. *)
Fixpoint lexable (e : expr) : Prop :=
  match e with
  | EName n => plain_name n
  | ENumber n _ => (0 <= n <= 2147483647)%Z
  | EMacroLabel n => exists w, plain_name w /\ n = (w ++ "%")%string
  | EMacroArg n => exists w, plain_name w /\ n = String "%" w
  | EPlus l r | EMinus l r | ETimes l r | EDivide l r | EXor l r | EAnd l r | EOr l r => lexable l /\ lexable r
  | EUnaryMinus x | EUpperByte x | ELowerByte x => lexable x
  end.

Fixpoint octal_free (e : expr) : Prop :=
  match e with
  | ENumber _ r => r <> Octal
  | EName _ | EMacroLabel _ | EMacroArg _ => True
  | EPlus l r | EMinus l r | ETimes l r | EDivide l r | EXor l r | EAnd l r | EOr l r => octal_free l /\ octal_free r
  | EUnaryMinus x | EUpperByte x | ELowerByte x => octal_free x
  end.

Definition printable (e : expr) : Prop := lexable e /\ octal_free e.

(** The operands of an instruction; a macro argument can only stand behind a [#] or inside a larger
    expression. *)
Definition printable_operand (k : kind) (o : expr + imode) : Prop :=
  match o with
  | inl e => printable e /\ (k = I8 \/ forall n, e <> EMacroArg n)
  | inr _ => True
  end.

Definition printable_instr (i : instr expr imode) : Prop := Forall2 printable_operand (snd (key i)) (op_list i).

(** The text of the expression begins with the name [equ]: it is this name, or a binary operation with this
    name on the left. *)
Definition opens_with_equ (e : expr) : Prop :=
  e = EName "equ" \/
  exists x, In e [EPlus (EName "equ") x; EMinus (EName "equ") x; ETimes (EName "equ") x; EDivide (EName "equ") x;
                 EXor (EName "equ") x; EAnd (EName "equ") x; EOr (EName "equ") x].

(** The first operand is a direct one and begins with the name [equ]; without a label in front, the line then
    looks like the definition of a constant named like the instruction. *)
Definition reads_as_equ (i : instr expr imode) : Prop :=
  exists k ks e os, snd (key i) = k :: ks /\ k <> I8 /\ op_list i = inl e :: os /\ opens_with_equ e.

(** Bytes of a string literal that printing and reading keep: ASCII, but neither a quote nor a backslash nor
    the control characters printed as [\a], [\f] and [\v], which the lexer does not know. *)
Definition printable_byte (b : Z) : Prop :=
  (0 <= b <= 127)%Z /\ ~ In b [34; 92; 7; 11; 12]%Z.

Definition printable_item (b : byte_value) : Prop :=
  match b with
  | BVExpr e => printable e
  | BVString bytes => Forall printable_byte bytes
  end.

Definition printable_directive (d : directive) : Prop :=
  match d with
  | DByte items => items <> [] /\ Forall printable_item items
  | DOrg n => (0 <= n <= 2147483647)%Z
  | DWord es => es <> [] /\ Forall printable es
  | DCnop a m => printable a /\ printable m
  | DText _ _ | DString _ _ | DInclude _ _ => False
  end.

(** Comments that stay comments: blank lines, or text on one line, possibly after an empty line. *)
Definition no_break (c : ascii) : Prop := c <> "010"%char /\ c <> "013"%char.

Definition printable_statement (s : statement) : Prop :=
  match s with
  | SDirective d => printable_directive d
  | SLabel n => plain_name n
  | SInstr i => printable_instr i /\ ~ reads_as_equ i
  | SVariable n e | SAlias n e => plain_name n /\ ~ In n directive_names /\ printable e
  | SComment c => c = "" \/ all_chars no_break c \/ exists t, c = String "010" t /\ all_chars no_break t
  | SMacroCall _ _ => False
  end.

Definition is_comment (s : statement) : bool := match s with SComment _ => true | _ => false end.
