(** Specification side of instruction selection and macro expansion.  Nothing here refers to the
    functions of Macro.v. *)
From Coq Require Import ZArith List String Ascii Bool Relations.
From Verif Require Import Base Expr Instr Ast SpecIsa.
Import ListNotations.
Open Scope string_scope.
Open Scope list_scope.

(** The written shape of an operand of each kind of the reference: immediates are written with [#],
    register indirection as [@Ri], everything else as a plain expression
    (/repo/docs/instructions.md 33-37). *)
Definition shape (k : kind) (a : arg) (o : expr + imode) : Prop :=
  match k, a with
  | I8, AImm e => o = inl e
  | Ri, AIM m => o = inr m
  | (D9 | B3 | A12 | A16 | R8 | R16), AEx e => o = inl e
  | _, _ => False
  end.

(** [shapes ks args os]: the arguments fit the operand kinds one by one and carry the operands [os]. *)
Inductive shapes : list kind -> list arg -> list (expr + imode) -> Prop :=
| shapes_nil : shapes [] [] []
| shapes_cons k ks a t o os : shape k a o -> shapes ks t os -> shapes (k :: ks) (a :: t) (o :: os).

(** The reference lists the mnemonic with operands of these shapes. *)
Definition listed (name : string) (args : list arg) : Prop :=
  exists f os, In f isa /\ f_name f = name /\ shapes (f_kinds f) args os.

(** The reference lists the mnemonic. *)
Definition known (name : string) : Prop := exists f, In f isa /\ f_name f = name.

(** An expression without macro labels and macro arguments. *)
Fixpoint plain (e : expr) : Prop :=
  match e with
  | EName _ | ENumber _ _ => True
  | EPlus l r | EMinus l r | ETimes l r | EDivide l r | EXor l r | EAnd l r | EOr l r => plain l /\ plain r
  | EUnaryMinus x | EUpperByte x | ELowerByte x => plain x
  | EMacroLabel _ | EMacroArg _ => False
  end.

Definition plain_arg (a : arg) : Prop :=
  match a with
  | AImm e | AEx e => plain e
  | AIM _ => True
  | AMacroArg _ => False
  end.

Definition plain_operand (o : expr + imode) : Prop := match o with inl e => plain e | inr _ => True end.

(** A statement in which nothing of the macro language is left. *)
Definition plain_statement (s : statement) : Prop :=
  match s with
  | SMacroCall _ _ => False
  | SInstr i => Forall plain_operand (op_list i)
  | SVariable _ e | SAlias _ e => plain e
  | SDirective (DByte items) => Forall (fun b => match b with BVExpr e => plain e | BVString _ => True end) items
  | SDirective (DWord ws) => Forall plain ws
  | SDirective (DCnop a m) => plain a /\ plain m
  | _ => True
  end.

(** [binds params args x a]: the argument for parameter [x] is [a]; when a parameter name is
    repeated, the last one counts. *)
Definition binds (params : list string) (args : list arg) (x : string) (a : arg) : Prop :=
  exists i, nth_error params i = Some x /\ nth_error args i = Some a /\
            forall j, (i < j)%nat -> nth_error params j <> Some x.

(** Simultaneous substitution of labels and arguments in an expression: an argument is put in as it
    is. *)
Inductive subst (lab : string -> string -> Prop) (par : string -> arg -> Prop) : expr -> expr -> Prop :=
| su_name n : subst lab par (EName n) (EName n)
| su_num n r : subst lab par (ENumber n r) (ENumber n r)
| su_label n l : lab n l -> subst lab par (EMacroLabel n) (EName l)
| su_arg n e : par n (AEx e) -> subst lab par (EMacroArg n) e
| su_plus l r l' r' : subst lab par l l' -> subst lab par r r' -> subst lab par (EPlus l r) (EPlus l' r')
| su_minus l r l' r' : subst lab par l l' -> subst lab par r r' -> subst lab par (EMinus l r) (EMinus l' r')
| su_times l r l' r' : subst lab par l l' -> subst lab par r r' -> subst lab par (ETimes l r) (ETimes l' r')
| su_div l r l' r' : subst lab par l l' -> subst lab par r r' -> subst lab par (EDivide l r) (EDivide l' r')
| su_xor l r l' r' : subst lab par l l' -> subst lab par r r' -> subst lab par (EXor l r) (EXor l' r')
| su_and l r l' r' : subst lab par l l' -> subst lab par r r' -> subst lab par (EAnd l r) (EAnd l' r')
| su_or l r l' r' : subst lab par l l' -> subst lab par r r' -> subst lab par (EOr l r) (EOr l' r')
| su_neg x x' : subst lab par x x' -> subst lab par (EUnaryMinus x) (EUnaryMinus x')
| su_upper x x' : subst lab par x x' -> subst lab par (EUpperByte x) (EUpperByte x')
| su_lower x x' : subst lab par x x' -> subst lab par (ELowerByte x) (ELowerByte x').

(** The same for an argument of an instruction in a macro body: a bare parameter may stand for an
    argument of any kind. *)
Inductive subst_arg (lab : string -> string -> Prop) (par : string -> arg -> Prop) : arg -> arg -> Prop :=
| sa_par n a : par n a -> subst_arg lab par (AMacroArg n) a
| sa_imm e e' : subst lab par e e' -> subst_arg lab par (AImm e) (AImm e')
| sa_ex e e' : subst lab par e e' -> subst_arg lab par (AEx e) (AEx e')
| sa_im m : subst_arg lab par (AIM m) (AIM m).

(** The macro labels of a body in order, and the position of the macro label [x] among them. *)
Definition macro_labels (body : list macro_statement) : list string :=
  flat_map (fun s => match s with MMacroLabel n => [n] | _ => [] end) body.

(** A text without its percent signs. *)
Definition no_percent (s : string) : string :=
  string_of_list_ascii (filter (fun c => negb (Ascii.eqb c "%")) (list_ascii_of_string s)).

(** The name a macro label stands for in the expansion whose first unique suffix is number [n]. *)
Definition label_name (uuid : nat -> string) (n : nat) (body : list macro_statement) (x l : string) : Prop :=
  exists i, nth_error (macro_labels body) i = Some x /\ l = (no_percent x ++ "_" ++ uuid (n + i)%nat)%string.

(** Big-step meaning of a macro call.  [call_rel n name args out n']: the call of the macro [name] with
    arguments [args] stands for the statements [out]; the suffixes number [n] to [n' - 1] are used. *)
Inductive call_rel (uuid : nat -> string) (ms : macros) : nat -> string -> list arg -> list statement -> nat -> Prop :=
| call_intro n name args def out n' :
    find_macro ms name (List.length args) = Some def ->
    List.length (m_args def) = List.length args ->
    NoDup (macro_labels (m_body def)) ->
    body_rel uuid ms (label_name uuid n (m_body def)) (binds (m_args def) args)
             (n + List.length (macro_labels (m_body def))) (m_body def) out n' ->
    call_rel uuid ms n name args out n'
with body_rel (uuid : nat -> string) (ms : macros)
  : (string -> string -> Prop) -> (string -> arg -> Prop) -> nat -> list macro_statement -> list statement -> nat -> Prop :=
| body_nil lab par n : body_rel uuid ms lab par n [] [] n
| body_label lab par n x t out n' :
    body_rel uuid ms lab par n t out n' ->
    body_rel uuid ms lab par n (MLabel x :: t) (SLabel x :: out) n'
| body_macro_label (lab : string -> string -> Prop) par n x l t out n' :
    lab x l ->
    body_rel uuid ms lab par n t out n' ->
    body_rel uuid ms lab par n (MMacroLabel x :: t) (SLabel l :: out) n'
| body_instr (lab : string -> string -> Prop) (par : string -> arg -> Prop) n name args args' f i t out n' :
    find_macro ms name (List.length args) = None ->
    Forall2 (subst_arg lab par) args args' ->
    In f isa -> key i = (f_name f, f_kinds f) -> f_name f = name -> shapes (f_kinds f) args' (op_list i) ->
    body_rel uuid ms lab par n t out n' ->
    body_rel uuid ms lab par n (MInstr name args :: t) (SInstr i :: out) n'
| body_call (lab : string -> string -> Prop) (par : string -> arg -> Prop) n name args args' def here n1 t out n' :
    find_macro ms name (List.length args) = Some def ->
    Forall2 (subst_arg lab par) args args' ->
    call_rel uuid ms n name args' here n1 ->
    body_rel uuid ms lab par n1 t out n' ->
    body_rel uuid ms lab par n (MInstr name args :: t) (here ++ out) n'.

Scheme call_rel_ind2 := Minimality for call_rel Sort Prop
with body_rel_ind2 := Minimality for body_rel Sort Prop.
Combined Scheme call_body_ind from call_rel_ind2, body_rel_ind2.

(** A statement list: calls are replaced by what they stand for, everything else stays. *)
Inductive list_rel (uuid : nat -> string) (ms : macros) : nat -> list statement -> list statement -> nat -> Prop :=
| lr_nil n : list_rel uuid ms n [] [] n
| lr_call n name args here n1 t out n' :
    call_rel uuid ms n name args here n1 ->
    list_rel uuid ms n1 t out n' ->
    list_rel uuid ms n (SMacroCall name args :: t) (here ++ out) n'
| lr_other n s t out n' :
    (forall name args, s <> SMacroCall name args) ->
    list_rel uuid ms n t out n' ->
    list_rel uuid ms n (s :: t) (s :: out) n'.

(** The arguments of the macro calls of a program contain nothing of the macro language. *)
Definition plain_call (s : statement) : Prop :=
  match s with SMacroCall _ args => Forall plain_arg args | _ => True end.

(** One macro calls another: the instruction [name args] in the body of a macro of the table names a
    macro of the table. *)
Definition calls (ms : macros) (a b : string * nat) : Prop :=
  exists def args, find_macro ms (fst a) (snd a) = Some def /\
    In (MInstr (fst b) args) (m_body def) /\ List.length args = snd b /\
    find_macro ms (fst b) (snd b) <> None.

(** No macro calls itself, directly or through others. *)
Definition acyclic (ms : macros) : Prop := forall a, ~ clos_trans _ (calls ms) a a.

(** The table is as the parser builds it: a macro is stored under its own number of parameters. *)
Definition arities_ok (ms : macros) : Prop :=
  forall name k def, find_macro ms name k = Some def -> List.length (m_args def) = k.

(** The labels written in the source: those between macro calls and the ordinary labels in macro
    bodies. *)
Definition source_label (ms : macros) (l : list statement) (x : string) : Prop :=
  In (SLabel x) l \/ exists name k def, find_macro ms name k = Some def /\ In (MLabel x) (m_body def).

(** [x] ends in [y]. *)
Definition ends_in (x y : string) : Prop := exists p, x = (p ++ y)%string.

(** The body with the parameter [x] written as the name [P x] and the macro label as its label. *)
Fixpoint rename (lab : string -> string) (P : string -> string) (e : expr) : expr :=
  match e with
  | EXor l r => EXor (rename lab P l) (rename lab P r)
  | EAnd l r => EAnd (rename lab P l) (rename lab P r)
  | EOr l r => EOr (rename lab P l) (rename lab P r)
  | EName n => EName n
  | EPlus l r => EPlus (rename lab P l) (rename lab P r)
  | EMinus l r => EMinus (rename lab P l) (rename lab P r)
  | EUnaryMinus x => EUnaryMinus (rename lab P x)
  | ETimes l r => ETimes (rename lab P l) (rename lab P r)
  | EDivide l r => EDivide (rename lab P l) (rename lab P r)
  | ENumber n r => ENumber n r
  | EUpperByte x => EUpperByte (rename lab P x)
  | ELowerByte x => ELowerByte (rename lab P x)
  | EMacroLabel n => EName (lab n)
  | EMacroArg n => EName (P n)
  end.

(** The name [n] is written in the expression. *)
Fixpoint mentions (e : expr) (n : string) : Prop :=
  match e with
  | EName m => m = n
  | EPlus l r | EMinus l r | ETimes l r | EDivide l r | EXor l r | EAnd l r | EOr l r => mentions l n \/ mentions r n
  | EUnaryMinus x | EUpperByte x | ELowerByte x => mentions x n
  | ENumber _ _ | EMacroLabel _ | EMacroArg _ => False
  end.
