(** What macro calls stand for, with the places of all parts, and what is wrong with those that stand for nothing. *)
From Coq Require Import ZArith List String Ascii Bool.
From Verif Require Import Base Expr Instr Ast Span SpecSpan SpecIsa SpecMacro.
Import ListNotations.
Open Scope string_scope.
Open Scope list_scope.
Local Open Scope nat_scope.

(** * Places *)

(** The place [s] in the body of a macro, seen from the call [inv]: behind it are the call and the calls that led to it. *)
Definition via (inv s : pspan) : pspan := mkP (here s) (here inv :: parents inv).

(** An expression at another place. *)
Definition moved (e : sexpr) (p : pspan) : sexpr :=
  match e with
  | XName_ _ n => XName_ p n
  | XNumber_ _ n r => XNumber_ p n r
  | XMacroLabel_ _ n => XMacroLabel_ p n
  | XMacroArg_ _ n => XMacroArg_ p n
  | XUn op _ x => XUn op p x
  | XBin op _ l r => XBin op p l r
  end.

(** * Parameters and labels *)

(** The argument for a parameter; of parameters with the same name the last one counts. *)
Definition bound (params : list string) (args : list sarg) (x : string) (a : sarg) : Prop :=
  exists i, nth_error params i = Some x /\ nth_error args i = Some a /\ forall j, i < j -> nth_error params j <> Some x.

(** The labels of a macro in its body. *)
Definition own_labels (body : list smacro_statement) : list string :=
  flat_map (fun s => match s with SMMacroLabel _ n => [n] | _ => [] end) body.

(** The name made for such a label, if the next suffix is number [n]. *)
Definition made_label (uuid : nat -> string) (n : nat) (body : list smacro_statement) (x l : string) : Prop :=
  exists i, nth_error (own_labels body) i = Some x /\ l = (no_percent x ++ "_" ++ uuid (n + i))%string.

(** * Operands *)

(** [put inv lab par e e2]: within the call [inv] the expression [e] becomes [e2]. *)
Inductive put (inv : pspan) (lab : string -> string -> Prop) (par : string -> sarg -> Prop) : sexpr -> sexpr -> Prop :=
| put_name : forall s n, put inv lab par (XName_ s n) (XName_ (via inv s) n)
| put_number : forall s n r, put inv lab par (XNumber_ s n r) (XNumber_ (via inv s) n r)
| put_label : forall s n l, lab n l -> put inv lab par (XMacroLabel_ s n) (XName_ (via inv s) l)
| put_param : forall s n x y, par n (SAEx x) -> put inv lab par x y -> put inv lab par (XMacroArg_ s n) (moved y (via inv (span_of x)))
| put_un : forall op s x y, put inv lab par x y -> put inv lab par (XUn op s x) (XUn op (via inv s) y)
| put_bin : forall op s l r l2 r2, put inv lab par l l2 -> put inv lab par r r2 -> put inv lab par (XBin op s l r) (XBin op (via inv s) l2 r2).

(** The same for an operand; a parameter by itself stands for its argument as it is. *)
Inductive put_arg (inv : pspan) (lab : string -> string -> Prop) (par : string -> sarg -> Prop) : sarg -> sarg -> Prop :=
| pa_param : forall s n a, par n a -> put_arg inv lab par (SAMacroArg s n) a
| pa_imm : forall e e2, put inv lab par e e2 -> put_arg inv lab par (SAImm e) (SAImm e2)
| pa_ex : forall e e2, put inv lab par e e2 -> put_arg inv lab par (SAEx e) (SAEx e2)
| pa_mode : forall s m, put_arg inv lab par (SAIM s m) (SAIM s m).

(** What is wrong with an expression that becomes nothing: the first label that the macro does not have, parameter that it does not
    have, or parameter whose argument is no expression. *)
Inductive wrong_expr (inv : pspan) (lab : string -> string -> Prop) (par : string -> sarg -> Prop) : sexpr -> error -> list pspan -> Prop :=
| we_label : forall s n, (forall l, ~ lab n l) -> wrong_expr inv lab par (XMacroLabel_ s n) MacroLabelOutsideOfMacro [s]
| we_param : forall s n, (forall a, ~ par n a) -> wrong_expr inv lab par (XMacroArg_ s n) InvalidMacroArg [s]
| we_imm : forall s n x, par n (SAImm x) -> wrong_expr inv lab par (XMacroArg_ s n) ImmediateValueNotAllowedHere [via (span_of x) s]
| we_mode : forall s n s2 m, par n (SAIM s2 m) -> wrong_expr inv lab par (XMacroArg_ s n) IndirectionModeNotAllowedHere [via s2 s]
| we_open : forall s n s2 m, par n (SAMacroArg s2 m) -> wrong_expr inv lab par (XMacroArg_ s n) MacroArgOutsideOfMacro [via inv s2]
| we_inside : forall s n x e at_, par n (SAEx x) -> wrong_expr inv lab par x e at_ -> wrong_expr inv lab par (XMacroArg_ s n) e at_
| we_un : forall op s x e at_, wrong_expr inv lab par x e at_ -> wrong_expr inv lab par (XUn op s x) e at_
| we_left : forall op s l r e at_, wrong_expr inv lab par l e at_ -> wrong_expr inv lab par (XBin op s l r) e at_
| we_right : forall op s l r l2 e at_, put inv lab par l l2 -> wrong_expr inv lab par r e at_ -> wrong_expr inv lab par (XBin op s l r) e at_.

Inductive wrong_arg (inv : pspan) (lab : string -> string -> Prop) (par : string -> sarg -> Prop) : sarg -> error -> list pspan -> Prop :=
| wa_param : forall s n, (forall a, ~ par n a) -> wrong_arg inv lab par (SAMacroArg s n) InvalidMacroArg [s]
| wa_imm : forall x e at_, wrong_expr inv lab par x e at_ -> wrong_arg inv lab par (SAImm x) e at_
| wa_ex : forall x e at_, wrong_expr inv lab par x e at_ -> wrong_arg inv lab par (SAEx x) e at_.

(** The first wrong operand. *)
Definition wrong_args (inv : pspan) (lab : string -> string -> Prop) (par : string -> sarg -> Prop) (args : list sarg) (e : error)
    (at_ : list pspan) : Prop :=
  exists before bad after ready, args = before ++ bad :: after /\ Forall2 (put_arg inv lab par) before ready /\ wrong_arg inv lab par bad e at_.

(** * Instructions *)

(** The expressions among operands. *)
Definition written_exprs (args : list sarg) : list sexpr := flat_map (fun a => match a with SAImm e | SAEx e => [e] | _ => [] end) args.

(** The instruction of the reference with this mnemonic and these operands. *)
Definition instruction_of (name : string) (args : list sarg) (i : instr sexpr imode) : Prop :=
  operand_exprs i = written_exprs args /\
  exists f, In f isa /\ f_name f = name /\ key (map_instr erase i) = (f_name f, f_kinds f) /\
    shapes (f_kinds f) (map erase_arg args) (op_list (map_instr erase i)).

(** There is none. *)
Inductive no_instruction (name : string) (args : list sarg) : error -> Prop :=
| ni_unknown : ~ SpecMacro.known name -> no_instruction name args UnknownInstruction
| ni_operands : SpecMacro.known name -> ~ listed name (map erase_arg args) -> no_instruction name args (WrongInstructionArgs name).

(** * Calls *)

(** [call_at uuid ms n inv name args out n2]: the call [inv] of the macro [name] stands for the statements [out], and uses the
    suffixes from number [n] up to [n2]. *)
Inductive call_at (uuid : nat -> string) (ms : smacros) : nat -> pspan -> string -> list sarg -> list sstatement -> nat -> Prop :=
| ca_call : forall n inv name args d out n2, defined_as ms name (List.length args) d -> List.length (sm_args d) = List.length args ->
    NoDup (own_labels (sm_body d)) ->
    body_at uuid ms inv (made_label uuid n (sm_body d)) (bound (sm_args d) args) (n + List.length (own_labels (sm_body d))) (sm_body d) out n2 ->
    call_at uuid ms n inv name args out n2
with body_at (uuid : nat -> string) (ms : smacros)
  : pspan -> (string -> string -> Prop) -> (string -> sarg -> Prop) -> nat -> list smacro_statement -> list sstatement -> nat -> Prop :=
| ba_none : forall inv lab par n, body_at uuid ms inv lab par n [] [] n
| ba_label : forall inv lab par n s x rest out n2, body_at uuid ms inv lab par n rest out n2 ->
    body_at uuid ms inv lab par n (SMLabel s x :: rest) (SSLabel s x :: out) n2
| ba_own : forall inv (lab : string -> string -> Prop) par n s x l rest out n2, lab x l -> body_at uuid ms inv lab par n rest out n2 ->
    body_at uuid ms inv lab par n (SMMacroLabel s x :: rest) (SSLabel s l :: out) n2
| ba_instr : forall inv lab par n s name args ready i rest out n2, no_macro ms name (List.length args) ->
    Forall2 (put_arg inv lab par) args ready -> instruction_of name ready i -> body_at uuid ms inv lab par n rest out n2 ->
    body_at uuid ms inv lab par n (SMInstr s name args :: rest) (SSInstr (via inv s) i :: out) n2
| ba_call : forall inv lab par n s name args d ready part n1 rest out n2, defined_as ms name (List.length args) d ->
    Forall2 (put_arg inv lab par) args ready -> call_at uuid ms n (via inv s) name ready part n1 -> body_at uuid ms inv lab par n1 rest out n2 ->
    body_at uuid ms inv lab par n (SMInstr s name args :: rest) (part ++ out) n2.

Scheme call_at_ind2 := Minimality for call_at Sort Prop
with body_at_ind2 := Minimality for body_at Sort Prop.
Combined Scheme call_body_at_ind from call_at_ind2, body_at_ind2.

(** What is wrong with a call that stands for nothing: there is no such macro, its parameters are not as many as the arguments, it
    has a label twice, or a statement of its body is wrong, the first one. *)
Inductive wrong_call (uuid : nat -> string) (ms : smacros) : nat -> pspan -> string -> list sarg -> error -> list pspan -> Prop :=
| wc_macro : forall n inv name args, no_macro ms name (List.length args) -> wrong_call uuid ms n inv name args (NoSuchMacro name) [inv]
| wc_count : forall n inv name args d, defined_as ms name (List.length args) d -> List.length (sm_args d) <> List.length args ->
    wrong_call uuid ms n inv name args (WrongNumberOfMacroArgs (List.length (sm_args d)) (List.length args)) [inv; sm_span d]
| wc_twice : forall n inv name args d before s x after, defined_as ms name (List.length args) d -> List.length (sm_args d) = List.length args ->
    sm_body d = before ++ SMMacroLabel s x :: after -> NoDup (own_labels before) -> In x (own_labels before) ->
    wrong_call uuid ms n inv name args (DuplicateLabel x) [s]
| wc_body : forall n inv name args d before bad after out n2 e at_, defined_as ms name (List.length args) d ->
    List.length (sm_args d) = List.length args -> NoDup (own_labels (sm_body d)) -> sm_body d = before ++ bad :: after ->
    body_at uuid ms inv (made_label uuid n (sm_body d)) (bound (sm_args d) args) (n + List.length (own_labels (sm_body d))) before out n2 ->
    wrong_body uuid ms inv (made_label uuid n (sm_body d)) (bound (sm_args d) args) n2 bad e at_ ->
    wrong_call uuid ms n inv name args e at_
with wrong_body (uuid : nat -> string) (ms : smacros)
  : pspan -> (string -> string -> Prop) -> (string -> sarg -> Prop) -> nat -> smacro_statement -> error -> list pspan -> Prop :=
| wb_operand : forall inv lab par n s name args e at_, wrong_args inv lab par args e at_ ->
    wrong_body uuid ms inv lab par n (SMInstr s name args) e at_
| wb_instr : forall inv lab par n s name args ready e, no_macro ms name (List.length args) -> Forall2 (put_arg inv lab par) args ready ->
    no_instruction name ready e -> wrong_body uuid ms inv lab par n (SMInstr s name args) e [via inv s]
| wb_call : forall inv lab par n s name args d ready e at_, defined_as ms name (List.length args) d -> Forall2 (put_arg inv lab par) args ready ->
    wrong_call uuid ms n (via inv s) name ready e at_ -> wrong_body uuid ms inv lab par n (SMInstr s name args) e at_.

Scheme wrong_call_ind2 := Minimality for wrong_call Sort Prop
with wrong_body_ind2 := Minimality for wrong_body Sort Prop.
Combined Scheme wrong_call_body_ind from wrong_call_ind2, wrong_body_ind2.

(** * Programs *)

(** Calls are replaced by what they stand for; everything else stays. *)
Inductive list_at (uuid : nat -> string) (ms : smacros) : nat -> list sstatement -> list sstatement -> nat -> Prop :=
| la_none : forall n, list_at uuid ms n [] [] n
| la_call : forall n sp name args part n1 rest out n2, call_at uuid ms n sp name args part n1 -> list_at uuid ms n1 rest out n2 ->
    list_at uuid ms n (SSMacroCall sp name args :: rest) (part ++ out) n2
| la_other : forall n s rest out n2, (forall sp name args, s <> SSMacroCall sp name args) -> list_at uuid ms n rest out n2 ->
    list_at uuid ms n (s :: rest) (s :: out) n2.

(** The first call that is wrong. *)
Definition wrong_list (uuid : nat -> string) (ms : smacros) (n : nat) (l : list sstatement) (e : error) (at_ : list pspan) : Prop :=
  exists before sp name args after out n1, l = before ++ SSMacroCall sp name args :: after /\ list_at uuid ms n before out n1 /\
    wrong_call uuid ms n1 sp name args e at_.
