(** Specification side of expressions and operands: ordinary integer arithmetic. *)
From Coq Require Import ZArith List String Bool.
From Verif Require Import Base Expr Instr SpecIsa.
Import ListNotations.
Open Scope string_scope.
Open Scope Z_scope.

Definition in32 (z : Z) : Prop := -2147483648 <= z <= 2147483647.

(** Division rounding towards zero. *)
Definition tdiv (a b : Z) : Z := Z.sgn a * Z.sgn b * (Z.abs a / Z.abs b).

(** Bitwise operations on two's complement integers are those of [Z]. *)
Definition binop (f : Z -> Z -> Z + error) (a b : Z + error) : Z + error :=
  match a with
  | inr e => inr e
  | inl x => match b with inr e => inr e | inl y => f x y end
  end.

(** The value of an expression, or its first fault from left to right. *)
Fixpoint sem (kind : string) (get : string -> option Z) (e : expr) : Z + error :=
  match e with
  | ENumber n _ => inl n
  | EName n => match get (lower n) with Some v => inl v | None => inr (NameNotFound kind n) end
  | EPlus l r => binop (fun a b => inl (a + b)) (sem kind get l) (sem kind get r)
  | EMinus l r => binop (fun a b => inl (a - b)) (sem kind get l) (sem kind get r)
  | ETimes l r => binop (fun a b => inl (a * b)) (sem kind get l) (sem kind get r)
  | EDivide l r =>
      binop (fun a b => if b =? 0 then inr DivideByZero else inl (tdiv a b)) (sem kind get l) (sem kind get r)
  | EXor l r => binop (fun a b => inl (Z.lxor a b)) (sem kind get l) (sem kind get r)
  | EAnd l r => binop (fun a b => inl (Z.land a b)) (sem kind get l) (sem kind get r)
  | EOr l r => binop (fun a b => inl (Z.lor a b)) (sem kind get l) (sem kind get r)
  | EUnaryMinus x => match sem kind get x with inl a => inl (- a) | inr e => inr e end
  | EUpperByte x => match sem kind get x with inl a => inl (a / 256 mod 256) | inr e => inr e end
  | ELowerByte x => match sem kind get x with inl a => inl (a mod 256) | inr e => inr e end
  | EMacroLabel _ => inr MacroLabelOutsideOfMacro
  | EMacroArg _ => inr MacroArgOutsideOfMacro
  end.

(** No intermediate result reached by the evaluation leaves the 32-bit range. *)
Fixpoint fits (get : string -> option Z) (e : expr) : Prop :=
  match e with
  | EPlus l r | EMinus l r | ETimes l r | EDivide l r | EXor l r | EAnd l r | EOr l r =>
      fits get l /\ (forall a, sem "" get l = inl a -> fits get r) /\
      (forall v, sem "" get e = inl v -> in32 v)
  | EUnaryMinus x => fits get x /\ (forall v, sem "" get e = inl v -> in32 v)
  | EUpperByte x | ELowerByte x => fits get x
  | _ => True
  end.

(** Literals are 32-bit numbers (they have type [i32] in the code). *)
Fixpoint lits_ok (e : expr) : Prop :=
  match e with
  | ENumber n _ => in32 n
  | EPlus l r | EMinus l r | ETimes l r | EDivide l r | EXor l r | EAnd l r | EOr l r => lits_ok l /\ lits_ok r
  | EUnaryMinus x | EUpperByte x | ELowerByte x => lits_ok x
  | _ => True
  end.

Definition get_ok (get : string -> option Z) : Prop := forall n v, get n = Some v -> in32 v.

(** The word used for missing names, per operand kind. *)
Definition kind_word (k : kind) : string :=
  match k with
  | I8 | B3 | Ri => "Name"
  | D9 => "Variable"
  | A12 | A16 | R8 | R16 => "Label"
  end.

(** What is stored in the field for an operand of value [v] when the next instruction is at
    [next]; or why it is rejected. *)
Definition field_of (k : kind) (next v : Z) : Z + error :=
  match k with
  | Ri => inl v
  | I8 | D9 | B3 | A16 =>
      if (0 <=? v) && (v <? 2 ^ kind_bits k) then inl v else inr (NumOutOfRange (kind_bits k) v)
  | A12 =>
      if (0 <=? v) && (v <? 65536) then
        if v / 4096 =? next / 4096 mod 16 then inl (v mod 4096)
        else inr (AddrBitsDontMatch next v (next / 4096 mod 16) (v / 4096))
      else inr (NumOutOfRange 16 v)
  | R8 =>
      if (0 <=? v) && (v <? 65536) then
        if (-128 <=? v - next) && (v - next <? 128) then inl (v - next)
        else inr (SignedNumOutOfRange 8 (v - next))
      else inr (InvalidAddress v)
  | R16 =>
      if (0 <=? v) && (v <? 65536) then
        if (-32768 <=? v - next + 1) && (v - next + 1 <? 32768) then inl (v - next + 1)
        else inr (SignedNumOutOfRange 16 (v - next + 1))
      else inr (InvalidAddress v)
  end.

Definition operand_sem (get : string -> option Z) (next : Z) (k : kind) (a : expr + imode) : Z + error :=
  match a with
  | inr m => inl (match m with R0 => 0 | R1 => 1 | R2 => 2 | R3 => 3 end)
  | inl e => match sem (kind_word k) get e with inl v => field_of k next v | inr er => inr er end
  end.

(** The operand fields of a whole instruction, first fault from left to right. *)
Fixpoint operands_sem (get : string -> option Z) (next : Z) (ks : list kind) (ops : list (expr + imode))
  : list Z + error :=
  match ks, ops with
  | k :: kt, a :: at_ =>
      match operand_sem get next k a with
      | inr e => inr e
      | inl v => match operands_sem get next kt at_ with inr e => inr e | inl vs => inl (v :: vs) end
      end
  | _, _ => inl []
  end.

Definition op_ok (get : string -> option Z) (a : expr + imode) : Prop :=
  match a with inl e => lits_ok e /\ fits get e | inr _ => True end.

(** Field contents of one operand, in terms of the value computed by a build of the given profile. *)
Definition operand_rel (pr : profile) (get : string -> option Z) (next : Z) (k : kind) (a : expr + imode) (o : Z) : Prop :=
  match a with
  | inr m => k = Ri /\ o = match m with R0 => 0 | R1 => 1 | R2 => 2 | R3 => 3 end
  | inl e => exists v, eval pr (mkEnv (kind_word k) get) e = Ok v /\ field_of k next v = inl o /\ k <> Ri
  end.

Inductive operands_rel (pr : profile) (get : string -> option Z) (next : Z) : list kind -> list (expr + imode) -> list Z -> Prop :=
| or_nil : operands_rel pr get next [] [] []
| or_cons k a o ks os vs : operand_rel pr get next k a o -> operands_rel pr get next ks os vs ->
    operands_rel pr get next (k :: ks) (a :: os) (o :: vs).
