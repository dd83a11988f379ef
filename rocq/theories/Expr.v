(** Expressions and their evaluation: /repo/src/expression.rs and /repo/src/env.rs. *)
From Coq Require Import ZArith List String Ascii Bool.
From Verif Require Import Base.
Import ListNotations.
Open Scope Z_scope.

(** [Radix], /repo/src/expression.rs 41-47. *)
Inductive radix : Type := Decimal | Hex | Binary | Octal.

(** [Expr], /repo/src/expression.rs 60-76 (spans dropped). *)
Inductive expr : Type :=
| EName (name : string)
| EPlus (l r : expr)
| EMinus (l r : expr)
| EUnaryMinus (e : expr)
| ETimes (l r : expr)
| EDivide (l r : expr)
| ENumber (num : Z) (r : radix)
| EUpperByte (e : expr)
| ELowerByte (e : expr)
| EMacroLabel (name : string)
| EMacroArg (name : string)
| EXor (l r : expr)
| EAnd (l r : expr)
| EOr (l r : expr).

(** [IndirectionMode], /repo/src/expression.rs 515-521. *)
Inductive imode : Type := R0 | R1 | R2 | R3.

(** [IndirectionMode::index], /repo/src/expression.rs 524-531. *)
Definition imode_index (m : imode) : Z :=
  match m with R0 => 0 | R1 => 1 | R2 => 2 | R3 => 3 end.

(** [IndirectionMode::from], /repo/src/expression.rs 533-541; [None] is the panic. *)
Definition imode_from (n : Z) : option imode :=
  if n =? 0 then Some R0 else if n =? 1 then Some R1
  else if n =? 2 then Some R2 else if n =? 3 then Some R3 else None.

(** [Arg], /repo/src/expression.rs 556-562 (spans dropped). *)
Inductive arg : Type :=
| AImm (e : expr)
| AEx (e : expr)
| AIM (m : imode)
| AMacroArg (name : string).

(** An environment: the [Env] trait, /repo/src/env.rs 3-6. *)
Record env : Type := mkEnv { env_kind : string; env_get : string -> option Z }.

(** [Expr::eval], /repo/src/expression.rs 464-512.  [i32] arithmetic goes through [chk32];
    [i32::MIN / -1] panics in every profile; [/] truncates. *)
Fixpoint eval (pr : profile) (en : env) (e : expr) : outcome Z :=
  match e with
  | EXor l r => let! a := eval pr en l in let! b := eval pr en r in Ok (Z.lxor a b)
  | EAnd l r => let! a := eval pr en l in let! b := eval pr en r in Ok (Z.land a b)
  | EOr l r => let! a := eval pr en l in let! b := eval pr en r in Ok (Z.lor a b)
  | EName n =>
      match env_get en (lower n) with
      | Some v => Ok v
      | None => Err (NameNotFound (env_kind en) n)
      end
  | EPlus l r => let! a := eval pr en l in let! b := eval pr en r in chk32 pr (a + b)
  | EMinus l r => let! a := eval pr en l in let! b := eval pr en r in chk32 pr (a - b)
  | EUnaryMinus x => let! a := eval pr en x in chk32 pr (-1 * a)
  | ETimes l r => let! a := eval pr en l in let! b := eval pr en r in chk32 pr (a * b)
  | EDivide l r =>
      let! a := eval pr en l in
      let! b := eval pr en r in
      if b =? 0 then Err DivideByZero
      else if (a =? -2147483648) && (b =? -1) then Panic
      else Ok (Z.quot a b)
  | ENumber n _ => Ok n
  | EUpperByte x => let! a := eval pr en x in Ok (Z.land (Z.shiftr a 8) 255)
  | ELowerByte x => let! a := eval pr en x in Ok (Z.land a 255)
  | EMacroLabel _ => Err MacroLabelOutsideOfMacro
  | EMacroArg _ => Err MacroArgOutsideOfMacro
  end.

(** [Names], /repo/src/env.rs 18-22. *)
Record names : Type := mkNames { globals : smap Z; locals : smap (smap Z) }.

(** [Env::get] of [NamesEnv], /repo/src/env.rs 46-52. *)
Definition names_get (gl lo : smap Z) (n : string) : option Z :=
  if is_local n then mget lo n else mget gl n.

(** [Names::as_env], /repo/src/env.rs 25-31; the [unwrap] is a panic. *)
Definition as_env (ns : names) (kind current_global : string) : outcome env :=
  match mget (locals ns) current_global with
  | Some lo => Ok (mkEnv kind (names_get (globals ns) lo))
  | None => Panic
  end.

(** [MapEnv], /repo/src/asm.rs 856-878, and the [HashMap] environment of /repo/src/env.rs 8-16. *)
Definition map_env (kind : string) (m : smap Z) : env := mkEnv kind (mget m).
