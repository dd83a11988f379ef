(** Statements and directives: /repo/src/ast.rs. *)
From Coq Require Import ZArith List String Ascii Bool.
From Verif Require Import Base Expr Instr.
Import ListNotations.
Open Scope Z_scope.

(** [ByteValue], /repo/src/ast.rs 129-133 (span dropped). *)
Inductive byte_value : Type :=
| BVExpr (e : expr)
| BVString (bytes : list Z).

(** [IncludeHeader], /repo/src/ast.rs 144-148. *)
Inductive include_header : Type := HeaderYes | HeaderNo.

(** [SpriteType], /repo/src/ast.rs 159-163. *)
Inductive sprite_type : Type := Simple | Masked.

(** [IncludeType], /repo/src/ast.rs 189-196. *)
Inductive include_type : Type :=
| IncAsm
| IncBytes
| IncCHeader
| IncIcon (speed : option expr) (eyecatch : option byte_value)
| IncSprite (t : sprite_type) (h : include_header).

(** [Directive], /repo/src/ast.rs 229-238 (spans dropped; the path is text). *)
Inductive directive : Type :=
| DByte (items : list byte_value)
| DOrg (location : Z)
| DWord (words : list expr)
| DText (size : Z) (bytes : list Z)
| DString (size : Z) (bytes : list Z)
| DInclude (t : include_type) (path : string)
| DCnop (add multiple : expr).

(** [Statement], /repo/src/ast.rs 418-427 (spans dropped). *)
Inductive statement : Type :=
| SDirective (d : directive)
| SLabel (name : string)
| SInstr (i : instr expr imode)
| SVariable (name : string) (e : expr)
| SAlias (name : string) (e : expr)
| SComment (text : string)
| SMacroCall (name : string) (args : list arg).

(** [Directive::eval_cnop_expr], /repo/src/ast.rs 241-247. *)
Definition eval_cnop_expr (e : expr) : outcome Z :=
  match e with
  | ENumber n _ => Ok n
  | _ => Err MustBeLiteralNumber
  end.

(** A loop run for at most [p] rounds: [inl] is the state after them, [inr] the result of an early
    exit.  Used for the [loop] of /repo/src/ast.rs 256-261. *)
Fixpoint rounds {S R : Type} (step : S -> S + R) (p : positive) (s : S) : S + R :=
  match p with
  | xH => step s
  | xO q => match rounds step q s with inl s' => rounds step q s' | inr r => inr r end
  | xI q =>
      match step s with
      | inl s1 => match rounds step q s1 with inl s' => rounds step q s' | inr r => inr r end
      | inr r => inr r
      end
  end.

(** One round of that loop, /repo/src/ast.rs 257-260. *)
Definition cnop_step (pr : profile) (pos multiple mult : Z) : Z + outcome Z :=
  if pos <=? mult then inr (Ok mult)
  else match chk32 pr (mult + multiple) with Ok m => inl m | _ => inr Panic end.

(** The whole loop, /repo/src/ast.rs 255-261.  The only state is the [i32] [mult], so a loop that has
    not ended after 2^32 + 1 rounds never ends. *)
Definition cnop_loop (pr : profile) (pos multiple : Z) : outcome Z :=
  match rounds (cnop_step pr pos multiple) 4294967297 0 with
  | inr r => r
  | inl _ => Diverge
  end.

(** [Directive::eval_cnop], /repo/src/ast.rs 249-264. *)
Definition eval_cnop (pr : profile) (pos : Z) (add multiple : expr) : outcome Z :=
  let! a := eval_cnop_expr add in
  let! m := eval_cnop_expr multiple in
  if m =? 0 then Ok a
  else let! mult := cnop_loop pr pos m in chk32 pr (mult + a).

(** The counter of /repo/src/ast.rs 270-276; it cannot overflow [usize]. *)
Definition item_size (b : byte_value) : Z :=
  match b with BVExpr _ => 1 | BVString vals => Z.of_nat (List.length vals) end.

(** The loop of /repo/src/ast.rs 270-276. *)
Fixpoint items_size (l : list byte_value) : Z :=
  match l with [] => 0 | b :: t => item_size b + items_size t end.

(** [Directive::size], /repo/src/ast.rs 266-286; [as i32] casts wrap. *)
Definition dir_size (pr : profile) (d : directive) (pos : Z) : outcome Z :=
  match d with
  | DByte items => Ok (wrap32 (items_size items))
  | DOrg location => chk32 pr (wrap32 location - pos)
  | DWord words => Ok (wrap32 (2 * Z.of_nat (List.length words)))
  | DText size _ => Ok (wrap32 size)
  | DString size _ => Ok (wrap32 size)
  | DInclude _ _ => Ok 0
  | DCnop add multiple => let! p := eval_cnop pr pos add multiple in chk32 pr (p - pos)
  end.

(** [MacroStatement], /repo/src/ast.rs 21-26 (spans dropped). *)
Inductive macro_statement : Type :=
| MInstr (name : string) (args : list arg)
| MLabel (name : string)
| MMacroLabel (name : string).

(** [MacroDefinition], /repo/src/ast.rs 28-34 (spans dropped). *)
Record macro_def : Type := mkMacro { m_name : string; m_args : list string; m_body : list macro_statement }.

(** The [macros] map of [Statements], keyed by [MacroIdentifier] (name and arity),
    /repo/src/ast.rs 9-19 and 530-534. *)
Definition macros : Type := list ((string * nat) * macro_def).

(** [Statements], /repo/src/ast.rs 530-534. *)
Record statements : Type := mkStatements { st_macros : macros; st_list : list statement }.

(** [Statements::macro_def], /repo/src/ast.rs 552-554. *)
Fixpoint find_macro (m : macros) (name : string) (arity : nat) : option macro_def :=
  match m with
  | [] => None
  | ((n, a), d) :: t => if (String.eqb n name && Nat.eqb a arity)%bool then Some d else find_macro t name arity
  end.
