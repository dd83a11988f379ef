(** The grammar of expressions, written the usual way: one level per precedence, left-recursive rules. *)
From Coq Require Import ZArith List String Ascii Bool.
From Verif Require Import Base Expr Lexer.
Import ListNotations.

(** From the loosest to the tightest. *)
Inductive level : Type := Bits | Sums | Products | Unaries.

Definition tighter (l : level) : level :=
  match l with Bits => Sums | Sums => Products | Products => Unaries | Unaries => Unaries end.

Definition operators : list (token_type * level * (expr -> expr -> expr)) :=
  [(TAmpersand, Bits, EAnd); (TPipe, Bits, EOr); (TCaret, Bits, EXor);
   (TPlus, Sums, EPlus); (TMinus, Sums, EMinus);
   (TTimes, Products, ETimes); (TDivide, Products, EDivide)].

Definition unary_operators : list (token_type * (expr -> expr)) :=
  [(TMinus, EUnaryMinus); (TUpperByte, EUpperByte); (TLowerByte, ELowerByte)].

(** [expression l ts e]: the tokens [ts] are an expression of level [l] with the tree [e]. *)
Inductive expression : level -> list token_type -> expr -> Prop :=
| g_binary : forall op l mk ts1 e1 ts2 e2,
    In (op, l, mk) operators -> expression l ts1 e1 -> expression (tighter l) ts2 e2 ->
    expression l (ts1 ++ op :: ts2) (mk e1 e2)
| g_tighter : forall l ts e, expression (tighter l) ts e -> l <> Unaries -> expression l ts e
| g_unary : forall op mk ts e,
    In (op, mk) unary_operators -> expression Unaries ts e -> expression Unaries (op :: ts) (mk e)
| g_paren : forall ts e, expression Bits ts e -> expression Unaries (TLeftParen :: ts ++ [TRightParen]) e
| g_name : forall n, expression Unaries [TName n] (EName n)
| g_number : forall n r, expression Unaries [TNumber n r] (ENumber n r)
| g_macro_label : forall n, expression Unaries [TMacroLabel n] (EMacroLabel n)
| g_macro_arg : forall n, expression Unaries [TMacroIdent n] (EMacroArg n).

(** The tokens go on with a binary operator. *)
Definition continues (ts : list token_type) : Prop :=
  exists op l mk rest, ts = op :: rest /\ In (op, l, mk) operators.
