(** How a listing is laid out (C74): entry points, data lines and positions.  Nothing here refers to the model of the disassembler. *)
From Coq Require Import ZArith List String Ascii Bool.
From Verif Require Import Base Expr Ast.
Import ListNotations.
Open Scope string_scope.
Open Scope list_scope.
Local Open Scope Z_scope.

(** The mark of an entry point. *)
Definition is_mark (s : statement) : bool := match s with SComment c => String.eqb c "Entry point" | _ => false end.

(** The offsets that are marked as entry points: each mark is to be followed by [.org]; a mark without it counts as -1. *)
Fixpoint marked (l : list statement) : list Z :=
  match l with
  | [] => []
  | s :: t => (if is_mark s then [match t with SDirective (DOrg p) :: _ => p | _ => -1 end] else []) ++ marked t
  end.

(** What may stand between the mark of an entry point and its instruction: a label, a remark on overlaps. *)
Definition between (s : statement) : Prop :=
  match s with SLabel _ => True | SComment c => prefix "Overlaps with: " c = true | _ => False end.

(** A byte that is a character one can see, or a space. *)
Definition visible (b : Z) : Prop := 32 <= b <= 126.

(** A byte as shown in the remark beside a data line. *)
Inductive shown_as : Z -> string -> Prop :=
  | as_itself c : visible (Z.of_nat (nat_of_ascii c)) -> shown_as (Z.of_nat (nat_of_ascii c)) (String c "")
  | as_tab : shown_as 9 "\t"
  | as_lf : shown_as 10 "\n"
  | as_cr : shown_as 13 "\r"
  | as_dot b : ~ visible b -> b <> 9 -> b <> 10 -> b <> 13 -> shown_as b ".".
