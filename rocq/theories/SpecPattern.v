(** Bit patterns of the derive macro as text, stated without its tokenizer: what a pattern spells, and the
    eight-bit groups it is made of.  Pattern bits and what they mean are those of SpecIsa.v. *)
From Coq Require Import ZArith List String Ascii Bool.
From Verif Require Import SpecIsa.
Import ListNotations.
Open Scope string_scope.
Open Scope list_scope.
Open Scope Z_scope.

(** The names of the operands in order. *)
Definition alphabet : list ascii := list_ascii_of_string "abcdefghijklmnopqrstuvwxyz".

(** White space, which a pattern may contain anywhere. *)
Definition white : list ascii := [" "; "009"; "010"; "011"; "012"; "013"]%char.

(** [squeezed s t]: [t] is [s] without its white space. *)
Inductive squeezed : string -> string -> Prop :=
| sq_nil : squeezed "" ""
| sq_drop : forall c s t, In c white -> squeezed s t -> squeezed (String c s) t
| sq_keep : forall c s t, ~ In c white -> squeezed s t -> squeezed (String c s) (String c t).

(** The ten digits. *)
Definition ten_digits : list (ascii * Z) :=
  [("0", 0); ("1", 1); ("2", 2); ("3", 3); ("4", 4); ("5", 5); ("6", 6); ("7", 7); ("8", 8); ("9", 9)]%char.

(** [decimal s n]: [s] is a decimal numeral for [n]. *)
Inductive decimal : string -> Z -> Prop :=
| dec_one : forall c v, In (c, v) ten_digits -> decimal (String c "") v
| dec_more : forall s n c v, decimal s n -> In (c, v) ten_digits -> decimal (s ++ String c "") (10 * n + v).

(** [tokens s l]: [s], without white space, spells the pattern bits [l]. *)
Inductive tokens : string -> list pbit -> Prop :=
| tk_nil : tokens "" []
| tk_zero : forall s l, tokens s l -> tokens (String "0" s) (P0 :: l)
| tk_one : forall s l, tokens s l -> tokens (String "1" s) (P1 :: l)
| tk_field : forall k c d n s l, nth_error alphabet k = Some c -> decimal d n -> tokens s l ->
    tokens (String "[" (String c (d ++ String "]" s))) (PF k n :: l).

(** [spelled text l]: the pattern [text] spells the bits [l]. *)
Definition spelled (text : string) (l : list pbit) : Prop := exists s, squeezed text s /\ tokens s l.

(** [eights l bytes]: [bytes] are the groups of eight bits of [l]. *)
Inductive eights : list pbit -> list (list pbit) -> Prop :=
| e_nil : eights [] []
| e_cons : forall b l bs, List.length b = 8%nat -> eights l bs -> eights (b ++ l) (b :: bs).

(** Every operand bit named is one of the 32 bits an operand has. *)
Definition bits32 (l : list pbit) : Prop := forall k n, In (PF k n) l -> n < 32.

(** Every operand bit is named at most once. *)
Definition named_once (l : list pbit) : Prop :=
  forall i j k n, nth_error l i = Some (PF k n) -> nth_error l j = Some (PF k n) -> i = j.
