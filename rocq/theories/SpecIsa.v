(** Specification side of the instruction set: the table of /repo/docs/instructions.md, transcribed row
    by row, and what its bit patterns mean.  Nothing here refers to the model of the derive macro. *)
From Coq Require Import ZArith List String Bool.
From Verif Require Import Base Expr Instr.
Import ListNotations.
Open Scope string_scope.
Open Scope Z_scope.

(** Operand kinds of the reference, /repo/docs/instructions.md 33-37. *)
Inductive kind : Type := I8 | D9 | Ri | B3 | A12 | A16 | R8 | R16.

(** A pattern bit: constant 0, constant 1, or bit [n] of operand [k] (counted from the left of the
    form). *)
Inductive pbit : Type := P0 | P1 | PF (k : nat) (n : Z).

(** A row of the reference. *)
Record form : Type := mkForm {
  f_name : string;
  f_kinds : list kind;
  f_bits : list (list pbit)
}.

(** /repo/docs/instructions.md, the rows at the lines noted.  In the [bnz] row (line 465) the
    letter [a] denotes the operand [r8]. *)
Definition isa : list form := [
  mkForm "add" [I8] [[P1; P0; P0; P0; P0; P0; P0; P1]; [PF 0 7; PF 0 6; PF 0 5; PF 0 4; PF 0 3; PF 0 2; PF 0 1; PF 0 0]]; (* 64 *)
  mkForm "add" [D9] [[P1; P0; P0; P0; P0; P0; P1; PF 0 8]; [PF 0 7; PF 0 6; PF 0 5; PF 0 4; PF 0 3; PF 0 2; PF 0 1; PF 0 0]]; (* 65 *)
  mkForm "add" [Ri] [[P1; P0; P0; P0; P0; P1; PF 0 1; PF 0 0]]; (* 66 *)
  mkForm "addc" [I8] [[P1; P0; P0; P1; P0; P0; P0; P1]; [PF 0 7; PF 0 6; PF 0 5; PF 0 4; PF 0 3; PF 0 2; PF 0 1; PF 0 0]]; (* 77 *)
  mkForm "addc" [D9] [[P1; P0; P0; P1; P0; P0; P1; PF 0 8]; [PF 0 7; PF 0 6; PF 0 5; PF 0 4; PF 0 3; PF 0 2; PF 0 1; PF 0 0]]; (* 78 *)
  mkForm "addc" [Ri] [[P1; P0; P0; P1; P0; P1; PF 0 1; PF 0 0]]; (* 79 *)
  mkForm "sub" [I8] [[P1; P0; P1; P0; P0; P0; P0; P1]; [PF 0 7; PF 0 6; PF 0 5; PF 0 4; PF 0 3; PF 0 2; PF 0 1; PF 0 0]]; (* 90 *)
  mkForm "sub" [D9] [[P1; P0; P1; P0; P0; P0; P1; PF 0 8]; [PF 0 7; PF 0 6; PF 0 5; PF 0 4; PF 0 3; PF 0 2; PF 0 1; PF 0 0]]; (* 91 *)
  mkForm "sub" [Ri] [[P1; P0; P1; P0; P0; P1; PF 0 1; PF 0 0]]; (* 92 *)
  mkForm "subc" [I8] [[P1; P0; P1; P1; P0; P0; P0; P1]; [PF 0 7; PF 0 6; PF 0 5; PF 0 4; PF 0 3; PF 0 2; PF 0 1; PF 0 0]]; (* 103 *)
  mkForm "subc" [D9] [[P1; P0; P1; P1; P0; P0; P1; PF 0 8]; [PF 0 7; PF 0 6; PF 0 5; PF 0 4; PF 0 3; PF 0 2; PF 0 1; PF 0 0]]; (* 104 *)
  mkForm "subc" [Ri] [[P1; P0; P1; P1; P0; P1; PF 0 1; PF 0 0]]; (* 105 *)
  mkForm "inc" [D9] [[P0; P1; P1; P0; P0; P0; P1; PF 0 8]; [PF 0 7; PF 0 6; PF 0 5; PF 0 4; PF 0 3; PF 0 2; PF 0 1; PF 0 0]]; (* 115 *)
  mkForm "inc" [Ri] [[P0; P1; P1; P0; P0; P1; PF 0 1; PF 0 0]]; (* 116 *)
  mkForm "dec" [D9] [[P0; P1; P1; P1; P0; P0; P1; PF 0 8]; [PF 0 7; PF 0 6; PF 0 5; PF 0 4; PF 0 3; PF 0 2; PF 0 1; PF 0 0]]; (* 126 *)
  mkForm "dec" [Ri] [[P0; P1; P1; P1; P0; P1; PF 0 1; PF 0 0]]; (* 127 *)
  mkForm "mul" [] [[P0; P0; P1; P1; P0; P0; P0; P0]]; (* 141 *)
  mkForm "div" [] [[P0; P1; P0; P0; P0; P0; P0; P0]]; (* 161 *)
  mkForm "and" [I8] [[P1; P1; P1; P0; P0; P0; P0; P1]; [PF 0 7; PF 0 6; PF 0 5; PF 0 4; PF 0 3; PF 0 2; PF 0 1; PF 0 0]]; (* 178 *)
  mkForm "and" [D9] [[P1; P1; P1; P0; P0; P0; P1; PF 0 8]; [PF 0 7; PF 0 6; PF 0 5; PF 0 4; PF 0 3; PF 0 2; PF 0 1; PF 0 0]]; (* 179 *)
  mkForm "and" [Ri] [[P1; P1; P1; P0; P0; P1; PF 0 1; PF 0 0]]; (* 180 *)
  mkForm "or" [I8] [[P1; P1; P0; P1; P0; P0; P0; P1]; [PF 0 7; PF 0 6; PF 0 5; PF 0 4; PF 0 3; PF 0 2; PF 0 1; PF 0 0]]; (* 191 *)
  mkForm "or" [D9] [[P1; P1; P0; P1; P0; P0; P1; PF 0 8]; [PF 0 7; PF 0 6; PF 0 5; PF 0 4; PF 0 3; PF 0 2; PF 0 1; PF 0 0]]; (* 192 *)
  mkForm "or" [Ri] [[P1; P1; P0; P1; P0; P1; PF 0 1; PF 0 0]]; (* 193 *)
  mkForm "xor" [I8] [[P1; P1; P1; P1; P0; P0; P0; P1]; [PF 0 7; PF 0 6; PF 0 5; PF 0 4; PF 0 3; PF 0 2; PF 0 1; PF 0 0]]; (* 204 *)
  mkForm "xor" [D9] [[P1; P1; P1; P1; P0; P0; P1; PF 0 8]; [PF 0 7; PF 0 6; PF 0 5; PF 0 4; PF 0 3; PF 0 2; PF 0 1; PF 0 0]]; (* 205 *)
  mkForm "xor" [Ri] [[P1; P1; P1; P1; P0; P1; PF 0 1; PF 0 0]]; (* 206 *)
  mkForm "rol" [] [[P1; P1; P1; P0; P0; P0; P0; P0]]; (* 217 *)
  mkForm "rolc" [] [[P1; P1; P1; P1; P0; P0; P0; P0]]; (* 231 *)
  mkForm "ror" [] [[P1; P1; P0; P0; P0; P0; P0; P0]]; (* 242 *)
  mkForm "rorc" [] [[P1; P1; P0; P1; P0; P0; P0; P0]]; (* 255 *)
  mkForm "clr1" [D9; B3] [[P1; P1; P0; PF 0 8; P1; PF 1 2; PF 1 1; PF 1 0]; [PF 0 7; PF 0 6; PF 0 5; PF 0 4; PF 0 3; PF 0 2; PF 0 1; PF 0 0]]; (* 265 *)
  mkForm "set1" [D9; B3] [[P1; P1; P1; PF 0 8; P1; PF 1 2; PF 1 1; PF 1 0]; [PF 0 7; PF 0 6; PF 0 5; PF 0 4; PF 0 3; PF 0 2; PF 0 1; PF 0 0]]; (* 275 *)
  mkForm "not1" [D9; B3] [[P1; P0; P1; PF 0 8; P1; PF 1 2; PF 1 1; PF 1 0]; [PF 0 7; PF 0 6; PF 0 5; PF 0 4; PF 0 3; PF 0 2; PF 0 1; PF 0 0]]; (* 285 *)
  mkForm "ld" [D9] [[P0; P0; P0; P0; P0; P0; P1; PF 0 8]; [PF 0 7; PF 0 6; PF 0 5; PF 0 4; PF 0 3; PF 0 2; PF 0 1; PF 0 0]]; (* 296 *)
  mkForm "ld" [Ri] [[P0; P0; P0; P0; P0; P1; PF 0 1; PF 0 0]]; (* 297 *)
  mkForm "st" [D9] [[P0; P0; P0; P1; P0; P0; P1; PF 0 8]; [PF 0 7; PF 0 6; PF 0 5; PF 0 4; PF 0 3; PF 0 2; PF 0 1; PF 0 0]]; (* 308 *)
  mkForm "st" [Ri] [[P0; P0; P0; P1; P0; P1; PF 0 1; PF 0 0]]; (* 309 *)
  mkForm "mov" [I8; D9] [[P0; P0; P1; P0; P0; P0; P1; PF 1 8]; [PF 1 7; PF 1 6; PF 1 5; PF 1 4; PF 1 3; PF 1 2; PF 1 1; PF 1 0]; [PF 0 7; PF 0 6; PF 0 5; PF 0 4; PF 0 3; PF 0 2; PF 0 1; PF 0 0]]; (* 320 *)
  mkForm "mov" [I8; Ri] [[P0; P0; P1; P0; P0; P1; PF 1 1; PF 1 0]; [PF 0 7; PF 0 6; PF 0 5; PF 0 4; PF 0 3; PF 0 2; PF 0 1; PF 0 0]]; (* 321 *)
  mkForm "ldc" [] [[P1; P1; P0; P0; P0; P0; P0; P1]]; (* 334 *)
  mkForm "push" [D9] [[P0; P1; P1; P0; P0; P0; P0; PF 0 8]; [PF 0 7; PF 0 6; PF 0 5; PF 0 4; PF 0 3; PF 0 2; PF 0 1; PF 0 0]]; (* 346 *)
  mkForm "pop" [D9] [[P0; P1; P1; P1; P0; P0; P0; PF 0 8]; [PF 0 7; PF 0 6; PF 0 5; PF 0 4; PF 0 3; PF 0 2; PF 0 1; PF 0 0]]; (* 359 *)
  mkForm "xch" [D9] [[P1; P1; P0; P0; P0; P0; P1; PF 0 8]; [PF 0 7; PF 0 6; PF 0 5; PF 0 4; PF 0 3; PF 0 2; PF 0 1; PF 0 0]]; (* 370 *)
  mkForm "xch" [Ri] [[P1; P1; P0; P0; P0; P1; PF 0 1; PF 0 0]]; (* 371 *)
  mkForm "ldf" [] [[P0; P1; P0; P1; P0; P0; P0; P0]]; (* 380 *)
  mkForm "stf" [] [[P0; P1; P0; P1; P0; P0; P0; P1]]; (* 389 *)
  mkForm "jmp" [A12] [[P0; P0; P1; PF 0 11; P1; PF 0 10; PF 0 9; PF 0 8]; [PF 0 7; PF 0 6; PF 0 5; PF 0 4; PF 0 3; PF 0 2; PF 0 1; PF 0 0]]; (* 402 *)
  mkForm "jmpf" [A16] [[P0; P0; P1; P0; P0; P0; P0; P1]; [PF 0 15; PF 0 14; PF 0 13; PF 0 12; PF 0 11; PF 0 10; PF 0 9; PF 0 8]; [PF 0 7; PF 0 6; PF 0 5; PF 0 4; PF 0 3; PF 0 2; PF 0 1; PF 0 0]]; (* 413 *)
  mkForm "br" [R8] [[P0; P0; P0; P0; P0; P0; P0; P1]; [PF 0 7; PF 0 6; PF 0 5; PF 0 4; PF 0 3; PF 0 2; PF 0 1; PF 0 0]]; (* 426 *)
  mkForm "brf" [R16] [[P0; P0; P0; P1; P0; P0; P0; P1]; [PF 0 7; PF 0 6; PF 0 5; PF 0 4; PF 0 3; PF 0 2; PF 0 1; PF 0 0]; [PF 0 15; PF 0 14; PF 0 13; PF 0 12; PF 0 11; PF 0 10; PF 0 9; PF 0 8]]; (* 439 *)
  mkForm "bz" [R8] [[P1; P0; P0; P0; P0; P0; P0; P0]; [PF 0 7; PF 0 6; PF 0 5; PF 0 4; PF 0 3; PF 0 2; PF 0 1; PF 0 0]]; (* 452 *)
  mkForm "bnz" [R8] [[P1; P0; P0; P1; P0; P0; P0; P0]; [PF 0 7; PF 0 6; PF 0 5; PF 0 4; PF 0 3; PF 0 2; PF 0 1; PF 0 0]]; (* 465 *)
  mkForm "bp" [D9; B3; R8] [[P0; P1; P1; PF 0 8; P1; PF 1 2; PF 1 1; PF 1 0]; [PF 0 7; PF 0 6; PF 0 5; PF 0 4; PF 0 3; PF 0 2; PF 0 1; PF 0 0]; [PF 2 7; PF 2 6; PF 2 5; PF 2 4; PF 2 3; PF 2 2; PF 2 1; PF 2 0]]; (* 478 *)
  mkForm "bpc" [D9; B3; R8] [[P0; P1; P0; PF 0 8; P1; PF 1 2; PF 1 1; PF 1 0]; [PF 0 7; PF 0 6; PF 0 5; PF 0 4; PF 0 3; PF 0 2; PF 0 1; PF 0 0]; [PF 2 7; PF 2 6; PF 2 5; PF 2 4; PF 2 3; PF 2 2; PF 2 1; PF 2 0]]; (* 491 *)
  mkForm "bn" [D9; B3; R8] [[P1; P0; P0; PF 0 8; P1; PF 1 2; PF 1 1; PF 1 0]; [PF 0 7; PF 0 6; PF 0 5; PF 0 4; PF 0 3; PF 0 2; PF 0 1; PF 0 0]; [PF 2 7; PF 2 6; PF 2 5; PF 2 4; PF 2 3; PF 2 2; PF 2 1; PF 2 0]]; (* 504 *)
  mkForm "dbnz" [D9; R8] [[P0; P1; P0; P1; P0; P0; P1; PF 0 8]; [PF 0 7; PF 0 6; PF 0 5; PF 0 4; PF 0 3; PF 0 2; PF 0 1; PF 0 0]; [PF 1 7; PF 1 6; PF 1 5; PF 1 4; PF 1 3; PF 1 2; PF 1 1; PF 1 0]]; (* 518 *)
  mkForm "dbnz" [Ri; R8] [[P0; P1; P0; P1; P0; P1; PF 0 1; PF 0 0]; [PF 1 7; PF 1 6; PF 1 5; PF 1 4; PF 1 3; PF 1 2; PF 1 1; PF 1 0]]; (* 519 *)
  mkForm "be" [I8; R8] [[P0; P0; P1; P1; P0; P0; P0; P1]; [PF 0 7; PF 0 6; PF 0 5; PF 0 4; PF 0 3; PF 0 2; PF 0 1; PF 0 0]; [PF 1 7; PF 1 6; PF 1 5; PF 1 4; PF 1 3; PF 1 2; PF 1 1; PF 1 0]]; (* 532 *)
  mkForm "be" [D9; R8] [[P0; P0; P1; P1; P0; P0; P1; PF 0 8]; [PF 0 7; PF 0 6; PF 0 5; PF 0 4; PF 0 3; PF 0 2; PF 0 1; PF 0 0]; [PF 1 7; PF 1 6; PF 1 5; PF 1 4; PF 1 3; PF 1 2; PF 1 1; PF 1 0]]; (* 533 *)
  mkForm "be" [Ri; I8; R8] [[P0; P0; P1; P1; P0; P1; PF 0 1; PF 0 0]; [PF 1 7; PF 1 6; PF 1 5; PF 1 4; PF 1 3; PF 1 2; PF 1 1; PF 1 0]; [PF 2 7; PF 2 6; PF 2 5; PF 2 4; PF 2 3; PF 2 2; PF 2 1; PF 2 0]]; (* 534 *)
  mkForm "bne" [I8; R8] [[P0; P1; P0; P0; P0; P0; P0; P1]; [PF 0 7; PF 0 6; PF 0 5; PF 0 4; PF 0 3; PF 0 2; PF 0 1; PF 0 0]; [PF 1 7; PF 1 6; PF 1 5; PF 1 4; PF 1 3; PF 1 2; PF 1 1; PF 1 0]]; (* 553 *)
  mkForm "bne" [D9; R8] [[P0; P1; P0; P0; P0; P0; P1; PF 0 8]; [PF 0 7; PF 0 6; PF 0 5; PF 0 4; PF 0 3; PF 0 2; PF 0 1; PF 0 0]; [PF 1 7; PF 1 6; PF 1 5; PF 1 4; PF 1 3; PF 1 2; PF 1 1; PF 1 0]]; (* 554 *)
  mkForm "bne" [Ri; I8; R8] [[P0; P1; P0; P0; P0; P1; PF 0 1; PF 0 0]; [PF 1 7; PF 1 6; PF 1 5; PF 1 4; PF 1 3; PF 1 2; PF 1 1; PF 1 0]; [PF 2 7; PF 2 6; PF 2 5; PF 2 4; PF 2 3; PF 2 2; PF 2 1; PF 2 0]]; (* 555 *)
  mkForm "call" [A12] [[P0; P0; P0; PF 0 11; P1; PF 0 10; PF 0 9; PF 0 8]; [PF 0 7; PF 0 6; PF 0 5; PF 0 4; PF 0 3; PF 0 2; PF 0 1; PF 0 0]]; (* 577 *)
  mkForm "callf" [A16] [[P0; P0; P1; P0; P0; P0; P0; P0]; [PF 0 15; PF 0 14; PF 0 13; PF 0 12; PF 0 11; PF 0 10; PF 0 9; PF 0 8]; [PF 0 7; PF 0 6; PF 0 5; PF 0 4; PF 0 3; PF 0 2; PF 0 1; PF 0 0]]; (* 590 *)
  mkForm "callr" [R16] [[P0; P0; P0; P1; P0; P0; P0; P0]; [PF 0 7; PF 0 6; PF 0 5; PF 0 4; PF 0 3; PF 0 2; PF 0 1; PF 0 0]; [PF 0 15; PF 0 14; PF 0 13; PF 0 12; PF 0 11; PF 0 10; PF 0 9; PF 0 8]]; (* 606 *)
  mkForm "ret" [] [[P1; P0; P1; P0; P0; P0; P0; P0]]; (* 618 *)
  mkForm "reti" [] [[P1; P0; P1; P1; P0; P0; P0; P0]]; (* 631 *)
  mkForm "nop" [] [[P0; P0; P0; P0; P0; P0; P0; P0]] (* 641 *)
].

(** Width of an operand field in bits, and its signedness. *)
Definition kind_bits (k : kind) : Z :=
  match k with I8 => 8 | D9 => 9 | Ri => 2 | B3 => 3 | A12 => 12 | A16 => 16 | R8 => 8 | R16 => 16 end.

Definition kind_signed (k : kind) : bool := match k with R8 | R16 => true | _ => false end.

(** The operand values a field can hold. *)
Definition in_field (k : kind) (v : Z) : Prop :=
  if kind_signed k then - 2 ^ (kind_bits k - 1) <= v < 2 ^ (kind_bits k - 1)
  else 0 <= v < 2 ^ kind_bits k.

(** Value of a pattern bit under operand values, and of a byte written most significant bit first. *)
Definition pbit_value (args : list Z) (b : pbit) : Z :=
  match b with
  | P0 => 0
  | P1 => 1
  | PF k n => Z.b2z (Z.testbit (nth k args 0) n)
  end.

Definition pbyte_value (args : list Z) (bits : list pbit) : Z :=
  fold_left (fun acc b => 2 * acc + pbit_value args b) bits 0.

(** The bytes of a form. *)
Definition form_bytes (f : form) (args : list Z) : list Z := map (pbyte_value args) (f_bits f).

(** The reference row an instruction belongs to: mnemonic and operand kinds. *)
Definition key {E J : Type} (i : instr E J) : string * list kind :=
  match i with
  | Add_i8 _ => ("add", [I8])
  | Add_d9 _ => ("add", [D9])
  | Add_Ri _ => ("add", [Ri])
  | Addc_i8 _ => ("addc", [I8])
  | Addc_d9 _ => ("addc", [D9])
  | Addc_Ri _ => ("addc", [Ri])
  | Sub_i8 _ => ("sub", [I8])
  | Sub_d9 _ => ("sub", [D9])
  | Sub_Ri _ => ("sub", [Ri])
  | Subc_i8 _ => ("subc", [I8])
  | Subc_d9 _ => ("subc", [D9])
  | Subc_Ri _ => ("subc", [Ri])
  | Inc_d9 _ => ("inc", [D9])
  | Inc_Ri _ => ("inc", [Ri])
  | Dec_d9 _ => ("dec", [D9])
  | Dec_Ri _ => ("dec", [Ri])
  | Mul => ("mul", [])
  | Div => ("div", [])
  | And_i8 _ => ("and", [I8])
  | And_d9 _ => ("and", [D9])
  | And_Ri _ => ("and", [Ri])
  | Or_i8 _ => ("or", [I8])
  | Or_d9 _ => ("or", [D9])
  | Or_Ri _ => ("or", [Ri])
  | Xor_i8 _ => ("xor", [I8])
  | Xor_d9 _ => ("xor", [D9])
  | Xor_Ri _ => ("xor", [Ri])
  | Rol => ("rol", [])
  | Rolc => ("rolc", [])
  | Ror => ("ror", [])
  | Rorc => ("rorc", [])
  | Ld_d9 _ => ("ld", [D9])
  | Ld_Ri _ => ("ld", [Ri])
  | St_d9 _ => ("st", [D9])
  | St_Ri _ => ("st", [Ri])
  | Mov_d9 _ _ => ("mov", [I8; D9])
  | Mov_Rj _ _ => ("mov", [I8; Ri])
  | Ldc => ("ldc", [])
  | Push _ => ("push", [D9])
  | Pop _ => ("pop", [D9])
  | Xch_d9 _ => ("xch", [D9])
  | Xch_Ri _ => ("xch", [Ri])
  | Jmp _ => ("jmp", [A12])
  | Jmpf _ => ("jmpf", [A16])
  | Br _ => ("br", [R8])
  | Brf _ => ("brf", [R16])
  | Bz _ => ("bz", [R8])
  | Bnz _ => ("bnz", [R8])
  | Bp _ _ _ => ("bp", [D9; B3; R8])
  | Bpc _ _ _ => ("bpc", [D9; B3; R8])
  | Bn _ _ _ => ("bn", [D9; B3; R8])
  | Dbnz_d9 _ _ => ("dbnz", [D9; R8])
  | Dbnz_Ri _ _ => ("dbnz", [Ri; R8])
  | Be_i8 _ _ => ("be", [I8; R8])
  | Be_d9 _ _ => ("be", [D9; R8])
  | Be_Rj _ _ _ => ("be", [Ri; I8; R8])
  | Bne_i8 _ _ => ("bne", [I8; R8])
  | Bne_d9 _ _ => ("bne", [D9; R8])
  | Bne_Rj _ _ _ => ("bne", [Ri; I8; R8])
  | Call _ => ("call", [A12])
  | Callf _ => ("callf", [A16])
  | Callr _ => ("callr", [R16])
  | Ret => ("ret", [])
  | Reti => ("reti", [])
  | Clr1 _ _ => ("clr1", [D9; B3])
  | Set1 _ _ => ("set1", [D9; B3])
  | Not1 _ _ => ("not1", [D9; B3])
  | Nop => ("nop", [])
  | Ldf => ("ldf", [])
  | Stf => ("stf", [])
  end.

(** The operands of an instruction, left to right. *)
Definition op_list {E J : Type} (i : instr E J) : list (E + J) :=
  match i with
  | Add_i8 a => [inl a]
  | Add_d9 a => [inl a]
  | Add_Ri a => [inr a]
  | Addc_i8 a => [inl a]
  | Addc_d9 a => [inl a]
  | Addc_Ri a => [inr a]
  | Sub_i8 a => [inl a]
  | Sub_d9 a => [inl a]
  | Sub_Ri a => [inr a]
  | Subc_i8 a => [inl a]
  | Subc_d9 a => [inl a]
  | Subc_Ri a => [inr a]
  | Inc_d9 a => [inl a]
  | Inc_Ri a => [inr a]
  | Dec_d9 a => [inl a]
  | Dec_Ri a => [inr a]
  | Mul => []
  | Div => []
  | And_i8 a => [inl a]
  | And_d9 a => [inl a]
  | And_Ri a => [inr a]
  | Or_i8 a => [inl a]
  | Or_d9 a => [inl a]
  | Or_Ri a => [inr a]
  | Xor_i8 a => [inl a]
  | Xor_d9 a => [inl a]
  | Xor_Ri a => [inr a]
  | Rol => []
  | Rolc => []
  | Ror => []
  | Rorc => []
  | Ld_d9 a => [inl a]
  | Ld_Ri a => [inr a]
  | St_d9 a => [inl a]
  | St_Ri a => [inr a]
  | Mov_d9 a b => [inl a; inl b]
  | Mov_Rj a b => [inl a; inr b]
  | Ldc => []
  | Push a => [inl a]
  | Pop a => [inl a]
  | Xch_d9 a => [inl a]
  | Xch_Ri a => [inr a]
  | Jmp a => [inl a]
  | Jmpf a => [inl a]
  | Br a => [inl a]
  | Brf a => [inl a]
  | Bz a => [inl a]
  | Bnz a => [inl a]
  | Bp a b c => [inl a; inl b; inl c]
  | Bpc a b c => [inl a; inl b; inl c]
  | Bn a b c => [inl a; inl b; inl c]
  | Dbnz_d9 a b => [inl a; inl b]
  | Dbnz_Ri a b => [inr a; inl b]
  | Be_i8 a b => [inl a; inl b]
  | Be_d9 a b => [inl a; inl b]
  | Be_Rj a b c => [inr a; inl b; inl c]
  | Bne_i8 a b => [inl a; inl b]
  | Bne_d9 a b => [inl a; inl b]
  | Bne_Rj a b c => [inr a; inl b; inl c]
  | Call a => [inl a]
  | Callf a => [inl a]
  | Callr a => [inl a]
  | Ret => []
  | Reti => []
  | Clr1 a b => [inl a; inl b]
  | Set1 a b => [inl a; inl b]
  | Not1 a b => [inl a; inl b]
  | Nop => []
  | Ldf => []
  | Stf => []
  end.

Definition strip (x : Z + Z) : Z := match x with inl a => a | inr a => a end.

(** The operand values of a machine instruction. *)
Definition values (i : instr Z Z) : list Z := map strip (op_list i).

(** All operands fit their fields. *)
Definition in_range (i : instr Z Z) : Prop := Forall2 in_field (snd (key i)) (values i).

(** A byte agrees with a pattern byte as far as the constant bits go. *)
Definition matches (bits : list pbit) (b : Z) : Prop :=
  forall k, (k < 8)%nat ->
    match nth k bits P0 with
    | P0 => Z.testbit b (7 - Z.of_nat k) = false
    | P1 => Z.testbit b (7 - Z.of_nat k) = true
    | PF _ _ => True
    end.

Definition is_byte (b : Z) : Prop := 0 <= b < 256.

(** Where the CPU goes for a jump operand [o] of an instruction followed by address [next]
    (/repo/docs/instructions.md, sections jmp, jmpf, br, brf, callr). *)
Definition cpu_target (k : kind) (next o : Z) : option Z :=
  match k with
  | A12 => Some ((next / 4096) mod 16 * 4096 + o)
  | A16 => Some o
  | R8 => Some ((next + o) mod 65536)
  | R16 => Some ((next - 1 + o) mod 65536)
  | _ => None
  end.
