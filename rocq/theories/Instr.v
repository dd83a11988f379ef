(** The instruction set: /repo/src/instruction.rs and the code generated for it by the derive macro. *)
From Coq Require Import ZArith List String Ascii Bool.
From Verif Require Import Base Expr Bits.
Import ListNotations.
Open Scope string_scope.
Open Scope Z_scope.

(** [Instr<Ex, IM>], /repo/src/instruction.rs 69-236. *)
Inductive instr (E I : Type) : Type :=
| Add_i8 (a : E)
| Add_d9 (a : E)
| Add_Ri (a : I)
| Addc_i8 (a : E)
| Addc_d9 (a : E)
| Addc_Ri (a : I)
| Sub_i8 (a : E)
| Sub_d9 (a : E)
| Sub_Ri (a : I)
| Subc_i8 (a : E)
| Subc_d9 (a : E)
| Subc_Ri (a : I)
| Inc_d9 (a : E)
| Inc_Ri (a : I)
| Dec_d9 (a : E)
| Dec_Ri (a : I)
| Mul
| Div
| And_i8 (a : E)
| And_d9 (a : E)
| And_Ri (a : I)
| Or_i8 (a : E)
| Or_d9 (a : E)
| Or_Ri (a : I)
| Xor_i8 (a : E)
| Xor_d9 (a : E)
| Xor_Ri (a : I)
| Rol
| Rolc
| Ror
| Rorc
| Ld_d9 (a : E)
| Ld_Ri (a : I)
| St_d9 (a : E)
| St_Ri (a : I)
| Mov_d9 (a : E) (b : E)
| Mov_Rj (a : E) (b : I)
| Ldc
| Push (a : E)
| Pop (a : E)
| Xch_d9 (a : E)
| Xch_Ri (a : I)
| Jmp (a : E)
| Jmpf (a : E)
| Br (a : E)
| Brf (a : E)
| Bz (a : E)
| Bnz (a : E)
| Bp (a : E) (b : E) (c : E)
| Bpc (a : E) (b : E) (c : E)
| Bn (a : E) (b : E) (c : E)
| Dbnz_d9 (a : E) (b : E)
| Dbnz_Ri (a : I) (b : E)
| Be_i8 (a : E) (b : E)
| Be_d9 (a : E) (b : E)
| Be_Rj (a : I) (b : E) (c : E)
| Bne_i8 (a : E) (b : E)
| Bne_d9 (a : E) (b : E)
| Bne_Rj (a : I) (b : E) (c : E)
| Call (a : E)
| Callf (a : E)
| Callr (a : E)
| Ret
| Reti
| Clr1 (a : E) (b : E)
| Set1 (a : E) (b : E)
| Not1 (a : E) (b : E)
| Nop
| Ldf
| Stf
.
Arguments Add_i8 {E I} a.
Arguments Add_d9 {E I} a.
Arguments Add_Ri {E I} a.
Arguments Addc_i8 {E I} a.
Arguments Addc_d9 {E I} a.
Arguments Addc_Ri {E I} a.
Arguments Sub_i8 {E I} a.
Arguments Sub_d9 {E I} a.
Arguments Sub_Ri {E I} a.
Arguments Subc_i8 {E I} a.
Arguments Subc_d9 {E I} a.
Arguments Subc_Ri {E I} a.
Arguments Inc_d9 {E I} a.
Arguments Inc_Ri {E I} a.
Arguments Dec_d9 {E I} a.
Arguments Dec_Ri {E I} a.
Arguments Mul {E I}.
Arguments Div {E I}.
Arguments And_i8 {E I} a.
Arguments And_d9 {E I} a.
Arguments And_Ri {E I} a.
Arguments Or_i8 {E I} a.
Arguments Or_d9 {E I} a.
Arguments Or_Ri {E I} a.
Arguments Xor_i8 {E I} a.
Arguments Xor_d9 {E I} a.
Arguments Xor_Ri {E I} a.
Arguments Rol {E I}.
Arguments Rolc {E I}.
Arguments Ror {E I}.
Arguments Rorc {E I}.
Arguments Ld_d9 {E I} a.
Arguments Ld_Ri {E I} a.
Arguments St_d9 {E I} a.
Arguments St_Ri {E I} a.
Arguments Mov_d9 {E I} a b.
Arguments Mov_Rj {E I} a b.
Arguments Ldc {E I}.
Arguments Push {E I} a.
Arguments Pop {E I} a.
Arguments Xch_d9 {E I} a.
Arguments Xch_Ri {E I} a.
Arguments Jmp {E I} a.
Arguments Jmpf {E I} a.
Arguments Br {E I} a.
Arguments Brf {E I} a.
Arguments Bz {E I} a.
Arguments Bnz {E I} a.
Arguments Bp {E I} a b c.
Arguments Bpc {E I} a b c.
Arguments Bn {E I} a b c.
Arguments Dbnz_d9 {E I} a b.
Arguments Dbnz_Ri {E I} a b.
Arguments Be_i8 {E I} a b.
Arguments Be_d9 {E I} a b.
Arguments Be_Rj {E I} a b c.
Arguments Bne_i8 {E I} a b.
Arguments Bne_d9 {E I} a b.
Arguments Bne_Rj {E I} a b c.
Arguments Call {E I} a.
Arguments Callf {E I} a.
Arguments Callr {E I} a.
Arguments Ret {E I}.
Arguments Reti {E I}.
Arguments Clr1 {E I} a b.
Arguments Set1 {E I} a b.
Arguments Not1 {E I} a b.
Arguments Nop {E I}.
Arguments Ldf {E I}.
Arguments Stf {E I}.

(** The [#[instr = "..."]] attribute of each variant, /repo/src/instruction.rs 72-235, and
    [extract_bit_pattern], /repo/waterbear-instruction-derive/src/lib.rs 614-628. *)
Definition pattern {E I : Type} (i : instr E I) : string :=
  match i with
  | Add_i8 _ => "10000001 [a7][a6][a5][a4][a3][a2][a1][a0]"
  | Add_d9 _ => "1000001[a8] [a7][a6][a5][a4][a3][a2][a1][a0]"
  | Add_Ri _ => "100001[a1][a0]"
  | Addc_i8 _ => "10010001 [a7][a6][a5][a4][a3][a2][a1][a0]"
  | Addc_d9 _ => "1001001[a8] [a7][a6][a5][a4][a3][a2][a1][a0]"
  | Addc_Ri _ => "100101[a1][a0]"
  | Sub_i8 _ => "10100001 [a7][a6][a5][a4][a3][a2][a1][a0]"
  | Sub_d9 _ => "1010001[a8] [a7][a6][a5][a4][a3][a2][a1][a0]"
  | Sub_Ri _ => "101001[a1][a0]"
  | Subc_i8 _ => "10110001 [a7][a6][a5][a4][a3][a2][a1][a0]"
  | Subc_d9 _ => "1011001[a8] [a7][a6][a5][a4][a3][a2][a1][a0]"
  | Subc_Ri _ => "101101[a1][a0]"
  | Inc_d9 _ => "0110001[a8] [a7][a6][a5][a4][a3][a2][a1][a0]"
  | Inc_Ri _ => "011001[a1][a0]"
  | Dec_d9 _ => "0111001[a8] [a7][a6][a5][a4][a3][a2][a1][a0]"
  | Dec_Ri _ => "011101[a1][a0]"
  | Mul => "00110000"
  | Div => "01000000"
  | And_i8 _ => "11100001 [a7][a6][a5][a4][a3][a2][a1][a0]"
  | And_d9 _ => "1110001[a8] [a7][a6][a5][a4][a3][a2][a1][a0]"
  | And_Ri _ => "111001[a1][a0]"
  | Or_i8 _ => "11010001 [a7][a6][a5][a4][a3][a2][a1][a0]"
  | Or_d9 _ => "1101001[a8] [a7][a6][a5][a4][a3][a2][a1][a0]"
  | Or_Ri _ => "110101[a1][a0]"
  | Xor_i8 _ => "11110001 [a7][a6][a5][a4][a3][a2][a1][a0]"
  | Xor_d9 _ => "1111001[a8] [a7][a6][a5][a4][a3][a2][a1][a0]"
  | Xor_Ri _ => "111101[a1][a0]"
  | Rol => "11100000"
  | Rolc => "11110000"
  | Ror => "11000000"
  | Rorc => "11010000"
  | Ld_d9 _ => "0000001[a8] [a7][a6][a5][a4][a3][a2][a1][a0]"
  | Ld_Ri _ => "000001[a1][a0]"
  | St_d9 _ => "0001001[a8] [a7][a6][a5][a4][a3][a2][a1][a0]"
  | St_Ri _ => "000101[a1][a0]"
  | Mov_d9 _ _ => "0010001[b8] [b7][b6][b5][b4][b3][b2][b1][b0] [a7][a6][a5][a4][a3][a2][a1][a0]"
  | Mov_Rj _ _ => "001001[b1][b0] [a7][a6][a5][a4][a3][a2][a1][a0]"
  | Ldc => "11000001"
  | Push _ => "0110000[a8] [a7][a6][a5][a4][a3][a2][a1][a0]"
  | Pop _ => "0111000[a8] [a7][a6][a5][a4][a3][a2][a1][a0]"
  | Xch_d9 _ => "1100001[a8] [a7][a6][a5][a4][a3][a2][a1][a0]"
  | Xch_Ri _ => "110001[a1][a0]"
  | Jmp _ => "001[a11]1[a10][a9][a8] [a7][a6][a5][a4][a3][a2][a1][a0]"
  | Jmpf _ => "00100001 [a15][a14][a13][a12][a11][a10][a9][a8] [a7][a6][a5][a4][a3][a2][a1][a0]"
  | Br _ => "00000001 [a7][a6][a5][a4][a3][a2][a1][a0]"
  | Brf _ => "00010001 [a7][a6][a5][a4][a3][a2][a1][a0] [a15][a14][a13][a12][a11][a10][a9][a8]"
  | Bz _ => "10000000 [a7][a6][a5][a4][a3][a2][a1][a0]"
  | Bnz _ => "10010000 [a7][a6][a5][a4][a3][a2][a1][a0]"
  | Bp _ _ _ => "011[a8]1[b2][b1][b0] [a7][a6][a5][a4][a3][a2][a1][a0] [c7][c6][c5][c4][c3][c2][c1][c0]"
  | Bpc _ _ _ => "010[a8]1[b2][b1][b0] [a7][a6][a5][a4][a3][a2][a1][a0] [c7][c6][c5][c4][c3][c2][c1][c0]"
  | Bn _ _ _ => "100[a8]1[b2][b1][b0] [a7][a6][a5][a4][a3][a2][a1][a0] [c7][c6][c5][c4][c3][c2][c1][c0]"
  | Dbnz_d9 _ _ => "0101001[a8] [a7][a6][a5][a4][a3][a2][a1][a0] [b7][b6][b5][b4][b3][b2][b1][b0]"
  | Dbnz_Ri _ _ => "010101[a1][a0] [b7][b6][b5][b4][b3][b2][b1][b0]"
  | Be_i8 _ _ => "00110001 [a7][a6][a5][a4][a3][a2][a1][a0] [b7][b6][b5][b4][b3][b2][b1][b0]"
  | Be_d9 _ _ => "0011001[a8] [a7][a6][a5][a4][a3][a2][a1][a0] [b7][b6][b5][b4][b3][b2][b1][b0]"
  | Be_Rj _ _ _ => "001101[a1][a0] [b7][b6][b5][b4][b3][b2][b1][b0] [c7][c6][c5][c4][c3][c2][c1][c0]"
  | Bne_i8 _ _ => "01000001 [a7][a6][a5][a4][a3][a2][a1][a0] [b7][b6][b5][b4][b3][b2][b1][b0]"
  | Bne_d9 _ _ => "0100001[a8] [a7][a6][a5][a4][a3][a2][a1][a0] [b7][b6][b5][b4][b3][b2][b1][b0]"
  | Bne_Rj _ _ _ => "010001[a1][a0] [b7][b6][b5][b4][b3][b2][b1][b0] [c7][c6][c5][c4][c3][c2][c1][c0]"
  | Call _ => "000[a11]1[a10][a9][a8] [a7][a6][a5][a4][a3][a2][a1][a0]"
  | Callf _ => "00100000 [a15][a14][a13][a12][a11][a10][a9][a8] [a7][a6][a5][a4][a3][a2][a1][a0]"
  | Callr _ => "00010000 [a7][a6][a5][a4][a3][a2][a1][a0] [a15][a14][a13][a12][a11][a10][a9][a8]"
  | Ret => "10100000"
  | Reti => "10110000"
  | Clr1 _ _ => "110[a8]1[b2][b1][b0] [a7][a6][a5][a4][a3][a2][a1][a0]"
  | Set1 _ _ => "111[a8]1[b2][b1][b0] [a7][a6][a5][a4][a3][a2][a1][a0]"
  | Not1 _ _ => "101[a8]1[b2][b1][b0] [a7][a6][a5][a4][a3][a2][a1][a0]"
  | Nop => "00000000"
  | Ldf => "01010000"
  | Stf => "01010001"
  end.

(** The operands of an instruction in declaration order, bound to [a], [b], [c] by the generated
    match arms, /repo/waterbear-instruction-derive/src/lib.rs 45-60 and 584-612. *)
Definition operands (i : instr Z Z) : list Z :=
  match i with
  | Add_i8 a => [a]
  | Add_d9 a => [a]
  | Add_Ri a => [a]
  | Addc_i8 a => [a]
  | Addc_d9 a => [a]
  | Addc_Ri a => [a]
  | Sub_i8 a => [a]
  | Sub_d9 a => [a]
  | Sub_Ri a => [a]
  | Subc_i8 a => [a]
  | Subc_d9 a => [a]
  | Subc_Ri a => [a]
  | Inc_d9 a => [a]
  | Inc_Ri a => [a]
  | Dec_d9 a => [a]
  | Dec_Ri a => [a]
  | Mul => []
  | Div => []
  | And_i8 a => [a]
  | And_d9 a => [a]
  | And_Ri a => [a]
  | Or_i8 a => [a]
  | Or_d9 a => [a]
  | Or_Ri a => [a]
  | Xor_i8 a => [a]
  | Xor_d9 a => [a]
  | Xor_Ri a => [a]
  | Rol => []
  | Rolc => []
  | Ror => []
  | Rorc => []
  | Ld_d9 a => [a]
  | Ld_Ri a => [a]
  | St_d9 a => [a]
  | St_Ri a => [a]
  | Mov_d9 a b => [a; b]
  | Mov_Rj a b => [a; b]
  | Ldc => []
  | Push a => [a]
  | Pop a => [a]
  | Xch_d9 a => [a]
  | Xch_Ri a => [a]
  | Jmp a => [a]
  | Jmpf a => [a]
  | Br a => [a]
  | Brf a => [a]
  | Bz a => [a]
  | Bnz a => [a]
  | Bp a b c => [a; b; c]
  | Bpc a b c => [a; b; c]
  | Bn a b c => [a; b; c]
  | Dbnz_d9 a b => [a; b]
  | Dbnz_Ri a b => [a; b]
  | Be_i8 a b => [a; b]
  | Be_d9 a b => [a; b]
  | Be_Rj a b c => [a; b; c]
  | Bne_i8 a b => [a; b]
  | Bne_d9 a b => [a; b]
  | Bne_Rj a b c => [a; b; c]
  | Call a => [a]
  | Callf a => [a]
  | Callr a => [a]
  | Ret => []
  | Reti => []
  | Clr1 a b => [a; b]
  | Set1 a b => [a; b]
  | Not1 a b => [a; b]
  | Nop => []
  | Ldf => []
  | Stf => []
  end.

(** A variant as seen by the derive macro: name, pattern, number of operands, constructor with the
    [as i32] / [as u8] casts of lib.rs 78-84 and 600-604. *)
Record variant : Type := mkVariant {
  v_name : string;
  v_pattern : string;
  v_arity : nat;
  v_make : list Z -> option (instr Z Z)
}.

(** ** The variants, /repo/src/instruction.rs 72-235: pattern and field types of each *)

(** /repo/src/instruction.rs 72-73. *)
Definition var_Add_i8 : variant :=
  mkVariant "Add_i8" "10000001 [a7][a6][a5][a4][a3][a2][a1][a0]" 1
    (fun l => match l with [a] => Some (Add_i8 (wrap32 a)) | _ => None end).

(** /repo/src/instruction.rs 74-75. *)
Definition var_Add_d9 : variant :=
  mkVariant "Add_d9" "1000001[a8] [a7][a6][a5][a4][a3][a2][a1][a0]" 1
    (fun l => match l with [a] => Some (Add_d9 (wrap32 a)) | _ => None end).

(** /repo/src/instruction.rs 76-77. *)
Definition var_Add_Ri : variant :=
  mkVariant "Add_Ri" "100001[a1][a0]" 1
    (fun l => match l with [a] => Some (Add_Ri (to_u8 a)) | _ => None end).

(** /repo/src/instruction.rs 79-80. *)
Definition var_Addc_i8 : variant :=
  mkVariant "Addc_i8" "10010001 [a7][a6][a5][a4][a3][a2][a1][a0]" 1
    (fun l => match l with [a] => Some (Addc_i8 (wrap32 a)) | _ => None end).

(** /repo/src/instruction.rs 81-82. *)
Definition var_Addc_d9 : variant :=
  mkVariant "Addc_d9" "1001001[a8] [a7][a6][a5][a4][a3][a2][a1][a0]" 1
    (fun l => match l with [a] => Some (Addc_d9 (wrap32 a)) | _ => None end).

(** /repo/src/instruction.rs 83-84. *)
Definition var_Addc_Ri : variant :=
  mkVariant "Addc_Ri" "100101[a1][a0]" 1
    (fun l => match l with [a] => Some (Addc_Ri (to_u8 a)) | _ => None end).

(** /repo/src/instruction.rs 86-87. *)
Definition var_Sub_i8 : variant :=
  mkVariant "Sub_i8" "10100001 [a7][a6][a5][a4][a3][a2][a1][a0]" 1
    (fun l => match l with [a] => Some (Sub_i8 (wrap32 a)) | _ => None end).

(** /repo/src/instruction.rs 88-89. *)
Definition var_Sub_d9 : variant :=
  mkVariant "Sub_d9" "1010001[a8] [a7][a6][a5][a4][a3][a2][a1][a0]" 1
    (fun l => match l with [a] => Some (Sub_d9 (wrap32 a)) | _ => None end).

(** /repo/src/instruction.rs 90-91. *)
Definition var_Sub_Ri : variant :=
  mkVariant "Sub_Ri" "101001[a1][a0]" 1
    (fun l => match l with [a] => Some (Sub_Ri (to_u8 a)) | _ => None end).

(** /repo/src/instruction.rs 93-94. *)
Definition var_Subc_i8 : variant :=
  mkVariant "Subc_i8" "10110001 [a7][a6][a5][a4][a3][a2][a1][a0]" 1
    (fun l => match l with [a] => Some (Subc_i8 (wrap32 a)) | _ => None end).

(** /repo/src/instruction.rs 95-96. *)
Definition var_Subc_d9 : variant :=
  mkVariant "Subc_d9" "1011001[a8] [a7][a6][a5][a4][a3][a2][a1][a0]" 1
    (fun l => match l with [a] => Some (Subc_d9 (wrap32 a)) | _ => None end).

(** /repo/src/instruction.rs 97-98. *)
Definition var_Subc_Ri : variant :=
  mkVariant "Subc_Ri" "101101[a1][a0]" 1
    (fun l => match l with [a] => Some (Subc_Ri (to_u8 a)) | _ => None end).

(** /repo/src/instruction.rs 100-101. *)
Definition var_Inc_d9 : variant :=
  mkVariant "Inc_d9" "0110001[a8] [a7][a6][a5][a4][a3][a2][a1][a0]" 1
    (fun l => match l with [a] => Some (Inc_d9 (wrap32 a)) | _ => None end).

(** /repo/src/instruction.rs 102-103. *)
Definition var_Inc_Ri : variant :=
  mkVariant "Inc_Ri" "011001[a1][a0]" 1
    (fun l => match l with [a] => Some (Inc_Ri (to_u8 a)) | _ => None end).

(** /repo/src/instruction.rs 105-106. *)
Definition var_Dec_d9 : variant :=
  mkVariant "Dec_d9" "0111001[a8] [a7][a6][a5][a4][a3][a2][a1][a0]" 1
    (fun l => match l with [a] => Some (Dec_d9 (wrap32 a)) | _ => None end).

(** /repo/src/instruction.rs 107-108. *)
Definition var_Dec_Ri : variant :=
  mkVariant "Dec_Ri" "011101[a1][a0]" 1
    (fun l => match l with [a] => Some (Dec_Ri (to_u8 a)) | _ => None end).

(** /repo/src/instruction.rs 110-111. *)
Definition var_Mul : variant :=
  mkVariant "Mul" "00110000" 0
    (fun l => match l with [] => Some (Mul) | _ => None end).

(** /repo/src/instruction.rs 112-113. *)
Definition var_Div : variant :=
  mkVariant "Div" "01000000" 0
    (fun l => match l with [] => Some (Div) | _ => None end).

(** /repo/src/instruction.rs 115-116. *)
Definition var_And_i8 : variant :=
  mkVariant "And_i8" "11100001 [a7][a6][a5][a4][a3][a2][a1][a0]" 1
    (fun l => match l with [a] => Some (And_i8 (wrap32 a)) | _ => None end).

(** /repo/src/instruction.rs 117-118. *)
Definition var_And_d9 : variant :=
  mkVariant "And_d9" "1110001[a8] [a7][a6][a5][a4][a3][a2][a1][a0]" 1
    (fun l => match l with [a] => Some (And_d9 (wrap32 a)) | _ => None end).

(** /repo/src/instruction.rs 119-120. *)
Definition var_And_Ri : variant :=
  mkVariant "And_Ri" "111001[a1][a0]" 1
    (fun l => match l with [a] => Some (And_Ri (to_u8 a)) | _ => None end).

(** /repo/src/instruction.rs 122-123. *)
Definition var_Or_i8 : variant :=
  mkVariant "Or_i8" "11010001 [a7][a6][a5][a4][a3][a2][a1][a0]" 1
    (fun l => match l with [a] => Some (Or_i8 (wrap32 a)) | _ => None end).

(** /repo/src/instruction.rs 124-125. *)
Definition var_Or_d9 : variant :=
  mkVariant "Or_d9" "1101001[a8] [a7][a6][a5][a4][a3][a2][a1][a0]" 1
    (fun l => match l with [a] => Some (Or_d9 (wrap32 a)) | _ => None end).

(** /repo/src/instruction.rs 126-127. *)
Definition var_Or_Ri : variant :=
  mkVariant "Or_Ri" "110101[a1][a0]" 1
    (fun l => match l with [a] => Some (Or_Ri (to_u8 a)) | _ => None end).

(** /repo/src/instruction.rs 129-130. *)
Definition var_Xor_i8 : variant :=
  mkVariant "Xor_i8" "11110001 [a7][a6][a5][a4][a3][a2][a1][a0]" 1
    (fun l => match l with [a] => Some (Xor_i8 (wrap32 a)) | _ => None end).

(** /repo/src/instruction.rs 131-132. *)
Definition var_Xor_d9 : variant :=
  mkVariant "Xor_d9" "1111001[a8] [a7][a6][a5][a4][a3][a2][a1][a0]" 1
    (fun l => match l with [a] => Some (Xor_d9 (wrap32 a)) | _ => None end).

(** /repo/src/instruction.rs 133-134. *)
Definition var_Xor_Ri : variant :=
  mkVariant "Xor_Ri" "111101[a1][a0]" 1
    (fun l => match l with [a] => Some (Xor_Ri (to_u8 a)) | _ => None end).

(** /repo/src/instruction.rs 136-137. *)
Definition var_Rol : variant :=
  mkVariant "Rol" "11100000" 0
    (fun l => match l with [] => Some (Rol) | _ => None end).

(** /repo/src/instruction.rs 138-139. *)
Definition var_Rolc : variant :=
  mkVariant "Rolc" "11110000" 0
    (fun l => match l with [] => Some (Rolc) | _ => None end).

(** /repo/src/instruction.rs 141-142. *)
Definition var_Ror : variant :=
  mkVariant "Ror" "11000000" 0
    (fun l => match l with [] => Some (Ror) | _ => None end).

(** /repo/src/instruction.rs 143-144. *)
Definition var_Rorc : variant :=
  mkVariant "Rorc" "11010000" 0
    (fun l => match l with [] => Some (Rorc) | _ => None end).

(** /repo/src/instruction.rs 146-147. *)
Definition var_Ld_d9 : variant :=
  mkVariant "Ld_d9" "0000001[a8] [a7][a6][a5][a4][a3][a2][a1][a0]" 1
    (fun l => match l with [a] => Some (Ld_d9 (wrap32 a)) | _ => None end).

(** /repo/src/instruction.rs 148-149. *)
Definition var_Ld_Ri : variant :=
  mkVariant "Ld_Ri" "000001[a1][a0]" 1
    (fun l => match l with [a] => Some (Ld_Ri (to_u8 a)) | _ => None end).

(** /repo/src/instruction.rs 151-152. *)
Definition var_St_d9 : variant :=
  mkVariant "St_d9" "0001001[a8] [a7][a6][a5][a4][a3][a2][a1][a0]" 1
    (fun l => match l with [a] => Some (St_d9 (wrap32 a)) | _ => None end).

(** /repo/src/instruction.rs 153-154. *)
Definition var_St_Ri : variant :=
  mkVariant "St_Ri" "000101[a1][a0]" 1
    (fun l => match l with [a] => Some (St_Ri (to_u8 a)) | _ => None end).

(** /repo/src/instruction.rs 156-157. *)
Definition var_Mov_d9 : variant :=
  mkVariant "Mov_d9" "0010001[b8] [b7][b6][b5][b4][b3][b2][b1][b0] [a7][a6][a5][a4][a3][a2][a1][a0]" 2
    (fun l => match l with [a; b] => Some (Mov_d9 (wrap32 a) (wrap32 b)) | _ => None end).

(** /repo/src/instruction.rs 158-159. *)
Definition var_Mov_Rj : variant :=
  mkVariant "Mov_Rj" "001001[b1][b0] [a7][a6][a5][a4][a3][a2][a1][a0]" 2
    (fun l => match l with [a; b] => Some (Mov_Rj (wrap32 a) (to_u8 b)) | _ => None end).

(** /repo/src/instruction.rs 161-162. *)
Definition var_Ldc : variant :=
  mkVariant "Ldc" "11000001" 0
    (fun l => match l with [] => Some (Ldc) | _ => None end).

(** /repo/src/instruction.rs 164-165. *)
Definition var_Push : variant :=
  mkVariant "Push" "0110000[a8] [a7][a6][a5][a4][a3][a2][a1][a0]" 1
    (fun l => match l with [a] => Some (Push (wrap32 a)) | _ => None end).

(** /repo/src/instruction.rs 166-167. *)
Definition var_Pop : variant :=
  mkVariant "Pop" "0111000[a8] [a7][a6][a5][a4][a3][a2][a1][a0]" 1
    (fun l => match l with [a] => Some (Pop (wrap32 a)) | _ => None end).

(** /repo/src/instruction.rs 169-170. *)
Definition var_Xch_d9 : variant :=
  mkVariant "Xch_d9" "1100001[a8] [a7][a6][a5][a4][a3][a2][a1][a0]" 1
    (fun l => match l with [a] => Some (Xch_d9 (wrap32 a)) | _ => None end).

(** /repo/src/instruction.rs 171-172. *)
Definition var_Xch_Ri : variant :=
  mkVariant "Xch_Ri" "110001[a1][a0]" 1
    (fun l => match l with [a] => Some (Xch_Ri (to_u8 a)) | _ => None end).

(** /repo/src/instruction.rs 174-175. *)
Definition var_Jmp : variant :=
  mkVariant "Jmp" "001[a11]1[a10][a9][a8] [a7][a6][a5][a4][a3][a2][a1][a0]" 1
    (fun l => match l with [a] => Some (Jmp (wrap32 a)) | _ => None end).

(** /repo/src/instruction.rs 176-177. *)
Definition var_Jmpf : variant :=
  mkVariant "Jmpf" "00100001 [a15][a14][a13][a12][a11][a10][a9][a8] [a7][a6][a5][a4][a3][a2][a1][a0]" 1
    (fun l => match l with [a] => Some (Jmpf (wrap32 a)) | _ => None end).

(** /repo/src/instruction.rs 179-180. *)
Definition var_Br : variant :=
  mkVariant "Br" "00000001 [a7][a6][a5][a4][a3][a2][a1][a0]" 1
    (fun l => match l with [a] => Some (Br (wrap32 a)) | _ => None end).

(** /repo/src/instruction.rs 181-182. *)
Definition var_Brf : variant :=
  mkVariant "Brf" "00010001 [a7][a6][a5][a4][a3][a2][a1][a0] [a15][a14][a13][a12][a11][a10][a9][a8]" 1
    (fun l => match l with [a] => Some (Brf (wrap32 a)) | _ => None end).

(** /repo/src/instruction.rs 183-184. *)
Definition var_Bz : variant :=
  mkVariant "Bz" "10000000 [a7][a6][a5][a4][a3][a2][a1][a0]" 1
    (fun l => match l with [a] => Some (Bz (wrap32 a)) | _ => None end).

(** /repo/src/instruction.rs 185-186. *)
Definition var_Bnz : variant :=
  mkVariant "Bnz" "10010000 [a7][a6][a5][a4][a3][a2][a1][a0]" 1
    (fun l => match l with [a] => Some (Bnz (wrap32 a)) | _ => None end).

(** /repo/src/instruction.rs 187-188. *)
Definition var_Bp : variant :=
  mkVariant "Bp" "011[a8]1[b2][b1][b0] [a7][a6][a5][a4][a3][a2][a1][a0] [c7][c6][c5][c4][c3][c2][c1][c0]" 3
    (fun l => match l with [a; b; c] => Some (Bp (wrap32 a) (wrap32 b) (wrap32 c)) | _ => None end).

(** /repo/src/instruction.rs 189-190. *)
Definition var_Bpc : variant :=
  mkVariant "Bpc" "010[a8]1[b2][b1][b0] [a7][a6][a5][a4][a3][a2][a1][a0] [c7][c6][c5][c4][c3][c2][c1][c0]" 3
    (fun l => match l with [a; b; c] => Some (Bpc (wrap32 a) (wrap32 b) (wrap32 c)) | _ => None end).

(** /repo/src/instruction.rs 191-192. *)
Definition var_Bn : variant :=
  mkVariant "Bn" "100[a8]1[b2][b1][b0] [a7][a6][a5][a4][a3][a2][a1][a0] [c7][c6][c5][c4][c3][c2][c1][c0]" 3
    (fun l => match l with [a; b; c] => Some (Bn (wrap32 a) (wrap32 b) (wrap32 c)) | _ => None end).

(** /repo/src/instruction.rs 193-194. *)
Definition var_Dbnz_d9 : variant :=
  mkVariant "Dbnz_d9" "0101001[a8] [a7][a6][a5][a4][a3][a2][a1][a0] [b7][b6][b5][b4][b3][b2][b1][b0]" 2
    (fun l => match l with [a; b] => Some (Dbnz_d9 (wrap32 a) (wrap32 b)) | _ => None end).

(** /repo/src/instruction.rs 195-196. *)
Definition var_Dbnz_Ri : variant :=
  mkVariant "Dbnz_Ri" "010101[a1][a0] [b7][b6][b5][b4][b3][b2][b1][b0]" 2
    (fun l => match l with [a; b] => Some (Dbnz_Ri (to_u8 a) (wrap32 b)) | _ => None end).

(** /repo/src/instruction.rs 197-198. *)
Definition var_Be_i8 : variant :=
  mkVariant "Be_i8" "00110001 [a7][a6][a5][a4][a3][a2][a1][a0] [b7][b6][b5][b4][b3][b2][b1][b0]" 2
    (fun l => match l with [a; b] => Some (Be_i8 (wrap32 a) (wrap32 b)) | _ => None end).

(** /repo/src/instruction.rs 199-200. *)
Definition var_Be_d9 : variant :=
  mkVariant "Be_d9" "0011001[a8] [a7][a6][a5][a4][a3][a2][a1][a0] [b7][b6][b5][b4][b3][b2][b1][b0]" 2
    (fun l => match l with [a; b] => Some (Be_d9 (wrap32 a) (wrap32 b)) | _ => None end).

(** /repo/src/instruction.rs 201-202. *)
Definition var_Be_Rj : variant :=
  mkVariant "Be_Rj" "001101[a1][a0] [b7][b6][b5][b4][b3][b2][b1][b0] [c7][c6][c5][c4][c3][c2][c1][c0]" 3
    (fun l => match l with [a; b; c] => Some (Be_Rj (to_u8 a) (wrap32 b) (wrap32 c)) | _ => None end).

(** /repo/src/instruction.rs 203-204. *)
Definition var_Bne_i8 : variant :=
  mkVariant "Bne_i8" "01000001 [a7][a6][a5][a4][a3][a2][a1][a0] [b7][b6][b5][b4][b3][b2][b1][b0]" 2
    (fun l => match l with [a; b] => Some (Bne_i8 (wrap32 a) (wrap32 b)) | _ => None end).

(** /repo/src/instruction.rs 205-206. *)
Definition var_Bne_d9 : variant :=
  mkVariant "Bne_d9" "0100001[a8] [a7][a6][a5][a4][a3][a2][a1][a0] [b7][b6][b5][b4][b3][b2][b1][b0]" 2
    (fun l => match l with [a; b] => Some (Bne_d9 (wrap32 a) (wrap32 b)) | _ => None end).

(** /repo/src/instruction.rs 207-208. *)
Definition var_Bne_Rj : variant :=
  mkVariant "Bne_Rj" "010001[a1][a0] [b7][b6][b5][b4][b3][b2][b1][b0] [c7][c6][c5][c4][c3][c2][c1][c0]" 3
    (fun l => match l with [a; b; c] => Some (Bne_Rj (to_u8 a) (wrap32 b) (wrap32 c)) | _ => None end).

(** /repo/src/instruction.rs 210-211. *)
Definition var_Call : variant :=
  mkVariant "Call" "000[a11]1[a10][a9][a8] [a7][a6][a5][a4][a3][a2][a1][a0]" 1
    (fun l => match l with [a] => Some (Call (wrap32 a)) | _ => None end).

(** /repo/src/instruction.rs 212-213. *)
Definition var_Callf : variant :=
  mkVariant "Callf" "00100000 [a15][a14][a13][a12][a11][a10][a9][a8] [a7][a6][a5][a4][a3][a2][a1][a0]" 1
    (fun l => match l with [a] => Some (Callf (wrap32 a)) | _ => None end).

(** /repo/src/instruction.rs 214-215. *)
Definition var_Callr : variant :=
  mkVariant "Callr" "00010000 [a7][a6][a5][a4][a3][a2][a1][a0] [a15][a14][a13][a12][a11][a10][a9][a8]" 1
    (fun l => match l with [a] => Some (Callr (wrap32 a)) | _ => None end).

(** /repo/src/instruction.rs 217-218. *)
Definition var_Ret : variant :=
  mkVariant "Ret" "10100000" 0
    (fun l => match l with [] => Some (Ret) | _ => None end).

(** /repo/src/instruction.rs 219-220. *)
Definition var_Reti : variant :=
  mkVariant "Reti" "10110000" 0
    (fun l => match l with [] => Some (Reti) | _ => None end).

(** /repo/src/instruction.rs 222-223. *)
Definition var_Clr1 : variant :=
  mkVariant "Clr1" "110[a8]1[b2][b1][b0] [a7][a6][a5][a4][a3][a2][a1][a0]" 2
    (fun l => match l with [a; b] => Some (Clr1 (wrap32 a) (wrap32 b)) | _ => None end).

(** /repo/src/instruction.rs 224-225. *)
Definition var_Set1 : variant :=
  mkVariant "Set1" "111[a8]1[b2][b1][b0] [a7][a6][a5][a4][a3][a2][a1][a0]" 2
    (fun l => match l with [a; b] => Some (Set1 (wrap32 a) (wrap32 b)) | _ => None end).

(** /repo/src/instruction.rs 226-227. *)
Definition var_Not1 : variant :=
  mkVariant "Not1" "101[a8]1[b2][b1][b0] [a7][a6][a5][a4][a3][a2][a1][a0]" 2
    (fun l => match l with [a; b] => Some (Not1 (wrap32 a) (wrap32 b)) | _ => None end).

(** /repo/src/instruction.rs 229-230. *)
Definition var_Nop : variant :=
  mkVariant "Nop" "00000000" 0
    (fun l => match l with [] => Some (Nop) | _ => None end).

(** /repo/src/instruction.rs 232-233. *)
Definition var_Ldf : variant :=
  mkVariant "Ldf" "01010000" 0
    (fun l => match l with [] => Some (Ldf) | _ => None end).

(** /repo/src/instruction.rs 234-235. *)
Definition var_Stf : variant :=
  mkVariant "Stf" "01010001" 0
    (fun l => match l with [] => Some (Stf) | _ => None end).

(** All variants in declaration order, /repo/src/instruction.rs 72-235. *)
Definition variants : list variant := [
  var_Add_i8; var_Add_d9; var_Add_Ri; var_Addc_i8; var_Addc_d9;
  var_Addc_Ri; var_Sub_i8; var_Sub_d9; var_Sub_Ri; var_Subc_i8;
  var_Subc_d9; var_Subc_Ri; var_Inc_d9; var_Inc_Ri; var_Dec_d9;
  var_Dec_Ri; var_Mul; var_Div; var_And_i8; var_And_d9;
  var_And_Ri; var_Or_i8; var_Or_d9; var_Or_Ri; var_Xor_i8;
  var_Xor_d9; var_Xor_Ri; var_Rol; var_Rolc; var_Ror;
  var_Rorc; var_Ld_d9; var_Ld_Ri; var_St_d9; var_St_Ri;
  var_Mov_d9; var_Mov_Rj; var_Ldc; var_Push; var_Pop;
  var_Xch_d9; var_Xch_Ri; var_Jmp; var_Jmpf; var_Br;
  var_Brf; var_Bz; var_Bnz; var_Bp; var_Bpc;
  var_Bn; var_Dbnz_d9; var_Dbnz_Ri; var_Be_i8; var_Be_d9;
  var_Be_Rj; var_Bne_i8; var_Bne_d9; var_Bne_Rj; var_Call;
  var_Callf; var_Callr; var_Ret; var_Reti; var_Clr1;
  var_Set1; var_Not1; var_Nop; var_Ldf; var_Stf
].

(** The generated [size], lib.rs 103-119 and 138-144. *)
Definition size {E I : Type} (i : instr E I) : Z :=
  match parse_bit_pattern (pattern i) with
  | Some rss => Z.of_nat (List.length rss)
  | None => 0
  end.

(** The generated [encode], lib.rs 42-62 and 155-160. *)
Definition encode (i : instr Z Z) : list Z :=
  match parse_bit_pattern (pattern i) with
  | Some rss => encode_ranges rss (operands i)
  | None => []
  end.

(** One arm of the generated [decode_raw], lib.rs 66-99: the first byte is among the opcodes, and, for
    variants with operands only, enough bytes are present. *)
Definition decode_arm (v : variant) (bytes : list Z) : option (option (instr Z Z)) :=
  match parse_bit_pattern (v_pattern v), bytes with
  | Some (r0 :: rt), b0 :: _ =>
      if existsb (Z.eqb b0) (all_possible_opcodes r0) then
        match v_arity v with
        | O => Some (v_make v [])
        | n =>
            if Nat.leb (List.length (r0 :: rt)) (List.length bytes)
            then Some (v_make v (map (fun c => extract c (r0 :: rt) bytes) (firstn n letters)))
            else None
        end
      else None
  | _, _ => None
  end.

(** The arms of the generated match in order, waterbear-instruction-derive/src/lib.rs 162-168. *)
Fixpoint decode_arms (vs : list variant) (bytes : list Z) : option (instr Z Z) :=
  match vs with
  | [] => None
  | v :: t => match decode_arm v bytes with Some r => r | None => decode_arms t bytes end
  end.

(** The generated [decode_raw], lib.rs 162-167; [bytes[0]] panics on an empty slice. *)
Definition decode_raw (bytes : list Z) : outcome (option (instr Z Z)) :=
  match bytes with
  | [] => Panic
  | _ => Ok (decode_arms variants bytes)
  end.

(** The inner [rel8] and [rel16] of [decode_from_raw], /repo/src/instruction.rs 541-555: sign
    extension of the low 8 or 16 bits. *)
Definition sext (bits z : Z) : Z :=
  let u := z mod 2 ^ bits in if u <? 2 ^ (bits - 1) then u else u - 2 ^ bits.

(** [decode_from_raw], /repo/src/instruction.rs 540-652. *)
Definition decode_from_raw (i : instr Z Z) : instr Z Z :=
  match i with
  | Br a => Br (sext 8 a)
  | Brf a => Brf (sext 16 a)
  | Bz a => Bz (sext 8 a)
  | Bnz a => Bnz (sext 8 a)
  | Bp a b c => Bp a b (sext 8 c)
  | Bpc a b c => Bpc a b (sext 8 c)
  | Bn a b c => Bn a b (sext 8 c)
  | Dbnz_d9 a b => Dbnz_d9 a (sext 8 b)
  | Dbnz_Ri a b => Dbnz_Ri a (sext 8 b)
  | Be_i8 a b => Be_i8 a (sext 8 b)
  | Be_d9 a b => Be_d9 a (sext 8 b)
  | Be_Rj a b c => Be_Rj a b (sext 8 c)
  | Bne_i8 a b => Bne_i8 a (sext 8 b)
  | Bne_d9 a b => Bne_d9 a (sext 8 b)
  | Bne_Rj a b c => Bne_Rj a b (sext 8 c)
  | Callr a => Callr (sext 16 a)
  | other => other
  end.

(** [Instr::decode], /repo/src/instruction.rs 238-242. *)
Definition decode (bytes : list Z) : outcome (option (instr Z Z)) :=
  let! r := decode_raw bytes in Ok (option_map decode_from_raw r).

(** The name part before [_], lib.rs 121-130. *)
Fixpoint before_underscore (s : string) : string :=
  match s with
  | EmptyString => EmptyString
  | String c t => if Ascii.eqb c "_"%char then EmptyString else String c (before_underscore t)
  end.

(** The generated [exists], lib.rs 121-134 and 146-152. *)
Definition instr_exists (n : string) : bool :=
  existsb (fun v => String.eqb n (lower (before_underscore (v_name v)))) variants.

(** [eval] with a number of bits, /repo/src/instruction.rs 348-355. *)
Definition eval_bits (pr : profile) (en : env) (bits : Z) (e : expr) : outcome Z :=
  let! value := eval pr en e in
  if negb (Z.shiftr value bits =? 0) then Err (NumOutOfRange bits value) else Ok value.

(** [rel8], /repo/src/instruction.rs 373-385. *)
Definition rel8 (pr : profile) (en : env) (pos : Z) (e : expr) : outcome Z :=
  let! address := eval pr en e in
  if (0 <=? address) && (address <=? 65535) then
    let! value := chk32 pr (address - wrap32 pos) in
    if (-128 <=? value) && (value <=? 127) then Ok value
    else Err (SignedNumOutOfRange 8 value)
  else Err (InvalidAddress address).

(** [eval12], /repo/src/instruction.rs 387-403. *)
Definition eval12 (pr : profile) (en : env) (pos : Z) (e : expr) : outcome Z :=
  let! addr := eval_bits pr en 16 e in
  let val_top := Z.land addr 61440 in
  let pos_top := Z.land pos 61440 in
  let value := Z.land addr 4095 in
  if negb (val_top =? pos_top)
  then Err (AddrBitsDontMatch pos addr (Z.land (Z.shiftr pos_top 12) 255) (Z.land (Z.shiftr val_top 12) 255))
  else Ok value.

(** [rel16], /repo/src/instruction.rs 405-417. *)
Definition rel16 (pr : profile) (en : env) (pos : Z) (e : expr) : outcome Z :=
  let! address := eval pr en e in
  if (0 <=? address) && (address <=? 65535) then
    let! diff := chk32 pr (address - wrap32 pos) in
    let! value := chk32 pr (diff + 1) in
    if (-32768 <=? value) && (value <=? 32767) then Ok value
    else Err (SignedNumOutOfRange 16 value)
  else Err (InvalidAddress address).

(** [Instr::eval], /repo/src/instruction.rs 421-538; [pos] is the position after the instruction. *)
Definition eval_instr (pr : profile) (pos : Z) (label : string) (ns : names) (i : instr expr imode)
  : outcome (instr Z Z) :=
  let! nenv := as_env ns "Name" label in
  let! venv := as_env ns "Variable" label in
  let! lenv := as_env ns "Label" label in
  match i with
  | Add_i8 a => let! a' := eval_bits pr nenv 8 a in Ok (Add_i8 a')
  | Add_d9 a => let! a' := eval_bits pr venv 9 a in Ok (Add_d9 a')
  | Add_Ri a => Ok (Add_Ri (imode_index a))
  | Addc_i8 a => let! a' := eval_bits pr nenv 8 a in Ok (Addc_i8 a')
  | Addc_d9 a => let! a' := eval_bits pr venv 9 a in Ok (Addc_d9 a')
  | Addc_Ri a => Ok (Addc_Ri (imode_index a))
  | Sub_i8 a => let! a' := eval_bits pr nenv 8 a in Ok (Sub_i8 a')
  | Sub_d9 a => let! a' := eval_bits pr venv 9 a in Ok (Sub_d9 a')
  | Sub_Ri a => Ok (Sub_Ri (imode_index a))
  | Subc_i8 a => let! a' := eval_bits pr nenv 8 a in Ok (Subc_i8 a')
  | Subc_d9 a => let! a' := eval_bits pr venv 9 a in Ok (Subc_d9 a')
  | Subc_Ri a => Ok (Subc_Ri (imode_index a))
  | Inc_d9 a => let! a' := eval_bits pr venv 9 a in Ok (Inc_d9 a')
  | Inc_Ri a => Ok (Inc_Ri (imode_index a))
  | Dec_d9 a => let! a' := eval_bits pr venv 9 a in Ok (Dec_d9 a')
  | Dec_Ri a => Ok (Dec_Ri (imode_index a))
  | Mul => Ok Mul
  | Div => Ok Div
  | And_i8 a => let! a' := eval_bits pr nenv 8 a in Ok (And_i8 a')
  | And_d9 a => let! a' := eval_bits pr venv 9 a in Ok (And_d9 a')
  | And_Ri a => Ok (And_Ri (imode_index a))
  | Or_i8 a => let! a' := eval_bits pr nenv 8 a in Ok (Or_i8 a')
  | Or_d9 a => let! a' := eval_bits pr venv 9 a in Ok (Or_d9 a')
  | Or_Ri a => Ok (Or_Ri (imode_index a))
  | Xor_i8 a => let! a' := eval_bits pr nenv 8 a in Ok (Xor_i8 a')
  | Xor_d9 a => let! a' := eval_bits pr venv 9 a in Ok (Xor_d9 a')
  | Xor_Ri a => Ok (Xor_Ri (imode_index a))
  | Rol => Ok Rol
  | Rolc => Ok Rolc
  | Ror => Ok Ror
  | Rorc => Ok Rorc
  | Ld_d9 a => let! a' := eval_bits pr venv 9 a in Ok (Ld_d9 a')
  | Ld_Ri a => Ok (Ld_Ri (imode_index a))
  | St_d9 a => let! a' := eval_bits pr venv 9 a in Ok (St_d9 a')
  | St_Ri a => Ok (St_Ri (imode_index a))
  | Mov_d9 a b => let! a' := eval_bits pr nenv 8 a in let! b' := eval_bits pr venv 9 b in Ok (Mov_d9 a' b')
  | Mov_Rj a b => let! a' := eval_bits pr nenv 8 a in Ok (Mov_Rj a' (imode_index b))
  | Ldc => Ok Ldc
  | Push a => let! a' := eval_bits pr venv 9 a in Ok (Push a')
  | Pop a => let! a' := eval_bits pr venv 9 a in Ok (Pop a')
  | Xch_d9 a => let! a' := eval_bits pr venv 9 a in Ok (Xch_d9 a')
  | Xch_Ri a => Ok (Xch_Ri (imode_index a))
  | Jmp a => let! a' := eval12 pr lenv pos a in Ok (Jmp a')
  | Jmpf a => let! a' := eval_bits pr lenv 16 a in Ok (Jmpf a')
  | Br a => let! a' := rel8 pr lenv pos a in Ok (Br a')
  | Brf a => let! a' := rel16 pr lenv pos a in Ok (Brf a')
  | Bz a => let! a' := rel8 pr lenv pos a in Ok (Bz a')
  | Bnz a => let! a' := rel8 pr lenv pos a in Ok (Bnz a')
  | Bp a b c => let! a' := eval_bits pr venv 9 a in let! b' := eval_bits pr nenv 3 b in let! c' := rel8 pr lenv pos c in Ok (Bp a' b' c')
  | Bpc a b c => let! a' := eval_bits pr venv 9 a in let! b' := eval_bits pr nenv 3 b in let! c' := rel8 pr lenv pos c in Ok (Bpc a' b' c')
  | Bn a b c => let! a' := eval_bits pr venv 9 a in let! b' := eval_bits pr nenv 3 b in let! c' := rel8 pr lenv pos c in Ok (Bn a' b' c')
  | Dbnz_d9 a b => let! a' := eval_bits pr venv 9 a in let! b' := rel8 pr lenv pos b in Ok (Dbnz_d9 a' b')
  | Dbnz_Ri a b => let! b' := rel8 pr lenv pos b in Ok (Dbnz_Ri (imode_index a) b')
  | Be_i8 a b => let! a' := eval_bits pr nenv 8 a in let! b' := rel8 pr lenv pos b in Ok (Be_i8 a' b')
  | Be_d9 a b => let! a' := eval_bits pr venv 9 a in let! b' := rel8 pr lenv pos b in Ok (Be_d9 a' b')
  | Be_Rj a b c => let! b' := eval_bits pr nenv 8 b in let! c' := rel8 pr lenv pos c in Ok (Be_Rj (imode_index a) b' c')
  | Bne_i8 a b => let! a' := eval_bits pr nenv 8 a in let! b' := rel8 pr lenv pos b in Ok (Bne_i8 a' b')
  | Bne_d9 a b => let! a' := eval_bits pr venv 9 a in let! b' := rel8 pr lenv pos b in Ok (Bne_d9 a' b')
  | Bne_Rj a b c => let! b' := eval_bits pr nenv 8 b in let! c' := rel8 pr lenv pos c in Ok (Bne_Rj (imode_index a) b' c')
  | Call a => let! a' := eval12 pr lenv pos a in Ok (Call a')
  | Callf a => let! a' := eval_bits pr lenv 16 a in Ok (Callf a')
  | Callr a => let! a' := rel16 pr lenv pos a in Ok (Callr a')
  | Ret => Ok Ret
  | Reti => Ok Reti
  | Clr1 a b => let! a' := eval_bits pr venv 9 a in let! b' := eval_bits pr nenv 3 b in Ok (Clr1 a' b')
  | Set1 a b => let! a' := eval_bits pr venv 9 a in let! b' := eval_bits pr nenv 3 b in Ok (Set1 a' b')
  | Not1 a b => let! a' := eval_bits pr venv 9 a in let! b' := eval_bits pr nenv 3 b in Ok (Not1 a' b')
  | Nop => Ok Nop
  | Ldf => Ok Ldf
  | Stf => Ok Stf
  end.
