(** The names of the special function registers and of the bits of the PSW (C73), as in the hardware manual of the visual
    memory unit (LC8670 series), and how listings are to use them.  Nothing here refers to the model. *)
From Coq Require Import ZArith List String Ascii Bool.
From Verif Require Import Base Expr Instr Ast SpecIsa.
Import ListNotations.
Open Scope string_scope.
Local Open Scope Z_scope.

(** The registers of the manual. *)
Definition manual : list (Z * string) := [
  (0x100, "acc"); (0x101, "psw"); (0x102, "b"); (0x103, "c"); (0x104, "trl"); (0x105, "trh"); (0x106, "sp"); (0x107, "pcon");
  (0x108, "ie"); (0x109, "ip"); (0x10D, "ext"); (0x10E, "ocr");
  (0x110, "t0con"); (0x111, "t0prr"); (0x112, "t0l"); (0x113, "t0lr"); (0x114, "t0h"); (0x115, "t0hr");
  (0x118, "t1cnt"); (0x11A, "t1lc"); (0x11B, "t1lr"); (0x11C, "t1hc"); (0x11D, "t1hr");
  (0x120, "mcr"); (0x122, "stad"); (0x123, "cnr"); (0x124, "tdr"); (0x125, "xbnk"); (0x127, "vccr");
  (0x130, "scon0"); (0x131, "sbuf0"); (0x132, "sbr"); (0x134, "scon1"); (0x135, "sbuf1");
  (0x144, "p1"); (0x145, "p1ddr"); (0x146, "p1fcr"); (0x14C, "p3"); (0x14D, "p3ddr"); (0x14E, "p3int"); (0x154, "fpr");
  (0x15C, "p7"); (0x15D, "i01cr"); (0x15E, "i23cr"); (0x15F, "isl");
  (0x160, "mplsw"); (0x161, "mplsta"); (0x162, "mplrst");
  (0x163, "vsel"); (0x164, "vrmad1"); (0x165, "vrmad2"); (0x166, "vtrbf"); (0x167, "vlreg"); (0x17F, "btcr"); (0x180, "xram")].

(** The bits of the PSW. *)
Definition flags : list (Z * string) := [(0, "p"); (1, "rambk0"); (2, "ov"); (3, "irbk0"); (4, "irbk1"); (6, "ac"); (7, "cy")].

(** An address in four digits. *)
Definition nibble (v : Z) : string := match String.get (Z.to_nat v) "0123456789abcdef" with Some c => String c "" | None => "" end.
Definition hex4 (a : Z) : string := nibble (a / 4096 mod 16) ++ nibble (a / 256 mod 16) ++ nibble (a / 16 mod 16) ++ nibble (a mod 16).

(** The name of a register: that of the manual, or one made from its address; the display memory begins at 0x180. *)
Definition register (a : Z) : string :=
  match find (fun p => fst p =? a) manual with
  | Some p => snd p
  | None => (if (0x180 <=? a) && (a <? 0x1FC) then "xram_" else "sfr_") ++ hex4 a
  end.

(** All registers in order. *)
Definition registers : list Z := map (fun k => 0x100 + Z.of_nat k) (seq 0 256).

(** How an operand of some kind and value is to be written; [first] is the first operand, the register of a bit. *)
Definition written_as (first : Z) (k : kind) (v : Z) (o : expr + imode) : Prop :=
  match k with
  | D9 => o = inl (if 0x100 <=? v then EName (register v) else ENumber v Hex)
  | B3 => o = inl (match find (fun p => fst p =? v) flags with
                   | Some p => if first =? 0x101 then EName (snd p) else ENumber v Hex
                   | None => ENumber v Hex
                   end)
  | I8 => o = inl (ENumber v Hex)
  | Ri => exists m, o = inr m /\ nth_error [R0; R1; R2; R3] (Z.to_nat v) = Some m
  | _ => True
  end.

(** The definitions in a listing. *)
Definition is_definition (s : statement) : bool := match s with SAlias _ _ => true | SVariable _ _ => true | _ => false end.
