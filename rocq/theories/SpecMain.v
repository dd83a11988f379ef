(** What the commands are to leave behind (C72), in terms of names, files and endings only. *)
From Coq Require Import ZArith List String Ascii Bool.
From Verif Require Import Base Files Vmi Main.
Import ListNotations.
Open Scope string_scope.
Local Open Scope Z_scope.

(** A VMI file is named after its VMS file. *)
Definition named_after (vms vmi : string) : Prop :=
  (exists base, vms = base ++ ".vms" /\ vmi = base ++ ".vmi") \/
  ((forall base, vms <> base ++ ".vms") /\ vmi = vms ++ ".vmi").

(** The file a command is to write, if it is to write one. *)
Inductive writes : command -> string -> Prop :=
| writes_image : forall i o, writes (Assemble i o) o
| writes_listing : forall b1 b2 t i o, writes (Disassemble b1 b2 t i o) o
| writes_picture : forall i o f, writes (Image i (Some o) f) o
| writes_vmi : forall i o c g, writes (MakeVmi i (Some o) c g) o
| writes_beside : forall i o c g, named_after i o -> writes (MakeVmi i None c g) o.

(** Nothing goes wrong while a file is written. *)
Definition sound_disk (y : system) : Prop := forall p, room y p = None /\ forall n, taken y p n <> None.

(** A file with these bytes. *)
Definition holds (w : fs) (path : string) (bytes : list Z) : Prop :=
  exists text, read_bytes w path = Some text /\ str_bytes text = bytes.

(** The addresses at which the hardware enters a program: reset and the ten interrupts. *)
Definition vector (a : Z) : Prop := a = 0 \/ exists k, 0 <= k <= 9 /\ a = 3 + 8 * k.

(** The addresses at which a game enters the firmware. *)
Definition firmware_call (a : Z) : Prop := In a [0x100; 0x108; 0x110; 0x120; 0x130; 0x140; 0x1F0].

(** Where the code of a file of some type begins. *)
Definition begins (type : string) (a : Z) : Prop :=
  (In type ["game"; "file"; "raw"] /\ (vector a \/ a = 0x130)) \/ (type = "bios" /\ (vector a \/ firmware_call a)).

(** The beginning of a text. *)
Definition starts_with (s t : string) : Prop := exists rest, t = s ++ rest.
