(** The layout of a VMI file, as a sequence of fields. *)
From Coq Require Import ZArith List String Ascii Bool.
From Verif Require Import Base Vmi.
Import ListNotations.
Open Scope Z_scope.

(** A text field of [n] bytes: the text cut off after [n] bytes, or filled up with zeros. *)
Definition text_field (n : nat) (s : string) (field : list Z) : Prop :=
  let bytes := map (fun c => Z.of_nat (nat_of_ascii c)) (list_ascii_of_string s) in
  (exists rest, bytes = field ++ rest /\ List.length field = n) \/
  (exists k, field = bytes ++ repeat 0 k /\ List.length field = n).

(** The number that little-endian bytes stand for. *)
Fixpoint le_number (l : list Z) : Z :=
  match l with [] => 0 | b :: t => b + 256 * le_number t end.

Definition is_byte (b : Z) : Prop := 0 <= b <= 255.

(** A number field of [n] bytes; larger numbers lose their upper bits. *)
Definition number_field (n : nat) (v : Z) (field : list Z) : Prop :=
  List.length field = n /\ Forall is_byte field /\ le_number field = v mod 256 ^ Z.of_nat n.

(** A path splits into directory and file name. *)
Fixpoint no_slash (s : string) : Prop :=
  match s with EmptyString => True | String c t => c <> "/"%char /\ no_slash t end.

Definition names_file (path name : string) : Prop :=
  no_slash name /\ (path = name \/ exists dir, path = (dir ++ "/" ++ name)%string).

(** The file name without its extension. *)
Definition names_resource (name resource : string) : Prop :=
  name = (resource ++ ".vms")%string \/ ((forall p, name <> (p ++ ".vms")%string) /\ resource = name).

(** Sunday is day zero. *)
Definition day_number (w : weekday) (n : Z) : Prop := nth_error [Sun; Mon; Tue; Wed; Thu; Fri; Sat] (Z.to_nat n) = Some w /\ 0 <= n.

(** A date in the range a calendar gives. *)
Definition sensible (d : datetime) : Prop :=
  0 <= d_year d <= 65535 /\ is_byte (d_month d) /\ is_byte (d_day d) /\ is_byte (d_hour d) /\
  is_byte (d_minute d) /\ is_byte (d_second d).

(** [field] stands at offset [off]. *)
Definition field_at (bytes : list Z) (off : nat) (field : list Z) : Prop :=
  exists before after, bytes = before ++ field ++ after /\ List.length before = off.

(** Byte by byte the conjunction with the letters SEGA. *)
Definition masked_with_sega (resource checksum : list Z) : Prop :=
  exists a b c d rest, resource = a :: b :: c :: d :: rest /\ checksum = [Z.land a 83; Z.land b 69; Z.land c 71; Z.land d 65].
