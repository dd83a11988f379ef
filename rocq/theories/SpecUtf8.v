(** Specification side of C75: what UTF-8 is, from code points to bytes. *)
From Coq Require Import ZArith List String Ascii.
Import ListNotations.
Open Scope string_scope.
Open Scope list_scope.
Open Scope Z_scope.

(** The bytes of a text. *)
Fixpoint octets (s : string) : list Z :=
  match s with EmptyString => [] | String c t => Z.of_nat (nat_of_ascii c) :: octets t end.

(** The code points that stand for characters: up to 10FFFF, without the surrogates D800 to DFFF. *)
Definition scalar (n : Z) : Prop := 0 <= n < 55296 \/ 57344 <= n <= 1114111.

(** The bytes of a code point: its bits in groups of six from the right, with the length of the group in front. *)
Definition encode (n : Z) : list Z :=
  if n <? 128 then [n]
  else if n <? 2048 then [192 + n / 64; 128 + n mod 64]
  else if n <? 65536 then [224 + n / 4096; 128 + (n / 64) mod 64; 128 + n mod 64]
  else [240 + n / 262144; 128 + (n / 4096) mod 64; 128 + (n / 64) mod 64; 128 + n mod 64].

(** A text that consists of characters. *)
Definition spells (s : string) (points : list Z) : Prop := Forall scalar points /\ octets s = List.concat (map encode points).

Definition utf8 (s : string) : Prop := exists points, spells s points.
