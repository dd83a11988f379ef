(** Property theorems C01-C04: instruction encoding and decoding. *)
From Coq Require Import ZArith List String Bool.
From Verif Require Import Base Expr Bits Instr SpecIsa CodecProofs2.
Import ListNotations.
Open Scope string_scope.
Open Scope list_scope.
Open Scope Z_scope.

(** C01 *)
Theorem C01_encode_decode : forall i rest, in_range i -> Forall is_byte rest ->
  decode (encode i ++ rest) = Ok (Some i).
Proof. exact decode_encode. Qed.
Print Assumptions C01_encode_decode.

Theorem C01_encode_size : forall i, Z.of_nat (List.length (encode i)) = size i /\ 1 <= size i <= 3.
Proof. exact encode_length. Qed.
Print Assumptions C01_encode_size.

Example C01_case : in_range (Bp 511 7 (-128)) /\ decode (encode (Bp 511 7 (-128)) ++ [1; 2]) = Ok (Some (Bp 511 7 (-128))).
Proof. split; [repeat constructor; discriminate | vm_compute; reflexivity]. Qed.

(** C02 *)
Theorem C02_decode_encode : forall bytes i, Forall is_byte bytes -> decode bytes = Ok (Some i) ->
  in_range i /\ exists rest, bytes = encode i ++ rest.
Proof. exact decode_sound. Qed.
Print Assumptions C02_decode_encode.

Example C02_case : decode [127; 200; 129; 9] = Ok (Some (Bp 456 7 (-127))).
Proof. vm_compute. reflexivity. Qed.

(** C03 *)
Theorem C03_decode_total : forall b t, is_byte b -> Forall is_byte t -> exists f, In f isa /\
  matches (hd [] (f_bits f)) b /\
  (forall f', In f' isa -> matches (hd [] (f_bits f')) b -> f' = f) /\
  ((List.length (b :: t) < List.length (f_bits f))%nat -> decode (b :: t) = Ok None) /\
  ((List.length (f_bits f) <= List.length (b :: t))%nat ->
     exists i, decode (b :: t) = Ok (Some i) /\ key i = (f_name f, f_kinds f)).
Proof. exact decode_total. Qed.
Print Assumptions C03_decode_total.

Example C03_case : decode [127; 200] = Ok None /\ decode [0] = Ok (Some Nop).
Proof. vm_compute. auto. Qed.

(** Decoding the empty slice indexes out of bounds. *)
Theorem C03_decode_empty_refuted : exists bytes, decode bytes = Panic.
Proof. exists []. reflexivity. Qed.
Print Assumptions C03_decode_empty_refuted.

(** C04 *)
Theorem C04_encode_docs : forall i, exists f, In f isa /\ (f_name f, f_kinds f) = key i /\
  encode i = form_bytes f (values i).
Proof. exact encode_docs. Qed.
Print Assumptions C04_encode_docs.

Theorem C04_prefix_free : forall i j r s, in_range i -> in_range j -> Forall is_byte r -> Forall is_byte s ->
  encode i ++ r = encode j ++ s -> i = j /\ r = s.
Proof. exact encode_prefix_free. Qed.
Print Assumptions C04_prefix_free.

Example C04_case : encode (Mov_d9 171 257) = [35; 1; 171] /\ key (Mov_d9 171 257 : instr Z Z) = ("mov", [I8; D9]).
Proof. vm_compute. auto. Qed.
