(** C57: the derive macro of waterbear-instruction-derive, for any bit pattern at all, not just the ones the
    instruction set uses: which patterns it accepts, and what the encoder, the matcher and the extractors it
    generates do.  The vocabulary is that of SpecPattern.v and SpecIsa.v. *)
From Coq Require Import ZArith List String Ascii Bool Lia.
From Verif Require Import Base Bits SpecIsa SpecPattern BitsProofs CodecProofs CodecProofs2 PatternProofs PatternProofs2.
Import ListNotations.
Open Scope string_scope.
Open Scope list_scope.
Open Scope Z_scope.

(** *** Patterns used in the examples *)

(** A made-up pattern: two operands, out of order, white space anywhere, literals in the second byte. *)
Definition odd_text : string := "1[b0][a2] [a 1][a0] 0 1 [b 0 3]
   0101 [b2][b1]1 1".

(** Its two bytes. *)
Definition odd_bytes : list (list pbit) :=
  [[P1; PF 1 0; PF 0 2; PF 0 1; PF 0 0; P0; P1; PF 1 3]; [P0; P1; P0; P1; PF 1 2; PF 1 1; P1; P1]].

Lemma odd_spelled : spelled odd_text (List.concat odd_bytes).
Proof.
  exists "1[b0][a2][a1][a0]01[b03]0101[b2][b1]11". split.
  - unfold odd_text. repeat first [apply sq_nil | apply sq_drop; [cbn; tauto|] | apply sq_keep; [cbn; intuition discriminate|]].
  - cbn [List.concat odd_bytes app].
    apply tk_one, (tk_field 1 "b"%char "0" 0); [reflexivity|apply dec_one; cbn; tauto|].
    apply (tk_field 0 "a"%char "2" 2); [reflexivity|apply dec_one; cbn; tauto|].
    apply (tk_field 0 "a"%char "1" 1); [reflexivity|apply dec_one; cbn; tauto|].
    apply (tk_field 0 "a"%char "0" 0); [reflexivity|apply dec_one; cbn; tauto|].
    apply tk_zero, tk_one, (tk_field 1 "b"%char "03" 3); [reflexivity|apply (dec_more "0" 0 "3" 3); [apply dec_one|]; cbn; tauto|].
    apply tk_zero, tk_one, tk_zero, tk_one, (tk_field 1 "b"%char "2" 2); [reflexivity|apply dec_one; cbn; tauto|].
    apply (tk_field 1 "b"%char "1" 1); [reflexivity|apply dec_one; cbn; tauto|].
    apply tk_one, tk_one, tk_nil.
Qed.

Lemma odd_eights : eights (List.concat odd_bytes) odd_bytes.
Proof. repeat (apply e_cons; [reflexivity|]). apply e_nil. Qed.

Lemma odd_bits32 : bits32 (List.concat odd_bytes).
Proof. intros k n H. cbn in H. repeat (destruct H as [H|H]; [first [discriminate|injection H as <- <-; lia]|]). contradiction. Qed.

Lemma odd_once : named_once (List.concat odd_bytes).
Proof.
  intros i j k n A B. assert (i < 16 /\ j < 16)%nat as [Hi Hj].
  { split; (change 16%nat with (List.length (List.concat odd_bytes)); apply nth_error_Some; congruence). }
  do 16 (destruct i as [|i]; [cbn in A; first [discriminate|injection A as <- <-;
    do 16 (destruct j as [|j]; [first [reflexivity|discriminate B]|]); lia]|]). lia.
Qed.

(** *** Acceptance *)

(** C57: the macro accepts a pattern exactly if, white space aside, it is a sequence of 0, 1 and
    bracketed operand bits (a letter and a decimal number) whose length is a multiple of eight.
    (The two simplifications of Bits.v are left out: numbers that do not fit in 64 bits, which the macro
    refuses, and bit 0 followed by a bit of the same operand, which stops a debug build of the macro.) *)
Theorem C57_accepts : forall text,
  (exists rss, parse_bit_pattern text = Some rss) <-> exists l bytes, spelled text l /\ eights l bytes.
Proof. exact parse_accepts. Qed.
Print Assumptions C57_accepts.

Example accepts_odd : exists rss, parse_bit_pattern odd_text = Some rss.
Proof. apply C57_accepts. exists (List.concat odd_bytes), odd_bytes. split; [exact odd_spelled|exact odd_eights]. Qed.

Example rejects_seven : parse_bit_pattern "1010101" = None.
Proof. reflexivity. Qed.

Example rejects_missing_number : parse_bit_pattern "1010101[a]" = None.
Proof. reflexivity. Qed.

(** *** Encoding *)

(** C57: the generated encoder writes, for every byte of the pattern, the literals as they stand and
    in the place of each operand bit that bit of that operand, whatever the operands are. *)
Theorem C57_encode : forall text l bytes, spelled text l -> eights l bytes -> bits32 l ->
  exists rss, parse_bit_pattern text = Some rss /\
    forall args, encode_ranges rss args = map (pbyte_value args) bytes.
Proof.
  intros text l bs S E B. destruct (parse_layout text l bs S E B) as (rss & P & F). exists rss. split; [exact P|].
  intros args. apply encode_pattern; [exact F|]. eapply fields_of; eauto.
Qed.
Print Assumptions C57_encode.

Example encode_odd : exists rss, parse_bit_pattern odd_text = Some rss /\
  encode_ranges rss [5; 9] = [235; 83] /\ map (pbyte_value [5; 9]) odd_bytes = [235; 83].
Proof. eexists. split; [vm_compute; reflexivity|]. split; vm_compute; reflexivity. Qed.

(** *** Matching *)

(** C57: the generated decoder takes a byte for the first byte of the pattern exactly if it agrees with
    the literals of the pattern's first byte. *)
Theorem C57_match : forall text l first bytes, spelled text l -> eights l (first :: bytes) -> bits32 l ->
  exists r rss, parse_bit_pattern text = Some (r :: rss) /\
    forall b, In b (all_possible_opcodes r) <-> is_byte b /\ matches first b.
Proof.
  intros text l b0 bs S E B. destruct (parse_layout text l _ S E B) as (rss & P & F). inversion F as [|r b rss' bs' L F' E1 E2]; subst.
  exists r, rss'. split; [exact P|]. intros b. now apply opcodes_layout.
Qed.
Print Assumptions C57_match.

Example match_odd : exists r rss, parse_bit_pattern odd_text = Some (r :: rss) /\
  List.length (all_possible_opcodes r) = 32%nat /\ In 235 (all_possible_opcodes r) /\ ~ In 239 (all_possible_opcodes r).
Proof.
  destruct (C57_match odd_text _ _ _ odd_spelled odd_eights odd_bits32) as (r & rss & P & H). exists r, rss. split; [exact P|].
  split; [vm_compute in P; injection P as <- <-; vm_compute; reflexivity|]. split.
  - apply H. split; [unfold is_byte; lia|]. apply matchesb_spec. reflexivity.
  - rewrite H. intros [_ M]. apply matchesb_spec in M. discriminate M.
Qed.

(** *** Decoding *)

(** C57: bit [n] of the operand the generated decoder extracts is set exactly if the data has a one at some
    place where the pattern names that bit. *)
Theorem C57_extract : forall text l bytes k name n data,
  spelled text l -> eights l bytes -> bits32 l -> nth_error alphabet k = Some name -> 0 <= n ->
  exists rss, parse_bit_pattern text = Some rss /\
    (Z.testbit (extract name rss data) n = true <->
     exists m byte place x, nth_error bytes m = Some byte /\ nth_error byte place = Some (PF k n) /\
       nth_error data m = Some x /\ Z.testbit x (7 - Z.of_nat place) = true).
Proof.
  intros text l bs k name n data S E B K N. destruct (parse_layout text l _ S E B) as (rss & P & F). exists rss. split; [exact P|].
  rewrite <- (nth_error_nth _ _ "a"%char K). apply extract_layout; auto; [eapply fields_of; eauto|].
  change 26%nat with (List.length alphabet). apply nth_error_Some. congruence.
Qed.
Print Assumptions C57_extract.

Example extract_odd : exists rss, parse_bit_pattern odd_text = Some rss /\
  extract "a"%char rss [235; 83] = 5 /\ extract "b"%char rss [235; 83] = 9.
Proof. eexists. split; [vm_compute; reflexivity|]. split; reflexivity. Qed.

(** C57: what the encoder wrote the decoder reads back: if the pattern names exactly the bits [0] to [w - 1]
    of operand [k], the extracted operand is the encoded one modulo [2 ^ w], whatever follows. *)
Theorem C57_roundtrip : forall text l bytes k name w args rest,
  spelled text l -> eights l bytes -> bits32 l -> nth_error alphabet k = Some name -> 0 <= w ->
  (forall n, In (PF k n) l <-> 0 <= n < w) -> Forall is_byte rest ->
  exists rss, parse_bit_pattern text = Some rss /\
    extract name rss (encode_ranges rss args ++ rest) = nth k args 0 mod 2 ^ w.
Proof.
  intros text l bs k name w args rest S E B K W N R. destruct (parse_layout text l _ S E B) as (rss & P & F). exists rss. split; [exact P|].
  pose proof (fields_of text l bs S E) as F26. rewrite (encode_pattern rss bs args F F26). rewrite <- (nth_error_nth _ _ "a"%char K).
  assert (K26 : (k < 26)%nat) by (change 26%nat with (List.length alphabet); apply nth_error_Some; congruence).
  apply Z.bits_inj'. intros n Hn. apply eq_true_iff_eq. rewrite (extract_encoded rss l bs) by auto. rewrite N.
  destruct (Z.lt_ge_cases n w).
  - rewrite Z.mod_pow2_bits_low by lia. intuition lia.
  - rewrite Z.mod_pow2_bits_high by lia. split; [lia|discriminate].
Qed.
Print Assumptions C57_roundtrip.

Example roundtrip_odd : exists rss, parse_bit_pattern odd_text = Some rss /\
  extract "b"%char rss (encode_ranges rss [5; -7] ++ [1; 2; 3]) = nth 1 [5; -7] 0 mod 2 ^ 4.
Proof.
  apply (C57_roundtrip odd_text (List.concat odd_bytes) odd_bytes 1 "b"%char 4 [5; -7] [1; 2; 3]);
    [exact odd_spelled|exact odd_eights|exact odd_bits32|reflexivity|lia| |].
  - intros n. cbn. split.
    + intros H. repeat (destruct H as [H|H]; [first [discriminate|injection H as <-; lia]|]). contradiction.
    + intros H. assert (n = 0 \/ n = 1 \/ n = 2 \/ n = 3) as [-> |[-> |[-> | ->]]] by lia; tauto.
  - repeat constructor; unfold is_byte; lia.
Qed.

(** C57: and the other way round: if the pattern names no operand bit twice, encoding the operands
    extracted from data that agrees with all of the pattern's literals gives that data. *)
Theorem C57_inverse : forall text l bytes data,
  spelled text l -> eights l bytes -> bits32 l -> named_once l ->
  Forall is_byte data -> Forall2 matches bytes data ->
  exists rss, parse_bit_pattern text = Some rss /\
    forall args, (forall k name n, nth_error alphabet k = Some name -> In (PF k n) l -> nth k args 0 = extract name rss data) ->
      encode_ranges rss args = data.
Proof.
  intros text l bs data S E B O D M. destruct (parse_layout text l _ S E B) as (rss & P & F). exists rss. split; [exact P|].
  intros args A. pose proof (fields_of text l bs S E) as F26. rewrite (encode_pattern rss bs args F F26).
  apply (encode_extracted rss l); auto; [intros k n I; eapply spelled_fields; eauto|].
  intros k n I. apply (A k (nth k alphabet "a"%char) n); [|exact I]. apply nth_error_nth'. eapply spelled_fields; eauto.
Qed.
Print Assumptions C57_inverse.

Example inverse_odd : exists rss, parse_bit_pattern odd_text = Some rss /\
  encode_ranges rss [extract "a"%char rss [251; 91]; extract "b"%char rss [251; 91]] = [251; 91].
Proof.
  destruct (C57_inverse odd_text _ _ [251; 91] odd_spelled odd_eights odd_bits32 odd_once) as (rss & P & H).
  - repeat constructor; unfold is_byte; lia.
  - repeat constructor; apply matchesb_spec; reflexivity.
  - exists rss. split; [exact P|]. apply H. intros k name n K I. cbn in I.
    repeat (destruct I as [I|I]; [first [discriminate|injection I as <- _; injection K as <-; reflexivity]|]). contradiction.
Qed.

(** C57: agreeing with the literals of the first byte, which is all the generated decoder looks at, is not
    enough for that: literals in later bytes are not checked. *)
Theorem C57_inverse_first_byte_refuted : exists text l first bytes b data rss r,
  spelled text l /\ eights l (first :: bytes) /\ bits32 l /\ named_once l /\ Forall is_byte (b :: data) /\
  List.length (b :: data) = List.length (first :: bytes) /\
  parse_bit_pattern text = Some (r :: rss) /\ In b (all_possible_opcodes r) /\
  encode_ranges (r :: rss) [extract "a"%char (r :: rss) (b :: data); extract "b"%char (r :: rss) (b :: data)] <> b :: data.
Proof.
  destruct (C57_match odd_text _ _ _ odd_spelled odd_eights odd_bits32) as (r & rss & P & H).
  exists odd_text, (List.concat odd_bytes), (nth 0 odd_bytes []), [nth 1 odd_bytes []], 251, [0], rss, r.
  split; [exact odd_spelled|]. split; [exact odd_eights|]. split; [exact odd_bits32|]. split; [exact odd_once|].
  split; [repeat constructor; unfold is_byte; lia|]. split; [reflexivity|]. split; [exact P|].
  split; [apply H; split; [unfold is_byte; lia|apply matchesb_spec; reflexivity]|].
  vm_compute in P. injection P as <- <-. vm_compute. discriminate.
Qed.
Print Assumptions C57_inverse_first_byte_refuted.
