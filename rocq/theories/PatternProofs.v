(** The derive macro on an arbitrary pattern: tokens, ranges, opcodes. *)
From Coq Require Import ZArith List String Ascii Bool Lia.
From Verif Require Import Base Bits SpecIsa SpecPattern BitsProofs CodecProofs CodecProofs2.
Import ListNotations.
Open Scope string_scope.
Open Scope list_scope.
Open Scope Z_scope.

Local Arguments Z.add : simpl never.
Local Arguments Z.sub : simpl never.
Local Arguments Z.mul : simpl never.
Local Arguments Z.pow : simpl never.
Local Arguments Z.leb : simpl never.
Local Arguments Z.ltb : simpl never.
Local Arguments Z.eqb : simpl never.

(** ** Characters *)

Lemma ascii_all (P : ascii -> bool) : forallb P (map ascii_of_nat (seq 0 256)) = true -> forall c, P c = true.
Proof.
  intros H c. rewrite forallb_forall in H. apply H. apply in_map_iff. exists (nat_of_ascii c). split; [apply ascii_nat_embedding|].
  apply in_seq. pose proof (nat_ascii_bounded c). lia.
Qed.

Definition member (l : list ascii) (c : ascii) : bool := existsb (Ascii.eqb c) l.

Lemma member_in l c : member l c = true <-> In c l.
Proof.
  unfold member. rewrite existsb_exists. split.
  - intros (x & I & E). apply Ascii.eqb_eq in E. now subst.
  - intros I. exists c. split; [exact I|apply Ascii.eqb_refl].
Qed.

Lemma is_ws_in c : is_ws c = true <-> In c white.
Proof.
  rewrite <- member_in. pose proof (ascii_all (fun c => Bool.eqb (is_ws c) (member white c)) eq_refl c) as H. cbn beta in H.
  apply Bool.eqb_prop in H. now rewrite H.
Qed.

Lemma is_name_in c : is_name c = true <-> In c alphabet.
Proof.
  rewrite <- member_in. pose proof (ascii_all (fun c => Bool.eqb (is_name c) (member alphabet c)) eq_refl c) as H. cbn beta in H.
  apply Bool.eqb_prop in H. now rewrite H.
Qed.

Definition digit_table (c : ascii) : option Z := option_map snd (find (fun p => Ascii.eqb (fst p) c) ten_digits).

Lemma digit_in c v : digit c = Some v <-> In (c, v) ten_digits.
Proof.
  assert (H : digit c = digit_table c).
  { pose proof (ascii_all (fun c => match digit c, digit_table c with Some a, Some b => a =? b | None, None => true | _, _ => false end) eq_refl c) as H.
    cbn beta in H. destruct (digit c), (digit_table c); try discriminate; [|reflexivity]. apply Z.eqb_eq in H. now subst. }
  rewrite H. unfold digit_table. split.
  - destruct (find _ ten_digits) as [[d w]|] eqn:E; [|discriminate]. intros [= <-]. apply find_some in E as [I E]. cbn in E. apply Ascii.eqb_eq in E. now subst.
  - intros I. repeat (destruct I as [I|I]; [injection I as <- <-; reflexivity|]). contradiction.
Qed.

Lemma digit_bracket c v : digit c = Some v -> Ascii.eqb c "]" = false.
Proof. intros H. apply digit_in in H. repeat (destruct H as [H|H]; [injection H as <- <-; reflexivity|]). contradiction. Qed.

Lemma digit_nonneg c v : In (c, v) ten_digits -> 0 <= v.
Proof. intros H. repeat (destruct H as [H|H]; [injection H as <- <-; lia|]). contradiction. Qed.

Lemma decimal_nonneg d n : decimal d n -> 0 <= n.
Proof. induction 1 as [c v I|s n c v D IH I]; pose proof (digit_nonneg c v I); lia. Qed.

(** ** Tokens *)

Lemma squeeze_strip s : squeezed s (strip_ws s).
Proof.
  induction s as [|c s IH]; cbn [strip_ws]; [constructor|]. destruct (is_ws c) eqn:E.
  - constructor; [now apply is_ws_in|exact IH].
  - constructor; [|exact IH]. intros I. apply is_ws_in in I. congruence.
Qed.

Lemma squeezed_strip s t : squeezed s t -> t = strip_ws s.
Proof.
  induction 1 as [|c s t I Q IH|c s t I Q IH]; cbn [strip_ws]; [reflexivity| |].
  - apply is_ws_in in I. now rewrite I.
  - destruct (is_ws c) eqn:E; [apply is_ws_in in E; contradiction|]. now subst.
Qed.

(** The bit of the model for a pattern bit. *)
Definition tb (b : pbit) : bit :=
  match b with P0 => BLit 0 | P1 => BLit 1 | PF k n => BRef (nth k alphabet "a"%char) n end.

Lemma append_assoc (a b c : string) : ((a ++ b) ++ c = a ++ (b ++ c))%string.
Proof. induction a; cbn; congruence. Qed.

(** Digits from left to right. *)
Inductive digits_acc : Z -> string -> Z -> Prop :=
| da_nil : forall a, digits_acc a "" a
| da_cons : forall a c v s n, digit c = Some v -> digits_acc (a * 10 + v) s n -> digits_acc a (String c s) n.

Lemma digits_snoc a s n c v : digits_acc a s n -> digit c = Some v -> digits_acc a (s ++ String c "") (10 * n + v).
Proof.
  induction 1 as [a|a d w s n D R IH]; intros E; cbn.
  - econstructor; [exact E|]. replace (a * 10 + v) with (10 * a + v) by lia. constructor.
  - econstructor; eauto.
Qed.

Lemma decimal_digits d n : decimal d n <-> exists c v s, d = String c s /\ digit c = Some v /\ digits_acc v s n.
Proof.
  split.
  - induction 1 as [c v I|s n c v D (c0 & v0 & s0 & -> & E & A) I].
    + exists c, v, "". split; [reflexivity|]. split; [now apply digit_in|constructor].
    + exists c0, v0, (s0 ++ String c "")%string. split; [reflexivity|]. split; [exact E|]. apply digits_snoc; [exact A|now apply digit_in].
  - intros (c & v & s & -> & E & A). apply digit_in in E.
    assert (G : forall p a, decimal p a -> forall s n, digits_acc a s n -> decimal (p ++ s) n).
    { clear. intros p a P s n A. revert p P. induction A as [a|a d w s n D R IH]; intros p P.
      - replace (p ++ "")%string with p; [exact P|]. clear. induction p; cbn; congruence.
      - replace (p ++ String d s)%string with ((p ++ String d "") ++ s)%string by (rewrite append_assoc; reflexivity).
        apply IH. replace (a * 10 + w) with (10 * a + w) by lia. constructor; [exact P|now apply digit_in]. }
    apply (G (String c "") v); [now constructor|exact A].
Qed.

Lemma read_idx_spec s : forall a n rest, read_idx s a = Some (n, rest) <-> exists d, s = (d ++ String "]" rest)%string /\ digits_acc a d n.
Proof.
  induction s as [|c s IH]; intros a n rest; cbn [read_idx].
  - split; [discriminate|]. intros (d & E & _). destruct d; discriminate.
  - destruct (Ascii.eqb c "]") eqn:B.
    + apply Ascii.eqb_eq in B. subst c. split.
      * intros [= <- <-]. exists "". split; [reflexivity|constructor].
      * intros (d & E & A). destruct d as [|c d].
        -- cbn in E. injection E as <-. now inversion A.
        -- cbn in E. injection E as <- E. inversion A as [|? ? v ? ? D]; subst. apply digit_bracket in D. discriminate.
    + destruct (digit c) as [v|] eqn:D.
      * rewrite IH. split.
        -- intros (d & -> & A). exists (String c d). split; [reflexivity|]. econstructor; eauto.
        -- intros (d & E & A). destruct d as [|e d]; cbn in E; injection E as E0 E; [subst c; discriminate|subst e].
           inversion A as [|? ? w ? ? D']; subst. rewrite D in D'. injection D' as <-. exists d. auto.
      * split; [discriminate|]. intros (d & E & A). destruct d as [|e d]; cbn in E; injection E as E0 E; [subst c; discriminate|subst e].
        inversion A; subst. congruence.
Qed.

Lemma length_append (a b : string) : String.length (a ++ b) = (String.length a + String.length b)%nat.
Proof. induction a; cbn; lia. Qed.

Lemma nth_alphabet k c : nth_error alphabet k = Some c -> nth k alphabet "a"%char = c.
Proof. apply nth_error_nth. Qed.

Lemma tokenize_complete s l : tokens s l -> forall fuel, (String.length s <= fuel)%nat -> tokenize fuel s = Some (map tb l).
Proof.
  induction 1 as [|s l T IH|s l T IH|k c d n s l K D T IH]; intros fuel L.
  - destruct fuel; reflexivity.
  - destruct fuel as [|f]; cbn in L; [lia|]. cbn [tokenize]. cbn [Ascii.eqb Bool.eqb]. rewrite IH by lia. reflexivity.
  - destruct fuel as [|f]; cbn in L; [lia|]. cbn [tokenize]. cbn [Ascii.eqb Bool.eqb]. rewrite IH by lia. reflexivity.
  - apply decimal_digits in D as (e & v & ds & -> & E & A). destruct fuel as [|f]; cbn in L; [lia|]. rewrite length_append in L. cbn in L.
    cbn [tokenize append]. cbn [Ascii.eqb Bool.eqb].
    assert (N : is_name c = true) by (apply is_name_in; eapply nth_error_In; eauto). rewrite N, E.
    rewrite (proj2 (read_idx_spec (ds ++ String "]" s) v n s)) by (exists ds; auto). rewrite IH by lia. cbn [option_map map tb].
    now rewrite (nth_alphabet k c K).
Qed.

Lemma tokenize_sound : forall fuel s bits, tokenize fuel s = Some bits -> exists l, tokens s l /\ bits = map tb l.
Proof.
  induction fuel as [|f IH]; intros s bits; cbn [tokenize].
  - destruct s; [|discriminate]. intros [= <-]. exists []. split; [constructor|reflexivity].
  - destruct s as [|c t]; [intros [= <-]; exists []; split; [constructor|reflexivity]|].
    destruct (Ascii.eqb c "1") eqn:C1; [|destruct (Ascii.eqb c "0") eqn:C0; [|destruct (Ascii.eqb c "[") eqn:CB; [|discriminate]]].
    + apply Ascii.eqb_eq in C1. subst c. destruct (tokenize f t) as [b|] eqn:E; [|discriminate]. intros [= <-].
      destruct (IH t b E) as (l & T & ->). exists (P1 :: l). split; [now constructor|reflexivity].
    + apply Ascii.eqb_eq in C0. subst c. destruct (tokenize f t) as [b|] eqn:E; [|discriminate]. intros [= <-].
      destruct (IH t b E) as (l & T & ->). exists (P0 :: l). split; [now constructor|reflexivity].
    + apply Ascii.eqb_eq in CB. subst c. destruct t as [|n [|d t]]; try discriminate.
      destruct (is_name n) eqn:N; [|discriminate]. destruct (digit d) as [v|] eqn:D; [|discriminate].
      destruct (read_idx t v) as [[i rest]|] eqn:R; [|discriminate]. destruct (tokenize f rest) as [b|] eqn:E; [|discriminate]. intros [= <-].
      destruct (IH rest b E) as (l & T & ->). apply is_name_in in N. apply In_nth_error in N as (k & K).
      apply read_idx_spec in R as (ds & -> & A). exists (PF k i :: l). split.
      * change (String d (ds ++ String "]" rest)) with (String d ds ++ String "]" rest)%string. apply tk_field; [exact K| |exact T].
        apply decimal_digits. exists d, v, ds. auto.
      * cbn [map tb]. now rewrite (nth_alphabet k n K).
Qed.

Lemma pattern_tokens text bits : tokenize_bit_pattern text = Some bits <-> exists l, spelled text l /\ bits = map tb l.
Proof.
  unfold tokenize_bit_pattern. split.
  - intros H. destruct (tokenize_sound _ _ _ H) as (l & T & ->). exists l. split; [|reflexivity]. exists (strip_ws text). split; [apply squeeze_strip|exact T].
  - intros (l & (s & Q & T) & ->). rewrite <- (squeezed_strip _ _ Q). apply tokenize_complete; [exact T|lia].
Qed.

(** ** Ranges *)

(** A token as the tokenizer yields it, with an operand bit below 32. *)
Definition ok_bit (b : bit) : Prop := match b with BLit v => v = 0 \/ v = 1 | BRef _ i => 0 <= i < 32 end.

Definition lit_bit (b : bit) : Prop := match b with BLit v => v = 0 \/ v = 1 | BRef _ _ => True end.

Definition nlen {A : Type} (l : list A) : Z := Z.of_nat (List.length l).

(** A chunk read left to right: literals, or a descending run of one operand. *)
Definition all_lits (c : list bit) : Prop := Forall (fun b => b = BLit 0 \/ b = BLit 1) c.
Definition run (n : ascii) (hi : Z) (c : list bit) : Prop := forall k b, nth_error c k = Some b -> b = BRef n (hi - Z.of_nat k).
Definition chunk_ok (c : list bit) : Prop := c <> [] /\ (all_lits c \/ exists n hi, run n hi c).

(** A range stands for a chunk. *)
Definition stands (r : range) (c : list bit) : Prop :=
  wf_range r = true /\ range_size r = nlen c /\
  forall k b, nth_error c k = Some b -> range_bit r (nlen c - 1 - Z.of_nat k) = b.

Lemma lit_value_spec c : all_lits c -> forall acc, 0 <= acc ->
  lit_value c acc = acc * 2 ^ nlen c + lit_value c 0 /\ 0 <= lit_value c 0 < 2 ^ nlen c /\
  forall k b, nth_error c k = Some b -> b = BLit (Z.b2z (Z.testbit (lit_value c 0) (nlen c - 1 - Z.of_nat k))).
Proof.
  induction c as [|b c IH]; intros A acc Ha.
  - cbn. split; [change (2 ^ 0) with 1; lia|]. split; [change (2 ^ 0) with 1; lia|]. intros [|k]; discriminate.
  - apply Forall_cons_iff in A as [B A]. specialize (IH A).
    assert (V : exists v, b = BLit v /\ (v = 0 \/ v = 1)) by (destruct B; subst; eauto). destruct V as (v & -> & V).
    assert (SH : forall a, 0 <= a -> Z.lor (Z.shiftl a 1) v = 2 * a + v).
    { intros a H. rewrite Z.shiftl_mul_pow2 by lia. change (2 ^ 1) with 2. destruct V as [-> | ->]; [rewrite Z.lor_0_r; lia|].
      rewrite Z.mul_comm.
      apply Z.bits_inj'. intros i Hi. rewrite Z.lor_spec. destruct (Z.eq_dec i 0) as [->|].
      - rewrite Z.testbit_even_0, Z.testbit_odd_0. reflexivity.
      - replace i with (Z.succ (i - 1)) by lia. rewrite Z.testbit_even_succ, Z.testbit_odd_succ by lia.
        replace (Z.testbit 1 (Z.succ (i - 1))) with false; [now rewrite orb_false_r|]. symmetry. apply Z.bits_above_log2; cbn; lia. }
    assert (L : nlen (BLit v :: c) = nlen c + 1) by (unfold nlen; cbn [List.length]; lia).
    assert (N : 0 <= nlen c) by (unfold nlen; lia). assert (P : 2 ^ (nlen c + 1) = 2 * 2 ^ nlen c) by (rewrite Z.pow_add_r by lia; change (2 ^ 1) with 2; lia).
    assert (P0 : 0 < 2 ^ nlen c) by (apply Z.pow_pos_nonneg; lia).
    cbn [lit_value]. rewrite !SH by lia. replace (2 * 0 + v) with v by lia. rewrite L, P.
    destruct (IH (2 * acc + v)) as (E1 & R & H); [destruct V; lia|]. destruct (IH v) as (E2 & _ & _); [destruct V; lia|].
    rewrite E1, E2. split; [nia|]. split; [destruct V; subst; nia|].
    intros [|k] b'; cbn [nth_error].
    + intros [= <-]. f_equal. replace (nlen c + 1 - 1 - Z.of_nat 0) with (nlen c) by lia.
      destruct V as [-> | ->].
      * replace (0 * 2 ^ nlen c + lit_value c 0) with (lit_value c 0) by lia. rewrite (small_bit _ (nlen c)) by lia. reflexivity.
      * replace (Z.testbit (1 * 2 ^ nlen c + lit_value c 0) (nlen c)) with true; [reflexivity|].
        symmetry. rewrite Z.testbit_true by lia. rewrite Z.div_add_l by lia. rewrite Z.div_small by lia. reflexivity.
    + intros E. rewrite (H k b' E) at 1. do 2 f_equal. assert (K : (k < List.length c)%nat) by (apply nth_error_Some; congruence).
      replace (nlen c + 1 - 1 - Z.of_nat (S k)) with (nlen c - 1 - Z.of_nat k) by lia.
      set (j := nlen c - 1 - Z.of_nat k). assert (J : 0 <= j < nlen c) by (unfold j, nlen; lia).
      rewrite <- (Z.mod_pow2_bits_low _ (nlen c) j) by lia. rewrite <- (Z.mod_pow2_bits_low (v * _ + _) (nlen c) j) by lia.
      f_equal. rewrite Z.add_comm, Z.mod_add by lia. reflexivity.
Qed.

Lemma chunk_stands c : chunk_ok c -> Forall ok_bit c -> exists r, chunk_to_range c = Some r /\ stands r c.
Proof.
  intros [N [A|(n & hi & R)]] K.
  - destruct c as [|b c]; [contradiction|]. assert (B : exists v, b = BLit v) by (apply Forall_inv in A as [-> | ->]; eauto). destruct B as (v & ->).
    exists (RLit (lit_value (BLit v :: c) 0) (nlen (BLit v :: c))). split; [reflexivity|].
    destruct (lit_value_spec _ A 0) as (_ & B & H); [lia|]. split; [|split].
    + assert (Q : 0 < nlen (BLit v :: c)) by (unfold nlen; cbn [List.length]; lia). unfold wf_range.
      rewrite (proj2 (Z.ltb_lt _ _) Q), (proj2 (Z.leb_le _ _) (proj1 B)), (proj2 (Z.ltb_lt _ _) (proj2 B)). reflexivity.
    + reflexivity.
    + intros k b E. cbn [range_bit]. now rewrite <- (H k b E).
  - destruct c as [|b c]; [contradiction|]. pose proof (R O b eq_refl) as B. cbn [Z.of_nat] in B. rewrite Z.sub_0_r in B. subst b.
    set (C := BRef n hi :: c) in *. assert (L : List.last C (BLit 0) = BRef n (hi - (nlen C - 1))).
    { destruct (exists_last N) as (l & x & E). rewrite E, last_last. replace (nlen (l ++ [x]) - 1) with (Z.of_nat (List.length l)).
      - apply R. rewrite E, nth_error_app2, Nat.sub_diag by lia. reflexivity.
      - unfold nlen. rewrite app_length. cbn [List.length]. lia. }
    exists (RRef n hi (hi - (nlen C - 1))). unfold C at 1. cbn [chunk_to_range]. fold C. rewrite L. split; [reflexivity|].
    assert (P : 1 <= nlen C) by (unfold C, nlen; cbn [List.length]; lia).
    assert (B0 : 0 <= hi < 32) by (apply Forall_inv in K; exact K).
    assert (B1 : 0 <= hi - (nlen C - 1)).
    { assert (I : nth_error C (List.length C - 1) = Some (BRef n (hi - Z.of_nat (List.length C - 1)))).
      { destruct (nth_error C (List.length C - 1)) as [x|] eqn:E; [now rewrite (R _ _ E)|]. apply nth_error_None in E. unfold nlen in P. lia. }
      apply nth_error_In in I. rewrite Forall_forall in K. pose proof (K _ I : 0 <= hi - Z.of_nat (List.length C - 1) < 32) as K'. unfold nlen in *. lia. }
    split; [|split].
    + unfold wf_range. rewrite !andb_true_iff, !Z.leb_le, Z.ltb_lt. lia.
    + unfold range_size. lia.
    + intros k b E. rewrite (R k b E). cbn [range_bit]. f_equal. lia.
Qed.

(** The chunks, each being good, make up the bits. *)
Lemma all_lits_snoc c v : all_lits c -> (v = 0 \/ v = 1) -> all_lits (c ++ [BLit v]).
Proof. intros A V. apply Forall_app. split; [exact A|]. constructor; [|constructor]. destruct V; subst; auto. Qed.

Lemma chunks_ok bits : forall cur, Forall lit_bit bits -> (cur = [] \/ chunk_ok (rev cur)) ->
  Forall chunk_ok (chunks bits cur) /\ List.concat (chunks bits cur) = rev cur ++ bits.
Proof.
  induction bits as [|b rest IH]; intros cur B H; cbn [chunks].
  - rewrite app_nil_r. destruct cur as [|x cur]; [split; [constructor|reflexivity]|]. destruct H as [H|H]; [discriminate|].
    split; [constructor; [exact H|constructor]|]. cbn [List.concat]. apply app_nil_r.
  - apply Forall_cons_iff in B as [B1 B2].
    assert (One : chunk_ok (rev [b])).
    { split; [discriminate|]. cbn. destruct b as [v|n i].
      - left. constructor; [|constructor]. cbn in B1. destruct B1; subst; auto.
      - right. exists n, i. intros [|[|k]] x; cbn; try discriminate. intros [= <-]. f_equal. lia. }
    destruct cur as [|last cur].
    + destruct (IH [b] B2) as [I1 I2]; [now right|]. split; [exact I1|]. rewrite I2. reflexivity.
    + destruct H as [H|H]; [discriminate|].
      assert (Done : Forall chunk_ok (rev (last :: cur) :: chunks rest [b]) /\
                     List.concat (rev (last :: cur) :: chunks rest [b]) = rev (last :: cur) ++ b :: rest).
      { destruct (IH [b] B2) as [I1 I2]; [now right|]. split; [constructor; assumption|]. cbn [List.concat]. now rewrite I2. }
      assert (Grow : chunk_ok (rev (b :: last :: cur)) ->
                     Forall chunk_ok (chunks rest (b :: last :: cur)) /\ List.concat (chunks rest (b :: last :: cur)) = rev (last :: cur) ++ b :: rest).
      { intros G. destruct (IH (b :: last :: cur) B2) as [I1 I2]; [now right|]. split; [exact I1|]. rewrite I2.
        change (rev (b :: last :: cur)) with (rev (last :: cur) ++ [b]). now rewrite <- app_assoc. }
      assert (Last : nth_error (rev (last :: cur)) (List.length cur) = Some last).
      { cbn [rev]. rewrite nth_error_app2 by (rewrite rev_length; lia). rewrite rev_length, Nat.sub_diag. reflexivity. }
      destruct last as [v|n i], b as [w|m j]; try exact Done.
      * apply Grow. split; [discriminate || (intros E; apply (f_equal (@List.length _)) in E; rewrite rev_length in E; discriminate)|].
        left. change (rev (BLit w :: BLit v :: cur)) with (rev (BLit v :: cur) ++ [BLit w]). apply all_lits_snoc; [|exact B1].
        destruct H as [_ [A|(n & hi & R)]]; [exact A|]. specialize (R _ _ Last). discriminate.
      * destruct (Ascii.eqb n m && (i - 1 =? j)) eqn:E; [|exact Done]. apply andb_true_iff in E as [E1 E2]. apply Ascii.eqb_eq in E1. apply Z.eqb_eq in E2. subst m j.
        apply Grow. split; [intros E; apply (f_equal (@List.length _)) in E; rewrite rev_length in E; discriminate|].
        right. destruct H as [_ [A|(n' & hi & R)]].
        -- unfold all_lits in A. rewrite Forall_forall in A. destruct (A _ (nth_error_In _ _ Last)); discriminate.
        -- pose proof (R _ _ Last) as L. injection L as <- ->. exists n, hi.
           change (rev (BRef n (hi - Z.of_nat (List.length cur) - 1) :: BRef n (hi - Z.of_nat (List.length cur)) :: cur))
             with (rev (BRef n (hi - Z.of_nat (List.length cur)) :: cur) ++ [BRef n (hi - Z.of_nat (List.length cur) - 1)]).
           intros k x. destruct (Nat.lt_ge_cases k (S (List.length cur))) as [Lt|Ge].
           ++ rewrite nth_error_app1 by (rewrite rev_length; cbn [List.length]; lia). apply R.
           ++ rewrite nth_error_app2 by (rewrite rev_length; cbn [List.length]; lia). rewrite rev_length. cbn [List.length].
              destruct (k - S (List.length cur))%nat as [|q] eqn:Q; cbn [nth_error]; [|destruct q; discriminate].
              intros [= <-]. f_equal. lia.
Qed.

Lemma concat_ok (cs : list (list bit)) : Forall ok_bit (List.concat cs) -> Forall (Forall ok_bit) cs.
Proof. induction cs as [|c cs IH]; cbn [List.concat]; intros H; [constructor|]. apply Forall_app in H as [H1 H2]. auto. Qed.

(** What the ranges of a group of bits are. *)
Definition layout (rs : list range) (bits : list bit) : Prop :=
  wf_byte (nlen bits) rs = true /\
  forall k b, nth_error bits k = Some b -> byte_bit (nlen bits) rs (nlen bits - 1 - Z.of_nat k) = Some b.

Lemma ranges_layout cs : Forall chunk_ok cs -> Forall (Forall ok_bit) cs ->
  exists rs, all_some (map chunk_to_range cs) = Some rs /\ layout rs (List.concat cs).
Proof.
  induction cs as [|c cs IH]; intros H K.
  - exists []. split; [reflexivity|]. split; [reflexivity|]. intros [|k]; discriminate.
  - apply Forall_cons_iff in H as [H1 H2]. apply Forall_cons_iff in K as [K1 K2]. destruct (IH H2 K2) as (rs & E & W & B).
    destruct (chunk_stands c H1 K1) as (r & R & S1 & S2 & S3). exists (r :: rs). cbn [map all_some]. rewrite R, E. split; [reflexivity|].
    assert (L : nlen (List.concat (c :: cs)) = range_size r + nlen (List.concat cs)) by (rewrite S2; unfold nlen; cbn [List.concat]; rewrite app_length; lia).
    unfold layout. rewrite L. pose proof (wf_range_size r S1) as P. assert (N : 0 <= nlen (List.concat cs)) by (unfold nlen; lia). split.
    + cbn [wf_byte]. rewrite S1. replace (range_size r + nlen (List.concat cs) - range_size r) with (nlen (List.concat cs)) by lia. rewrite W.
      destruct (Z.leb_spec (range_size r) (range_size r + nlen (List.concat cs))); [reflexivity|lia].
    + intros k b Hk. cbn [List.concat] in Hk. cbn [byte_bit]. replace (range_size r + nlen (List.concat cs) - range_size r) with (nlen (List.concat cs)) by lia.
      destruct (Nat.lt_ge_cases k (List.length c)) as [Lt|Ge].
      * rewrite nth_error_app1 in Hk by exact Lt. destruct (Z.leb_spec (nlen (List.concat cs)) (range_size r + nlen (List.concat cs) - 1 - Z.of_nat k)); [|unfold nlen in *; lia].
        f_equal. rewrite <- (S3 k b Hk). f_equal. rewrite S2. unfold nlen. lia.
      * rewrite nth_error_app2 in Hk by exact Ge. destruct (Z.leb_spec (nlen (List.concat cs)) (range_size r + nlen (List.concat cs) - 1 - Z.of_nat k)); [unfold nlen in *; lia|].
        rewrite <- (B _ _ Hk). f_equal. rewrite S2. unfold nlen. lia.
Qed.

Lemma bits_layout bits : Forall ok_bit bits -> exists rs, bits_to_range bits = Some rs /\ layout rs bits.
Proof.
  intros K. assert (K' : Forall lit_bit bits) by (eapply Forall_impl; [|exact K]; intros [v|n i]; cbn; auto).
  destruct (chunks_ok bits [] K' (or_introl eq_refl)) as [C E]. cbn [rev app] in E.
  destruct (ranges_layout (chunks bits [])) as (rs & R & L); [exact C|apply concat_ok; now rewrite E|]. exists rs. rewrite E in L. split; [exact R|exact L].
Qed.
