(** Each kind of token: what is read is what is written. *)
From Coq Require Import ZArith List String Ascii Bool Arith Lia.
From Verif Require Import Base Expr Lexer SpecLex LexProofs LexProofs2.
Import ListNotations.
Open Scope string_scope.
Open Scope list_scope.
Local Open Scope nat_scope.

Local Arguments ascii_dec : simpl never.
Local Arguments Ascii.eqb : simpl never.
Local Arguments Z.mul : simpl never.
Local Arguments Z.add : simpl never.

(** * Identifiers *)

Definition in_chars (c : ascii) (l : list ascii) : bool := existsb (Ascii.eqb c) l.

Lemma in_chars_iff : forall c l, in_chars c l = true <-> In c l.
Proof.
  intros. unfold in_chars. rewrite existsb_exists. split.
  - intros (x & I & E). apply eqb_true in E. now subst.
  - intros. exists c. split; auto. apply Ascii.eqb_refl.
Qed.

Lemma name_start_iff : forall c, ident_start c = true <-> name_start c.
Proof.
  intros c. unfold name_start. rewrite <- !in_chars_iff, <- orb_true_iff.
  pose proof (all_ascii_ok (fun c => Bool.eqb (ident_start c) (in_chars c letters || in_chars c ["_"; "."]%char)%bool)
    ltac:(vm_compute; reflexivity) c) as A. apply eqb_prop in A. now rewrite A.
Qed.

Lemma name_char_iff : forall c, ident_char c = true <-> name_char c.
Proof.
  intros c. unfold name_char. rewrite <- !in_chars_iff, <- orb_true_iff.
  pose proof (all_ascii_ok (fun c => Bool.eqb (ident_char c) (in_chars c letters || in_chars c (list_ascii_of_string "0123456789$_."))%bool)
    ltac:(vm_compute; reflexivity) c) as A. apply eqb_prop in A. now rewrite A.
Qed.

Lemma all_chars_impl : forall (P Q : ascii -> Prop) s, (forall c, P c -> Q c) -> all_chars P s -> all_chars Q s.
Proof. induction s; simpl; intros; auto. destruct H0. auto. Qed.

Lemma span_len_app : forall p a b, all_chars (fun c => p c = true) a ->
  match b with EmptyString => True | String c _ => p c = false end ->
  span_len p (a ++ b) = String.length a.
Proof.
  induction a as [|c a IH]; intros b A B.
  - destruct b; auto. cbn. now rewrite B.
  - destruct A as [P A]. cbn. rewrite P, IH; auto.
Qed.

Lemma not_starts : forall (P : ascii -> Prop) (p : ascii -> bool) s, (forall c, p c = true <-> P c) ->
  (~ starts P s <-> match s with EmptyString => True | String c _ => p c = false end).
Proof.
  intros. destruct s; cbn; [tauto|]. rewrite <- H. destruct (p a); split; congruence.
Qed.

Lemma m_ident_ok : forall w rest, identifier w -> ~ starts name_char rest -> m_ident (w ++ rest) = Some (String.length w).
Proof.
  intros [|c w] rest I N; [contradiction|]. destruct I as [S A]. cbn.
  apply name_start_iff in S. rewrite S. do 2 f_equal. apply span_len_app.
  - revert A. apply all_chars_impl. apply name_char_iff.
  - revert N. apply not_starts. apply name_char_iff.
Qed.

Lemma m_ident_inv : forall s n, m_ident s = Some n ->
  exists w rest, s = (w ++ rest)%string /\ n = String.length w /\ identifier w /\ ~ starts name_char rest.
Proof.
  intros [|c t] n H; [discriminate|]. cbn in H. destruct (ident_start c) eqn:S; [|discriminate].
  injection H as <-. destruct (span_len_split ident_char t) as (a & b & E & L & A & B).
  exists (String c a), b. subst t. rewrite L. repeat split; auto.
  - now apply name_start_iff.
  - revert A. apply all_chars_impl. apply name_char_iff.
  - revert B. apply not_starts. apply name_char_iff.
Qed.

Lemma get_app : forall a c b, get (String.length a) (a ++ String c b) = Some c.
Proof. induction a; intros; cbn; auto. Qed.

Lemma get_end : forall a, get (String.length a) a = None.
Proof. induction a; cbn; auto. Qed.

Lemma percent_no_name : ~ name_char "%".
Proof. rewrite <- name_char_iff. discriminate. Qed.

Lemma m_label_ok : forall w rest, identifier w -> m_macro_label (w ++ String "%" rest) = Some (S (String.length w)).
Proof.
  intros. unfold m_macro_label. rewrite m_ident_ok; auto. 2:{ cbn. apply percent_no_name. }
  rewrite get_app. reflexivity.
Qed.

Lemma m_label_none : forall w rest, identifier w -> ~ starts (fun c => name_char c \/ c = "%"%char) rest ->
  m_macro_label (w ++ rest) = None.
Proof.
  intros w rest I N. unfold m_macro_label. rewrite m_ident_ok; auto.
  2:{ destruct rest; cbn in *; tauto. }
  destruct rest as [|c rest].
  - rewrite app_nil_r_s, get_end. reflexivity.
  - rewrite get_app. destruct (Ascii.eqb c "%") eqn:E; auto. apply eqb_true in E. cbn in N. tauto.
Qed.

Lemma m_label_inv : forall s n, m_macro_label s = Some n ->
  exists w rest, s = (w ++ String "%" rest)%string /\ n = S (String.length w) /\ identifier w.
Proof.
  intros s n H. unfold m_macro_label in H. destruct (m_ident s) eqn:M; [|discriminate].
  apply m_ident_inv in M as (w & rest & -> & -> & I & N).
  destruct rest as [|c rest].
  - rewrite app_nil_r_s, get_end in H. discriminate.
  - rewrite get_app in H. destruct (Ascii.eqb c "%") eqn:E; [|discriminate]. apply eqb_true in E. subst.
    injection H as <-. exists w, rest. auto.
Qed.

(** * Numbers *)

Record radix_ok (base : Z) (p : ascii -> bool) : Prop := {
  ro_digit : forall c, p c = true -> digit base c (digit_val c);
  ro_inv : forall c v, digit base c v -> p c = true /\ v = digit_val c;
  ro_base : (2 <= base <= 16)%Z }.

Definition digitb (base : Z) (c : ascii) : bool :=
  existsb (fun q => Ascii.eqb (fst q) c && Z.eqb (snd q) (digit_val c) && Z.ltb (digit_val c) base)%bool digit_chars.

Lemma radix_ok_by : forall base p, (2 <= base <= 16)%Z ->
  all_ascii (fun c => implb (p c) (digitb base c)) = true ->
  forallb (fun q => implb (Z.ltb (snd q) base) (p (fst q) && Z.eqb (snd q) (digit_val (fst q)))) digit_chars = true ->
  radix_ok base p.
Proof.
  intros base p B H1 H2. constructor; auto.
  - intros c P. pose proof (all_ascii_ok _ H1 c) as A. cbv beta in A. rewrite P in A. cbn [implb] in A.
    unfold digitb in A. apply existsb_exists in A as ([x v] & I & E). cbn [fst snd] in E.
    rewrite !andb_true_iff, Z.eqb_eq, Z.ltb_lt in E. destruct E as [[E1 E2] E3].
    apply eqb_true in E1. subst. split; auto.
  - intros c v [I L]. rewrite forallb_forall in H2. specialize (H2 _ I). cbn [fst snd] in H2.
    apply Z.ltb_lt in L. rewrite L in H2. cbn [implb] in H2. rewrite andb_true_iff, Z.eqb_eq in H2. auto.
Qed.

Lemma ok_hex : radix_ok 16 is_hex.
Proof. apply radix_ok_by; [lia| |]; vm_compute; reflexivity. Qed.
Lemma ok_oct : radix_ok 8 is_oct.
Proof. apply radix_ok_by; [lia| |]; vm_compute; reflexivity. Qed.
Lemma ok_bin : radix_ok 2 is_bin.
Proof. apply radix_ok_by; [lia| |]; vm_compute; reflexivity. Qed.
Lemma ok_dec : radix_ok 10 is_dec.
Proof. apply radix_ok_by; [lia| |]; vm_compute; reflexivity. Qed.

Lemma digit_not_quote : forall base v, ~ digit base "'" v.
Proof. intros base v [I _]. cbn in I. intuition discriminate. Qed.

Lemma digit_bounds : forall base c v, digit base c v -> (0 <= v < base)%Z.
Proof.
  intros base c v [I L]. split; auto. cbn in I.
  repeat (destruct I as [I|I]; [injection I as _ <-; lia|]). contradiction.
Qed.

Section Digits.
  Variables (base : Z) (p : ascii -> bool).
  Hypothesis RO : radix_ok base p.

  Lemma p_iff : forall c, p c = true <-> exists v, digit base c v.
  Proof.
    intros. split. intros. eexists. now apply (ro_digit _ _ RO). intros (v & D). now apply (ro_inv _ _ RO) in D.
  Qed.

  Lemma digits_len_app : forall a vs, more_digits base a vs -> forall b, ~ more_number base b ->
    digits_len p (a ++ b) = String.length a.
  Proof.
    induction 1 as [|c v t vs D M IH|c v t vs D M IH]; intros b N.
    - cbn [append String.length]. destruct b as [|c t]; auto. cbn [digits_len].
      destruct (p c) eqn:P. { apply p_iff in P. exfalso. apply N. left. auto. }
      destruct (Ascii.eqb c "'") eqn:Q; auto. destruct t as [|d t]; auto.
      destruct (p d) eqn:P2; auto. exfalso. apply N. right. split. now apply eqb_true. apply p_iff in P2. exact P2.
    - cbn. apply (ro_inv _ _ RO) in D as [-> _]. now rewrite IH.
    - cbn. destruct (p "'") eqn:P.
      { apply p_iff in P as (w & P). apply digit_not_quote in P. contradiction. }
      apply (ro_inv _ _ RO) in D as [-> _]. cbn. now rewrite IH.
  Qed.

  Lemma digits_len_inv : forall n s, String.length s <= n -> exists a b vs,
    s = (a ++ b)%string /\ digits_len p s = String.length a /\ more_digits base a vs /\ ~ more_number base b.
  Proof.
    induction n; intros s L.
    { destruct s; [|cbn in L; lia]. exists "", "", []. cbn. repeat split; auto. constructor. }
    destruct s as [|c t]. { exists "", "", []. cbn. repeat split; auto. constructor. }
    cbn in L. cbn [digits_len]. destruct (p c) eqn:P.
    - destruct (IHn t) as (a & b & vs & -> & E & M & N); [lia|].
      exists (String c a), b, (digit_val c :: vs). rewrite E. repeat split; auto.
      constructor; auto. now apply (ro_digit _ _ RO).
    - assert (ND: ~ exists v, digit base c v). { rewrite <- p_iff. congruence. }
      destruct (Ascii.eqb c "'") eqn:Q.
      + apply eqb_true in Q. subst c. destruct t as [|d t].
        { exists "", "'", []. cbn. repeat split; auto. constructor. tauto. }
        destruct (p d) eqn:P2.
        * destruct (IHn t) as (a & b & vs & -> & E & M & N); [cbn in L; lia|].
          exists (String "'" (String d a)), b, (digit_val d :: vs). rewrite E. repeat split; auto.
          apply md_sep; auto. now apply (ro_digit _ _ RO).
        * exists "", (String "'" (String d t)), []. cbn. repeat split; auto. constructor.
          intros [H|[_ H]]; apply p_iff in H; congruence.
      + exists "", (String c t), []. cbn. repeat split; auto. constructor.
        intros [H|[H _]]; [tauto|]. subst. discriminate.
  Qed.

  Lemma m_digits_ok : forall a vs b, some_digits base a vs -> ~ more_number base b ->
    m_digits p (a ++ b) = Some (String.length a).
  Proof.
    intros a vs b (c & v & t & ws & -> & -> & D & M) N. cbn. apply (ro_inv _ _ RO) in D as [-> _].
    now rewrite (digits_len_app _ _ M).
  Qed.

  Lemma m_digits_inv : forall s n, m_digits p s = Some n ->
    exists a b vs, s = (a ++ b)%string /\ n = String.length a /\ some_digits base a vs /\ ~ more_number base b.
  Proof.
    intros [|c t] n H; [discriminate|]. cbn in H. destruct (p c) eqn:P; [|discriminate]. injection H as <-.
    destruct (digits_len_inv _ t (le_n _)) as (a & b & vs & -> & E & M & N).
    exists (String c a), b, (digit_val c :: vs). rewrite E. repeat split; auto.
    exists c, (digit_val c), a, vs. repeat split; auto; apply (ro_digit _ _ RO); auto.
  Qed.

  Lemma m_digits_none : forall s, m_digits p s = None -> ~ (exists c u, s = String c u /\ exists v, digit base c v).
  Proof.
    intros s H (c & u & -> & D). cbn in H. apply p_iff in D. rewrite D in H. discriminate.
  Qed.

  (** Values *)
  Definition in_i32 (v : Z) : outcome Z := if (v <=? 2147483647)%Z then Ok v else Panic.

  Lemma positional_nonneg : forall a vs, more_digits base a vs -> (0 <= positional base vs)%Z.
  Proof.
    pose proof (ro_base _ _ RO).
    induction 1; cbn [positional]; try lia; apply digit_bounds in H0;
      pose proof (Z.pow_nonneg base (Z.of_nat (List.length vs))); nia.
  Qed.

  Lemma radix_step : forall c v t vs acc, digit base c v -> (0 <= acc)%Z ->
    (forall acc, (0 <= acc <= 2147483647)%Z ->
      from_str_radix base acc t = in_i32 (acc * base ^ Z.of_nat (List.length vs) + positional base vs)) ->
    (0 <= positional base vs)%Z ->
    from_str_radix base acc (String c t) =
    in_i32 (acc * base ^ Z.of_nat (List.length (v :: vs)) + positional base (v :: vs)).
  Proof.
    intros c v t vs acc D A IH NN. pose proof (ro_base _ _ RO) as B.
    pose proof (digit_bounds _ _ _ D) as V. apply (ro_inv _ _ RO) in D as [_ ->].
    cbn [from_str_radix positional List.length].
    set (w := digit_val c) in *. set (k := Z.of_nat (List.length vs)).
    assert (K: (1 <= base ^ k)%Z). { unfold k. change 1%Z with (base ^ 0)%Z. apply Z.pow_le_mono_r; lia. }
    assert (E: (acc * base ^ Z.of_nat (S (List.length vs)) + (w * base ^ k + positional base vs) =
                (acc * base + w) * base ^ k + positional base vs)%Z).
    { rewrite Nat2Z.inj_succ, Z.pow_succ_r by lia. unfold k. ring. }
    rewrite E. destruct (2147483647 <? acc * base + w)%Z eqn:G.
    - unfold in_i32. destruct (_ <=? _)%Z eqn:G2; auto. apply Z.ltb_lt in G. apply Z.leb_le in G2. nia.
    - apply Z.ltb_ge in G. rewrite IH; auto. nia.
  Qed.

  Lemma strip_digit : forall c v t, digit base c v -> strip_quotes (String c t) = String c (strip_quotes t).
  Proof.
    intros. cbn. destruct (Ascii.eqb c "'") eqn:E; auto. apply eqb_true in E. subst.
    apply digit_not_quote in H. contradiction.
  Qed.

  Lemma radix_value : forall a vs, more_digits base a vs -> forall acc, (0 <= acc <= 2147483647)%Z ->
    from_str_radix base acc (strip_quotes a) = in_i32 (acc * base ^ Z.of_nat (List.length vs) + positional base vs).
  Proof.
    induction 1 as [|c v t vs D M IH|c v t vs D M IH]; intros acc A.
    - cbn. unfold in_i32. replace (acc * 1 + 0)%Z with acc by ring.
      destruct (_ <=? _)%Z eqn:E; auto. apply Z.leb_gt in E. lia.
    - rewrite (strip_digit _ _ _ D). eapply radix_step; eauto; [lia|]. eapply positional_nonneg; eauto.
    - change (strip_quotes (String "'" (String c t))) with (strip_quotes (String c t)).
      rewrite (strip_digit _ _ _ D). eapply radix_step; eauto; [lia|]. eapply positional_nonneg; eauto.
  Qed.

  Lemma some_more : forall a vs, some_digits base a vs -> more_digits base a vs.
  Proof. intros a vs (c & v & t & ws & -> & -> & D & M). now constructor. Qed.
End Digits.

(** What reading a token of this type gives. *)
Definition result (ty : token_type) : outcome token_type :=
  match ty with
  | TNumber n _ => if (n <=? 2147483647)%Z then Ok ty else Panic
  | _ => Ok ty
  end.

Lemma substring_skip : forall a b, substring (String.length a) (String.length (a ++ b) - String.length a) (a ++ b) = b.
Proof.
  induction a; intros.
  - cbn [String.length append]. rewrite Nat.sub_0_r. apply substring_all.
  - cbn. apply IHa.
Qed.

Lemma to_num_ok : forall base p r pre body vs, radix_ok base p -> some_digits base body vs ->
  to_num base r (String.length pre) (pre ++ body) = result (TNumber (positional base vs) r).
Proof.
  intros. unfold to_num. rewrite substring_skip.
  rewrite (radix_value base p H body vs); [|eapply some_more; eauto|lia].
  rewrite Z.mul_0_l, Z.add_0_l. unfold in_i32, result. destruct (_ <=? _)%Z; reflexivity.
Qed.

(** * Strings *)

Lemma string_tail_ok : forall l rest, Forall item_ok l ->
  string_tail (written l ++ String """" rest) = Some (S (String.length (written l))).
Proof.
  induction l as [|i l IH]; intros rest F; [reflexivity|]. inversion F as [|? ? I F']; subst.
  destruct i as [c|c]; cbn [written append string_tail].
  - destruct I as [N1 N2]. destruct (Ascii.eqb c """") eqn:E; [apply eqb_true in E; contradiction|].
    destruct (Ascii.eqb c "\") eqn:E2; [apply eqb_true in E2; contradiction|]. now rewrite IH.
  - cbn in I. change (Ascii.eqb "\" """") with false. change (Ascii.eqb "\" "\") with true. cbv iota.
    destruct (Ascii.eqb c LF) eqn:E; [apply eqb_true in E; contradiction|]. now rewrite IH.
Qed.

Lemma string_tail_inv : forall n s k, String.length s <= n -> string_tail s = Some k ->
  exists l rest, s = (written l ++ String """" rest)%string /\ k = S (String.length (written l)) /\ Forall item_ok l.
Proof.
  induction n; intros s k L H.
  { destruct s; [discriminate|cbn in L; lia]. }
  destruct s as [|c t]; [discriminate|]. cbn in L. cbn [string_tail] in H.
  destruct (Ascii.eqb c """") eqn:E.
  { apply eqb_true in E. injection H as <-. subst. exists [], t. cbn. auto. }
  destruct (Ascii.eqb c "\") eqn:E2.
  - destruct t as [|d t]; [discriminate|]. destruct (Ascii.eqb d LF) eqn:E3; [discriminate|].
    destruct (string_tail t) eqn:T; [|discriminate]. injection H as <-.
    destruct (IHn t n0) as (l & rest & -> & -> & F); [cbn in L; lia|auto|].
    apply eqb_true in E2. subst c. exists (Escaped d :: l), rest. cbn. repeat split; auto.
    constructor; auto. now apply eqb_false.
  - destruct (string_tail t) eqn:T; [|discriminate]. injection H as <-.
    destruct (IHn t n0) as (l & rest & -> & -> & F); [lia|auto|].
    exists (Plain c :: l), rest. cbn. repeat split; auto. constructor; auto. split; now apply eqb_false.
Qed.

Definition esc (c : ascii) : ascii :=
  if Ascii.eqb c "r" then "013" else if Ascii.eqb c "n" then "010" else if Ascii.eqb c "t" then "009"
  else if Ascii.eqb c "b" then "008" else if Ascii.eqb c "0" then "000" else c.

Lemma esc_ok : forall c d, item_char (Escaped c) d <-> d = esc c.
Proof.
  intros c d. cbn [item_char]. unfold esc.
  destruct (Ascii.eqb c "r") eqn:E1; [apply eqb_true in E1; subst|
  destruct (Ascii.eqb c "n") eqn:E2; [apply eqb_true in E2; subst|
  destruct (Ascii.eqb c "t") eqn:E3; [apply eqb_true in E3; subst|
  destruct (Ascii.eqb c "b") eqn:E4; [apply eqb_true in E4; subst|
  destruct (Ascii.eqb c "0") eqn:E5; [apply eqb_true in E5; subst|]]]]].
  1-5: split; [intros [H|[H _]];
    [cbn in H; repeat (destruct H as [H|H]; [try discriminate; now injection H as <-|]); contradiction
    |exfalso; eapply H; cbn; eauto 10]
    |intros ->; left; cbn; auto 10].
  assert (N: forall x, ~ In (c, x) escapes).
  { intros x H. cbn in H. repeat (destruct H as [H|H]; [injection H as <- _; discriminate|]). contradiction. }
  split. intros [H|[_ H]]; auto. exfalso. eapply N; eauto. intros ->. right. auto.
Qed.

Lemma clean_written : forall l, Forall item_ok l ->
  forall s, clean false (written l) = s <-> Forall2 item_char l (list_ascii_of_string s).
Proof.
  induction l as [|i l IH]; intros F s.
  - cbn. split; [intros <-; constructor|]. intros H. inversion H. destruct s; auto. discriminate.
  - inversion F as [|? ? I F']; subst. destruct i as [c|c].
    + destruct I as [N1 N2]. cbn [written clean].
      destruct (Ascii.eqb c "\") eqn:E2; [apply eqb_true in E2; contradiction|]. split.
      * intros <-. cbn. constructor; [reflexivity|]. now apply IH.
      * intros H. destruct s as [|x s]; cbn [list_ascii_of_string] in H; inversion H as [|? ? ? ? HC HT]; subst.
        cbn in HC. subst. f_equal. now apply IH.
    + cbn [written clean]. change (Ascii.eqb "\" "\") with true. cbv iota. fold (esc c). split.
      * intros <-. cbn. constructor; [now apply esc_ok|]. now apply IH.
      * intros H. destruct s as [|x s]; cbn [list_ascii_of_string] in H; inversion H as [|? ? ? ? HC HT]; subst.
        apply esc_ok in HC. subst. f_equal. now apply IH.
Qed.

Lemma clean_str_quoted : forall s, clean_str (quoted s) = clean false s.
Proof.
  intros. unfold clean_str, quoted. f_equal. cbn [String.length]. rewrite app_length_s. cbn [String.length].
  replace (S (String.length s + 1) - 2) with (String.length s) by lia.
  cbn [substring]. apply substring_app.
Qed.

Lemma m_string_ok : forall l rest, Forall item_ok l ->
  m_string (quoted (written l) ++ rest) = Some (String.length (quoted (written l))).
Proof.
  intros. unfold quoted. cbn [append m_string]. rewrite Ascii.eqb_refl, app_assoc_s. cbn [append].
  rewrite string_tail_ok; auto. cbn. rewrite app_length_s. cbn. do 2 f_equal. lia.
Qed.

Lemma m_string_inv : forall s n, m_string s = Some n ->
  exists l rest, s = (quoted (written l) ++ rest)%string /\ n = String.length (quoted (written l)) /\ Forall item_ok l.
Proof.
  intros [|c t] n H; [discriminate|]. cbn in H. destruct (Ascii.eqb c """") eqn:E; [|discriminate].
  apply eqb_true in E. subst. destruct (string_tail t) eqn:T; [|discriminate]. injection H as <-.
  destruct (string_tail_inv _ _ _ (le_n _) T) as (l & rest & -> & -> & F).
  exists l, rest. unfold quoted. cbn. rewrite app_assoc_s, app_length_s. cbn. repeat split; auto. lia.
Qed.
