(** One token. *)
From Coq Require Import ZArith List String Ascii Bool Arith Lia.
From Verif Require Import Base Expr Lexer SpecLex LexProofs LexProofs2 LexProofs3.
Import ListNotations.
Open Scope string_scope.
Open Scope list_scope.
Local Open Scope nat_scope.

Local Arguments ascii_dec : simpl never.
Local Arguments Ascii.eqb : simpl never.

(** * The matchers by first character *)

Ltac by_idxs v := rewrite pick_idxs, idxs_expected; change (expected _) with v.

Lemma pick_percent : forall t,
  pick matchers (String "%" t) =
  match m_ident t with
  | Some n => Some (S n, fun t => Ok (TMacroIdent (lower t)))
  | None => match m_digits is_bin t with Some n => Some (S n, to_num 2 Binary 1) | None => None end
  end.
Proof.
  intros. rewrite pick_idxs, idxs_expected. change (expected "%") with [0; 24].
  cbn [map nth matchers pick m_len m_convert m_macro_ident m_number1]. rewrite !Ascii.eqb_refl.
  destruct (m_ident t), (m_digits is_bin t); reflexivity.
Qed.

Lemma pick_name : forall c t, ident_start c = true ->
  pick matchers (String c t) =
  match m_macro_label (String c t) with
  | Some n => Some (n, fun t => Ok (TMacroLabel (lower t)))
  | None => match m_ident (String c t) with Some n => Some (n, fun t => Ok (TName (lower t))) | None => None end
  end.
Proof.
  intros c t H. rewrite pick_idxs, idxs_expected.
  assert (E: expected c = [1; 20]).
  { unfold expected. destruct (Ascii.eqb c "%") eqn:E; [apply eqb_true in E; subst; discriminate|]. now rewrite H. }
  rewrite E. cbn [map nth matchers pick m_len m_convert].
  destruct (m_macro_label (String c t)), (m_ident (String c t)); reflexivity.
Qed.

Lemma pick_colon : forall t,
  pick matchers (String ":" t) =
  if match t with String ":" _ => true | _ => false end then Some (2, fun _ => Ok TDoubleColon) else Some (1, fun _ => Ok TColon).
Proof.
  intros. rewrite pick_idxs, idxs_expected. change (expected ":") with [6; 7].
  cbn [map nth matchers pick m_len m_convert]. rewrite m_text_1.
  unfold m_text. cbn [String.prefix]. destruct (ascii_dec ":" ":"); [|congruence].
  destruct t as [|d t]; auto. cbn [String.length].
  destruct (ascii_dec ":" d) as [<-|N].
  - destruct t; reflexivity.
  - destruct d as [[] [] [] [] [] [] [] []]; try reflexivity. congruence.
Qed.

Lemma pick_quote : forall t,
  pick matchers (String """" t) =
  match m_string (String """" t) with Some n => Some (n, fun t => Ok (TString (clean_str t))) | None => None end.
Proof. intros. rewrite pick_idxs, idxs_expected. reflexivity. Qed.

Lemma pick_at : forall t,
  pick matchers (String "@" t) = match m_indr (String "@" t) with Some n => Some (n, to_indr_mode) | None => None end.
Proof. intros. rewrite pick_idxs, idxs_expected. reflexivity. Qed.

Lemma pick_dollar : forall t,
  pick matchers (String "$" t) = match m_digits is_hex t with Some n => Some (S n, to_num 16 Hex 1) | None => None end.
Proof.
  intros. rewrite pick_idxs, idxs_expected. change (expected "$") with [21].
  cbn [map nth matchers pick m_len m_convert m_number1]. rewrite !Ascii.eqb_refl.
  destruct (m_digits is_hex t); reflexivity.
Qed.

Lemma pick_zero : forall t,
  pick matchers (String "0" t) =
  match m_number2 "o" "O" is_oct (String "0" t) with
  | Some n => Some (n, to_num 8 Octal 2)
  | None =>
  match m_number2 "x" "X" is_hex (String "0" t) with
  | Some n => Some (n, to_num 16 Hex 2)
  | None =>
  match m_number2 "b" "B" is_bin (String "0" t) with
  | Some n => Some (n, to_num 2 Binary 2)
  | None =>
  match m_digits is_dec (String "0" t) with
  | Some n => Some (n, to_num 10 Decimal 0)
  | None => None
  end end end end.
Proof. intros. rewrite pick_idxs, idxs_expected. reflexivity. Qed.

Lemma pick_dec : forall c t, is_dec c = true -> c <> "0"%char ->
  pick matchers (String c t) =
  match m_digits is_dec (String c t) with Some n => Some (n, to_num 10 Decimal 0) | None => None end.
Proof.
  intros c t H N. rewrite pick_idxs, idxs_expected.
  assert (E: expected c = [26]).
  { apply same_nats_eq. pose proof (all_ascii_ok (fun c => (negb (is_dec c) || Ascii.eqb c "0" || same_nats (expected c) [26])%bool)
      ltac:(vm_compute; reflexivity) c) as A. cbv beta in A. rewrite H in A.
    destruct (Ascii.eqb c "0") eqn:E; [apply eqb_true in E; contradiction|]. exact A. }
  rewrite E. cbn [map nth matchers pick m_len m_convert]. destruct (m_digits is_dec (String c t)); reflexivity.
Qed.

(** * Numbers with two-character prefixes *)

Lemma m_number2_ok : forall p q dig base x body vs rest, radix_ok base dig -> x = p \/ x = q ->
  some_digits base body vs -> ~ more_number base rest ->
  m_number2 p q dig (String "0" (String x (body ++ rest))) = Some (S (S (String.length body))).
Proof.
  intros. unfold m_number2. replace (Ascii.eqb "0" "0" && (Ascii.eqb x p || Ascii.eqb x q))%bool with true.
  2:{ rewrite Ascii.eqb_refl. destruct H0 as [->| ->]; rewrite Ascii.eqb_refl, ?orb_true_r; reflexivity. }
  rewrite (m_digits_ok base dig H body vs); auto.
Qed.

Lemma m_number2_other : forall p q dig x t, x <> p -> x <> q -> m_number2 p q dig (String "0" (String x t)) = None.
Proof.
  intros. unfold m_number2. destruct (Ascii.eqb x p) eqn:E; [apply eqb_true in E; contradiction|].
  destruct (Ascii.eqb x q) eqn:E2; [apply eqb_true in E2; contradiction|]. now rewrite andb_false_r.
Qed.

Lemma m_number2_inv : forall p q dig base t n, radix_ok base dig ->
  m_number2 p q dig (String "0" t) = Some n ->
  exists x body rest vs, t = String x (body ++ rest) /\ (x = p \/ x = q) /\ n = S (S (String.length body)) /\
    some_digits base body vs /\ ~ more_number base rest.
Proof.
  intros p q dig base t n RO H. destruct t as [|x t]; [discriminate|]. unfold m_number2 in H.
  rewrite Ascii.eqb_refl in H. cbn [andb] in H.
  destruct (Ascii.eqb x p || Ascii.eqb x q)%bool eqn:X; [|discriminate].
  destruct (m_digits dig t) eqn:M; [|discriminate]. injection H as <-.
  destruct (m_digits_inv base dig RO _ _ M) as (a & b & vs & -> & -> & D & N).
  exists x, a, b, vs. repeat split; auto.
  apply orb_true_iff in X as [X|X]; apply eqb_true in X; auto.
Qed.

Lemma m_number2_none : forall p q dig base t, radix_ok base dig ->
  m_number2 p q dig (String "0" t) = None ->
  ~ (exists x u, t = String x u /\ (x = p \/ x = q) /\ exists c w, u = String c w /\ exists v, digit base c v).
Proof.
  intros p q dig base t RO H (x & u & -> & X & D). unfold m_number2 in H.
  replace (Ascii.eqb "0" "0" && (Ascii.eqb x p || Ascii.eqb x q))%bool with true in H.
  2:{ rewrite Ascii.eqb_refl. destruct X as [->| ->]; rewrite Ascii.eqb_refl, ?orb_true_r; reflexivity. }
  destruct (m_digits dig u) eqn:M; [discriminate|]. eapply m_digits_none in M; eauto.
Qed.

(** [prefixes_number], by notation. *)
Lemma prefixes_number_iff : forall s, prefixes_number s <->
  exists x u, s = String x u /\
  (((x = "x"%char \/ x = "X"%char) /\ exists c w, u = String c w /\ exists v, digit 16 c v) \/
   ((x = "o"%char \/ x = "O"%char) /\ exists c w, u = String c w /\ exists v, digit 8 c v) \/
   ((x = "b"%char \/ x = "B"%char) /\ exists c w, u = String c w /\ exists v, digit 2 c v)).
Proof.
  intros s. split.
  - intros (p & base & r & t & I & -> & D). cbn in I.
    destruct I as [I|[I|[I|[I|[I|[I|[I|[I|[I|[]]]]]]]]]]; try discriminate I; injection I as <- <- <-; cbn [append];
      eexists _, t; (split; [reflexivity|]);
      first [left; split; [solve [auto]|exact D] | right; left; split; [solve [auto]|exact D] | right; right; split; [solve [auto]|exact D]].
  - intros (x & u & -> & [[X D]|[[X D]|[X D]]]); destruct X as [->| ->].
    + exists "x", 16%Z, Hex, u. cbn. auto 20.
    + exists "X", 16%Z, Hex, u. cbn. auto 20.
    + exists "o", 8%Z, Octal, u. cbn. auto 20.
    + exists "O", 8%Z, Octal, u. cbn. auto 20.
    + exists "b", 2%Z, Binary, u. cbn. auto 20.
    + exists "B", 2%Z, Binary, u. cbn. auto 20.
Qed.

(** The second character of a decimal number. *)
Lemma more_digits_head : forall base x t vs, more_digits base (String x t) vs -> x = "'"%char \/ exists v, digit base x v.
Proof. intros. inversion H; eauto. Qed.

Lemma dec_not_letter : forall x v, digit 10 x v -> ~ In x ["x"; "X"; "o"; "O"; "b"; "B"]%char.
Proof.
  intros x v D. apply (ro_inv _ _ ok_dec) in D as [D _]. intros I. cbn in I.
  repeat (destruct I as [<-|I]; [discriminate|]). contradiction.
Qed.

(** A decimal number starting with zero does not look like another notation. *)
Lemma dec_zero_none : forall p q dig base t ws rest, radix_ok base dig ->
  In (p, q, base) [("o", "O", 8); ("x", "X", 16); ("b", "B", 2)]%char%Z ->
  more_digits 10 t ws -> ~ (String "0" t = "0" /\ prefixes_number rest) ->
  m_number2 p q dig (String "0" (t ++ rest)) = None.
Proof.
  intros p q dig base t ws rest RO I M N.
  destruct (m_number2 p q dig (String "0" (t ++ rest))) eqn:E; auto. exfalso.
  apply (m_number2_inv _ _ _ _ _ _ RO) in E as (x & body & r & vs & E & X & _ & D & _).
  assert (XL: In x ["x"; "X"; "o"; "O"; "b"; "B"]%char).
  { cbn in I. repeat (destruct I as [I|I]; [injection I as <- <- <-; destruct X as [->| ->]; cbn; auto 10|]). contradiction. }
  destruct t as [|y t].
  - apply N. split; auto. cbn in E. subst rest. apply prefixes_number_iff. exists x, (body ++ r)%string. split; auto.
    destruct D as (c & v & u & w & -> & _ & D & _).
    assert (DD: exists c0 w0, (String c u ++ r)%string = String c0 w0 /\ exists v0, digit base c0 v0) by (cbn; eauto 10).
    cbn in I. repeat (destruct I as [I|I]; [injection I as <- <- <-; auto|]). contradiction.
  - cbn in E. injection E as -> E. apply more_digits_head in M as [->|(v & M)].
    + cbn in XL. intuition discriminate.
    + eapply dec_not_letter; eauto.
Qed.

(** * Completeness: a token that is written is read *)

Lemma lower_app_s : forall a b, lower (a ++ b) = (lower a ++ lower b)%string.
Proof. induction a; intros; cbn; congruence. Qed.

Lemma digit_first : forall base c v, digit base c v -> (base <= 10)%Z -> is_dec c = true.
Proof.
  intros base c v [I L] B. apply (ro_inv _ _ ok_dec c v). split; auto. lia.
Qed.

Lemma pick_complete : forall text ty rest, writes text ty -> complete text ty rest ->
  exists conv, pick matchers (text ++ rest) = Some (String.length text, conv) /\ conv text = result ty.
Proof.
  intros text ty rest W C. destruct W as [text ty I|w I|w I|w I|l s F1 F2|text n r N].
  - cbn in I.
    repeat (destruct I as [I|I];
      [ injection I as <- <-; cbn [append String.length];
        first
        [ (* @Rn *) rewrite pick_at; cbn; eexists; split; reflexivity
        | match goal with |- context [pick matchers (String ?c rest)] =>
            let k := eval vm_compute in (find (fun p => Ascii.eqb (fst (fst p)) c) singles) in
            match k with
            | Some (_, ?k, ?ty) =>
                destruct (pick_single c k ty rest) as (conv & P & V);
                [cbn; auto 20|rewrite P; exists conv; split; [reflexivity|apply V]]
            end
          end
        | rewrite pick_colon ] |]).
    3: contradiction.
    + (* :: *) eexists. split; reflexivity.
    + (* : *) cbn [complete] in C. destruct rest as [|d rest].
      * eexists. split; reflexivity.
      * cbn [starts] in C. destruct d as [[] [] [] [] [] [] [] []]; try (eexists; split; reflexivity).
        exfalso. apply C. reflexivity.
  - cbn [complete] in C. assert (N: ~ starts name_char rest) by (destruct rest; cbn in *; tauto).
    destruct w as [|c w]; [contradiction|]. pose proof I as [S _]. apply name_start_iff in S.
    cbn [append]. rewrite pick_name; auto. change (String c (w ++ rest)) with (String c w ++ rest)%string.
    rewrite m_label_none, m_ident_ok; auto. eexists. split; reflexivity.
  - cbn [complete] in C. cbn [append]. rewrite pick_percent. rewrite m_ident_ok; auto.
    eexists. split; reflexivity.
  - destruct w as [|c w]; [contradiction|]. pose proof I as [S _]. apply name_start_iff in S.
    rewrite app_assoc_s. cbn [append]. rewrite pick_name; auto.
    change (String c (w ++ String "%" rest)) with (String c w ++ String "%" rest)%string.
    rewrite m_label_ok; auto. change (String c (w ++ "%")) with (String c w ++ "%")%string.
    rewrite app_length_s. change (String.length "%") with 1. rewrite Nat.add_1_r.
    eexists. split; [reflexivity|].
    cbn [result]. now rewrite lower_app_s.
  - unfold quoted. cbn [append]. rewrite pick_quote.
    change (String """" ((written l ++ String """" "") ++ rest)) with (quoted (written l) ++ rest)%string.
    rewrite m_string_ok; auto. eexists. split; [reflexivity|].
    change (String """" (written l ++ String """" "")) with (quoted (written l)). cbv beta.
    rewrite clean_str_quoted. cbn [result]. do 2 f_equal. now apply clean_written.
  - destruct N as (prefix & base & body & vs & I & -> & D & ->). cbn in I.
    rewrite app_assoc_s, app_length_s.
    destruct I as [I|[I|[I|[I|[I|[I|[I|[I|[I|[]]]]]]]]]]; injection I as <- <- <-; cbn [complete] in C; cbn [append String.length Nat.add].
    + rewrite pick_dollar, (m_digits_ok _ _ ok_hex body vs); auto. eexists. split; [reflexivity|].
      apply (to_num_ok _ _ _ "$" body vs ok_hex D).
    + rewrite pick_zero, m_number2_other by discriminate. rewrite (m_number2_ok _ _ _ _ _ _ vs _ ok_hex); auto.
      eexists. split; [reflexivity|]. apply (to_num_ok _ _ _ "0x" body vs ok_hex D).
    + rewrite pick_zero, m_number2_other by discriminate. rewrite (m_number2_ok _ _ _ _ _ _ vs _ ok_hex); auto.
      eexists. split; [reflexivity|]. apply (to_num_ok _ _ _ "0X" body vs ok_hex D).
    + rewrite pick_zero. rewrite (m_number2_ok _ _ _ _ _ _ vs _ ok_oct); auto.
      eexists. split; [reflexivity|]. apply (to_num_ok _ _ _ "0o" body vs ok_oct D).
    + rewrite pick_zero. rewrite (m_number2_ok _ _ _ _ _ _ vs _ ok_oct); auto.
      eexists. split; [reflexivity|]. apply (to_num_ok _ _ _ "0O" body vs ok_oct D).
    + rewrite pick_percent, (m_digits_ok _ _ ok_bin body vs); auto.
      replace (m_ident (body ++ rest)) with (@None nat).
      2:{ destruct D as (c & v & t & ws & -> & _ & D & _). cbn. apply (ro_inv _ _ ok_bin) in D as [D _].
          pose proof (all_ascii_ok (fun c => negb (is_bin c && ident_start c)) ltac:(vm_compute; reflexivity) c) as A.
          cbv beta in A. rewrite D in A. cbn in A. destruct (ident_start c); auto. discriminate. }
      eexists. split; [reflexivity|]. apply (to_num_ok _ _ _ "%" body vs ok_bin D).
    + rewrite pick_zero, !m_number2_other by discriminate. rewrite (m_number2_ok _ _ _ _ _ _ vs _ ok_bin); auto.
      eexists. split; [reflexivity|]. apply (to_num_ok _ _ _ "0b" body vs ok_bin D).
    + rewrite pick_zero, !m_number2_other by discriminate. rewrite (m_number2_ok _ _ _ _ _ _ vs _ ok_bin); auto.
      eexists. split; [reflexivity|]. apply (to_num_ok _ _ _ "0B" body vs ok_bin D).
    + destruct C as [C1 C2]. pose proof D as (c & v & t & ws & -> & _ & D1 & D2).
      destruct (ascii_dec c "0") as [->|NZ].
      * cbn [append]. rewrite pick_zero.
        rewrite (dec_zero_none _ _ _ _ t ws rest ok_oct), (dec_zero_none _ _ _ _ t ws rest ok_hex), (dec_zero_none _ _ _ _ t ws rest ok_bin);
          auto; try (cbn; auto 10; fail).
        change (String "0" (t ++ rest)) with (String "0" t ++ rest)%string.
        rewrite (m_digits_ok _ _ ok_dec _ vs); auto. eexists. split; [reflexivity|].
        apply (to_num_ok _ _ _ "" _ vs ok_dec D).
      * cbn [append]. rewrite pick_dec; auto. 2:{ now apply (ro_inv _ _ ok_dec) in D1. }
        change (String c (t ++ rest)) with (String c t ++ rest)%string.
        rewrite (m_digits_ok _ _ ok_dec _ vs); auto. eexists. split; [reflexivity|].
        apply (to_num_ok _ _ _ "" _ vs ok_dec D).
Qed.

(** * Soundness: what is read is written *)

Lemma pick_sound : forall c t n conv, pick matchers (String c t) = Some (n, conv) ->
  exists text rest ty, String c t = (text ++ rest)%string /\ n = String.length text /\
    writes text ty /\ complete text ty rest /\ conv text = result ty.
Proof.
  intros c t n conv H.
  assert (NUM: forall prefix base dig r body vs rest, In (prefix, base, r) notations -> radix_ok base dig ->
     some_digits base body vs ->
     complete (prefix ++ body) (TNumber (positional base vs) r) rest ->
     String c t = ((prefix ++ body) ++ rest)%string -> n = String.length (prefix ++ body) -> conv = to_num base r (String.length prefix) ->
     exists text rest ty, String c t = (text ++ rest)%string /\ n = String.length text /\
      writes text ty /\ complete text ty rest /\ conv text = result ty).
  { intros prefix base dig r body vs rest I RO D C E -> ->.
    exists (prefix ++ body)%string, rest, (TNumber (positional base vs) r). repeat split; auto.
    - apply w_number. exists prefix, base, body, vs. auto.
    - eapply to_num_ok; eauto. }
  destruct (Ascii.eqb c "%") eqn:E1.
  { apply eqb_true in E1. subst c. rewrite pick_percent in H. destruct (m_ident t) eqn:M.
    - injection H as <- <-. apply m_ident_inv in M as (w & rest & -> & -> & I & N).
      exists (String "%" w), rest, (TMacroIdent (String "%" (lower w))). repeat split; auto. now constructor.
    - destruct (m_digits is_bin t) eqn:M2; [|discriminate]. injection H as <- <-.
      apply (m_digits_inv _ _ ok_bin) in M2 as (a & b & vs & -> & -> & D & N).
      eapply (NUM "%" 2%Z _ Binary a vs b); eauto; [cbn; auto 10|apply ok_bin]. }
  destruct (ident_start c) eqn:E2.
  { rewrite pick_name in H; auto. destruct (m_macro_label (String c t)) eqn:M.
    - injection H as <- <-. apply m_label_inv in M as (w & rest & -> & -> & I).
      exists (w ++ "%")%string, rest, (TMacroLabel (lower w ++ "%")). repeat split; auto.
      + now rewrite app_assoc_s.
      + rewrite app_length_s. cbn. lia.
      + now constructor.
      + cbn. now rewrite lower_app_s.
    - destruct (m_ident (String c t)) eqn:M2; [|discriminate]. injection H as <- <-.
      pose proof M2 as M3. apply m_ident_inv in M2 as (w & rest & EQ & -> & I & N).
      exists w, rest, (TName (lower w)). repeat split; auto. now constructor.
      cbn. destruct rest as [|d rest]; cbn in *; auto. intros [X|X]; [auto|]. subst d.
      rewrite EQ, m_label_ok in M; auto. discriminate. }
  destruct (Ascii.eqb c ":") eqn:E3.
  { apply eqb_true in E3. subst c. rewrite pick_colon in H.
    destruct (match t with String ":" _ => true | _ => false end) eqn:T; injection H as <- <-.
    - assert (T2: exists u, t = String ":" u).
      { destruct t as [|[[] [] [] [] [] [] [] []] u]; try discriminate. eexists; reflexivity. }
      destruct T2 as (u & ->).
      exists "::", u, TDoubleColon. repeat split; auto. constructor. cbn. auto 20.
    - exists ":", t, TColon. repeat split; auto. constructor. cbn. auto 20.
      cbn. destruct t as [|d t]; cbn; auto. intros ->. discriminate. }
  destruct (Ascii.eqb c """") eqn:E4.
  { apply eqb_true in E4. subst c. rewrite pick_quote in H. destruct (m_string _) eqn:M; [|discriminate].
    injection H as <- <-. apply m_string_inv in M as (l & rest & EQ & -> & F).
    exists (quoted (written l)), rest, (TString (clean false (written l))). repeat split; auto.
    - apply w_string; auto. now apply clean_written.
    - now rewrite clean_str_quoted. }
  destruct (Ascii.eqb c "@") eqn:E5.
  { apply eqb_true in E5. subst c. rewrite pick_at in H. destruct (m_indr _) eqn:M; [|discriminate].
    injection H as <- <-. destruct t as [|x [|d t]]; try discriminate. unfold m_indr in M.
    rewrite Ascii.eqb_refl in M. cbn [andb] in M.
    destruct ((Ascii.eqb x "r" || Ascii.eqb x "R") && between "0" "3" d)%bool eqn:X; [|discriminate].
    injection M as <-. apply andb_true_iff in X as [X Y].
    assert (D: In d ["0"; "1"; "2"; "3"]%char).
    { apply in_chars_iff. pose proof (all_ascii_ok (fun d => (negb (between "0" "3" d) || in_chars d ["0"; "1"; "2"; "3"]%char)%bool)
        ltac:(vm_compute; reflexivity) d) as A. cbv beta in A. rewrite Y in A. exact A. }
    assert (XX: x = "r"%char \/ x = "R"%char).
    { apply orb_true_iff in X as [X|X]; apply eqb_true in X; auto. }
    destruct XX as [->| ->]; cbn in D; destruct D as [<-|[<-|[<-|[<-|[]]]]].
    - exists "@r0", t, TR0. repeat split; auto. constructor; cbn; auto 30.
    - exists "@r1", t, TR1. repeat split; auto. constructor; cbn; auto 30.
    - exists "@r2", t, TR2. repeat split; auto. constructor; cbn; auto 30.
    - exists "@r3", t, TR3. repeat split; auto. constructor; cbn; auto 30.
    - exists "@R0", t, TR0. repeat split; auto. constructor; cbn; auto 30.
    - exists "@R1", t, TR1. repeat split; auto. constructor; cbn; auto 30.
    - exists "@R2", t, TR2. repeat split; auto. constructor; cbn; auto 30.
    - exists "@R3", t, TR3. repeat split; auto. constructor; cbn; auto 30. }
  destruct (Ascii.eqb c "$") eqn:E6.
  { apply eqb_true in E6. subst c. rewrite pick_dollar in H. destruct (m_digits is_hex t) eqn:M; [|discriminate].
    injection H as <- <-. apply (m_digits_inv _ _ ok_hex) in M as (a & b & vs & -> & -> & D & N).
    eapply (NUM "$" 16%Z _ Hex a vs b); eauto; [cbn; auto 10|apply ok_hex]. }
  destruct (is_dec c) eqn:E7.
  { destruct (ascii_dec c "0") as [->|NZ].
    - rewrite pick_zero in H.
      destruct (m_number2 "o" "O" is_oct _) eqn:M1.
      { injection H as <- <-. apply (m_number2_inv _ _ _ _ _ _ ok_oct) in M1 as (x & body & rest & vs & -> & [->| ->] & -> & D & N).
        - eapply (NUM "0o" 8%Z _ Octal body vs rest); eauto; [cbn; auto 10|apply ok_oct].
        - eapply (NUM "0O" 8%Z _ Octal body vs rest); eauto; [cbn; auto 10|apply ok_oct]. }
      destruct (m_number2 "x" "X" is_hex _) eqn:M2.
      { injection H as <- <-. apply (m_number2_inv _ _ _ _ _ _ ok_hex) in M2 as (x & body & rest & vs & -> & [->| ->] & -> & D & N).
        - eapply (NUM "0x" 16%Z _ Hex body vs rest); eauto; [cbn; auto 10|apply ok_hex].
        - eapply (NUM "0X" 16%Z _ Hex body vs rest); eauto; [cbn; auto 10|apply ok_hex]. }
      destruct (m_number2 "b" "B" is_bin _) eqn:M3.
      { injection H as <- <-. apply (m_number2_inv _ _ _ _ _ _ ok_bin) in M3 as (x & body & rest & vs & -> & [->| ->] & -> & D & N).
        - eapply (NUM "0b" 2%Z _ Binary body vs rest); eauto; [cbn; auto 10|apply ok_bin].
        - eapply (NUM "0B" 2%Z _ Binary body vs rest); eauto; [cbn; auto 10|apply ok_bin]. }
      destruct (m_digits is_dec _) eqn:M4; [|discriminate]. injection H as <- <-.
      apply (m_digits_inv _ _ ok_dec) in M4 as (a & b & vs & EQ & -> & D & N).
      eapply (NUM "" 10%Z _ Decimal a vs b); eauto; [cbn; auto 10|apply ok_dec|].
      cbn [complete append]. split; auto. intros [Z P]. subst a. cbn in EQ. injection EQ as ->.
      apply prefixes_number_iff in P as (x & u & -> & [[X P]|[[X P]|[X P]]]).
      + eapply (m_number2_none _ _ _ _ _ ok_hex M2). exists x, u. auto.
      + eapply (m_number2_none _ _ _ _ _ ok_oct M1). exists x, u. auto.
      + eapply (m_number2_none _ _ _ _ _ ok_bin M3). exists x, u. auto.
    - rewrite pick_dec in H; auto. destruct (m_digits is_dec _) eqn:M4; [|discriminate]. injection H as <- <-.
      apply (m_digits_inv _ _ ok_dec) in M4 as (a & b & vs & EQ & -> & D & N).
      eapply (NUM "" 10%Z _ Decimal a vs b); eauto; [cbn; auto 10|apply ok_dec|].
      cbn [complete append]. split; auto. intros [Z P]. subst a. cbn in EQ. injection EQ as -> _. congruence. }
  destruct (in_dec ascii_dec c (map (fun p => fst (fst p)) singles)) as [I|N].
  - apply in_map_iff in I as ([[x k] ty] & E & I). cbn in E. subst x.
    destruct (pick_single c k ty t I) as (conv' & P & V). rewrite P in H. injection H as <- <-.
    exists (String c ""), t, ty. repeat split; auto.
    + constructor. cbn in I. repeat (destruct I as [I|I]; [injection I as <- <- <-; cbn; auto 30|]). contradiction.
    + cbn in I. repeat (destruct I as [I|I]; [injection I as <- <- <-; exact Logic.I|]). contradiction.
    + rewrite V. cbn in I. repeat (destruct I as [I|I]; [injection I as <- <- <-; reflexivity|]). contradiction.
  - rewrite pick_other in H; auto; try discriminate.
    intros k ty I. apply N. apply in_map_iff. exists (c, k, ty). auto.
Qed.
