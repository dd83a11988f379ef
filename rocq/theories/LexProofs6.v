(** Changing the case of letters. *)
From Coq Require Import ZArith List String Ascii Bool Arith Lia.
From Verif Require Import Base Expr Lexer SpecLex LexProofs LexProofs2 LexProofs3 LexProofs4 LexProofs5.
Import ListNotations.
Open Scope string_scope.
Open Scope list_scope.
Local Open Scope nat_scope.

Local Arguments ascii_dec : simpl never.
Local Arguments Ascii.eqb : simpl never.
Local Arguments lower_ascii : simpl never.

(** * Letters *)

Definition upper_ascii (c : ascii) : ascii :=
  let n := nat_of_ascii c in
  if (Nat.leb 97 n && Nat.leb n 122)%bool then ascii_of_nat (n - 32) else c.

(** Letters that differ in case only have the same small letter. *)
Lemma same_letter_lower c d : same_letter c d <-> lower_ascii c = lower_ascii d.
Proof.
  split.
  - intros [->|(n & L & H)]; [reflexivity|].
    do 26 (destruct n as [|n]; [destruct H as [[-> ->]|[-> ->]]; vm_compute; reflexivity|]). lia.
  - intros H. unfold same_letter.
    assert (A: forall x, lower_ascii x = x \/ exists n, (n < 26)%nat /\ x = ascii_of_nat (65 + n) /\ lower_ascii x = ascii_of_nat (97 + n)).
    { intros x.
      pose proof (all_ascii_ok (fun x => (Ascii.eqb (lower_ascii x) x ||
        existsb (fun n => Ascii.eqb x (ascii_of_nat (65 + n)) && Ascii.eqb (lower_ascii x) (ascii_of_nat (97 + n))) (seq 0 26))%bool)
        ltac:(vm_compute; reflexivity) x) as A. cbv beta in A. apply orb_true_iff in A as [A|A]; [left; now apply eqb_true|right].
      apply existsb_exists in A as (n & I & A). apply in_seq in I. apply andb_true_iff in A as [A B]. apply eqb_true in A, B.
      exists n. split; [lia|auto]. }
    destruct (A c) as [C|(n & L & C & C2)], (A d) as [D|(m & M & D & D2)].
    + left. congruence.
    + right. exists m. split; [lia|]. right. split; congruence.
    + right. exists n. split; [lia|]. left. split; congruence.
    + left. rewrite C, D. do 2 f_equal. rewrite C2, D2 in H. apply (f_equal nat_of_ascii) in H. rewrite !nat_ascii_embedding in H by lia. lia.
Qed.

#[global] Instance same_letter_refl : RelationClasses.Reflexive same_letter.
Proof. intros c. now left. Qed.

(** The characters of the same letter. *)
Lemma same_letter_cases : forall c d, same_letter c d -> d = c \/ d = lower_ascii c \/ d = upper_ascii c.
Proof.
  intros c d H. apply same_letter_lower in H.
  assert (A: forall d, d = lower_ascii d \/ d = upper_ascii (lower_ascii d)).
  { intros x. pose proof (all_ascii_ok (fun d => (Ascii.eqb d (lower_ascii d) || Ascii.eqb d (upper_ascii (lower_ascii d)))%bool)
      ltac:(vm_compute; reflexivity) x) as A. cbv beta in A. apply orb_true_iff in A as [A|A]; apply eqb_true in A; auto. }
  assert (B: forall c, upper_ascii (lower_ascii c) = upper_ascii c).
  { intros x. apply eqb_true. apply (all_ascii_ok (fun c => Ascii.eqb (upper_ascii (lower_ascii c)) (upper_ascii c))). vm_compute. reflexivity. }
  destruct (A d) as [E|E]; rewrite E, <- H; rewrite ?B; auto.
Qed.

(** A property of characters that does not depend on case. *)
Lemma same_letter_by : forall (p : ascii -> bool),
  all_ascii (fun c => (Bool.eqb (p c) (p (lower_ascii c)) && Bool.eqb (p c) (p (upper_ascii c)))%bool) = true ->
  forall c d, same_letter c d -> p c = p d.
Proof.
  intros p H c d S. pose proof (all_ascii_ok _ H c) as A. cbv beta in A.
  apply andb_true_iff in A as [A B]. apply eqb_prop in A, B.
  apply same_letter_cases in S as [->|[->| ->]]; auto.
Qed.

Lemma same_letter_sym : forall c d, same_letter c d -> same_letter d c.
Proof. intros c d. rewrite !same_letter_lower. auto. Qed.

Lemma same_letter_eqb : forall x, lower_ascii x = x -> upper_ascii x = x -> forall c d, same_letter c d -> Ascii.eqb c x = Ascii.eqb d x.
Proof.
  assert (K: forall x c d, lower_ascii x = x -> upper_ascii x = x -> same_letter c d -> Ascii.eqb c x = true -> Ascii.eqb d x = true).
  { intros x c d L U S E. apply eqb_true in E. subst c. apply same_letter_cases in S as [->|[->| ->]]; rewrite ?L, ?U; apply Ascii.eqb_refl. }
  intros x L U c d S. destruct (Ascii.eqb c x) eqn:E.
  - symmetry. eapply K; eauto.
  - destruct (Ascii.eqb d x) eqn:E2; auto. rewrite <- E. symmetry. symmetry. eapply K; eauto. now apply same_letter_sym.
Qed.

Lemma sl_eq : forall x c d, same_letter c d -> lower_ascii x = x -> upper_ascii x = x -> (c = x <-> d = x).
Proof.
  intros x c d S L U. pose proof (same_letter_eqb x L U c d S) as E.
  destruct (Ascii.eqb c x) eqn:E1; symmetry in E.
  - apply eqb_true in E1, E. tauto.
  - apply eqb_false in E1, E. tauto.
Qed.

Lemma same_letters_refl : forall s, same_letters s s.
Proof. induction s; cbn; auto. split; auto. reflexivity. Qed.

Lemma same_letters_sym : forall s t, same_letters s t -> same_letters t s.
Proof. induction s; destruct t; cbn; auto. intros [A B]. split; auto. now apply same_letter_sym. Qed.

Lemma same_letters_len : forall s t, same_letters s t -> String.length s = String.length t.
Proof. induction s; destruct t; cbn; try tauto. intros [_ H]. f_equal. auto. Qed.

Lemma same_letters_app : forall a b c d, same_letters a b -> same_letters c d -> same_letters (a ++ c) (b ++ d).
Proof. induction a; destruct b; cbn; try tauto. intros c d [A B] H. auto. Qed.

Lemma same_letters_split : forall a b u, same_letters (a ++ b) u ->
  exists a' b', u = (a' ++ b')%string /\ same_letters a a' /\ same_letters b b'.
Proof.
  induction a as [|c a IH]; intros b u H.
  - exists "", u. cbn in *. auto.
  - destruct u as [|d u]; [contradiction|]. destruct H as [S H]. destruct (IH _ _ H) as (a' & b' & -> & A & B).
    exists (String d a'), b'. cbn. auto.
Qed.

Lemma same_letters_lower : forall s t, same_letters s t -> lower s = lower t.
Proof. induction s; destruct t; cbn; try tauto. intros [A B]. apply same_letter_lower in A. now rewrite A, (IHs t B). Qed.

Lemma sl_lf : forall c d, same_letter c d -> (c = LF <-> d = LF).
Proof. intros. apply sl_eq; auto. Qed.

Lemma sl_lfb : forall c d, same_letter c d -> Ascii.eqb c LF = Ascii.eqb d LF.
Proof. intros. apply same_letter_eqb; auto. Qed.

Lemma sl_crb : forall c d, same_letter c d -> Ascii.eqb c CR = Ascii.eqb d CR.
Proof. intros. apply same_letter_eqb; auto. Qed.

Lemma sl_count : forall s t, same_letters s t -> count "010" s = count "010" t.
Proof.
  induction s as [|c s IH]; destruct t as [|d t]; cbn [same_letters count]; try tauto. intros [A B].
  rewrite (IH _ B). apply sl_lf in A. change LF with ("010"%char) in A.
  assert (E: "010"%char = c <-> "010"%char = d) by (split; intros X; symmetry; apply A; auto).
  destruct (ascii_dec "010" c), (ascii_dec "010" d); auto; exfalso; tauto.
Qed.

Lemma sl_after : forall s t n, same_letters s t -> after_last_lf s n = after_last_lf t n.
Proof.
  induction s as [|c s IH]; destruct t as [|d t]; intros n; cbn [same_letters after_last_lf]; try tauto. intros [A B].
  apply sl_lf in A. change LF with ("010"%char) in A.
  assert (E: "010"%char = c <-> "010"%char = d) by (split; intros X; symmetry; apply A; auto).
  destruct (ascii_dec "010" c), (ascii_dec "010" d); auto; exfalso; tauto.
Qed.

Lemma sl_bol : forall s t b, same_letters s t -> bol_after b s = bol_after b t.
Proof.
  induction s as [|c s IH]; destruct t as [|d t]; intros b; cbn [same_letters bol_after]; try tauto. intros [A B].
  rewrite (sl_lfb _ _ A). auto.
Qed.

Lemma sl_place : forall f s t, same_letters s t -> place f s = place f t.
Proof.
  intros. unfold place. rewrite (same_letters_len _ _ H), (sl_count _ _ H), (sl_after _ _ 0 H). reflexivity.
Qed.

Lemma sl_line_start : forall s t, same_letters s t -> (line_start s <-> line_start t).
Proof. intros. rewrite !line_start_bol. now rewrite (sl_bol _ _ true H). Qed.

Lemma sl_eol_len : forall s t, same_letters s t -> eol_len s = eol_len t.
Proof.
  induction s as [|c s IH]; destruct t as [|d t]; cbn [same_letters eol_len]; try tauto. intros [A B].
  rewrite (sl_lfb _ _ A). destruct (Ascii.eqb d LF); auto.
  destruct s as [|c2 s]; destruct t as [|d2 t]; try (cbn in B; contradiction); auto.
  pose proof B as [A2 _]. rewrite (sl_crb _ _ A), (sl_lfb _ _ A2). destruct (_ && _)%bool; auto.
Qed.

Lemma sl_rest_of_line : forall b1 b2 s t, same_letters b1 b2 -> same_letters s t -> rest_of_line b1 s -> rest_of_line b2 t.
Proof.
  intros b1 b2 s t A B H. apply rest_of_line_len. apply rest_of_line_len in H.
  rewrite <- (sl_eol_len _ _ (same_letters_app _ _ _ _ A B)), H. now apply same_letters_len.
Qed.

(** * [recase] *)

Lemma recase_letters : forall b s t, recase b s t -> same_letters s t.
Proof.
  induction 1; cbn [same_letters quoted append]; auto.
  - split; [reflexivity|]. apply same_letters_app; auto. apply same_letters_refl.
  - split; [reflexivity|]. now apply same_letters_app.
  - split; [reflexivity|]. apply same_letters_refl.
Qed.

Lemma recase_sym : forall b s t, recase b s t -> recase b t s.
Proof.
  induction 1 as [b|b c d s t S N1 N2 N3 R IH|b l s t F R IH|b c body body' s t C S RL R IH|b s]; try (constructor; auto; fail).
  - apply rc_char.
    + now apply same_letter_sym.
    + intros ->. apply N1. apply (sl_eq """" c """" S); auto.
    + intros ->. apply N2. apply (sl_eq ";" c ";" S); auto.
    + intros [B ->]. apply N3. split; auto. apply (sl_eq "*" c "*" S); auto.
    + rewrite dec_eqb in *. now rewrite <- (sl_lfb _ _ S).
  - apply rc_comment; auto.
    + now apply same_letters_sym.
    + eapply sl_rest_of_line; eauto. now apply recase_letters in R.
Qed.

Lemma eol_split : forall s, exists body after, s = (body ++ after)%string /\ rest_of_line body after.
Proof.
  intros. destruct (split_at (eol_len s) s (eol_len_le s)) as (a & b & E & L). exists a, b. split; auto.
  apply rest_of_line_len. now rewrite <- E.
Qed.

Lemma recase_refl : forall n b s, String.length s <= n -> recase b s s.
Proof.
  induction n; intros b s L.
  { destruct s; [constructor|cbn in L; lia]. }
  destruct s as [|c t]; [constructor|]. cbn in L.
  destruct (ascii_dec c """") as [->|N1]; [apply rc_open|].
  assert (CM: c = ";"%char \/ (b = true /\ c = "*"%char) -> recase b (String c t) (String c t)).
  { intros C. destruct (eol_split t) as (body & after & -> & RL). apply rc_comment; auto.
    apply same_letters_refl. apply IHn. rewrite app_length_s in L. lia. }
  destruct (ascii_dec c ";") as [E|N2]; [apply CM; auto|].
  destruct (ascii_dec c "*") as [E|N3].
  - destruct b; [apply CM; auto|]. apply rc_char; auto; [reflexivity|intros [? _]; discriminate|]. apply IHn. lia.
  - apply rc_char; auto; [reflexivity|tauto|]. apply IHn. lia.
Qed.

(** A character that starts neither a string nor a comment. *)
Lemma recase_peel : forall b c s u, recase b (String c s) u ->
  c <> """"%char -> c <> ";"%char -> ~ (b = true /\ c = "*"%char) ->
  exists d t, u = String d t /\ same_letter c d /\ recase (Ascii.eqb c LF) s t.
Proof.
  intros b c s u R N1 N2 N3. inversion R; subst; try congruence; try tauto.
  - exists d, t. repeat split; auto. now rewrite <- dec_eqb.
Qed.

Lemma recase_comment : forall b c s u, recase b (String c s) u -> c = ";"%char \/ (b = true /\ c = "*"%char) ->
  exists body body' s' t', s = (body ++ s')%string /\ u = String c (body' ++ t') /\ rest_of_line body s' /\
    same_letters body body' /\ recase false s' t'.
Proof.
  intros b c s u R C. inversion R; subst.
  - destruct C as [C|C]; tauto.
  - destruct C as [C|[_ C]]; discriminate.
  - exists body, body', s0, t. auto.
  - destruct C as [C|[_ C]]; discriminate.
Qed.

Lemma recase_quote : forall b s u, recase b (String """" s) u ->
  (exists l s' t, s = (written l ++ String """" s')%string /\ u = (quoted (written l) ++ t)%string /\
     Forall item_ok l /\ recase false s' t) \/
  u = String """" s.
Proof.
  intros b s u R. remember (String """" s) as x eqn:X. destruct R as [b|b c d s0 t S N1 N2 N3 R|b l s0 t F R|b c body body' s0 t C S RL R|b s0].
  - discriminate.
  - injection X as -> _. congruence.
  - unfold quoted in X. cbn [append] in X. injection X as X. rewrite app_assoc_s in X. cbn [append] in X. left. exists l, s0, t. auto.
  - injection X as -> _. destruct C as [C|[_ C]]; discriminate.
  - injection X as ->. auto.
Qed.

Lemma recase_gap : forall b g rest, gap b g rest -> forall u, recase b (g ++ rest) u ->
  exists g' rest', u = (g' ++ rest')%string /\ same_letters g g' /\ gap b g' rest' /\ recase (bol_after b g) rest rest'.
Proof.
  induction 1 as [b rest|b c g rest B G IH|b c body g rest C RL G IH]; intros u R.
  - exists "", u. cbn in *. repeat split; auto. constructor.
  - assert (NB: c <> """"%char /\ c <> ";"%char /\ c <> "*"%char).
    { unfold blank in B. cbn in B. intuition (subst; discriminate). }
    destruct NB as (N1 & N2 & N3). cbn [append] in R.
    destruct (recase_peel _ _ _ _ R N1 N2 ltac:(tauto)) as (d & t & -> & S & R').
    rewrite dec_eqb in *. destruct (IH _ R') as (g' & rest' & -> & SG & G' & R'').
    exists (String d g'), rest'. repeat split; auto.
    + apply gap_blank.
      * apply is_space_blank. apply is_space_blank in B. rewrite <- B. symmetry.
        apply (same_letter_by is_space); auto.
      * rewrite dec_eqb, <- (sl_lfb _ _ S). exact G'.
  - cbn [append] in R. rewrite app_assoc_s in R.
    destruct (recase_comment _ _ _ _ R C) as (body1 & body' & s' & t' & E & -> & RL1 & SL & R').
    assert (LE: String.length body = String.length body1).
    { apply rest_of_line_len in RL, RL1. rewrite <- RL, <- RL1, E. reflexivity. }
    assert (BE: body = body1).
    { rewrite <- (substring_app body (g ++ rest)), <- (substring_app body1 s'). now rewrite LE, E. }
    subst body1. apply app_inv_s in E. subst s'.
    destruct (IH _ R') as (g' & rest' & -> & SG & G' & R'').
    exists (String c (body' ++ g')), rest'. repeat split.
    + cbn. now rewrite app_assoc_s.
    + reflexivity.
    + now apply same_letters_app.
    + apply gap_comment; auto. eapply sl_rest_of_line; eauto. now apply recase_letters in R'.
    + cbn [bol_after]. rewrite bol_after_app.
      replace (bol_after (Ascii.eqb c LF) body) with false; auto.
      destruct RL as [_ N]. replace (Ascii.eqb c LF) with false by (destruct C as [->|[_ ->]]; reflexivity).
      destruct (bol_after false body) eqn:X; auto.
      apply bol_after_true in X as [[_ X]|(p & ->)]; [discriminate|].
      exfalso. apply (N p (String LF "")); auto; [discriminate|]. right. left. eexists. reflexivity.
Qed.

(** * Tokens *)

Definition plain_char (c : ascii) : Prop := c <> """"%char /\ c <> ";"%char /\ c <> LF.

Lemma recase_prefix : forall text b rest u, all_chars plain_char text ->
  (b = true -> ~ starts (fun c => c = "*"%char) text) -> (exists x y, text = String x y /\ all_chars (fun c => c <> "*"%char) y) ->
  recase b (text ++ rest) u ->
  exists text' rest', u = (text' ++ rest')%string /\ same_letters text text' /\ recase false rest rest'.
Proof.
  assert (K: forall text rest u, all_chars plain_char text -> recase false (text ++ rest) u ->
    exists text' rest', u = (text' ++ rest')%string /\ same_letters text text' /\ recase false rest rest').
  { induction text as [|c t IH]; intros rest u P R.
    - exists "", u. cbn in *. auto.
    - destruct P as [(N1 & N2 & N3) P]. cbn [append] in R.
      destruct (recase_peel _ _ _ _ R N1 N2) as (d & t' & -> & S & R'). { intros [X _]. discriminate. }
      replace (Ascii.eqb c LF) with false in R'. 2:{ symmetry. now apply Ascii.eqb_neq. }
      destruct (IH _ _ P R') as (text' & rest' & -> & A & B). exists (String d text'), rest'. cbn. auto. }
  intros text b rest u P NS (x & y & -> & _) R.
  destruct P as [(N1 & N2 & N3) P]. cbn [append] in R.
  destruct (recase_peel _ _ _ _ R N1 N2) as (d & t' & -> & S & R'). { intros [X Y]. apply NS in X. cbn in X. tauto. }
  replace (Ascii.eqb x LF) with false in R'. 2:{ symmetry. now apply Ascii.eqb_neq. }
  destruct (K _ _ _ P R') as (text' & rest' & -> & A & B). exists (String d text'), rest'. cbn. auto.
Qed.

Lemma sl_name_char : forall c d, same_letter c d -> (name_char c <-> name_char d).
Proof.
  intros. rewrite <- !name_char_iff. rewrite (same_letter_by ident_char) with (d := d); auto; tauto.
Qed.

Lemma sl_name_start : forall c d, same_letter c d -> (name_start c <-> name_start d).
Proof.
  intros. rewrite <- !name_start_iff. rewrite (same_letter_by ident_start) with (d := d); auto; tauto.
Qed.

Lemma sl_identifier : forall s t, same_letters s t -> identifier s -> identifier t.
Proof.
  intros [|c s] [|d t]; cbn; try tauto. intros [A B] [S N]. split. now apply (sl_name_start _ _ A).
  revert t B N. induction s as [|c2 s IH]; destruct t as [|d2 t]; cbn; try tauto. intros [X Y] [Z W]. split; auto.
  now apply (sl_name_char _ _ X).
Qed.

Definition digit_of (c : ascii) : option Z :=
  match find (fun p => Ascii.eqb (fst p) c) digit_chars with Some (_, v) => Some v | None => None end.

Lemma digit_of_iff : forall c v, In (c, v) digit_chars <-> digit_of c = Some v.
Proof.
  intros. split.
  - intros H. cbn in H. repeat (destruct H as [H|H]; [injection H as <- <-; reflexivity|]). contradiction.
  - unfold digit_of. destruct (find _ _) as [[x w]|] eqn:E; [|discriminate]. intros H. injection H as ->.
    apply find_some in E as [I E]. cbn in E. apply eqb_true in E. now subst.
Qed.

Lemma sl_digit : forall base c d v, same_letter c d -> digit base c v -> digit base d v.
Proof.
  intros base c d v S [I L]. split; auto. apply digit_of_iff. apply digit_of_iff in I. rewrite <- I. clear I L.
  pose proof (all_ascii_ok (fun c =>
     match digit_of c, digit_of (lower_ascii c), digit_of (upper_ascii c) with
     | Some a, Some b, Some e => Z.eqb a b && Z.eqb a e
     | None, None, None => true
     | _, _, _ => false
     end%bool) ltac:(vm_compute; reflexivity) c) as A. cbv beta in A.
  destruct (digit_of c) eqn:E0, (digit_of (lower_ascii c)) eqn:E1, (digit_of (upper_ascii c)) eqn:E2; try discriminate;
    apply same_letter_cases in S as [->|[->| ->]]; try congruence;
    apply andb_true_iff in A as [A B]; apply Z.eqb_eq in A, B; congruence.
Qed.

Lemma sl_more_digits : forall base s vs, more_digits base s vs -> forall t, same_letters s t -> more_digits base t vs.
Proof.
  induction 1 as [|c v t vs D M IH|c v t vs D M IH]; intros u S.
  - destruct u; [constructor|contradiction].
  - destruct u as [|d u]; [contradiction|]. destruct S as [A B]. constructor; auto. eapply sl_digit; eauto.
  - destruct u as [|q u]; [contradiction|]. destruct S as [Q S]. destruct u as [|d u]; [contradiction|].
    destruct S as [A B]. assert (q = "'"%char) by (apply (sl_eq "'" _ _ Q); auto). subst q. apply md_sep; auto. eapply sl_digit; eauto.
Qed.

Lemma sl_some_digits : forall base s vs t, some_digits base s vs -> same_letters s t -> some_digits base t vs.
Proof.
  intros base s vs t (c & v & w & ws & -> & -> & D & M) S. destruct t as [|d t]; [contradiction|]. destruct S as [A B].
  exists d, v, t, ws. repeat split; auto; try (eapply sl_digit; eauto; fail). eapply sl_more_digits; eauto.
  all: destruct (sl_digit _ _ _ _ A D); auto.
Qed.

Lemma sl_fixed1 : forall x d, same_letter x d -> lower_ascii x = x -> upper_ascii x = x -> d = x.
Proof. intros x d S L U. now apply (sl_eq x x d S L U). Qed.

Lemma sl_numeral : forall s n r t, numeral s n r -> same_letters s t -> numeral t n r.
Proof.
  intros s n r t (prefix & base & body & vs & I & -> & D & ->) S.
  apply same_letters_split in S as (p' & b' & -> & SP & SB).
  assert (I': In (p', base, r) notations).
  { cbn in I.
    destruct I as [I|[I|[I|[I|[I|[I|[I|[I|[I|[]]]]]]]]]]; injection I as <- <- <-;
      repeat (destruct p' as [|? p']; cbn in SP; try tauto);
      repeat match goal with
      | H : _ /\ _ |- _ => destruct H
      | H : same_letter "0" ?x |- _ => apply sl_fixed1 in H; [subst x|reflexivity|reflexivity]
      | H : same_letter "$" ?x |- _ => apply sl_fixed1 in H; [subst x|reflexivity|reflexivity]
      | H : same_letter "%" ?x |- _ => apply sl_fixed1 in H; [subst x|reflexivity|reflexivity]
      | H : same_letter _ ?x |- _ => apply same_letter_cases in H; cbv in H; destruct H as [H|[H|H]]; subst x
      end; cbn; auto 20. }
  exists p', base, b', vs. repeat split; auto. eapply sl_some_digits; eauto.
Qed.

Lemma sl_writes : forall s ty t, writes s ty -> (forall x, ty <> TString x) -> same_letters s t -> writes t ty.
Proof.
  intros s ty t W NS S. destruct W as [text ty I|w I|w I|w I|l x F1 F2|text n r N].
  - apply w_punct. cbn in I.
    repeat (destruct I as [I|I]; [injection I as <- <-;
      repeat (destruct t as [|? t]; cbn in S; try tauto);
      repeat match goal with
      | H : _ /\ _ |- _ => destruct H
      | H : same_letter ?y ?x |- _ => first [apply sl_fixed1 in H; [subst x|reflexivity|reflexivity]
                                     | apply same_letter_cases in H; cbv in H; destruct H as [H|[H|H]]; subst x]
      end; cbn; auto 40|]). contradiction.
  - rewrite (same_letters_lower _ _ S). apply w_name. eapply sl_identifier; eauto.
  - destruct t as [|d t]; [contradiction|]. destruct S as [A B]. apply sl_fixed1 in A; auto. subst d.
    rewrite (same_letters_lower _ _ B). apply w_macro_ident. eapply sl_identifier; eauto.
  - apply same_letters_split in S as (a & b & -> & SA & SB). destruct b as [|d [|? ?]]; cbn in SB; try tauto.
    destruct SB as [SB _]. apply sl_fixed1 in SB; auto. subst d. rewrite (same_letters_lower _ _ SA).
    apply w_macro_label. eapply sl_identifier; eauto.
  - exfalso. eapply NS; eauto.
  - apply w_number. eapply sl_numeral; eauto.
Qed.

Lemma sl_starts : forall (P : ascii -> Prop) s t, (forall c d, same_letter c d -> P c -> P d) -> same_letters s t -> starts P s -> starts P t.
Proof. intros P [|c s] [|d t] H; cbn; try tauto. intros [A B]. eauto. Qed.

Lemma sl_more_number : forall base s t, same_letters s t -> more_number base s -> more_number base t.
Proof.
  intros base [|c s] [|d t]; cbn; try tauto. intros [A B] [(v & D)|[E D]].
  - left. exists v. eapply sl_digit; eauto.
  - right. subst c. split. now apply sl_fixed1. revert D. apply sl_starts; auto.
    intros x y S (v & D). exists v. eapply sl_digit; eauto.
Qed.

Lemma sl_prefixes : forall s t, same_letters s t -> prefixes_number s -> prefixes_number t.
Proof.
  intros s t S (p & base & r & u & I & -> & (c & w & -> & v & D)).
  apply same_letters_split in S as (p' & t' & -> & SP & SB). destruct t' as [|d t']; [contradiction|]. destruct SB as [SB SB'].
  assert (N: numeral (String "0" p' ++ String d "") v r).
  { eapply sl_numeral.
    - exists (String "0" p), base, (String c ""), [v]. split; [exact I|]. split; [reflexivity|]. split.
      + exists c, v, "", []. repeat split; auto; try apply D. constructor.
      + cbn. rewrite Z.mul_1_r. lia.
    - cbn. split; [reflexivity|]. apply same_letters_app; auto. cbn. auto. }
  assert (I': In (String "0" p', base, r) notations).
  { cbn in I. destruct I as [I|[I|[I|[I|[I|[I|[I|[I|[I|[]]]]]]]]]]; try discriminate I; injection I as <- <- <-;
      destruct p' as [|x [|? ?]]; cbn in SP; try tauto; destruct SP as [SP _];
      apply same_letter_cases in SP; cbv in SP; destruct SP as [SP|[SP|SP]]; subst x; cbn; auto 20. }
  exists p', base, r, (String d t'). repeat split; auto. exists d, t'. split; auto. exists v. eapply sl_digit; eauto.
Qed.

Lemma sl_complete : forall s t ty r r', same_letters s t -> same_letters r r' -> complete s ty r -> complete t ty r'.
Proof.
  intros s t ty r r' S R C. pose proof (same_letters_sym _ _ S) as S'. pose proof (same_letters_sym _ _ R) as R'.
  destruct ty; cbn in *; auto.
  - intros H. apply C. revert H. apply sl_starts; auto. intros c d X ->. now apply sl_fixed1.
  - intros H. apply C. revert H. apply sl_starts; auto. intros c d X [H| ->]. left. now apply (sl_name_char _ _ X).
    right. now apply sl_fixed1.
  - destruct r0; [destruct C as [C1 C2]; split| | |].
    + intros H. apply C1. eapply sl_more_number; eauto.
    + intros [-> P]. apply C2. split.
      * destruct s as [|x [|? ?]]; cbn in S; try tauto. destruct S as [S _]. apply same_letter_sym, sl_fixed1 in S; auto. now subst.
      * eapply sl_prefixes; eauto.
    + intros H. apply C. eapply sl_more_number; eauto.
    + intros H. apply C. eapply sl_more_number; eauto.
    + intros H. apply C. eapply sl_more_number; eauto.
  - intros H. apply C. revert H. apply sl_starts; auto. intros c d X H. now apply (sl_name_char _ _ X).
Qed.

(** The characters of tokens other than strings. *)
Definition body_char (c : ascii) : bool :=
  (negb (Ascii.eqb c """") && negb (Ascii.eqb c ";") && negb (Ascii.eqb c LF) && negb (Ascii.eqb c "*"))%bool.

Lemma body_char_ok : forall c, body_char c = true -> plain_char c /\ c <> "*"%char.
Proof.
  intros c H. unfold body_char in H. rewrite !andb_true_iff, !negb_true_iff in H.
  destruct H as [[[H1 H2] H3] H4]. apply eqb_false in H1, H2, H3, H4. unfold plain_char. tauto.
Qed.

Lemma name_body : forall c, name_char c -> body_char c = true.
Proof.
  intros c H. apply name_char_iff in H.
  pose proof (all_ascii_ok (fun c => (negb (ident_char c) || body_char c)%bool) ltac:(vm_compute; reflexivity) c) as A.
  cbv beta in A. rewrite H in A. exact A.
Qed.

Lemma start_body : forall c, name_start c -> body_char c = true.
Proof.
  intros c H. apply name_start_iff in H.
  pose proof (all_ascii_ok (fun c => (negb (ident_start c) || body_char c)%bool) ltac:(vm_compute; reflexivity) c) as A.
  cbv beta in A. rewrite H in A. exact A.
Qed.

Lemma ident_body : forall w, identifier w -> all_chars (fun c => body_char c = true) w.
Proof.
  intros [|c w] H; [contradiction|]. destruct H. split. now apply start_body.
  eapply all_chars_impl; [|eauto]. apply name_body.
Qed.

Lemma digit_body : forall base c v, digit base c v -> body_char c = true.
Proof. intros base c v [I _]. cbn in I. repeat (destruct I as [I|I]; [injection I as <- <-; reflexivity|]). contradiction. Qed.

Lemma digits_body : forall base a vs, more_digits base a vs -> all_chars (fun c => body_char c = true) a.
Proof.
  induction 1; cbn; auto.
  - split; auto. eapply digit_body; eauto.
  - split; auto. split; auto. eapply digit_body; eauto.
Qed.

Lemma writes_body : forall text ty, writes text ty -> (forall x, ty <> TString x) ->
  text = "*" \/ all_chars (fun c => body_char c = true) text.
Proof.
  intros text ty W NS. destruct W as [text ty I|w I|w I|w I|l s F1 F2|text n r N].
  - cbn in I. repeat (destruct I as [I|I]; [injection I as <- <-; first [left; reflexivity|right; repeat split; reflexivity]|]). contradiction.
  - right. now apply ident_body.
  - right. split; auto. now apply ident_body.
  - right. apply all_chars_app. split; [now apply ident_body|]. repeat split.
  - exfalso. eapply NS; eauto.
  - right. destruct N as (p & base & body & vs & I & -> & (c & v & t & ws & -> & _ & D & M) & _).
    apply all_chars_app. split.
    + cbn in I. repeat (destruct I as [I|I]; [injection I as <- <- <-; repeat split; reflexivity|]). contradiction.
    + split. eapply digit_body; eauto. eapply digits_body; eauto.
Qed.

Lemma bol_no_lf : forall s b, all_chars (fun c => c <> LF) s -> s <> "" -> bol_after b s = false.
Proof.
  induction s as [|c s IH]; intros b A N; [congruence|]. destruct A as [A B]. cbn.
  replace (Ascii.eqb c LF) with false by (symmetry; now apply Ascii.eqb_neq).
  destruct s; auto. apply IH; auto. discriminate.
Qed.

Lemma recase_token : forall b text ty rest u, writes text ty -> complete text ty rest -> ~ (text = "*" /\ b = true) ->
  recase b (text ++ rest) u ->
  exists text' rest', u = (text' ++ rest')%string /\ writes text' ty /\ complete text' ty rest' /\ same_letters text text' /\
    recase (bol_after b text) rest rest'.
Proof.
  intros b text ty rest u W C N R.
  assert (D: (exists x, ty = TString x) \/ forall x, ty <> TString x).
  { destruct ty; try (right; intros; discriminate). left. eauto. }
  destruct D as [(x & ->)|NS].
  - inversion W as [? ? I| | | |l s F1 F2|]; subst.
    { cbn in I. repeat (destruct I as [I|I]; [discriminate|]). contradiction. }
    assert (B: bol_after b (quoted (written l)) = false).
    { unfold quoted. change (String """" (written l ++ String """" "")) with (String """" (written l) ++ String """" "")%string.
      rewrite bol_after_app. reflexivity. }
    rewrite B. unfold quoted in R. cbn [append] in R. rewrite app_assoc_s in R. cbn [append] in R.
    destruct (recase_quote _ _ _ R) as [(l0 & s' & t & E & -> & F0 & R')| ->].
    + assert (L: String.length (written l) = String.length (written l0)).
      { apply (f_equal string_tail) in E. rewrite !string_tail_ok in E; auto. congruence. }
      assert (EW: written l0 = written l).
      { rewrite <- (substring_app (written l0) (String """" s')), <- (substring_app (written l) (String """" rest)). now rewrite L, E. }
      rewrite EW in *. apply app_inv_s in E. injection E as <-.
      exists (quoted (written l)), t. repeat (match goal with |- _ /\ _ => split end); auto. apply same_letters_refl.
    + exists (quoted (written l)), rest. repeat (match goal with |- _ /\ _ => split end); auto.
      * unfold quoted. cbn [append]. now rewrite app_assoc_s.
      * apply same_letters_refl.
      * eapply recase_refl. apply le_n.
  - assert (NE: text <> "" /\ exists x y, text = String x y).
    { destruct (writes_head _ _ W) as (c & t & -> & _). split; eauto. discriminate. }
    destruct NE as [NE (x & y & XY)].
    assert (P: exists text' rest', u = (text' ++ rest')%string /\ same_letters text text' /\ recase false rest rest').
    { destruct (writes_body _ _ W NS) as [->|A].
      - apply (recase_prefix "*" b rest u); auto.
        + repeat split; discriminate.
        + exists "*"%char, "". cbn. auto.
      - apply (recase_prefix text b rest u); auto.
        + eapply all_chars_impl; [|eauto]. intros c H. now apply body_char_ok in H.
        + intros _. subst text. destruct A as [A _]. apply body_char_ok in A. cbn. tauto.
        + exists x, y. split; auto. subst text. destruct A as [_ A]. eapply all_chars_impl; [|eauto].
          intros c H. now apply body_char_ok in H. }
    destruct P as (text' & rest' & -> & S & R').
    assert (B: bol_after b text = false).
    { apply bol_no_lf; auto. destruct (writes_body _ _ W NS) as [->|A].
      - repeat split; discriminate.
      - eapply all_chars_impl; [|eauto]. intros c H. apply body_char_ok in H as [(_ & _ & H) _]. exact H. }
    rewrite B. exists text', rest'. repeat split; auto.
    + eapply sl_writes; eauto.
    + eapply sl_complete; eauto. now apply recase_letters in R'.
Qed.

(** * Whole texts *)

Lemma recase_pieces : forall ps before before' rest u, pieces_ok before ps rest -> same_letters before before' ->
  recase (bol_after true before) (source ps rest) u ->
  exists ps' rest', u = source ps' rest' /\ pieces_ok before' ps' rest' /\ same_letters (behind before ps) (behind before' ps') /\
    recase (bol_after true (behind before ps)) rest rest' /\ forall f, front f before ps = front f before' ps'.
Proof.
  induction ps as [|p ps IH]; intros before before' rest u P S R.
  - exists [], u. cbn in *. auto.
  - destruct P as (G & W & F & C & N & P). apply gap_after_iff in G. cbn [source] in R.
    destruct (recase_gap _ _ _ G _ R) as (g' & r1 & -> & SG & G' & R1).
    rewrite <- bol_after_app in R1.
    destruct (recase_token _ _ _ _ _ W C ltac:(rewrite <- line_start_bol; exact N) R1) as (text' & r2 & -> & W' & C' & ST & R2).
    rewrite <- bol_after_app, app_assoc_s in R2.
    assert (SB: same_letters (before ++ p_gap p ++ p_text p) (before' ++ g' ++ text')).
    { repeat apply same_letters_app; auto. }
    destruct (IH _ _ _ _ P SB R2) as (ps' & rest' & -> & P' & SH & R3 & FR).
    exists (mkPiece g' text' (p_type p) :: ps'), rest'. cbn [source behind pieces_ok front p_gap p_text p_type].
    split; [reflexivity|]. split; [|split; [exact SH|split; [exact R3|]]].
    + split; [|split; [|split; [|split; [|split]]]]; auto.
      * apply gap_after_iff. now rewrite <- (sl_bol _ _ true S).
      * intros [X Y]. apply N. split.
        -- subst text'. destruct (p_text p) as [|x [|? ?]]; cbn in ST; try tauto. destruct ST as [ST _].
           apply same_letter_sym, sl_fixed1 in ST; auto. now subst.
        -- apply (sl_line_start (before ++ p_gap p) (before' ++ g')); auto. now apply same_letters_app.
    + intros f. rewrite FR. f_equal. f_equal. f_equal; apply sl_place; auto. now apply same_letters_app.
Qed.

Lemma recase_unreadable : forall before before' rest rest', same_letters before before' ->
  recase (bol_after true before) rest rest' -> unreadable before rest -> unreadable before' rest'.
Proof.
  intros before before' rest rest' S R U. apply unreadable_iff in U as (NE & Q & P). apply unreadable_iff.
  rewrite <- (sl_bol _ _ true S). apply recase_sym in R. pose proof (recase_letters _ _ _ R) as L.
  destruct rest' as [|c' t']. { destruct rest; [congruence|contradiction]. }
  destruct rest as [|c t]; [contradiction|]. split; [discriminate|].
  assert (Q': quiet (bol_after true before) (String c' t')).
  { destruct L as [L _]. destruct Q as (Q1 & Q2 & Q3). split; [|split].
    - rewrite <- Q1. apply (same_letter_by is_space); auto.
    - intros ->. apply Q2. now apply sl_fixed1.
    - intros [B ->]. apply Q3. split; auto. now apply sl_fixed1. }
  split; auto. apply (pick_none_iff (String c' t')); [discriminate|]. intros text ty r E W C.
  assert (N: ~ (text = "*" /\ bol_after true before = true)).
  { intros [-> B]. cbn in E. injection E as -> _. destruct Q' as (_ & _ & Q'). tauto. }
  rewrite E in R. destruct (recase_token _ _ _ _ _ W C N R) as (text2 & r2 & E2 & W2 & C2 & _).
  eapply (proj1 (pick_none_iff (String c t) ltac:(discriminate)) P); eauto.
Qed.

Lemma recase_lex : forall f s t, recase true s t -> lex_input (new_input f s) = lex_input (new_input f t).
Proof.
  intros f s t R. destruct (lex_verdict f s) as (v & V & ->).
  destruct v as [ps tail|ps g rest|ps g lit rest ty]; cbn [verdict_ok verdict_outcome] in *.
  - destruct V as (-> & P & G). apply gap_after_iff in G.
    destruct (recase_pieces ps "" "" tail t P Logic.I R) as (ps' & tail' & -> & P' & SB & R' & FR).
    rewrite <- (app_nil_r_s tail) in R'.
    destruct (recase_gap _ _ _ G _ R') as (g' & r1 & E & SG & G' & R1).
    assert (r1 = "") by (inversion R1; auto). subst r1. rewrite app_nil_r_s in E. subst g'.
    symmetry. rewrite (proj2 (lex_ok_iff f (source ps' tail') (tokens_of f "" ps'))).
    + rewrite !tokens_front, FR. now rewrite (sl_place f _ _ SB).
    + exists ps', tail'. repeat split; auto. apply gap_after_iff. now rewrite <- (sl_bol _ _ true SB).
  - destruct V as (-> & P & G & U). apply gap_after_iff in G.
    destruct (recase_pieces ps "" "" _ t P Logic.I R) as (ps' & tail' & -> & P' & SB & R' & FR).
    destruct (recase_gap _ _ _ G _ R') as (g' & r1 & E & SG & G' & R1). subst tail'. rewrite <- bol_after_app in R1.
    symmetry. apply lex_err_iff. exists ps', g', r1.
    split; [reflexivity|]. split; [exact P'|]. split; [|split].
    + apply gap_after_iff. now rewrite <- (sl_bol _ _ true SB).
    + eapply recase_unreadable; eauto. now apply same_letters_app.
    + now rewrite (same_letters_len _ _ SB).
  - destruct V as (-> & P & G & W & C & F). apply gap_after_iff in G.
    destruct (recase_pieces ps "" "" _ t P Logic.I R) as (ps' & tail' & -> & P' & SB & R' & FR).
    destruct (recase_gap _ _ _ G _ R') as (g' & r1 & E & SG & G' & R1). subst tail'.
    assert (N: ~ (lit = "*" /\ bol_after (bol_after true (behind "" ps)) g = true)).
    { intros [-> _]. apply F. inversion W; subst; try exact Logic.I.
      - cbn in H. repeat (destruct H as [H|H]; [first [discriminate H|injection H as <-; exact Logic.I]|]). contradiction.
      - exfalso. destruct H as (p & base & body & vs & I & E2 & (c & v & w & ws & -> & _ & D & _) & _).
        apply digit_head in D as [_ D]. cbn in I.
        repeat (destruct I as [I|I]; [injection I as <- <- <-; cbn in E2; try discriminate E2; congruence|]). contradiction. }
    destruct (recase_token _ _ _ _ _ W C N R1) as (lit' & r2 & -> & W' & C' & SL & R2).
    symmetry. refine (verdict_lex f "" _ (VBig ps' g' lit' r2 ty) _). cbn [verdict_ok]. repeat split; auto.
    apply gap_after_iff. now rewrite <- (sl_bol _ _ true SB).
Qed.
