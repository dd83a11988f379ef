(** Proofs about positions, whitespace and comments. *)
From Coq Require Import ZArith List String Ascii Bool Arith Lia.
From Verif Require Import Base Expr Lexer SpecLex.
Import ListNotations.
Open Scope string_scope.
Open Scope list_scope.
Local Open Scope nat_scope.

(** * Strings *)

Lemma app_nil_r_s : forall s : string, (s ++ "")%string = s.
Proof. induction s; simpl; congruence. Qed.

Lemma app_assoc_s : forall a b c : string, ((a ++ b) ++ c)%string = (a ++ (b ++ c))%string.
Proof. induction a; intros; simpl; congruence. Qed.

Lemma app_length_s : forall a b : string, String.length (a ++ b) = String.length a + String.length b.
Proof. induction a; intros; simpl; auto. Qed.

Lemma app_inv_s : forall a b c : string, (a ++ b)%string = (a ++ c)%string -> b = c.
Proof. induction a; simpl; intros; auto. injection H; auto. Qed.

Lemma substring_app : forall a b, substring 0 (String.length a) (a ++ b) = a.
Proof. induction a; intros; simpl. destruct b; auto. now rewrite IHa. Qed.

Lemma substring_all : forall a, substring 0 (String.length a) a = a.
Proof. intros. rewrite <- (app_nil_r_s a) at 2. apply substring_app. Qed.

Lemma split_at : forall n s, n <= String.length s ->
  exists a b, s = (a ++ b)%string /\ String.length a = n.
Proof.
  induction n; intros s H. exists "", s; auto.
  destruct s; simpl in H; [lia|]. destruct (IHn s) as (a' & b & E & L); [lia|].
  exists (String a a'), b. subst. simpl. auto.
Qed.

Lemma eqb_true : forall a b, Ascii.eqb a b = true -> a = b.
Proof. intros. now apply Ascii.eqb_eq. Qed.

Lemma eqb_false : forall a b, Ascii.eqb a b = false -> a <> b.
Proof. intros a b H E. subst. rewrite Ascii.eqb_refl in H. discriminate. Qed.

(** A fact about all characters by computation. *)
Definition all_ascii (p : ascii -> bool) : bool := forallb p (map ascii_of_nat (seq 0 256)).

Lemma all_ascii_ok : forall p, all_ascii p = true -> forall c, p c = true.
Proof.
  intros p H c. unfold all_ascii in H. rewrite forallb_forall in H. apply H.
  rewrite in_map_iff. exists (nat_of_ascii c). split. apply ascii_nat_embedding.
  apply in_seq. pose proof (nat_ascii_bounded c). lia.
Qed.

(** * Positions *)

Fixpoint bol_after (b : bool) (s : string) : bool :=
  match s with
  | EmptyString => b
  | String c t => bol_after (Ascii.eqb c LF) t
  end.

Lemma bol_after_app : forall a b s, bol_after b (a ++ s) = bol_after (bol_after b a) s.
Proof. induction a; simpl; auto. Qed.

Lemma bol_after_true : forall s b, bol_after b s = true ->
  (s = "" /\ b = true) \/ exists p, s = (p ++ String LF "")%string.
Proof.
  induction s; simpl; intros; auto. destruct (IHs _ H) as [[-> E]|(p & ->)].
  - right. exists "". apply eqb_true in E. now subst.
  - right. exists (String a p). auto.
Qed.

Lemma starts_line_bol : forall before, starts_line before (bol_after true before).
Proof.
  intros. unfold starts_line, line_start. split.
  - intros H. destruct (bol_after_true _ _ H) as [[-> _]|]; auto.
  - intros [->|(p & ->)]; auto. now rewrite bol_after_app.
Qed.

Lemma starts_line_det : forall before b, starts_line before b -> b = bol_after true before.
Proof.
  intros. pose proof (starts_line_bol before) as S. unfold starts_line in *.
  destruct b, (bol_after true before); auto; firstorder congruence.
Qed.

Lemma line_start_bol : forall before, line_start before <-> bol_after true before = true.
Proof. intros. symmetry. apply starts_line_bol. Qed.

Lemma count_app : forall c a b, count c (a ++ b) = count c a + count c b.
Proof. induction a as [|x a IH]; intros; cbn [append count]; auto. rewrite IH. lia. Qed.

Lemma after_app : forall a b n, after_last_lf (a ++ b) n = after_last_lf b (after_last_lf a n).
Proof.
  induction a as [|x a IH]; intros; cbn [append after_last_lf]; auto.
  destruct (ascii_dec "010" x); apply IH.
Qed.

(** The input after the text [before]. *)
Definition inp (f : nat) (before rest : string) : input :=
  mkInput f rest (bol_after true before) (String.length before) (1 + count "010" before) (after_last_lf before 0).

Lemma new_inp : forall f text, new_input f text = inp f "" text.
Proof. reflexivity. Qed.

Lemma loc_inp : forall f before rest, loc_of (inp f before rest) = place f before.
Proof. reflexivity. Qed.

(** A cut not inside a CR LF pair. *)
Fixpoint cut_ok (a b : string) : bool :=
  match a with
  | EmptyString => true
  | String c t =>
      match t, b with
      | EmptyString, String d _ => negb (Ascii.eqb c CR && Ascii.eqb d LF)
      | _, _ => cut_ok t b
      end
  end.

Lemma cut_ok_cons : forall c t b, t <> "" -> cut_ok (String c t) b = cut_ok t b.
Proof. intros. destruct t; [congruence|]. destruct b; auto. Qed.

Lemma cut_ok_app : forall a t b, t <> "" -> cut_ok (a ++ t) b = cut_ok t b.
Proof.
  induction a; intros; auto. change (String a a0 ++ t)%string with (String a (a0 ++ t)).
  rewrite cut_ok_cons; auto. destruct a0; simpl; auto. discriminate.
Qed.

Local Arguments ascii_dec : simpl never.
Local Arguments Ascii.eqb : simpl never.

Lemma advance_spec : forall n a b bol pos line col, String.length a <= n -> cut_ok a b = true ->
  advance (String.length a) (a ++ b) bol pos line col =
  (b, bol_after bol a, (pos + String.length a, line + count "010" a, after_last_lf a col)).
Proof.
  induction n; intros a b bol pos line col L C.
  - destruct a; simpl in L; [|lia]. simpl. rewrite !Nat.add_0_r. destruct b; auto.
  - destruct a as [|c t]. { simpl. rewrite !Nat.add_0_r. destruct b; auto. }
    simpl in L.
    assert (CT: cut_ok t b = true).
    { destruct t; auto. }
    cbn [String.length append advance bol_after count after_last_lf].
    destruct (Ascii.eqb c LF) eqn:E.
    + apply eqb_true in E. subst c. rewrite IHn; auto; [|lia].
      change LF with ("010"%char). destruct (ascii_dec "010" "010"); [|congruence]. repeat (f_equal; try lia).
    + pose proof (eqb_false _ _ E) as NE. change LF with ("010"%char) in NE.
      destruct (ascii_dec "010" c); [congruence|].
      destruct t as [|d t2].
      * simpl in C. destruct b as [|d b2]; simpl.
        -- repeat (f_equal; try lia).
        -- destruct (Ascii.eqb c CR && Ascii.eqb d LF)%bool; [discriminate|].
           repeat (f_equal; try lia).
      * cbn [append].
        destruct (Ascii.eqb c CR && Ascii.eqb d LF)%bool eqn:P.
        -- apply andb_true_iff in P as [_ P]. apply eqb_true in P. subst d.
           cbn [String.length] in *. rewrite IHn; [|lia|].
           ++ cbn [bol_after count after_last_lf]. change LF with ("010"%char).
              destruct (ascii_dec "010" "010"); [|congruence]. cbn. repeat (f_equal; try lia).
           ++ destruct t2; auto.
        -- change (String d (t2 ++ b)) with (String d t2 ++ b)%string.
           rewrite IHn; auto; [|lia]. repeat (f_equal; try lia).
Qed.

Lemma update_inp : forall f before a b, cut_ok a b = true ->
  update (inp f before (a ++ b)) (String.length a) = inp f (before ++ a) b.
Proof.
  intros. unfold update. unfold inp at 1 2 3 4 5; cbn [i_rest i_bol i_pos i_line i_col].
  rewrite (advance_spec (String.length a)); auto.
  unfold inp. cbn [i_file].
  now rewrite app_length_s, bol_after_app, count_app, after_app.
Qed.

(** * Gaps *)

Lemma is_space_blank : forall c, is_space c = true <-> blank c.
Proof.
  intros c. unfold blank. split.
  - intros H.
    assert (A: (negb (is_space c) || existsb (Ascii.eqb c) ["009"; "010"; "011"; "012"; "013"; " "]%char)%bool = true).
    { revert c H. intros c _. apply (all_ascii_ok (fun c => negb (is_space c) || existsb (Ascii.eqb c) ["009"; "010"; "011"; "012"; "013"; " "]%char)%bool).
      vm_compute. reflexivity. }
    rewrite H in A. simpl negb in A. rewrite orb_false_l in A.
    apply existsb_exists in A as (x & I & E). apply eqb_true in E. now subst.
  - intros H. simpl in H. intuition (subst; reflexivity).
Qed.

Lemma dec_eqb : forall c, (if ascii_dec c "010" then true else false) = Ascii.eqb c LF.
Proof.
  intros. destruct (ascii_dec c "010").
  - subst. reflexivity.
  - destruct (Ascii.eqb c LF) eqn:E; auto. apply eqb_true in E. contradiction.
Qed.

Lemma gap_app : forall b g1 g2 rest, gap b g1 (g2 ++ rest) -> gap (bol_after b g1) g2 rest -> gap b (g1 ++ g2) rest.
Proof.
  intros b g1 g2 rest H. remember (g2 ++ rest)%string as r eqn:R. revert R.
  induction H as [b r0|b c g r0 B G IH|b c body g r0 C RL G IH]; intros ->; intros G2.
  - exact G2.
  - cbn [append]. apply gap_blank; auto. apply IH; auto. rewrite dec_eqb. exact G2.
  - cbn [append]. rewrite app_assoc_s. apply gap_comment; auto.
    + now rewrite app_assoc_s.
    + apply IH; auto. cbn [bol_after] in G2. rewrite bol_after_app in G2.
      assert (X: forall x, bol_after x g = bol_after false g -> True) by auto. clear X.
      destruct g as [|x g'].
      * cbn in *. assert (F: bol_after (Ascii.eqb c LF) body = false).
        { assert (NL: Ascii.eqb c LF = false) by (destruct C as [->|[_ ->]]; reflexivity).
          rewrite NL. destruct (bol_after false body) eqn:E; auto.
          apply bol_after_true in E as [[_ E]|(p & ->)]; [discriminate|].
          destruct RL as [_ N]. exfalso. apply (N p (String LF "")); auto; [discriminate|].
          right. left. eexists. reflexivity. }
        rewrite F in G2. exact G2.
      * exact G2.
Qed.

(** The rest of a line is what [eol_len] measures. *)
Lemma eol_len_le : forall s, eol_len s <= String.length s.
Proof.
  induction s; simpl; auto. destruct (Ascii.eqb a LF); [lia|].
  destruct s; simpl in *; [lia|]. destruct (_ && _)%bool; lia.
Qed.

Lemma eol_len_zero : forall s, eol_len s = 0 <-> at_eol s.
Proof.
  intros s. unfold at_eol. split.
  - destruct s as [|c t]; auto. cbn. destruct (Ascii.eqb c LF) eqn:E.
    { apply eqb_true in E. subst. intros _. right. left. now exists t. }
    destruct t as [|d t2]; [discriminate|].
    destruct (_ && _)%bool eqn:P; [|discriminate]. intros _.
    apply andb_true_iff in P as [P Q]. apply eqb_true in P, Q. subst. right. right. now exists t2.
  - intros [->|[(t & ->)|(t & ->)]]; auto.
Qed.

Lemma eol_len_cons : forall c t, eol_len (String c t) <> 0 -> eol_len (String c t) = S (eol_len t).
Proof.
  intros c t. cbn. destruct (Ascii.eqb c LF); [congruence|]. destruct t; auto.
  destruct (_ && _)%bool; congruence.
Qed.

Lemma rest_of_line_len : forall body after, rest_of_line body after <-> eol_len (body ++ after) = String.length body.
Proof.
  induction body as [|c t IH]; intros after.
  - cbn. rewrite eol_len_zero. unfold rest_of_line. split; [tauto|]. intros H. split; auto.
    intros p q E. destruct p; [|discriminate]. cbn in E. subst. congruence.
  - split.
    + intros [A N]. cbn [append String.length].
      rewrite eol_len_cons.
      2:{ intros Z. apply eol_len_zero in Z. apply (N "" (String c t)); auto. discriminate. }
      f_equal. apply IH. split; auto. intros p q E. apply (N (String c p) q). cbn. now rewrite E.
    + cbn [append String.length]. intros E.
      assert (NZ: eol_len (String c (t ++ after)) <> 0) by congruence.
      rewrite eol_len_cons in E; auto. injection E as E. apply IH in E as [A N]. split; auto.
      intros p q X Q. destruct p.
      * cbn in X. subst q. intros H. apply NZ. now apply eol_len_zero.
      * injection X as <- X. eauto.
Qed.

Lemma eol_cut : forall body after, rest_of_line body after -> cut_ok body after = true.
Proof.
  intros body after [A N]. destruct (string_dec body "") as [->|NE]; auto.
  assert (X: exists p c, body = (p ++ String c "")%string).
  { clear A N. induction body; [congruence|]. destruct body.
    - exists "", a. reflexivity.
    - destruct IHbody as (p & c & E); [discriminate|]. exists (String a p), c. now rewrite E. }
  destruct X as (p & c & ->). rewrite cut_ok_app; [|discriminate]. cbn.
  destruct after as [|d after]; auto.
  destruct (Ascii.eqb c CR && Ascii.eqb d LF)%bool eqn:P; auto. exfalso.
  apply andb_true_iff in P as [P Q]. apply eqb_true in P, Q. subst.
  apply (N p (String CR "")); auto; [discriminate|]. right. right. exists after. reflexivity.
Qed.

(** Nothing to skip. *)
Definition quiet (b : bool) (s : string) : Prop :=
  match s with
  | EmptyString => True
  | String c _ => is_space c = false /\ c <> ";"%char /\ ~ (b = true /\ c = "*"%char)
  end.

Lemma span_len_split : forall p s, exists a b,
  s = (a ++ b)%string /\ span_len p s = String.length a /\ all_chars (fun c => p c = true) a /\
  match b with EmptyString => True | String c _ => p c = false end.
Proof.
  induction s as [|c t (a & b & E & L & A & B)].
  - exists "", "". cbn. auto.
  - cbn. destruct (p c) eqn:P.
    + exists (String c a), b. subst. cbn. repeat split; auto.
    + exists "", (String c t). cbn. auto.
Qed.

Lemma blanks_gap : forall w b rest, all_chars (fun c => is_space c = true) w -> gap b w rest.
Proof.
  induction w; intros; [constructor|]. destruct H. apply gap_blank; auto. now apply is_space_blank.
Qed.

Lemma spaces_cut : forall w rest, match rest with EmptyString => True | String c _ => is_space c = false end ->
  cut_ok w rest = true.
Proof.
  induction w as [|c t]; intros; auto. cbn. destruct t; auto. destruct rest; auto.
  destruct (Ascii.eqb a LF) eqn:E; [|now rewrite andb_false_r].
  apply eqb_true in E. subst. discriminate.
Qed.

Lemma skip_ws_inp : forall f before text, exists w rest,
  text = (w ++ rest)%string /\ skip_whitespace (inp f before text) = inp f (before ++ w) rest /\
  all_chars (fun c => is_space c = true) w /\
  match rest with EmptyString => True | String c _ => is_space c = false end.
Proof.
  intros. destruct (span_len_split is_space text) as (w & rest & E & L & A & B).
  exists w, rest. repeat split; auto. unfold skip_whitespace. cbn [inp i_rest].
  rewrite L, E. apply update_inp. now apply spaces_cut.
Qed.

Lemma skip_eol_inp : forall f before text, exists body after,
  text = (body ++ after)%string /\ skip_to_eol (inp f before text) = inp f (before ++ body) after /\
  eol_len text = String.length body.
Proof.
  intros. destruct (split_at (eol_len text) text (eol_len_le _)) as (a & b & E & L).
  exists a, b. repeat split; auto. unfold skip_to_eol. cbn [inp i_rest]. rewrite <- L, E.
  apply update_inp. apply eol_cut. apply rest_of_line_len. now rewrite <- E.
Qed.

(** One of the two comment skips, on a text that begins with the comment character. *)
Lemma comment_inp : forall f before c t,
  (c = ";"%char \/ (bol_after true before = true /\ c = "*"%char)) ->
  exists g rest, String c t = (g ++ rest)%string /\ g <> "" /\
    skip_to_eol (inp f before (String c t)) = inp f (before ++ g) rest /\
    gap (bol_after true before) g rest.
Proof.
  intros f before c t C. destruct (skip_eol_inp f before (String c t)) as (g & rest & E & SK & L).
  assert (NE: Ascii.eqb c LF = false) by (destruct C as [->|[_ ->]]; reflexivity).
  assert (NC: Ascii.eqb c CR = false) by (destruct C as [->|[_ ->]]; reflexivity).
  assert (Q: eol_len (String c t) = S (eol_len t)).
  { apply eol_len_cons. cbn. rewrite NE, NC. destruct t; cbn; discriminate. }
  destruct g as [|c' body]; [rewrite Q in L; discriminate|].
  injection E as <- E. exists (String c body), rest. rewrite E. repeat split; auto.
  { discriminate. }
  { rewrite <- E. exact SK. }
  rewrite <- (app_nil_r_s body). apply gap_comment; auto; [|constructor].
  apply rest_of_line_len. cbn [append]. rewrite <- E. rewrite Q in L. now injection L.
Qed.

Definition asm_step (j : input) : input := skip_comment (skip_star_comment (skip_whitespace j)).

(** One round of the loop. *)
Lemma asm_step_inp : forall f before text, exists g rest,
  text = (g ++ rest)%string /\ asm_step (inp f before text) = inp f (before ++ g) rest /\
  gap (bol_after true before) g rest /\
  (g = "" -> quiet (bol_after true before) text).
Proof.
  intros. unfold asm_step.
  destruct (skip_ws_inp f before text) as (w & r1 & E1 & S1 & A1 & B1). rewrite S1.
  assert (X: exists s r2, r1 = (s ++ r2)%string /\ skip_star_comment (inp f (before ++ w) r1) = inp f (before ++ w ++ s) r2 /\
     gap (bol_after true (before ++ w)) s r2 /\ (s = "" -> r2 = r1 /\ ~ (bol_after true (before ++ w) = true /\ exists t, r1 = String "*" t))).
  { unfold skip_star_comment. destruct r1 as [|c t]; cbn [inp i_rest i_bol].
    - exists "", "". cbn. rewrite app_nil_r_s. split; [|split; [|split]]; auto; [constructor|].
      intros _. split; auto. intros (_ & t & H). discriminate.
    - destruct (bol_after true (before ++ w) && Ascii.eqb c "*")%bool eqn:P.
      + apply andb_true_iff in P as [P Q]. apply eqb_true in Q.
        destruct (comment_inp f (before ++ w) c t (or_intror (conj P Q))) as (g & r & E & NG & S & G).
        exists g, r. rewrite <- app_assoc_s. fold (inp f (before ++ w) (String c t)).
        split; [|split; [|split]]; auto; intros; contradiction.
      + exists "", (String c t). cbn [append]. rewrite app_nil_r_s. split; [|split; [|split]]; auto; [constructor|].
        intros _. split; auto. intros (H & u & U). injection U as -> _. rewrite H in P. discriminate. }
  destruct X as (s & r2 & E2 & S2 & G2 & N2). rewrite S2.
  assert (X: exists k r3, r2 = (k ++ r3)%string /\ skip_comment (inp f (before ++ w ++ s) r2) = inp f (before ++ w ++ s ++ k) r3 /\
     gap (bol_after true (before ++ w ++ s)) k r3 /\ (k = "" -> r3 = r2 /\ ~ (exists t, r2 = String ";" t))).
  { unfold skip_comment. destruct r2 as [|c t]; cbn [inp i_rest].
    - exists "", "". cbn. rewrite app_nil_r_s. split; [|split; [|split]]; auto; [constructor|].
      intros _. split; auto. intros (t & H). discriminate.
    - destruct (Ascii.eqb c ";")%bool eqn:Q.
      + apply eqb_true in Q.
        destruct (comment_inp f (before ++ w ++ s) c t (or_introl Q)) as (g & r & E & NG & S & G).
        exists g, r. replace (before ++ w ++ s ++ g)%string with ((before ++ w ++ s) ++ g)%string by (now rewrite !app_assoc_s).
        fold (inp f (before ++ w ++ s) (String c t)).
        split; [|split; [|split]]; auto; intros; contradiction.
      + exists "", (String c t). cbn [append]. rewrite app_nil_r_s. split; [|split; [|split]]; auto; [constructor|].
        intros _. split; auto. intros (u & U). injection U as -> _. discriminate. }
  destruct X as (k & r3 & E3 & S3 & G3 & N3).
  exists (w ++ s ++ k)%string, r3. split; [|split; [|split]]; auto.
  - subst. now rewrite !app_assoc_s.
  - apply gap_app.
    { apply blanks_gap; auto. }
    rewrite <- bol_after_app. apply gap_app.
    { rewrite <- E3. exact G2. }
    rewrite <- bol_after_app, app_assoc_s. exact G3.
  - intros Z.
    assert (w = "") by (destruct w; auto; discriminate). subst w. cbn [append] in *.
    assert (s = "") by (destruct s; auto; discriminate). subst s. cbn [append] in *. subst k.
    destruct (N2 eq_refl) as [-> N2']. destruct (N3 eq_refl) as [-> N3']. subst text.
    rewrite app_nil_r_s in *. unfold quiet. destruct r1 as [|c t]; auto. repeat split; auto.
    + intros ->. apply N3'. eauto.
    + intros [H ->]. apply N2'. eauto.
Qed.

Lemma skip_loop_inp : forall fuel f before text, String.length text < fuel -> exists g rest,
  text = (g ++ rest)%string /\ skip_loop asm_step fuel (inp f before text) = Some (inp f (before ++ g) rest) /\
  gap (bol_after true before) g rest /\ quiet (bol_after true (before ++ g)) rest.
Proof.
  induction fuel; intros f before text L; [lia|]. cbn [skip_loop].
  destruct (asm_step_inp f before text) as (g & rest & E & S & G & Q). rewrite S.
  cbn [inp i_pos]. rewrite app_length_s.
  destruct g as [|c g].
  - cbn [String.length append] in *. rewrite Nat.add_0_r, Nat.ltb_irrefl. subst text.
    exists "", rest. rewrite app_nil_r_s in *. repeat split; auto.
  - replace (String.length before <? String.length before + String.length (String c g)) with true
      by (symmetry; apply Nat.ltb_lt; cbn; lia).
    fold (inp f (before ++ String c g) rest).
    destruct (IHfuel f (before ++ String c g)%string rest) as (g' & rest' & E' & S' & G' & Q').
    { subst text. rewrite app_length_s in L. cbn in L. lia. }
    exists (String c g ++ g')%string, rest'. rewrite E, E'. repeat split.
    + now rewrite app_assoc_s.
    + rewrite <- E', S'. now rewrite app_assoc_s.
    + apply gap_app; [now rewrite <- E'|]. now rewrite <- bol_after_app.
    + now rewrite <- app_assoc_s.
Qed.

Lemma skip_asm_inp : forall f before text, exists g rest,
  text = (g ++ rest)%string /\ skip_asm (inp f before text) = Some (inp f (before ++ g) rest) /\
  gap (bol_after true before) g rest /\ quiet (bol_after true (before ++ g)) rest.
Proof. intros. unfold skip_asm, skip_by. apply skip_loop_inp. cbn. lia. Qed.

(** The gap is determined by the text. *)
Lemma gap_det : forall b g1 r1, gap b g1 r1 -> forall g2 r2, gap b g2 r2 ->
  (g1 ++ r1 = g2 ++ r2)%string -> quiet (bol_after b g1) r1 -> quiet (bol_after b g2) r2 -> g1 = g2.
Proof.
  assert (NB: forall c, blank c -> c <> ";"%char /\ c <> "*"%char).
  { intros c H. unfold blank in H. cbn in H. intuition (subst; discriminate). }
  intros b g1 r1 G1. induction G1 as [b r1|b c g r1 B G IH|b c body g r1 C RL G IH]; intros g2 r2 G2 E Q1 Q2.
  - destruct G2 as [b r2|b c g r2 B G|b c body g r2 C RL G]; auto; exfalso; cbn in E; subst r1; cbn in Q1.
    + apply is_space_blank in B. destruct Q1. congruence.
    + destruct Q1 as (_ & N1 & N2). destruct C; tauto.
  - destruct G2 as [b r2|b c2 g2 r2 B2 G2|b c2 body g2 r2 C RL G2].
    + exfalso. cbn in E. subst r2. cbn in Q2. apply is_space_blank in B. destruct Q2. congruence.
    + cbn [append] in E. injection E as <- E. f_equal. cbn [bol_after] in Q1, Q2.
      rewrite <- dec_eqb in Q1, Q2. eapply IH; eauto.
    + exfalso. injection E as <- _. destruct (NB _ B). destruct C as [C|[_ C]]; contradiction.
  - destruct G2 as [b r2|b c2 g2 r2 B2 G2|b c2 body2 g2 r2 C2 RL2 G2].
    + exfalso. cbn in E. subst r2. cbn in Q2. destruct Q2 as (_ & N1 & N2). destruct C; tauto.
    + exfalso. injection E as <- _. destruct (NB _ B2). destruct C as [C|[_ C]]; contradiction.
    + cbn [append] in E. injection E as <- E. rewrite !app_assoc_s in E.
      assert (L: String.length body = String.length body2).
      { apply rest_of_line_len in RL, RL2. rewrite <- RL, <- RL2. now rewrite E. }
      assert (BE: body = body2).
      { rewrite <- (substring_app body (g ++ r1)), <- (substring_app body2 (g2 ++ r2)). now rewrite L, E. }
      subst body2. apply app_inv_s in E. do 2 f_equal.
      assert (F: forall x, rest_of_line body x -> bol_after (Ascii.eqb c LF) body = false).
      { intros x [_ N]. replace (Ascii.eqb c LF) with false by (destruct C as [->|[_ ->]]; reflexivity).
        destruct (bol_after false body) eqn:X; auto.
        apply bol_after_true in X as [[_ X]|(p & ->)]; [discriminate|].
        exfalso. apply (N p (String LF "")); auto; [discriminate|]. right. left. eexists. reflexivity. }
      cbn [bol_after] in Q1, Q2. rewrite bol_after_app in Q1, Q2. rewrite (F _ RL) in Q1, Q2.
      eapply IH; eauto.
Qed.

Lemma skip_asm_gap : forall f before g rest,
  gap (bol_after true before) g rest -> quiet (bol_after true (before ++ g)) rest ->
  skip_asm (inp f before (g ++ rest)) = Some (inp f (before ++ g) rest).
Proof.
  intros f before g rest G Q. destruct (skip_asm_inp f before (g ++ rest)) as (g' & rest' & E & S & G' & Q').
  assert (g = g').
  { eapply gap_det; eauto; rewrite bol_after_app in *; auto. }
  subst g'. apply app_inv_s in E. now subst.
Qed.
