(** The printed listing is read back. *)
From Coq Require Import ZArith List String Ascii Bool Lia.
From Verif Require Import Base Expr Instr Ast Macro Asm Lexer Parser Printer Files CHeader Img Include.
From Verif Require Import SpecIsa SpecExpr SpecAsm SpecLex LexProofs LexProofs3 LexProofs6 SpecParse SpecLine SpecPrint PrintProofs PrintProofs2 PrintProofs3 PrintProofs4 ExpandProofs.
From Verif Require Import AsmProofs4 CodecProofs CodecProofs2 Disasm SpecDisasm DisasmProofs DisasmProofs2 DisasmProofs3 DisasmProofs4 DisasmProofs5 DisasmProofs6 DisasmProofs7.
Import ListNotations.
Local Opaque aliases psw_bits.
Open Scope string_scope.
Open Scope list_scope.
Open Scope Z_scope.

(** * Characters *)

Fixpoint allb (P : ascii -> bool) (s : string) : bool :=
  match s with EmptyString => true | String c t => P c && allb P t end.

(** ASCII characters without line ends. *)
Definition tameb (c : ascii) : bool := negb (Ascii.eqb c "010") && negb (Ascii.eqb c "013") && Files.in_range 0 127 c.
(** And without the beginnings of strings and comments. *)
Definition cleanb (c : ascii) : bool := tameb c && negb (Ascii.eqb c """") && negb (Ascii.eqb c ";") && negb (Ascii.eqb c "*").

Lemma allb_app P a b : allb P (a ++ b) = allb P a && allb P b.
Proof. induction a as [|c a IH]; [reflexivity|]. cbn [append allb]. now rewrite IH, andb_assoc. Qed.

Lemma allb_imp (P Q : ascii -> bool) s : (forall c, P c = true -> Q c = true) -> allb P s = true -> allb Q s = true.
Proof. intros I. induction s as [|c s IH]; [reflexivity|]. cbn [allb]. rewrite !andb_true_iff. intuition. Qed.

Lemma clean_tame s : allb cleanb s = true -> allb tameb s = true.
Proof. apply allb_imp. intros c. unfold cleanb. rewrite !andb_true_iff. tauto. Qed.

Lemma tame_break s : allb tameb s = true -> all_chars no_break s.
Proof.
  induction s as [|c s IH]; [intros; exact Logic.I|]. cbn [allb all_chars]. unfold tameb. rewrite !andb_true_iff, !negb_true_iff, !Ascii.eqb_neq. unfold no_break. tauto.
Qed.

Lemma natural_all P n : (forall v, 0 <= v < 16 -> P (digit_char v) = true) -> allb P (natural digit_char 16 n) = true.
Proof.
  intros H. unfold natural. assert (G: forall f n acc, allb P acc = true -> allb P (digits f digit_char 16 n acc) = true).
  { induction f as [|f IH]; intros m acc A; [exact A|]. cbn [digits].
    assert (Q: allb P (String (digit_char (m mod 16)) acc) = true) by (cbn [allb]; rewrite A, H by (apply Z.mod_pos_bound; lia); reflexivity).
    destruct (m / 16 =? 0); [exact Q|]. now apply IH. }
  now apply G.
Qed.

Lemma zeros_all P k : P "0"%char = true -> allb P (string_of_list_ascii (repeat "0"%char k)) = true.
Proof. intros H. induction k as [|k IH]; [reflexivity|]. cbn. now rewrite H. Qed.

Lemma sixteen (P : Z -> bool) : forallb P [0;1;2;3;4;5;6;7;8;9;10;11;12;13;14;15] = true -> forall v, 0 <= v < 16 -> P v = true.
Proof.
  rewrite forallb_forall. intros H v V. apply H. cbn [In]. lia.
Qed.

Lemma hex_all P w n : forallb (fun v => P (digit_char v)) [0;1;2;3;4;5;6;7;8;9;10;11;12;13;14;15] = true -> allb P (pad_zeros w (natural digit_char 16 n)) = true.
Proof.
  intros H. pose proof (sixteen (fun v => P (digit_char v)) H) as H'. cbn beta in H'. unfold pad_zeros. rewrite allb_app, natural_all by exact H'. rewrite zeros_all; [reflexivity|]. exact (H' 0 ltac:(lia)).
Qed.

Lemma lower_all P s : allb P (lower s) = allb (fun c => P (lower_ascii c)) s.
Proof. induction s as [|c s IH]; [reflexivity|]. cbn [lower allb]. now rewrite IH. Qed.

(** * Texts that differ in letter case *)

Definition alike (a b : string) : Prop := same_letters a b /\ allb cleanb a = true /\ allb cleanb b = true.

Lemma alike_app a b c d : alike a b -> alike c d -> alike (a ++ c) (b ++ d).
Proof. intros (A1 & A2 & A3) (B1 & B2 & B3). unfold alike. rewrite !allb_app, A2, A3, B2, B3. split; [now apply same_letters_app|auto]. Qed.

Lemma alike_refl a : allb cleanb a = true -> alike a a.
Proof. intros H. split; [apply same_letters_refl|auto]. Qed.

Lemma clean_lower a : allb cleanb a = true -> allb cleanb (lower a) = true.
Proof.
  rewrite lower_all. apply allb_imp. intros c H.
  assert (A := all_ascii_ok (fun c => implb (cleanb c) (cleanb (lower_ascii c))) ltac:(vm_compute; reflexivity) c). cbn beta in A. rewrite H in A. exact A.
Qed.

Lemma alike_lower a : allb cleanb a = true -> alike a (lower a).
Proof.
  intros H. split; [|split; [exact H|now apply clean_lower]]. clear H. induction a as [|c a IH]; [exact Logic.I|]. split; [|exact IH].
  apply same_letter_lower. assert (A := all_ascii_ok (fun c => Ascii.eqb (lower_ascii c) (lower_ascii (lower_ascii c))) ltac:(vm_compute; reflexivity) c).
  now apply Ascii.eqb_eq in A.
Qed.

Lemma recase_alike : forall a a', alike a a' -> forall s t, (forall b, recase b s t) -> forall b, recase b (a ++ s) (a' ++ t).
Proof.
  induction a as [|c a IH]; intros [|d a'] (A1 & A2 & A3) s t H b; try destruct A1; [apply H|].
  cbn [allb] in A2, A3. apply andb_true_iff in A2 as [A2 A4]. apply andb_true_iff in A3 as [A3 A5]. cbn [append].
  unfold cleanb, tameb in A2. rewrite !andb_true_iff, !negb_true_iff, !Ascii.eqb_neq in A2.
  apply rc_char; try tauto. apply IH; [|exact H]. split; [assumption|auto].
Qed.

Lemma recase_lf s t : recase true s t -> forall b, recase b (String "010" s) (String "010" t).
Proof. intros H b. apply rc_char; try discriminate; [reflexivity|intros [_ Q]; discriminate|exact H]. Qed.

Lemma recase_remark body s t : allb tameb body = true -> recase true s t -> forall b, recase b (String ";" (body ++ String "010" s)) (String ";" (body ++ String "010" t)).
Proof.
  intros B H b. apply rc_comment; [now left|apply same_letters_refl| |].
  - apply no_break_rest. now apply tame_break.
  - now apply recase_lf.
Qed.

Lemma ascii_utf8 s : allb (fun c => Files.in_range 0 127 c) s = true -> valid_utf8 s = true.
Proof. induction s as [|c s IH]; [reflexivity|]. cbn [allb valid_utf8]. intros H. apply andb_true_iff in H as [-> H]. auto. Qed.

(** * Lines *)

Definition narrow (c : ascii) : bool := Files.in_range 0 127 c.

Lemma tame_narrow s : allb tameb s = true -> allb narrow s = true.
Proof. apply allb_imp. intros c. unfold tameb, narrow. rewrite !andb_true_iff. tauto. Qed.

Inductive good_line : dstatement -> Prop :=
| gl_remark : forall t, t = "" \/ allb tameb t = true \/ (exists u, t = String "010" u /\ allb tameb u = true) -> good_line (d_remark t)
| gl_plain : forall d, d_comment d = None -> is_comment (d_statement d) = false ->
    alike (show_statement (d_statement d)) (show_statement (lowered (d_statement d))) ->
    printable_statement (lowered (d_statement d)) -> good_line d
| gl_noted : forall d cm, d_comment d = Some cm -> allb tameb cm = true ->
    (exists i, d_statement d = SInstr i) \/ (exists x, d_statement d = SDirective x) ->
    alike (show_statement (d_statement d)) (show_statement (lowered (d_statement d))) ->
    printable_statement (lowered (d_statement d)) -> good_line d.

Definition lower_line (d : dstatement) : dstatement := mkD (d_pos d) (lowered (d_statement d)) (d_comment d).

Definition text_of_list (l : list dstatement) : string := String.concat "" (map (show_dstatement false) l).

Lemma text_cons d l : text_of_list (d :: l) = (show_statement (d_statement d) ++ (match d_comment d with Some c => " ; " ++ c | None => "" end) ++ String "010" (text_of_list l))%string.
Proof. unfold text_of_list. cbn [map]. rewrite concat_cons. unfold show_dstatement. cbn [append]. rewrite !app_assoc_s. reflexivity. Qed.

Lemma line_recase d s t : good_line d -> recase true s t ->
  recase true (show_statement (d_statement d) ++ (match d_comment d with Some c => " ; " ++ c | None => "" end) ++ String "010" s)
    (show_statement (d_statement (lower_line d)) ++ (match d_comment (lower_line d) with Some c => " ; " ++ c | None => "" end) ++ String "010" t).
Proof.
  intros G H. destruct G as [u U|d C S A P|d cm C T S A P].
  - cbn [lower_line d_statement d_comment d_remark lowered show_statement append].
    assert (K: forall u, allb tameb u = true -> forall b, recase b (("  ;; " ++ u) ++ String "010" s) (("  ;; " ++ u) ++ String "010" t)).
    { intros w W b. rewrite !app_assoc_s.
      apply (recase_alike "  " "  " (alike_refl "  " eq_refl) (String ";" (("; " ++ w) ++ String "010" s)) (String ";" (("; " ++ w) ++ String "010" t))).
      apply recase_remark; [|exact H]. cbn [append allb]. rewrite W. reflexivity. }
    assert (Q: forall u, allb tameb u = true -> all_white u = true -> allb cleanb u = true).
    { intros w. induction w as [|c w IH]; [reflexivity|]. cbn [allb all_white]. rewrite !andb_true_iff. intros [X1 X2] [Y1 Y2]. split; [|auto].
      assert (Z := all_ascii_ok (fun c => implb (tameb c && is_white c) (cleanb c)) ltac:(vm_compute; reflexivity) c). cbn beta in Z. rewrite X1, Y1 in Z. exact Z. }
    assert (V: allb tameb u = true \/ exists w, u = String "010" w /\ allb tameb w = true) by (destruct U as [-> |[U|U]]; auto).
    unfold show_comment. destruct (all_white u) eqn:W.
    + destruct V as [V|(w & -> & V)].
      * apply recase_alike; [apply alike_refl; auto|]. now apply recase_lf.
      * cbn [append]. apply recase_lf. cbn [all_white] in W. apply andb_true_iff in W as [_ W].
        apply recase_alike; [apply alike_refl; auto|]. now apply recase_lf.
    + destruct V as [V|(w & -> & V)].
      * destruct u as [|n w]; [now apply K|]. cbn [allb] in V. pose proof V as V'. apply andb_true_iff in V' as [V1 _]. unfold tameb in V1.
        rewrite !andb_true_iff, !negb_true_iff in V1. destruct V1 as [[V1 _] _]. rewrite V1. now apply K.
      * change (Ascii.eqb "010" "010") with true. cbn iota. cbn [append]. apply recase_lf. now apply K.
  - unfold lower_line. cbn [d_statement d_comment]. rewrite C. cbn [append]. apply recase_alike; [exact A|]. now apply recase_lf.
  - unfold lower_line. cbn [d_statement d_comment]. rewrite C. apply recase_alike; [exact A|]. intros b. rewrite !app_assoc_s.
    apply (recase_alike " " " " (alike_refl " " eq_refl) (String ";" ((" " ++ cm) ++ String "010" s)) (String ";" ((" " ++ cm) ++ String "010" t))).
    apply recase_remark; [|exact H]. cbn [append allb]. rewrite T. reflexivity.
Qed.

Lemma text_recase l : Forall good_line l -> recase true (text_of_list l) (text_of_list (map lower_line l)).
Proof.
  induction 1 as [|d l G F IH]; [apply rc_nil|]. cbn [map]. rewrite !text_cons. now apply line_recase.
Qed.

Lemma noted_trailer cm : allb tameb cm = true -> trailer (" ; " ++ cm).
Proof.
  intros T b r. rewrite app_assoc_s. change (" ; " ++ cm ++ LFs)%string with (String " " (String ";" ((" " ++ cm) ++ LFs))).
  apply gap_blank; [cbn; tauto|]. apply gap_comment; [now left| |apply gap_blank; [cbn; tauto|constructor]].
  apply no_break_rest. apply tame_break. cbn [append allb]. rewrite T. reflexivity.
Qed.

Lemma text_doc l : Forall good_line l -> doc (text_of_list (map lower_line l)) (map stoks (reread l)) /\ Forall printable_statement (reread l).
Proof.
  induction 1 as [|d l G F [IH1 IH2]]; [split; constructor|]. cbn [map]. rewrite text_cons. unfold reread. cbn [map]. fold (reread l).
  destruct G as [u U|d C S A P|d cm C T S A P]; cbn [lower_line d_statement d_comment].
  - assert (P: printable_statement (SComment u)).
    { cbn [printable_statement]. destruct U as [-> |[U|(w & -> & U)]]; [now left|right; left; now apply tame_break|right; right; exists w; split; [reflexivity|now apply tame_break]]. }
    split; [|constructor; [exact P|exact IH2]]. apply (statement_doc (SComment u)); [exact P|exact IH1].
  - rewrite C. split; [|constructor; auto]. cbn [append]. apply statement_doc; auto.
  - rewrite C. split; [|constructor; auto].
    apply (doc_line (show_statement (lowered (d_statement d))) (stoks (lowered (d_statement d))) (" ; " ++ cm)); [|now apply noted_trailer|exact IH1].
    destruct S as [(i & S)|(x & S)]; rewrite S in *; cbn [lowered show_statement stoks printable_statement] in *.
    + change ("  " ++ show_instr (relabel lower_expr i))%string with (String " " (String " " (show_instr (relabel lower_expr i)))). do 2 apply sp_space.
      apply instr_spelled; [tauto|]. apply stops_space.
    + apply directive_spelled; [exact P|]. apply stops_space.
Qed.

Lemma text_ascii l : Forall good_line l -> valid_utf8 (text_of_list l) = true.
Proof.
  intros F. apply ascii_utf8. fold narrow. induction F as [|d l G F IH]; [reflexivity|]. rewrite text_cons, !allb_app. cbn [allb]. rewrite IH.
  change (narrow "010") with true. assert (K: allb narrow (show_statement (d_statement d)) = true /\ allb narrow (match d_comment d with Some c => " ; " ++ c | None => "" end)%string = true).
  { destruct G as [u U|d C S A P|d cm C T S A P].
    - split; [|reflexivity]. cbn [d_remark d_statement show_statement]. assert (V: allb narrow u = true).
      { destruct U as [-> |[U|(w & -> & U)]]; [reflexivity|now apply tame_narrow|]. cbn [allb]. now rewrite tame_narrow. }
      unfold show_comment. destruct (all_white u); [exact V|]. destruct u as [|n w]; [reflexivity|].
      destruct (Ascii.eqb n "010").
      + cbn [allb append] in *. apply andb_true_iff in V as [_ V]. rewrite V. reflexivity.
      + rewrite allb_app, V. reflexivity.
    - rewrite C. split; [|reflexivity]. destruct A as (_ & A & _). now apply tame_narrow, clean_tame.
    - rewrite C. destruct A as (_ & A & _). split; [now apply tame_narrow, clean_tame|]. cbn [append allb]. now rewrite tame_narrow. }
  destruct K as [-> ->]. reflexivity.
Qed.

Theorem listing_reads f l : Forall good_line l ->
  exists toks, lex_input (new_input f (text_of_list l)) = Ok toks /\ parse toks = Ok (mkStatements [] (filter (fun s => negb (is_comment s)) (reread l))).
Proof.
  intros F. destruct (text_doc l F) as [D P]. rewrite (recase_lex f _ _ (text_recase l F)), <- kept_filter.
  exact (doc_parse f _ _ _ D (output_lines _ P)).
Qed.

Theorem listing_assembles uuid pr fuel v pics wd name l : Forall good_line l -> is_absolute wd = true ->
  read_bytes v (join wd name) = Some (text_of_list l) ->
  assemble_file uuid pr (S fuel) v pics (new_files wd) name = assemble pr (reread l).
Proof.
  intros F A R. destruct (text_doc l F) as [_ P]. destruct (printable_plain _ P) as [N1 N2]. unfold assemble_file.
  rewrite (read_plain pr fuel v pics wd name _ _ A R (text_ascii l F) (listing_reads 0 l F) N1). cbn [bind].
  unfold expand_macros. cbn [st_macros st_list]. rewrite (expand_none _ _ _ _ _ N2). cbn [bind st_list]. apply assemble_filter.
Qed.
