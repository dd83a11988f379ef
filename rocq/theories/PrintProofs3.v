(** Printed text is read back: directives and statements. *)
From Coq Require Import ZArith List String Ascii Bool Arith Lia.
From Verif Require Import Base Expr Instr Ast Lexer Parser Printer SpecIsa SpecMacro SpecLex LexProofs LexProofs3 LexProofs4 LexProofs5
  SpecParse ParseProofs SpecLine LineProofs LineProofs2 SpecPrint PrintProofs PrintProofs2.
Import ListNotations.
Open Scope string_scope.
Open Scope list_scope.
Local Open Scope nat_scope.

(** * String literals *)

Definition item_of (b : Z) : item :=
  if (b =? 8)%Z then Escaped "b"
  else if (b =? 10)%Z then Escaped "n"
  else if (b =? 13)%Z then Escaped "r"
  else if (b =? 9)%Z then Escaped "t"
  else if (b =? 0)%Z then Escaped "0"
  else Plain (ascii_of_nat (Z.to_nat b)).

Definition char_of (b : Z) : ascii := ascii_of_nat (Z.to_nat b).
Definition chars_of (bs : list Z) : string := string_of_list_ascii (map char_of bs).

Definition byte_good (b : Z) : bool :=
  (negb (existsb (Z.eqb b) [34; 92; 7; 11; 12]%Z)) .

(** What is checked for each of the 128 bytes. *)
Definition byte_check (b : Z) : Prop :=
  escape_byte b = written [item_of b] /\ item_ok (item_of b) /\ item_char (item_of b) (char_of b) /\
  count "010" (escape_byte b) = 0 /\ Z.of_nat (nat_of_ascii (char_of b)) = b.

Lemma byte_ok b : printable_byte b -> byte_check b.
Proof.
  intros [R N].
  assert (X: Z.of_nat (nat_of_ascii (char_of b)) = b).
  { unfold char_of. rewrite nat_ascii_embedding by lia. lia. }
  assert (Y: forall n, (0 <= n <= 127)%Z -> char_of b = char_of n -> b = n).
  { intros n Hn E. rewrite <- X, E. unfold char_of. rewrite nat_ascii_embedding by lia. lia. }
  unfold byte_check, escape_byte, item_of. fold (char_of b).
  destruct (Z.eqb_spec b 7) as [->|N7]; [exfalso; apply N; cbn; tauto|].
  destruct (Z.eqb_spec b 8) as [->|N8]; [repeat split; try discriminate; cbn; tauto|].
  destruct (Z.eqb_spec b 12) as [->|N12]; [exfalso; apply N; cbn; tauto|].
  destruct (Z.eqb_spec b 10) as [->|N10]; [repeat split; try discriminate; cbn; tauto|].
  destruct (Z.eqb_spec b 13) as [->|N13]; [repeat split; try discriminate; cbn; tauto|].
  destruct (Z.eqb_spec b 9) as [->|N9]; [repeat split; try discriminate; cbn; tauto|].
  destruct (Z.eqb_spec b 11) as [->|N11]; [exfalso; apply N; cbn; tauto|].
  destruct (Z.eqb_spec b 0) as [->|N0]; [repeat split; try discriminate; cbn; tauto|].
  split; [reflexivity|]. split; [|split; [reflexivity|split; [|exact X]]].
  - split; intros E.
    + apply N. rewrite (Y 34%Z ltac:(lia) E). cbn. tauto.
    + apply N. rewrite (Y 92%Z ltac:(lia) E). cbn. tauto.
  - cbn [count]. destruct (ascii_dec "010" (char_of b)) as [E|]; [|reflexivity]. exfalso. apply N10. apply (Y 10%Z); [lia|now rewrite <- E].
Qed.

Lemma bytes_written bs : Forall printable_byte bs ->
  escape_string bs = written (map item_of bs) /\ Forall item_ok (map item_of bs) /\
  Forall2 item_char (map item_of bs) (list_ascii_of_string (chars_of bs)) /\
  count "010" (escape_string bs) = 0 /\ codes (chars_of bs) = bs.
Proof.
  unfold chars_of, codes. rewrite list_ascii_of_string_of_list_ascii.
  induction 1 as [|b bs H F (I1 & I2 & I3 & I4 & I5)]; [cbn; repeat split; constructor|].
  apply byte_ok in H as (H1 & H2 & H3 & H4 & H5). cbn [map escape_string].
  split; [|split; [|split; [|split]]].
  - rewrite H1, I1. destruct (item_of b); reflexivity.
  - constructor; assumption.
  - constructor; assumption.
  - rewrite count_app. lia.
  - now rewrite H5, I5.
Qed.

Lemma string_spelled bs s tys rest : Forall printable_byte bs -> spelled s tys rest ->
  spelled ((String """" (escape_string bs ++ String """" "")) ++ s) (TString (chars_of bs) :: tys) rest.
Proof.
  intros F H. apply bytes_written in F as (E & F1 & F2 & C & _).
  apply sp_tok; [rewrite E; now apply w_string|exact Logic.I|exact Logic.I|discriminate| |exact H].
  cbn [count]. destruct (ascii_dec "010" """") as [X|]; [discriminate|]. rewrite count_app, C. reflexivity.
Qed.

Definition item_toks (b : byte_value) : list token_type :=
  match b with BVExpr e => etoks e | BVString bs => [TString (chars_of bs)] end.

Lemma item_spelled b rest : printable_item b -> stops rest -> spelled (show_byte_value b) (item_toks b) rest.
Proof.
  destruct b as [e|bs]; cbn [printable_item show_byte_value item_toks]; intros P S; [now apply show_expr_spelled|].
  match goal with |- spelled ?x _ _ => rewrite <- (app_nil_r_s x) end. apply string_spelled; [exact P|constructor].
Qed.

Lemma item_item b : printable_item b -> byte_item (item_toks b) b.
Proof.
  destruct b as [e|bs]; cbn [printable_item item_toks]; intros P; [apply b_expr; apply etoks_both|].
  apply bytes_written in P as (_ & _ & _ & _ & E). rewrite <- E at 2. apply b_string.
Qed.

(** * Directives *)

Definition dtoks (d : directive) : list token_type :=
  match d with
  | DCnop a m => TName ".cnop" :: etoks a ++ TComma :: etoks m
  | DByte items => TName ".byte" :: commas (map item_toks items)
  | DOrg n => [TName ".org"; TNumber n (if (n =? 0)%Z then Decimal else Hex)]
  | DWord es => TName ".word" :: commas (map etoks es)
  | _ => []
  end.

Lemma directive_plain n : In n directive_names -> plain_name n.
Proof.
  intros I. cbn in I. split.
  - repeat destruct I as [<-|I]; try destruct I; (split; [apply name_start_iff; reflexivity|]);
      repeat (split; [apply name_char_iff; reflexivity|]); exact Logic.I.
  - repeat destruct I as [<-|I]; try destruct I; reflexivity.
Qed.

Lemma sp_directive n s tys rest : In n directive_names -> spelled s tys rest ->
  spelled (String " " (String " " (n ++ String " " s))) (TName n :: tys) rest.
Proof.
  intros I H. do 2 apply sp_space. apply sp_name; [now apply directive_plain|cbn; apply stops_space|]. now apply sp_space.
Qed.

Lemma directive_spelled d rest : printable_directive d -> stops rest -> spelled (show_directive d) (dtoks d) rest.
Proof.
  intros P S. destruct d; cbn [printable_directive show_directive dtoks] in *; try contradiction.
  - apply (sp_directive ".byte" (show_list "," show_byte_value items)); [cbn; tauto|].
    apply list_spelled; [now left|exact S|tauto|]. destruct P as [_ P]. eapply Forall_impl; [|exact P]. intros b Pb r Sr. now apply item_spelled.
  - destruct (Z.eqb_spec location 0) as [->|N].
    + apply (sp_directive ".org" "0"); [cbn; tauto|]. rewrite <- (app_nil_r_s "0").
      apply sp_number; [apply (show_number_numeral 0 Decimal); [lia|discriminate]|lia|exact S|constructor].
    + apply (sp_directive ".org" ("$" ++ show_usize_hex location)); [cbn; tauto|]. rewrite <- (app_nil_r_s ("$" ++ show_usize_hex location)).
      apply sp_number; [now apply show_usize_numeral|lia|exact S|constructor].
  - apply (sp_directive ".word" (show_list ", " show_expr words)); [cbn; tauto|].
    apply list_spelled; [now right|exact S|tauto|]. destruct P as [_ P]. eapply Forall_impl; [|exact P]. intros b Pb r Sr. now apply show_expr_spelled.
  - destruct P as [P1 P2]. apply (sp_directive ".cnop" (show_expr add ++ ", " ++ show_expr multiple)); [cbn; tauto|].
    apply spelled_app; [apply show_expr_spelled; [exact P1|apply stops_comma]|].
    change (", " ++ show_expr multiple)%string with ("," ++ String " " (show_expr multiple))%string.
    apply sp_punct; [cbn; tauto|discriminate|discriminate|]. apply sp_space. now apply show_expr_spelled.
Qed.

Lemma directive_directive d : printable_directive d -> directive_of (dtoks d) d.
Proof.
  intros P. destruct d; cbn [printable_directive dtoks] in *; try contradiction.
  - apply d_byte. apply commas_separated; [tauto|]. destruct P as [_ P]. eapply Forall_impl; [|exact P]. apply item_item.
  - apply d_org.
  - apply d_word. apply commas_separated; [tauto|]. destruct P as [_ P]. eapply Forall_impl; [|exact P]. intros e _. apply etoks_both.
  - apply d_cnop; apply etoks_both.
Qed.

(** * Statements *)

Definition stoks (s : statement) : list token_type :=
  match s with
  | SDirective d => dtoks d
  | SLabel n => [TName n; TColon]
  | SInstr i => itoks i
  | SVariable n e => TName n :: TEquals :: etoks e
  | SAlias n e => TName n :: TName "equ" :: etoks e
  | _ => []
  end.

Definition eol (rest : string) : Prop := rest = "" \/ exists t, rest = String "010" t.

Lemma eol_stops rest : eol rest -> stops rest.
Proof. intros [->|(t & ->)]; [apply stops_nil|apply stops_lf]. Qed.

Lemma equ_text : writes "EQU" (TName "equ").
Proof.
  apply (w_name "EQU"). split; [apply name_start_iff; reflexivity|]. repeat (split; [apply name_char_iff; reflexivity|]). exact Logic.I.
Qed.

Lemma statement_spelled s rest : printable_statement s -> is_comment s = false -> eol rest -> spelled (show_statement s) (stoks s) rest.
Proof.
  intros P C E. pose proof (eol_stops rest E) as S. destruct s; cbn [printable_statement show_statement stoks is_comment] in *; try contradiction; try discriminate.
  - now apply directive_spelled.
  - apply sp_name; [exact P|cbn; apply stops_colon|]. change ":" with (":" ++ "")%string.
    apply sp_tok; [apply w_punct; cbn; tauto|exact Logic.I| |discriminate|reflexivity|constructor].
    destruct E as [->|(t & ->)]; cbn; [tauto|discriminate].
  - change ("  " ++ show_instr i)%string with (String " " (String " " (show_instr i))). do 2 apply sp_space. apply instr_spelled; tauto.
  - destruct P as (P & _ & Q). apply sp_name; [exact P|cbn; apply stops_space|].
    change (" = " ++ show_expr e)%string with (String " " ("=" ++ String " " (show_expr e))). apply sp_space.
    apply sp_punct; [cbn; tauto|discriminate|discriminate|]. apply sp_space. now apply show_expr_spelled.
  - destruct P as (P & _ & Q). apply sp_name; [exact P|cbn; apply stops_space|].
    change (" EQU " ++ show_expr e)%string with (String " " ("EQU" ++ String " " (show_expr e))). apply sp_space.
    apply sp_tok; [exact equ_text|exact Logic.I|apply stops_complete; [apply stops_space|discriminate]|discriminate|reflexivity|].
    apply sp_space. now apply show_expr_spelled.
Qed.

Lemma statement_line s : printable_statement s -> is_comment s = false -> line (stoks s) [s].
Proof.
  intros P C. destruct s; cbn [printable_statement stoks is_comment] in *; try contradiction; try discriminate.
  - apply l_directive. now apply directive_directive.
  - apply l_label.
  - apply instr_line; tauto.
  - apply l_variable; [apply etoks_both|tauto].
  - apply l_alias; [apply etoks_both|tauto].
Qed.
