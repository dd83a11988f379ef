(** The texts of the icon and image commands are read back. *)
From Coq Require Import ZArith List String Ascii Bool Arith Lia.
From Verif Require Import Base Expr Instr Ast Macro Asm Lexer Parser Printer Files CHeader Img Include Cmd.
From Verif Require Import SpecIsa SpecLex SpecParse SpecLine SpecPrint SpecImg SpecCmd LexProofs LexProofs3 PrintProofs PrintProofs3 PrintProofs4 ExpandProofs.
From Verif Require Import ImgProofs ImgProofs2 ImgProofs3 ImgProofs4 ImgProofs5.
From Verif Require Utf8Proofs.
Import ListNotations.
Open Scope string_scope.
Open Scope list_scope.
Open Scope Z_scope.

(** * Text without a final line end *)

Lemma no_break_end t : all_chars no_break t -> rest_of_line t "".
Proof.
  intros H. split; [left; reflexivity|]. intros p q -> Q E.
  assert (K: all_chars no_break q). { clear E Q. induction p as [|c p IH]; [exact H|]. apply IH. apply H. }
  destruct q as [|c q]; [congruence|]. destruct K as [[K1 K2] _]. cbn in E.
  destruct E as [E|[(x & E)|(x & E)]]; [discriminate|injection E as E _; congruence|injection E as E _; congruence].
Qed.

Lemma comment_end t b : all_chars no_break t -> gap b ("  ;; " ++ t) "".
Proof.
  intros H. change ("  ;; " ++ t)%string with (String " " (String " " (String ";" ("; " ++ t)))).
  do 2 (apply gap_blank; [cbn; tauto|]). rewrite <- (app_nil_r_s ("; " ++ t)). apply gap_comment; [now left| |constructor].
  apply no_break_end. cbn. unfold no_break at 1 2. repeat split; try discriminate. exact H.
Qed.

Lemma comment_last c b : printable_statement (SComment c) -> gap b (show_comment c) "".
Proof.
  cbn [printable_statement]. intros P. unfold show_comment. destruct (all_white c) eqn:W; [now apply white_gap|].
  destruct P as [->|[P|(t & -> & P)]]; [discriminate| |].
  - destruct c as [|n t]; [discriminate|]. destruct (Ascii.eqb_spec n "010") as [->|N]; [destruct P as [[P _] _]; congruence|now apply comment_end].
  - change (Ascii.eqb "010" "010") with true. cbn iota. apply gap_blank; [cbn; tauto|]. now apply comment_end.
Qed.

Lemma statement_last s : printable_statement s -> doc (show_statement s) [stoks s].
Proof.
  intros P. destruct (is_comment s) eqn:C.
  - destruct s; try discriminate. apply (doc_last "" [] (show_comment text)); [constructor|]. intros b. now apply comment_last.
  - rewrite <- (app_nil_r_s (show_statement s)). apply (doc_last (show_statement s) (stoks s) ""); [|intros; constructor].
    apply statement_spelled; [exact P|exact C|now left].
Qed.

Lemma statements_cons s l : l <> [] -> show_statements (s :: l) = (show_statement s ++ LFs ++ show_statements l)%string.
Proof.
  unfold show_statements. destruct l as [|x l]; [congruence|]. intros _. unfold show_list. cbn [map]. rewrite concat_cons, !app_assoc_s. reflexivity.
Qed.

Lemma statements_doc l : Forall printable_statement l -> doc (show_statements l) (map stoks l).
Proof.
  induction 1 as [|s l P F IH]; [constructor|]. destruct l as [|x l].
  - unfold show_statements. cbn [show_list map String.concat]. rewrite app_nil_r_s. now apply statement_last.
  - rewrite statements_cons by discriminate. cbn [map]. apply statement_doc; [exact P|exact IH].
Qed.

Theorem statements_read f l : Forall printable_statement l ->
  exists toks, lex_input (new_input f (show_statements l)) = Ok toks /\ parse toks = Ok (mkStatements [] (filter (fun s => negb (is_comment s)) l)).
Proof. intros F. rewrite <- kept_filter. apply (doc_parse f _ (map stoks l)); [now apply statements_doc|now apply output_lines]. Qed.

Lemma text_assembles uuid pr fuel v pics wd name text l : Forall printable_statement l ->
  text = show_statements l \/ text = expand_output l -> valid_utf8 text = true -> is_absolute wd = true ->
  read_bytes v (join wd name) = Some text ->
  assemble_file uuid pr (S fuel) v pics (new_files wd) name = assemble pr l.
Proof.
  intros F T U A R. destruct (printable_plain _ F) as [N1 N2]. unfold assemble_file.
  assert (X: exists toks, lex_input (new_input 0 text) = Ok toks /\ parse toks = Ok (mkStatements [] (filter (fun s => negb (is_comment s)) l))).
  { destruct T as [->| ->]; [now apply statements_read|now apply output_reads]. }
  rewrite (read_plain pr fuel v pics wd name _ _ A R U X N1). cbn [bind].
  unfold expand_macros. cbn [st_macros st_list]. rewrite (expand_none _ _ _ _ _ N2). cbn [bind st_list]. apply assemble_filter.
Qed.

(** * UTF-8 *)

Lemma utf8_app : forall n a b, (String.length a <= n)%nat -> valid_utf8 a = true -> valid_utf8 b = true -> valid_utf8 (a ++ b) = true.
Proof.
  induction n as [|n IH]; intros a b L A B.
  - destruct a; [exact B|cbn in L; lia].
  - destruct a as [|c a]; [exact B|]. cbn [append String.length] in *. cbn [valid_utf8] in A |- *.
    destruct (Files.in_range 0 127 c); [apply IH; auto; lia|]. destruct a as [|d a]; [discriminate|]. cbn [append String.length] in *.
    destruct (Files.in_range 194 223 c && Files.in_range 128 191 d)%bool; [apply IH; auto; lia|]. destruct a as [|e a]; [discriminate|]. cbn [append String.length] in *.
    match goal with |- (if ?x then _ else _) = true => destruct x end; [apply IH; auto; lia|].
    destruct a as [|g a]; [discriminate|]. cbn [append String.length] in *.
    match goal with |- (if ?x then _ else _) = true => destruct x end; [apply IH; auto; lia|discriminate].
Qed.

Lemma utf8_join a b : valid_utf8 a = true -> valid_utf8 b = true -> valid_utf8 (a ++ b) = true.
Proof. now apply (utf8_app (String.length a)). Qed.

Lemma digit_narrow v : 0 <= v < 16 -> Files.in_range 0 127 (digit_char v) = true.
Proof.
  intros V. assert (H: forallb (fun v => Files.in_range 0 127 (digit_char v)) [0;1;2;3;4;5;6;7;8;9;10;11;12;13;14;15] = true) by reflexivity.
  rewrite forallb_forall in H. apply H. cbn [In]. lia.
Qed.

Lemma natural_utf8 base n : 0 < base <= 16 -> valid_utf8 (natural digit_char base n) = true.
Proof.
  intros B. unfold natural. assert (G: forall f n acc, valid_utf8 acc = true -> valid_utf8 (digits f digit_char base n acc) = true).
  { induction f as [|f IH]; intros m acc A; [exact A|]. cbn [digits].
    assert (Q: valid_utf8 (String (digit_char (m mod base)) acc) = true).
    { cbn [valid_utf8]. rewrite digit_narrow; [exact A|]. pose proof (Z.mod_pos_bound m base). lia. }
    destruct (m / base =? 0); [exact Q|]. now apply IH. }
  now apply G.
Qed.

Lemma pad_utf8 w s : valid_utf8 s = true -> valid_utf8 (pad_zeros w s) = true.
Proof. intros H. unfold pad_zeros. apply utf8_join; [|exact H]. induction (w - String.length s)%nat as [|k IH]; [reflexivity|exact IH]. Qed.

Lemma dec_utf8 n : valid_utf8 (show_dec n) = true.
Proof. unfold show_dec. destruct (n <? 0); [change (valid_utf8 (String "-" ?x)) with (valid_utf8 x)|]; now apply natural_utf8. Qed.

Lemma number_utf8 n r : valid_utf8 (show_number n r) = true.
Proof.
  assert (R: forall b w, 0 < b <= 16 -> valid_utf8 (show_radix b w n) = true) by (intros; apply pad_utf8; now apply natural_utf8).
  unfold show_number. destruct r; [|destruct (n <=? 255)| |]; try (apply utf8_join; [reflexivity|apply R; lia]). apply dec_utf8.
Qed.

Lemma list_utf8 {A : Type} sep (show : A -> string) l : valid_utf8 sep = true -> Forall (fun x => valid_utf8 (show x) = true) l ->
  valid_utf8 (show_list sep show l) = true.
Proof.
  intros S F. destruct l as [|x l]; [reflexivity|]. inversion F as [|? ? F1 F2]; subst. cbn [show_list]. apply utf8_join; [exact F1|].
  clear F F1. induction F2 as [|y l F1 F2 IH]; [reflexivity|]. cbn [map]. rewrite concat_cons. apply utf8_join; [now apply utf8_join|exact IH].
Qed.

(** * Statements of data *)

Definition number (e : expr) : Prop := exists n r, e = ENumber n r /\ r <> Octal.

Definition tidy (s : statement) : Prop :=
  match s with
  | SComment c => (exists t, (c = t \/ c = String "010" t) /\ one_line t)
  | SDirective (DByte items) => items <> [] /\ Forall (fun b => exists e, b = BVExpr e /\ number e) items
  | SDirective (DWord es) => es <> [] /\ Forall number es
  | _ => False
  end.

Lemma comment_utf8 c : valid_utf8 c = true -> valid_utf8 (show_comment c) = true.
Proof.
  intros H. unfold show_comment. destruct (all_white c); [exact H|]. destruct c as [|n t]; [reflexivity|].
  destruct (Ascii.eqb_spec n "010") as [->|N]; [|now apply utf8_join]. cbn [append valid_utf8]. exact H.
Qed.

Lemma tidy_utf8 s : tidy s -> valid_utf8 (show_statement s) = true.
Proof.
  destruct s as [d| | | | |c|]; try contradiction.
  - destruct d; try contradiction; intros [_ F]; cbn [show_statement show_directive]; (apply utf8_join; [reflexivity|]);
      (apply list_utf8; [reflexivity|]); (eapply Forall_impl; [|exact F]).
    + intros b (e & -> & n & r & -> & _). apply number_utf8.
    + intros e (n & r & -> & _). apply number_utf8.
  - intros (t & [-> | ->] & [_ U]); apply Utf8Proofs.utf8_iff in U; cbn [show_statement]; now apply comment_utf8.
Qed.

Lemma tidy_text l : Forall tidy l -> valid_utf8 (show_statements l) = true.
Proof. intros F. apply list_utf8; [reflexivity|]. eapply Forall_impl; [|exact F]. exact tidy_utf8. Qed.

Lemma tidy_output l : Forall tidy l -> valid_utf8 (expand_output l) = true.
Proof. intros F. unfold expand_output. apply utf8_join; [now apply tidy_text|reflexivity]. Qed.

Lemma number_item e x : number e -> item_data (BVExpr e) = Some x -> printable e.
Proof. intros (n & r & -> & R) H. apply item_data_inv in H as (n' & r' & [= <- <-] & B & _). split; [cbn; lia|exact R]. Qed.

Lemma number_word e x : number e -> word_data e = Some x -> printable e.
Proof. intros (n & r & -> & R) H. apply word_data_inv in H as (n' & r' & [= <- <-] & B & _). split; [cbn; lia|exact R]. Qed.

Lemma tidy_printable : forall l x, Forall tidy l -> data l = Some x -> Forall printable_statement l.
Proof.
  induction l as [|s l IH]; intros x F D; [constructor|]. inversion F as [|? ? F1 F2]; subst. unfold data in D. cbn [all_data] in D.
  destruct (stmt_data s) as [a|] eqn:E; [|discriminate]. fold (data l) in D. destruct (data l) as [b|] eqn:G; [|discriminate].
  constructor; [|exact (IH b F2 eq_refl)]. clear D G IH F F2. destruct s as [d| | | | |c|]; try contradiction.
  - destruct d; try contradiction; destruct F1 as [N F1]; cbn [printable_statement printable_directive]; (split; [exact N|]); clear N; cbn [stmt_data] in E; revert a E.
    + induction F1 as [|b' items (e & -> & H) F1 IH]; intros a E; [constructor|]. cbn [all_data] in E.
      destruct (item_data (BVExpr e)) eqn:E1; [|discriminate]. destruct (all_data item_data items) eqn:E2; [|discriminate].
      constructor; [cbn; eapply number_item; eauto|eapply IH; eauto].
    + induction F1 as [|e es H F1 IH]; intros a E; [constructor|]. cbn [all_data] in E.
      destruct (word_data e) eqn:E1; [|discriminate]. destruct (all_data word_data es) eqn:E2; [|discriminate].
      constructor; [eapply number_word; eauto|eapply IH; eauto].
  - destruct F1 as (t & [-> | ->] & [B _]); cbn [printable_statement]; [right; left; exact B|right; right; eauto].
Qed.
