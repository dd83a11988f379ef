(** Proofs about texts and C headers that cannot be read. *)
From Coq Require Import ZArith List String Ascii Bool Arith Lia.
From Verif Require Import Base Expr Instr Ast Macro Lexer Parser CHeader Asm Files Img Include Span SpanParser SpanAsm SpanInclude.
From Verif Require Import SpecLex SpecParse LexProofs LexProofs2 LexProofs4 LexProofs5 HeaderProofs HeaderProofs2 SpanValid3.
From Verif Require Import ParseProofs SpecSpan SpanProofs SpanProofs2 SpanProofs3 SpanParseProofs SpecIsa SpecMacro SpecLine LineProofs LineProofs2 LineProofs3.
From Verif Require Import SpecSyntax SyntaxProofs SyntaxProofs2 SyntaxProofs5 SpecHeader SpecReading.
Import ListNotations.
Open Scope string_scope.
Open Scope list_scope.
Local Open Scope nat_scope.

(** * Texts *)

Lemma lex_loop_point : forall skip, skips skip -> forall k f before text e at_, lex_loop_s skip k (inp f before text) = PErr e at_ ->
  exists b rest, (before ++ text = b ++ rest)%string /\ e = UnexpectedChar (Z.of_nat (String.length b)) /\
    at_ = [mkP (mkSpan (place f b) (place f b)) []].
Proof.
  intros skip SK. induction k as [|k IH]; intros f before text e at_ H; [discriminate|]. cbn [lex_loop_s] in H.
  destruct (SK f before text) as (g & rest & -> & S). unfold read_token in H. rewrite S in H. unfold eof in H. cbn [inp i_rest] in H.
  destruct rest as [|c t]; [discriminate|].
  fold (inp f before (g ++ String c t)) in H. fold (inp f (before ++ g) (String c t)) in H. rewrite first_match_pick in H. cbn [inp i_rest] in H.
  fold (inp f (before ++ g) (String c t)) in H. fold (inp f before (g ++ String c t)) in H.
  destruct (pick matchers (String c t)) as [[n conv]|] eqn:PK.
  - apply pick_sound in PK as (tx & r & ty & E2 & -> & W & C & V). rewrite E2 in *. rewrite substring_app, V in H.
    destruct (result_inv ty) as [[F R]|[F R]]; rewrite R in H; cbn [bind at_span pbind] in H; [|discriminate].
    rewrite update_inp in H by (eapply writes_cut; eauto). cbn [t_type] in H.
    rewrite not_eof_step in H by (intros X; rewrite X in W; eapply writes_not_eof; eauto).
    destruct (lex_loop_s skip k _) as [l|e2 at2| |] eqn:LL; try discriminate. cbn [pbind] in H. injection H as -> ->.
    destruct (IH _ _ _ _ _ LL) as (b & rest & E & X & Y). exists b, rest. split; [|auto]. rewrite <- E. now rewrite !app_assoc_s.
  - cbn [at_span pbind] in H. injection H as <- <-. exists before, (g ++ String c t)%string. split; [reflexivity|]. split; [reflexivity|].
    rewrite loc_inp. reflexivity.
Qed.

Lemma same_length_front : forall a b x y : string, (a ++ x = b ++ y)%string -> String.length a = String.length b -> a = b.
Proof.
  induction a as [|c a IH]; intros [|d b] x y E L; cbn in L; try discriminate; [reflexivity|].
  cbn in E. injection E as -> E. f_equal. apply (IH b x y E). lia.
Qed.

Lemma source_behind : forall ps rest, source ps rest = (behind "" ps ++ rest)%string.
Proof. intros. rewrite behind_source, source_nil. reflexivity. Qed.

Lemma text_wrong : forall f text e at_, lex_input_s (new_input f text) = PErr e at_ -> wrong_text f text e at_.
Proof.
  intros f text e at_ H. assert (S := lex_same (new_input f text)). rewrite H in S. cbn [unplaced] in S. symmetry in S.
  apply lex_err_iff in S as (ps & g & rest & A & B & C & D & E). exists ps, g, rest. repeat (split; [assumption|]).
  unfold lex_input_s, lex_for_ws_s in H. rewrite new_inp in H. apply (lex_loop_point _ skips_asm) in H as (b & r & E1 & E2 & E3).
  cbn [append] in E1. rewrite A, source_behind in E1.
  assert (L: b = behind "" ps). { symmetry. eapply same_length_front; [exact E1|]. rewrite E in E2. injection E2. lia. }
  subst b. rewrite E2, E3. constructor.
Qed.

(** * C headers *)

Lemma c_lex_stuck : forall k f before text e, lex_loop skip_c k (inp f before text) = Err e ->
  exists ps g rest, text = source ps (g ++ rest) /\ c_pieces_ok ps (g ++ rest) /\ c_gap g rest /\ c_unreadable rest /\
    e = UnexpectedChar (Z.of_nat (String.length (behind before ps))).
Proof.
  induction k as [|k IH]; intros f before text e H; [discriminate|]. cbn [lex_loop] in H.
  destruct (skip_c_inp f before text) as (g & rest & E & S & G & Q).
  unfold read_token in H. rewrite S in H. unfold eof in H. cbn [inp i_rest] in H.
  destruct rest as [|c t]; [discriminate|].
  fold (inp f (before ++ g) (String c t)) in H. rewrite first_match_pick in H. cbn [inp i_rest] in H.
  fold (inp f (before ++ g) (String c t)) in H.
  destruct (pick matchers (String c t)) as [[n conv]|] eqn:P.
  - apply pick_sound in P as (tx & r & ty & E2 & -> & W & C & V).
    assert (N: no_comment tx r) by (eapply writes_c_quiet; [exact W|]; now rewrite <- E2).
    rewrite E2 in H. rewrite substring_app, V in H.
    destruct (result_inv ty) as [[F R]|[_ R]]; rewrite R in H; [|discriminate].
    rewrite update_inp in H by (eapply writes_cut; eauto). cbn [bind t_type] in H.
    rewrite not_eof_step in H by (intros X; rewrite X in W; eapply writes_not_eof; eauto).
    destruct (lex_loop skip_c k _) as [l|e2| |] eqn:LL; try discriminate. cbn in H. injection H as ->.
    apply IH in LL as (ps & g2 & rest2 & -> & PO & GT & U & ->).
    exists (mkPiece g tx ty :: ps), g2, rest2. cbn [source p_gap p_text c_pieces_ok p_type behind]. rewrite E2 in E, G.
    rewrite app_assoc_s. split; [exact E|]. split; [repeat (split; [assumption|]); assumption|]. split; [exact GT|]. split; [exact U|reflexivity].
  - cbn in H. injection H as <-. exists [], g, (String c t). cbn [source c_pieces_ok behind]. split; [exact E|]. split; [exact Logic.I|]. split; [exact G|].
    split; [|reflexivity]. split; [discriminate|]. split.
    + intros g2 r X G2. apply (c_gap_quiet g2 r G2). now rewrite <- X.
    + apply pick_none_iff; [discriminate|exact P].
Qed.

Lemma c_text_wrong : forall f text e at_, lex_for_ws_s skip_c (new_input f text) = PErr e at_ -> wrong_c_text f text e at_.
Proof.
  intros f text e at_ H. unfold lex_for_ws_s in H. rewrite new_inp in H.
  assert (S := lex_loop_same skip_c (S (String.length (i_rest (inp f "" text)))) (inp f "" text)). rewrite H in S. cbn [unplaced] in S. symmetry in S.
  apply c_lex_stuck in S as (ps & g & rest & A & B & C & D & E). exists ps, g, rest. repeat (split; [assumption|]).
  apply (lex_loop_point _ skips_c) in H as (b & r & E1 & E2 & E3).
  cbn [append] in E1. rewrite A, source_behind in E1.
  assert (L: b = behind "" ps). { symmetry. eapply same_length_front; [exact E1|]. rewrite E in E2. injection E2. lia. }
  subst b. rewrite E2, E3. constructor.
Qed.

Lemma reads_name : reads read_name_s (one is_name).
Proof.
  apply (reads_one _ _ (ExpectedTokenNotFound "Name")); [constructor|now exists (TName "")|reflexivity|].
  intros t r. cbn [read_name_s]. destruct (t_type t); cbn; eauto.
Qed.

Lemma reads_define : reads (fun ts => pbind (read_name_s ts) (fun '(_, r) => parse_expr_s r)) (joined (one is_name) exprL).
Proof. apply reads_then with (k := fun _ r => parse_expr_s r); [apply reads_name|intros; apply reads_expr|apply one_apart|exists [TName "x"]; apply exprL_some]. Qed.

Lemma stuck_weaken : forall s G ts e at_, stuck s G ts e at_ -> stuck False G ts e at_.
Proof.
  intros s G ts e at_ [H|(b & t & a & E & C & N & M & K)]; [now left|]. right. exists b, t, a. repeat (split; [assumption|]). intros [[]|X]. apply K. now right.
Qed.

Lemma define_wrong : forall h d l e at_, t_type h = THash -> t_type d = TName "define" ->
  pbind (read_name_s l) (fun '(_, r) => parse_expr_s r) = PErr e at_ -> first_wrong define_form (h :: d :: l) e at_.
Proof.
  intros h d l e at_ TH TD H. assert (R := reads_define l). cbv beta in R. rewrite H in R.
  apply (lift define_form (joined (one is_name) exprL) [h; d] l).
  - exists [TName "a"; TName "x"]. cbn. rewrite TH, TD. destruct exprL_some as (x & X). exists "a", [TName "x"], x. auto.
  - intros w _ (a & b & -> & (t & -> & N) & x & X). cbn. rewrite TH, TD. destruct t; try discriminate. exists name, b, x. auto.
  - intros w _ (n & front & x & E & X). cbn in E. injection E as _ _ E. exists [TName n], front. split; [exact E|]. split; [now exists (TName n)|now exists x].
  - now apply stuck_weaken in R.
Qed.

Lemma header_line_wrong : forall l e at_, header_line_s l = PErr e at_ ->
  define_line (types l) /\ ~ good_define (types l) /\ first_wrong define_form l e at_.
Proof.
  intros l e at_ H. assert (S := header_line_same l). rewrite H in S. cbn [unplaced] in S. symmetry in S.
  destruct (define_dec (types l)) as [D|N]; [|rewrite (proj1 (header_line_other l N)) in S; discriminate].
  split; [exact D|]. split.
  - intros G. assert (header_line l = Ok (conv l)) by (apply header_line_iff; split; [intros _; exact G|reflexivity]). congruence.
  - destruct (define_shape l D) as (h & d & r & -> & TH & TD). apply define_wrong; auto.
    unfold header_line_s in H. unfold check_s, check_at_s in H. cbn [nth_error] in H. rewrite TH, TD in H. unfold has_name, is_hash in H. rewrite String.eqb_refl in H. cbn [andb] in H.
    cbn [next_s pbind] in H. destruct (read_name_s r) as [[x r3]|e1 at1| |] eqn:RN; cbn [pbind] in H |- *; try congruence.
    destruct (parse_expr_s r3) as [[y r4]|e1 at1| |] eqn:PE; cbn [pbind] in H |- *; try congruence.
    destruct r; [discriminate RN|discriminate H].
Qed.

Lemma header_lines_wrong : forall ls e at_, header_lines_s ls = PErr e at_ ->
  exists before bad after, ls = before ++ bad :: after /\ Forall (fun l => define_line (types l) -> good_define (types l)) before /\
    define_line (types bad) /\ ~ good_define (types bad) /\ first_wrong define_form bad e at_.
Proof.
  induction ls as [|l ls IH]; intros e at_ H; cbn [header_lines_s] in H; [discriminate|].
  destruct (header_line_s l) as [a|e1 at1| |] eqn:L; cbn [pbind] in H; try discriminate.
  - destruct (header_lines_s ls) as [b|e2 at2| |] eqn:LS; cbn [pbind] in H; try discriminate. injection H as -> ->.
    destruct (IH _ _ eq_refl) as (before & bad & after & -> & F & X). exists (l :: before), bad, after. split; [reflexivity|]. split; [|exact X].
    constructor; [|exact F]. assert (S := header_line_same l). rewrite L in S. cbn [unplaced] in S. symmetry in S. apply header_line_iff in S. apply S.
  - injection H as -> ->. exists [], l, ls. split; [reflexivity|]. split; [constructor|]. now apply header_line_wrong.
Qed.

Lemma header_wrong : forall f text e at_, header_lex_s (new_input f text) = PErr e at_ -> wrong_c_header f text e at_.
Proof.
  intros f text e at_ H. unfold header_lex_s in H. destruct (lex_for_ws_s skip_c (new_input f text)) as [toks|e1 at1| |] eqn:L; cbn [pbind] in H; try discriminate.
  - assert (S := lex_loop_same skip_c (S (String.length (i_rest (new_input f text)))) (new_input f text)). fold (lex_for_ws_s skip_c (new_input f text)) in S.
    rewrite L in S. cbn [unplaced] in S. symmetry in S. apply header_tokens_iff in S as (ps & HT & ->).
    apply header_lines_wrong in H as (before & bad & after & E & F & D & G & W). apply (wch_define f text ps before bad after); auto. rewrite <- E. now apply lines_iff.
  - injection H as -> ->. apply wch_text. now apply c_text_wrong.
Qed.
