(** Every place in an error of a run is a place in a file that was read. *)
From Coq Require Import ZArith List String Ascii Bool Arith Lia.
From Verif Require Import Base Expr Instr Ast Macro Lexer Parser CHeader Asm Files Img Include Report Span SpanParser SpanAsm SpanInclude.
From Verif Require Import SpecSpan SpecLex SpecPlaces LexProofs LexProofs2 LexProofs4 LexProofs5 HeaderProofs ReportProofs SpanProofs2 SpanProofs3 SpanValid SpanValid2.
Import ListNotations.
Open Scope string_scope.
Open Scope list_scope.
Local Open Scope nat_scope.

(** * The lexers *)

(** A location in a text of the file with this number. *)
Definition inside (f : nat) (text : string) (l : location) : Prop :=
  exists before after, text = (before ++ after)%string /\ l = place f before.

Definition skips (skip : input -> option input) : Prop :=
  forall f before text, exists g rest, text = (g ++ rest)%string /\ skip (inp f before text) = Some (inp f (before ++ g) rest).

Lemma skips_asm : skips skip_asm.
Proof. intros f before text. destruct (skip_asm_inp f before text) as (g & rest & E & S & _). now exists g, rest. Qed.

Lemma skips_c : skips skip_c.
Proof. intros f before text. destruct (skip_c_inp f before text) as (g & rest & E & S & _). now exists g, rest. Qed.

Lemma inside_at : forall f a b, inside f (a ++ b) (place f a). Proof. intros. now exists a, b. Qed.

Lemma lex_loop_inside : forall skip, skips skip -> forall k f before text,
  holds (inside f (before ++ text)) (okt (inside f (before ++ text))) (lex_loop_s skip k (inp f before text)).
Proof.
  intros skip SK. induction k as [|k IH]; intros f before text; [exact Logic.I|]. cbn [lex_loop_s].
  destruct (SK f before text) as (g & rest & -> & S). unfold read_token. rewrite S. unfold eof. cbn [inp i_rest].
  assert (B: okp (inside f (before ++ g ++ rest)) (to_span (place f before))) by (apply okp_to, inside_at).
  destruct rest as [|c t].
  - cbn [at_span pbind t_type holds]. constructor; [|constructor]. split; apply inside_at.
  - fold (inp f before (g ++ String c t)). fold (inp f (before ++ g) (String c t)). rewrite first_match_pick. cbn [inp i_rest].
    fold (inp f (before ++ g) (String c t)). fold (inp f before (g ++ String c t)).
    destruct (pick matchers (String c t)) as [[n conv]|] eqn:PK; [|apply one_place; auto].
    apply pick_sound in PK as (tx & r & ty & E2 & -> & W & C & V). rewrite E2 in *. rewrite substring_app, V.
    destruct (result_inv ty) as [[F R]|[F R]]; rewrite R; cbn [bind at_span pbind]; [|exact Logic.I].
    rewrite update_inp by (eapply writes_cut; eauto). cbn [t_type].
    rewrite not_eof_step by (intros X; rewrite X in W; eapply writes_not_eof; eauto).
    specialize (IH f ((before ++ g) ++ tx)%string r). rewrite !app_assoc_s in IH. rewrite !app_assoc_s.
    eapply hbind; [exact IH|]. intros l L. constructor; [|exact L]. rewrite !loc_inp. split; cbn [t_span s_start s_end].
    + exists (before ++ g)%string, (tx ++ r)%string. now rewrite !app_assoc_s.
    + exists (before ++ g ++ tx)%string, r. now rewrite !app_assoc_s.
Qed.

Lemma holds_weaken : forall {A : Type} (P Q : location -> Prop) (R R2 : A -> Prop) x, (forall l, P l -> Q l) -> (forall a, R a -> R2 a) ->
  holds P R x -> holds Q R2 x.
Proof.
  intros A P Q R R2 x PQ RR. assert (O: forall s, oks P s -> oks Q s) by (intros s [X Y]; split; auto).
  destruct x as [a|e at_| |]; cbn; auto. intros [F L]. split; auto. eapply Forall_impl; [|exact F]. intros p [X Y]. split; auto.
  eapply Forall_impl; [|exact Y]. auto.
Qed.

Lemma okt_weaken : forall (P Q : location -> Prop) l, (forall l, P l -> Q l) -> okt P l -> okt Q l.
Proof. intros P Q l PQ. apply Forall_impl. intros t [X Y]. split; auto. Qed.

(** * The files of a run *)

Definition numbered (s : source_files) : Prop := forall i f, nth_error (sf_list s) i = Some f -> sf_id f = i.
Definition extends (s s2 : source_files) : Prop := exists more, sf_list s2 = sf_list s ++ more.

Lemma extends_refl : forall s, extends s s. Proof. intros s. exists []. now rewrite app_nil_r. Qed.
Lemma extends_trans : forall a b c, extends a b -> extends b c -> extends a c.
Proof. intros a b c [x X] [y Y]. exists (x ++ y). rewrite Y, X. now rewrite app_assoc. Qed.

Lemma extends_nth : forall s s2 i f, extends s s2 -> nth_error (sf_list s) i = Some f -> nth_error (sf_list s2) i = Some f.
Proof. intros s s2 i f [m E] H. rewrite E. rewrite nth_error_app1; auto. apply nth_error_Some. congruence. Qed.

Lemma location_stays : forall s s2 l, extends s s2 -> true_location s l -> true_location s2 l.
Proof. intros s s2 l E (f & b & a & N & C & X). exists f, b, a. split; [eapply extends_nth; eauto|auto]. Qed.

Lemma load_extends : forall w s root n f s2, numbered s -> load w s root n = Ok (f, s2) ->
  numbered s2 /\ extends s s2 /\ nth_error (sf_list s2) (sf_id f) = Some f.
Proof.
  intros w s root n f s2 N L. unfold load in L. destruct (path_of w s root n) as [p| | |]; try discriminate. cbn [bind] in L.
  destruct (get_id s p) as [id|].
  - destruct (nth_error (sf_list s) id) as [g|] eqn:E; [|discriminate]. injection L as <- <-.
    split; [exact N|]. split; [apply extends_refl|]. now rewrite (N _ _ E).
  - destruct (load_file w p) as [c| | |]; try discriminate. cbn [bind] in L. injection L as <- <-. split; [|split].
    + intros i g. cbn [sf_list]. destruct (lt_eq_lt_dec i (List.length (sf_list s))) as [[H| ->]|H].
      * rewrite nth_error_app1 by auto. apply N.
      * rewrite nth_error_app2, Nat.sub_diag by lia. intros X. now injection X as <-.
      * rewrite nth_error_app2 by lia. intros X. exfalso. assert (Y: nth_error [mkFile (List.length (sf_list s)) p c] (i - List.length (sf_list s)) <> None) by congruence.
        apply nth_error_Some in Y. cbn in Y. lia.
    + now eexists.
    + cbn [sf_list sf_id]. now rewrite nth_error_app2, Nat.sub_diag by lia.
Qed.

Lemma inside_true : forall s f l, numbered s -> nth_error (sf_list s) (sf_id f) = Some f -> inside (sf_id f) (sf_contents f) l -> true_location s l.
Proof. intros s f l N E (b & a & X & ->). exists f, b, a. cbn [l_file place]. auto. Qed.

Definition ok_tokens (s : source_files) (ts : tokens) : Prop := okt (true_location s) ts.

Lemma lex_asm_true : forall s f, numbered s -> nth_error (sf_list s) (sf_id f) = Some f ->
  holds (true_location s) (ok_tokens s) (lex_input_s (new_input (sf_id f) (sf_contents f))).
Proof.
  intros s f N E. unfold lex_input_s, lex_for_ws_s. rewrite new_inp.
  eapply holds_weaken; [| |apply (lex_loop_inside _ skips_asm)].
  - intros l. cbn [append]. now apply inside_true.
  - intros ts. cbn [append]. apply okt_weaken. intros l. now apply inside_true.
Qed.

Lemma lex_header_true : forall s f, numbered s -> nth_error (sf_list s) (sf_id f) = Some f ->
  holds (true_location s) (ok_tokens s) (header_lex_s (new_input (sf_id f) (sf_contents f))).
Proof.
  intros s f N E. unfold header_lex_s. eapply (hbind _ (ok_tokens s)).
  - unfold lex_for_ws_s. rewrite new_inp. eapply holds_weaken; [| |apply (lex_loop_inside _ skips_c)].
    + intros l. cbn [append]. now apply inside_true.
    + intros ts. cbn [append]. apply okt_weaken. intros l. now apply inside_true.
  - intros ts T. apply header_lines_ok. now apply lines_ok.
Qed.

(** * Results with files *)

Definition tholds {A : Type} (s : source_files) (R : source_files -> A -> Prop) (x : traced A) : Prop :=
  numbered (snd x) /\ extends s (snd x) /\ holds (true_location (snd x)) (R (snd x)) (fst x).

Lemma thbind : forall {A B : Type} s (Q : source_files -> A -> Prop) (R : source_files -> B -> Prop) (x : traced A) k,
  tholds s Q x -> (forall a s2, numbered s2 -> extends s s2 -> Q s2 a -> tholds s2 R (k a s2)) -> tholds s R (tbind x k).
Proof.
  intros A B s Q R [[a|e at_| |] s2] k (N & E & H) K; cbn [tbind fst snd] in *.
  - destruct (K a s2 N E H) as (N2 & E2 & H2). split; auto. split; auto. eapply extends_trans; eauto.
  - split; auto.
  - split; auto.
  - split; auto.
Qed.

Lemma tpure : forall {A : Type} s (R : source_files -> A -> Prop) x, numbered s -> holds (true_location s) (R s) x -> tholds s R (x, s).
Proof. intros A s R x N H. split; auto. split; auto. apply extends_refl. Qed.

Lemma load_true : forall w s root n, numbered s ->
  tholds s (fun s2 f => nth_error (sf_list s2) (sf_id f) = Some f) (load_s w s root n).
Proof.
  intros w s root n N. unfold load_s. assert (Q := quiet_load w s root n). destruct (load w s root n) as [[f s2]|e| |] eqn:L.
  - destruct (load_extends _ _ _ _ _ _ N L) as (A & B & C). split; auto.
  - apply tpure; auto. cbn. split; auto. symmetry. now apply Q.
  - apply tpure; auto. exact Logic.I.
  - apply tpure; auto. exact Logic.I.
Qed.

Lemma tokens_stay : forall s s2 ts, extends s s2 -> ok_tokens s ts -> ok_tokens s2 ts.
Proof. intros s s2 ts E. apply okt_weaken. intros l. now apply location_stays. Qed.

Lemma rename_ok : forall s old new line, ok_tokens s line -> ok_tokens s (rename_strings old new line).
Proof.
  intros s old new line H. induction H as [|t l T L IH]; cbn; [constructor|]. constructor; auto.
  destruct (t_type t); auto. destruct (String.eqb _ _); auto.
Qed.

Definition good_rec (rec : string -> source_files -> tokens -> traced tokens) : Prop :=
  forall f s ts, numbered s -> ok_tokens s ts -> tholds s ok_tokens (rec f s ts).

Lemma include_line_true : forall rec w f s line, good_rec rec -> numbered s -> ok_tokens s line ->
  tholds s ok_tokens (include_line_s rec w f s line).
Proof.
  intros rec w f s line G N L. unfold include_line_s.
  assert (D := directive_ok (true_location s) line L). destruct (parse_directive_s line) as [[[stmt|] r]|e at_| |]; try (now apply tpure).
  destruct D as [D R]. cbn [fst snd] in *.
  eapply (thbind s (fun _ _ => True)).
  - apply tpure; auto. unfold fixup_paths_s. destruct stmt; try exact Logic.I. destruct d; try exact Logic.I. apply still; [apply quiet_path|].
    intros; exact Logic.I.
  - intros fixed s1 N1 E1 _. assert (L1 := tokens_stay _ _ _ E1 L).
    destruct fixed as [[| | | | |sp typ path|]| | | | | |]; try (now apply tpure). destruct typ.
    + eapply thbind; [now apply load_true|]. intros file s2 N2 E2 F2.
      eapply thbind; [apply tpure; [exact N2|now apply lex_asm_true]|]. intros toks s3 N3 E3 T3.
      eapply thbind; [now apply G|]. intros new s4 N4 E4 T4.
      destruct (negb (is_empty_s r)); [|now apply tpure]. apply tpure; auto. apply err_next_ok; auto.
      apply (tokens_stay s); auto. eauto using extends_trans.
    + apply tpure; auto. now apply rename_ok.
    + eapply thbind; [now apply load_true|]. intros file s2 N2 E2 F2. apply tpure; auto. now apply lex_header_true.
    + apply tpure; auto. now apply rename_ok.
    + apply tpure; auto. now apply rename_ok.
Qed.

Lemma include_lines_true : forall rec w f, good_rec rec -> forall ls s, numbered s -> Forall (ok_tokens s) ls ->
  tholds s ok_tokens (include_lines_s rec w f s ls).
Proof.
  intros rec w f G. induction ls as [|l ls IH]; intros s N L; cbn [include_lines_s]; [apply tpure; auto; constructor|]. inversion L as [|? ? L1 L2]; subst.
  eapply thbind; [now apply include_line_true|]. intros a s2 N2 E2 A.
  eapply thbind; [apply IH; auto; eapply Forall_impl; [|exact L2]; intros ts; now apply tokens_stay|]. intros b s3 N3 E3 B.
  apply tpure; auto. apply Forall_app. split; auto. now apply (tokens_stay s2).
Qed.

Lemma includes_true : forall fuel w, good_rec (replace_includes_s fuel w).
Proof.
  induction fuel as [|fuel IH]; intros w f s ts N T; cbn [replace_includes_s]; [now apply tpure|].
  apply include_lines_true; auto. now apply lines_ok.
Qed.

Lemma default_true : forall s f, nth_error (sf_list s) 0 = Some f -> okp (true_location s) default_span.
Proof.
  intros s f E. assert (T: true_location s (mkLoc 0 0 1 0)) by (exists f, "", (sf_contents f); auto).
  apply okp_alone. now split.
Qed.

Definition ok_read (s : source_files) (x : sstatements) : Prop := ok_program (true_location s) x.

Lemma read_true : forall pr fuel w pics s name, placeless pics -> numbered s ->
  tholds s ok_read (read_statements_s pr fuel w pics s name).
Proof.
  intros pr fuel w pics s name PL N. unfold read_statements_s.
  eapply (thbind s (fun _ _ => True)); [apply tpure; auto; apply quiet_ok, quiet_path|]. intros filename s0 N0 E0 _.
  eapply thbind; [now apply load_true|]. intros file s1 N1 E1 F1.
  eapply thbind; [apply tpure; [exact N1|now apply lex_asm_true]|]. intros raw s2 N2 E2 T2.
  eapply thbind; [now apply includes_true|]. intros ts s3 N3 E3 T3.
  eapply (thbind s3 ok_read); [apply tpure; auto; now apply program_ok|]. intros stmts s4 N4 E4 [M4 L4].
  assert (D: okp (true_location s4) default_span).
  { assert (E14: extends s1 s4) by eauto using extends_trans. assert (X := extends_nth _ _ _ _ E14 F1).
    destruct (sf_list s4) as [|f0 l] eqn:S4; [now destruct (sf_id file)|]. apply (default_true s4 f0). now rewrite S4. }
  eapply (thbind s4 (fun s l => ok_macros (true_location s) (ss_macros stmts) /\ Forall (ok_statement (true_location s)) l)).
  - apply tpure; auto. eapply hweaken; [now apply byte_includes_ok|]. intros l L. split; auto.
  - intros l s5 N5 E5 [M5 L5]. apply tpure; auto. split; auto.
Qed.

Lemma file_true : forall uuid pr fuel w pics s name, placeless pics -> numbered s ->
  tholds s (fun _ _ => True) (assemble_file_s uuid pr fuel w pics s name).
Proof.
  intros uuid pr fuel w pics s name PL N. unfold assemble_file_s.
  eapply thbind; [now apply read_true|]. intros stmts s2 N2 E2 [M L].
  eapply (thbind s2 (fun s x => Forall (ok_statement (true_location s)) (fst x))); [apply tpure; auto; now apply expand_list_ok|].
  intros [l n] s3 N3 E3 L3. apply tpure; auto. eapply hweaken; [now apply assemble_ok|]. auto.
Qed.

Lemma numbered_new : forall wd, numbered (new_files wd).
Proof. intros wd [|i] f H; discriminate. Qed.
