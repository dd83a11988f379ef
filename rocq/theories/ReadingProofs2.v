(** Proofs about includes that fail. *)
From Coq Require Import ZArith List String Ascii Bool Arith Lia.
From Verif Require Import Base Expr Instr Ast Macro Lexer Parser CHeader Asm Files Img Include Span SpanParser SpanAsm SpanInclude.
From Verif Require Import SpecLex SpecParse ParseProofs SpecSpan SpanProofs SpanProofs2 SpanProofs3 SpanParseProofs SpanAsmProofs SpecIsa SpecMacro SpecLine LineProofs LineProofs2 LineProofs3.
From Verif Require Import SpecFiles FilesProofs SpecSyntax SpecHeader SpecInclude IncludeProofs SpecReading ReadingProofs.
From Verif Require WrittenProofs Utf8Proofs.
Import ListNotations.
Open Scope string_scope.
Open Scope list_scope.
Local Open Scope nat_scope.

Lemma expands_app : forall w T name a x, expands w T name a x -> forall b y, expands w T name b y -> expands w T name (a ++ b) (x ++ y).
Proof.
  intros w T name a x E. induction E as [name|name line p f toks ls inner rest more A R L G E1 IH1 E2 IH2
    |name line p f toks ls rest more A R L G E2 IH2|name line p q line2 rest more A F R E2 IH2|name line rest more N1 N2 N3 E2 IH2]; intros b y Y.
  - exact Y.
  - cbn [app]. rewrite <- app_assoc. eapply ex_asm; eauto.
  - cbn [app]. rewrite <- app_assoc. eapply ex_header; eauto.
  - cbn [app]. eapply ex_data; eauto.
  - cbn [app]. eapply ex_line; eauto.
Qed.

(** * Loading *)

Lemma find_none : forall l idx name, find_name l idx name = None -> forall f, In f l -> ~ same_path (sf_name f) name.
Proof.
  induction l as [|g l IH]; intros idx name H f I; [destruct I|]. cbn in H. destruct (path_eqb (sf_name g) name) eqn:E; [discriminate|].
  destruct I as [<-|I]; [|eapply IH; eauto]. intros S. apply path_eqb_same in S. congruence.
Qed.

Lemma path_no_err : forall w s root p e, path_of w s root p <> Err e.
Proof.
  intros w s [root|] p e H; cbn in H; [|discriminate]. destruct (is_absolute p); cbn [bind] in H.
  - destruct (is_file w p || negb (is_file w p))%bool; discriminate.
  - destruct (is_dir w root); cbn [bind] in H.
    + destruct (_ || _)%bool; discriminate.
    + destruct (parent root); cbn [bind] in H; [destruct (_ || _)%bool; discriminate|discriminate].
Qed.

Lemma load_wrong : forall w s root p e at_ T, load_s w s root p = (PErr e at_, T) ->
  T = s /\ at_ = [] /\ exists q, path_of w s root p = Ok q /\ cannot_load w s q e.
Proof.
  intros w s root p e at_ T H. unfold load_s, load in H. destruct (path_of w s root p) as [q|e1| |] eqn:P; cbn [bind] in H; try discriminate.
  - destruct (get_id s q) as [id|] eqn:G.
    + destruct (nth_error (sf_list s) id); discriminate.
    + unfold load_file in H. assert (N := find_none _ _ _ G). destruct (read_bytes w q) as [c|] eqn:R.
      * destruct (valid_utf8 c) eqn:V; cbn [bind] in H; [discriminate|]. injection H as <- <- <-. split; auto. split; auto. exists q. split; auto. apply (cl_encoding w s q c); auto. now apply Utf8Proofs.not_utf8.
      * cbn [bind] in H. injection H as <- <- <-. split; auto. split; auto. exists q. split; auto. now apply cl_read.
  - now apply path_no_err in P.
Qed.

(** * One line *)

Definition recw : Type := string -> source_files -> tokens -> traced tokens.

(** The recursive call is right. *)
Definition blames (w : fs) (rec : recw) : Prop := forall name s toks e at_ T, well_kept s -> as_on_disk w s ->
  rec name s toks = (PErr e at_, T) -> grows s T /\ wrong_lines w T name (lines toks) e at_.

Lemma asm_front : forall front p, directive_of front (DInclude IncAsm p) -> including front p.
Proof.
  intros front p D. inversion D as [| | | | | |s E1 E2|w t s I E1 E2| |]; subst; [constructor|].
  destruct I as [I|[I|[I|[]]]]; injection I as <-; try discriminate. constructor.
Qed.

Lemma header_front : forall front p r, directive_of front (DInclude IncCHeader p) -> header_include (front ++ r) p.
Proof.
  intros front p r D. inversion D as [| | | | | | |w t s I E1 E2| |]; subst.
  destruct I as [I|[I|[I|[]]]]; injection I as <-; try discriminate. constructor.
Qed.

Lemma line_wrong : forall w rec rec2, (forall n s ts, untraced idf (rec n s ts) = rec2 n s ts) -> keeps w rec2 -> follows w rec2 -> blames w rec ->
  forall name s line e at_ T, well_kept s -> as_on_disk w s -> include_line_s rec w name s line = (PErr e at_, T) ->
  grows s T /\ wrong_include w T name line e at_.
Proof.
  intros w rec rec2 SM K FO BL name s line e at_ T W D H. unfold include_line_s in H.
  destruct (parse_directive_s line) as [[[stmt|] r]|e1 at1| |] eqn:PD; try discriminate.
  assert (S := directive_same line). rewrite PD in S. cbn [unplaced left_over fst snd option_map] in S. symmetry in S.
  assert (X := directive_sound _ _ _ S). destruct X as (front & d & A & SD & DO).
  destruct stmt as [sd| | | | | |]; try discriminate SD. cbn [erase_statement] in SD. injection SD as SD.
  destruct (WrittenProofs.directive_is_written _ _ _ PD) as (a & dd & EL & _ & _).
  assert (EA: types a = front). { rewrite EL in A. unfold types in A. rewrite map_app in A. now apply app_inv_tail in A. } subst front.
  cbn [fixup_paths_s] in H. destruct sd as [| | | | |sp typ p|]; try discriminate H.
  cbn [erase_directive] in SD. subst d.
  destruct (path_of w s (Some name) p) as [q|e1| |] eqn:P; cbn [no_place pbind tbind] in H; try discriminate; [|now apply path_no_err in P].
  apply path_some_iff in P. destruct typ as [| | |speed eye|k h]; cbn [erase_include] in DO.
  - apply asm_front in DO. 
    destruct (load_s w s (Some name) q) as [[f|e1 at1| |] s2] eqn:L; cbn [tbind] in H; try discriminate.
    + assert (L2 := load_same w s (Some name) q). rewrite L in L2. cbn [untraced] in L2. symmetry in L2.
      assert (G1 := load_grows _ _ _ _ _ _ W L2). destruct (load_inv _ _ _ _ _ _ W L2) as (p1 & _ & W1 & _). destruct (load_disk _ _ _ _ _ _ W D L2) as [D1 _].
      destruct (lex_input_s (new_input (sf_id f) (sf_contents f))) as [toks|e1 at1| |] eqn:LX; cbn [tbind] in H; try discriminate.
      * assert (LX2 := lex_same (new_input (sf_id f) (sf_contents f))). rewrite LX in LX2. cbn [unplaced] in LX2. symmetry in LX2.
        destruct (rec (sf_name f) s2 toks) as [[new|e1 at1| |] s3] eqn:RC; cbn [tbind] in H; try discriminate.
        -- assert (RC2 := SM (sf_name f) s2 toks). rewrite RC in RC2. cbn [untraced] in RC2. symmetry in RC2.
           destruct (K _ _ _ _ _ W1 D1 RC2) as (W2 & D2 & G2).
           destruct (is_empty_s r) eqn:EM; cbn [negb] in H; [discriminate|].
           destruct r as [|t r]; [discriminate|]. cbn [err_next] in H. injection H as <- <- <-.
           split; [now apply (grows_trans s s2)|].
           destruct (FO _ _ _ _ _ s3 W1 D1 RC2 (grows_refl _)) as (LL & _ & EX).
           rewrite EL.
           eapply (wi_behind w s3 name a t r p f toks (lines toks) LL); eauto.
           ++ now apply (load_refers w s name p q f s2).
           ++ now apply lines_iff.
           ++ intros X. cbn in EM. now rewrite X in EM.
        -- injection H as <- <- <-. destruct (BL _ _ _ _ _ _ W1 D1 RC) as [G2 WL]. split; [now apply (grows_trans s s2)|].
           rewrite EL. eapply (wi_nested w s3 name a r p f toks (lines toks)); eauto; [now apply (load_refers w s name p q f s2)|now apply lines_iff].
      * injection H as <- <- <-. split; [exact G1|]. rewrite EL. eapply (wi_text w s2 name a r p f); eauto; [|now apply text_wrong].
        apply (load_refers w s name p q f s2); auto. apply grows_refl.
    + injection H as <- <- <-. apply load_wrong in L as (-> & -> & q2 & P2 & C). split; [apply grows_refl|]. rewrite EL. apply path_some_iff in P2.
      eapply (wi_file w s name a r p q2); eauto. now exists q.
  - discriminate.
  - assert (HI: header_include (types line) p) by (rewrite A; now apply header_front).
    destruct (load_s w s (Some name) q) as [[f|e1 at1| |] s2] eqn:L; cbn [tbind] in H; try discriminate.
    + assert (L2 := load_same w s (Some name) q). rewrite L in L2. cbn [untraced] in L2. symmetry in L2.
      assert (G1 := load_grows _ _ _ _ _ _ W L2). injection H as HX <-. split; [exact G1|].
      eapply (wi_header w s2 name line p f); eauto; [|now apply header_wrong]. apply (load_refers w s name p q f s2); auto. apply grows_refl.
    + injection H as <- <- <-. apply load_wrong in L as (-> & -> & q2 & P2 & C). split; [apply grows_refl|]. apply path_some_iff in P2.
      eapply (wi_header_file w s name line p q2); eauto. now exists q.
  - discriminate.
  - discriminate.
Qed.

(** * All lines *)

Lemma lines_wrong : forall w rec rec2, (forall n s ts, untraced idf (rec n s ts) = rec2 n s ts) -> keeps w rec2 -> follows w rec2 -> blames w rec ->
  forall name ls s e at_ T, well_kept s -> as_on_disk w s -> include_lines_s rec w name s ls = (PErr e at_, T) ->
  grows s T /\ wrong_lines w T name ls e at_.
Proof.
  intros w rec rec2 SM K FO BL name. induction ls as [|line rest IH]; intros s e at_ T W D H; [discriminate|]. cbn [include_lines_s] in H.
  destruct (include_line_s rec w name s line) as [[a|e1 at1| |] s2] eqn:L; cbn [tbind] in H; try discriminate.
  - assert (S := include_line_same rec rec2 w SM name s line). rewrite L in S. cbn [untraced] in S. symmetry in S.
    destruct (line_keeps _ _ _ _ _ _ _ K W D S) as (W2 & D2 & G2).
    destruct (include_lines_s rec w name s2 rest) as [[b|e2 at2| |] s3] eqn:R; cbn [tbind] in H; try discriminate. injection H as <- <- <-.
    destruct (IH _ _ _ _ W2 D2 R) as [G3 WL]. split; [now apply (grows_trans s s2)|].
    assert (O: include_lines rec2 w name s [line] = Ok (a ++ [], s2)) by (cbn [include_lines]; rewrite S; reflexivity).
    destruct (lines_follow w rec2 name K FO _ _ _ _ s3 W D O G3) as (LL & _ & EX).
    inversion WL as [n before out bad after e3 at3 EB WI E1 E2 E3 E4]. subst.
    change (wrong_lines w s3 name ((line :: before) ++ bad :: after) e2 at2). econstructor; [|exact WI].
    change (line :: before) with ([line] ++ before). eapply expands_app; eauto.
  - injection H as <- <- <-. destruct (line_wrong w rec rec2 SM K FO BL _ _ _ _ _ _ W D L) as [G WI]. split; [exact G|].
    change (line :: rest) with ([] ++ line :: rest). econstructor; [constructor|exact WI].
Qed.

Lemma includes_wrong : forall w fuel, blames w (replace_includes_s fuel w).
Proof.
  intros w. induction fuel as [|fuel IH]; intros name s toks e at_ T W D H; [discriminate|]. cbn [replace_includes_s] in H.
  eapply (lines_wrong w _ (replace_includes fuel w)); eauto.
  - intros. apply includes_same.
  - apply includes_keeps.
  - apply includes_follow.
Qed.
