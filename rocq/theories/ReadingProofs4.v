(** Proofs about programs that cannot be read. *)
From Coq Require Import ZArith List String Ascii Bool Arith Lia.
From Verif Require Import Base Expr Instr Ast Macro Lexer Parser CHeader Asm Files Img Include Span SpanParser SpanAsm SpanInclude.
From Verif Require Import SpecLex SpecParse SpecSpan SpanProofs SpanProofs2 SpanProofs3 SpanParseProofs SpanAsmProofs SpecIsa SpecMacro SpecLine LineProofs LineProofs3.
From Verif Require Import SpecFiles FilesProofs SpecSyntax SpecHeader SpecInclude SpecAsm SpecImg SpecCmd SpecExpand SpecData.
From Verif Require Import ImgProofs ImgProofs2 ImgProofs3 IncludeProofs IncludeProofs3 ExpandProofs2 PrintProofs5 DataProofs SyntaxProofs9 SpecReading ReadingProofs ReadingProofs2 ReadingProofs3.
From Verif Require WrittenProofs.
Import ListNotations.
Open Scope string_scope.
Open Scope list_scope.
Local Open Scope nat_scope.

Lemma first_kept : forall w s q f s1 T, sf_list s = [] -> is_absolute q = true ->
  load w s None q = Ok (f, s1) -> well_kept s -> grows s1 T -> main_file w T q f.
Proof.
  intros w s q f s1 T E A L W G. destruct (load_inv _ _ _ _ _ _ W L) as (p & P & W1 & S & N & _ & C).
  cbn [path_of] in P. injection P as <-. unfold join in *. rewrite A in *.
  destruct C as [->|(E1 & R & NM & _)].
  - rewrite E in N. destruct (sf_id f); discriminate.
  - rewrite E in E1. cbn [app] in E1. assert (I: sf_id f = 0).
    { rewrite E1 in N. destruct (sf_id f) as [|[|k]]; [reflexivity|discriminate|discriminate]. }
    split; [|split; [exact I|split; [exact NM|exact R]]]. apply (proj2 G). rewrite E1. reflexivity.
Qed.

Lemma reading_wrong : forall pr fuel w pics wd name e at_ T, is_absolute wd = true -> picture_files pics ->
  read_statements_s pr fuel w pics (new_files wd) name = (PErr e at_, T) -> unreadable is_black pr w pics (join wd name) T e at_.
Proof.
  intros pr fuel w pics wd name e at_ T A PF H. unfold read_statements_s in H. cbn [path_of no_place tbind working_dir new_files] in H.
  fold (new_files wd) in H. set (root := join wd name) in *. assert (AR: is_absolute root = true) by now apply absolute_join.
  destruct (load_s w (new_files wd) None root) as [[f|e1 at1| |] s1] eqn:L; cbn [tbind] in H; try discriminate.
  - assert (L2 := load_same w (new_files wd) None root). rewrite L in L2. cbn [untraced] in L2. symmetry in L2.
    assert (W0 := new_well wd). destruct (load_inv _ _ _ _ _ _ W0 L2) as (q & _ & W1 & _).
    assert (D0: as_on_disk w (new_files wd)) by (intros x []). destruct (load_disk _ _ _ _ _ _ W0 D0 L2) as [D1 _].
    assert (M: forall T1, grows s1 T1 -> main_file w T1 root f).
    { intros T1 G. apply (first_kept w (new_files wd) root f s1 T1); auto. }
    destruct (lex_input_s (new_input (sf_id f) (sf_contents f))) as [raw|e1 at1| |] eqn:LX; cbn [tbind] in H; try discriminate.
    + assert (LX2 := lex_same (new_input (sf_id f) (sf_contents f))). rewrite LX in LX2. cbn [unplaced] in LX2. symmetry in LX2.
      assert (GR: grouped raw (lines raw)) by now apply lines_iff.
      destruct (replace_includes_s fuel w root s1 raw) as [[ts|e1 at1| |] s2] eqn:R; cbn [tbind] in H; try discriminate.
      * assert (R2 := includes_same fuel w root s1 raw). rewrite R in R2. cbn [untraced] in R2. symmetry in R2.
        destruct (includes_keeps w fuel _ _ _ _ _ W1 D1 R2) as (W2 & D2 & G2).
        destruct (includes_follow w fuel _ _ _ _ _ s2 W1 D1 R2 (grows_refl _)) as (out & -> & EX).
        destruct (parse_s (List.concat out)) as [st|e1 at1| |] eqn:P; cbn [tbind] in H; try discriminate.
        -- destruct (byte_includes_s pr w pics root s2 (ss_list st)) as [l|e1 at1| |] eqn:B; cbn [tbind] in H; try discriminate.
           injection H as <- <- <-. destruct (WrittenProofs.program_is_written _ _ P) as (ls2 & kept & defs & G & PW & LW & _).
           eapply ur_data; eauto. eapply data_wrong; eauto.
           assert (PS := program_same (List.concat out)). rewrite P in PS. cbn [unplaced] in PS. symmetry in PS.
           apply (parse_good _ _ PS). eapply includes_lexed; [|exact R2]. eapply lex_lexed; eauto.
        -- injection H as <- <- <-. eapply (ur_syntax _ _ _ _ _ _ f raw (lines raw) out (lines (List.concat out))); eauto; [now apply lines_iff|now apply program_errors].
      * injection H as <- <- <-. destruct (includes_wrong w fuel _ _ _ _ _ _ W1 D1 R) as [G2 WL]. eapply ur_include; eauto.
    + injection H as <- <- <-. eapply ur_text; [apply M, grows_refl|now apply text_wrong].
  - injection H as <- <- <-. apply load_wrong in L as (-> & -> & q & P & C). apply ur_file.
    cbn [path_of working_dir new_files] in P. injection P as <-. unfold join in C. now rewrite AR in C.
Qed.
