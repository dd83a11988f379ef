(** Statements of included files; files that include themselves. *)
From Coq Require Import ZArith List String Ascii Bool Arith Lia.
From Verif Require Import Base Expr Ast Lexer Parser Files CHeader Include.
From Verif Require Import SpecParse SpecLine SpecFiles SpecInclude ParseProofs LineProofs LineProofs2 LineProofs3 FilesProofs IncludeProofs.
Import ListNotations.
Open Scope string_scope.
Open Scope list_scope.

(** * Lines that stay lines *)

Lemma separate_grouped : forall L, separate L -> grouped (List.concat L) L.
Proof.
  induction 1 as [|t same F|t same u r ls F N S IH].
  - constructor.
  - cbn. rewrite <- (app_nil_r same) at 1. rewrite app_comm_cons, app_nil_r, <- app_nil_r, <- app_comm_cons. apply gr_line; [exact F|discriminate|constructor].
  - cbn [List.concat]. rewrite <- app_comm_cons. apply gr_line; [exact F| |exact IH].
    intros v q E. cbn in E. injection E as <- <-. exact N.
Qed.

Lemma grouped_separate : forall toks L, grouped toks L -> separate L.
Proof.
  induction 1 as [|t same rest groups F N G IH]; [constructor|]. inversion G as [|u same2 rest2 groups2 F2 N2 G2]; subst.
  - now constructor.
  - apply se_more; auto. eapply N; reflexivity.
Qed.

(** * Programs in parts *)

Lemma part_program_app : forall d ls ss d1, part d ls ss d1 -> forall ls2 ss2 d2, program d1 ls2 ss2 d2 ->
  program d (ls ++ ls2) (ss ++ ss2) d2.
Proof.
  induction 1 as [d|d ts front ss rest stmts all N E L P IH|d ts n params ls body close rest stmts all H N B E P IH]; intros ls2 ss2 d2 Q.
  - exact Q.
  - rewrite <- app_comm_cons, <- app_assoc. eapply pg_line; eauto.
  - rewrite <- app_comm_cons, <- app_assoc, <- app_comm_cons. eapply pg_macro; eauto.
Qed.

Lemma part_program : forall d ls ss d1, part d ls ss d1 -> program d ls ss d1.
Proof.
  intros d ls ss d1 P. rewrite <- (app_nil_r ls), <- (app_nil_r ss). eapply part_program_app; [exact P|constructor].
Qed.

Lemma parts_parse B I A d1 d2 d3 sb si sa :
  separate (B ++ I ++ A) ->
  part [] (map (map t_type) B) sb d1 -> part d1 (map (map t_type) I) si d2 -> program d2 (map (map t_type) A) sa d3 ->
  parse (List.concat (B ++ I ++ A)) = Ok (mkStatements (by_name d3) (sb ++ si ++ sa)).
Proof.
  intros S PB PI PA. apply parse_iff. exists (B ++ I ++ A), d3, (sb ++ si ++ sa). split; [now apply separate_grouped|].
  split; [|reflexivity]. rewrite !map_app. eapply part_program_app; [exact PB|]. eapply part_program_app; eauto.
Qed.

Lemma expands_app w T name : forall ls1 ls2 L, expands w T name (ls1 ++ ls2) L ->
  exists L1 L2, L = L1 ++ L2 /\ expands w T name ls1 L1 /\ expands w T name ls2 L2.
Proof.
  induction ls1 as [|l ls1 IH]; intros ls2 L H.
  - exists [], L. split; [reflexivity|]. split; [constructor|exact H].
  - rewrite <- app_comm_cons in H. inversion H as [|nm ln p f toks ls inner rest more I R LX G X1 X2|nm ln p f toks ls rest more I R LX G X2|nm ln p q l2 rest more I R F X2|nm ln rest more N1 N2 N3 X2]; subst;
      apply IH in X2 as (A & B & -> & XA & XB).
    + exists (inner ++ A), B. rewrite <- app_assoc. split; [reflexivity|]. split; [eapply ex_asm; eauto|exact XB].
    + exists (ls ++ A), B. rewrite <- app_assoc. split; [reflexivity|]. split; [eapply ex_header; eauto|exact XB].
    + exists (l2 :: A), B. split; [reflexivity|]. split; [eapply ex_data; eauto|exact XB].
    + exists (l :: A), B. split; [reflexivity|]. split; [eapply ex_line; eauto|exact XB].
Qed.

(** * Kinds of include lines exclude each other *)

Lemma ends_unique ts a b : ends ts a -> ends ts b -> a = b.
Proof.
  intros H1 H2. apply ends_split in H1 as (r1 & -> & F1 & N1). apply ends_split in H2 as (r2 & E & F2 & N2).
  revert b E N2. induction a as [|x a IH]; intros [|y b] E N2; cbn in E.
  - reflexivity.
  - destruct F1 as [->|(q & ->)]; [discriminate|]. injection E as <- _. destruct N2. now left.
  - destruct F2 as [->|(q & ->)]; [discriminate|]. injection E as -> _. destruct N1. now left.
  - injection E as -> E. f_equal. apply IH; [|exact E|].
    + intros Q. apply N1. now right.
    + intros Q. apply N2. now right.
Qed.

Lemma asm_include_unique ts p q : asm_include ts p -> asm_include ts q -> p = q.
Proof.
  intros [ts1 p1 E1|ts1 p1 E1] H; inversion H as [ts2 p2 E2|ts2 p2 E2]; subst; assert (Q := ends_unique _ _ _ E1 E2); congruence.
Qed.

Lemma asm_not_header ts p q : asm_include ts p -> header_include ts q -> False.
Proof.
  intros A H. inversion H as [h rest E0]; subst. inversion A as [ts2 p2 E2|ts2 p2 E2]; subst; apply ends_split in E2 as (r & E & _); discriminate.
Qed.

Lemma asm_not_data ts p q : asm_include ts p -> data_include ts q -> False.
Proof.
  intros A H. inversion H as [front rest t d D [K1 K2] E0]; subst.
  inversion A as [ts2 p2 E2|ts2 p2 E2]; subst; apply ends_split in E2 as (r & E & _);
    inversion D as [| | | | | |s0|w0 t0 s0 I|s0 ts0 ps0 sp ey M S1 S2|s0 ts0 ps0 k h M S1 S2]; subst; try congruence;
    cbn [app] in E; try discriminate.
  cbn in I. destruct I as [I|[I|[I|[]]]]; injection I as <- <-; try congruence; discriminate.
Qed.

(** What an asm include line contributes. *)
Lemma expands_asm_inv w T name line p rest L : asm_include (map t_type line) p -> expands w T name (line :: rest) L ->
  exists f toks inner more, refers w T name p f /\ lex_input (new_input (sf_id f) (sf_contents f)) = Ok toks /\
    expands w T (sf_name f) (lines toks) inner /\ expands w T name rest more /\ L = inner ++ more.
Proof.
  intros A H. inversion H as [|nm ln p2 f toks ls inner rst more I R LX G X1 X2|nm ln p2 f toks ls rst more I R LX G X2|nm ln p2 q l2 rst more I R F X2|nm ln rst more N1 N2 N3 X2]; subst.
  - assert (Q := asm_include_unique _ _ _ A I). subst p2. apply lines_iff in G. subst ls. exists f, toks, inner, more. auto.
  - destruct (asm_not_header _ _ _ A I).
  - destruct (asm_not_data _ _ _ A I).
  - destruct (N1 _ A).
Qed.

(** Lines without directives named [.include] stay. *)
Definition plain (l : list token) : Prop := forall r, map t_type l <> TName ".include" :: r.

Lemma include_directive_name front t p : directive_of front (DInclude t p) -> exists r, front = TName ".include" :: r.
Proof. intros D. inversion D; subst; eauto. Qed.

Lemma plain_expands w T name : forall ls L, Forall plain ls -> expands w T name ls L -> L = ls.
Proof.
  induction ls as [|l ls IH]; intros L F H.
  - inversion H. reflexivity.
  - inversion F as [|l0 ls0 P F2]; subst.
    inversion H as [|nm ln p2 f toks lss inner rst more I R LX G X1 X2|nm ln p2 f toks lss rst more I R LX G X2|nm ln p2 q l2 rst more I R FF X2|nm ln rst more N1 N2 N3 X2]; subst.
    + inversion I as [ts2 p3 E2|ts2 p3 E2]; subst; apply ends_split in E2 as (r & E & _); destruct (P _ E).
    + inversion I as [p3 r E]; subst. symmetry in E. destruct (P _ E).
    + inversion I as [front r t p3 D K E]; subst. apply include_directive_name in D as (q2 & ->). symmetry in E. destruct (P _ E).
    + f_equal. eauto.
Qed.

(** * Places of tokens *)

(** All tokens of the file [id]. *)
Definition from_file (id : nat) (t : token) : Prop := l_file (s_start (t_span t)) = id /\ l_file (s_end (t_span t)) = id.
