(** Property C31: include directives contribute the included files in place, each time.  Property C51:
    relative include paths. *)
From Coq Require Import ZArith List String Ascii Bool Arith Lia.
From Verif Require Import Base Expr Instr Ast Lexer Parser Files CHeader Img Include.
From Verif Require Import SpecParse SpecLine SpecFiles SpecInclude ParseProofs LineProofs LineProofs2 LineProofs3 FilesProofs.
From Verif Require Import IncludeProofs IncludeProofs2 IncludeProofs3.
Import ListNotations.
Open Scope string_scope.
Open Scope list_scope.

Local Definition NL : string := String LF "".

(** Reading a program reads the lines of the main file with those of the included files in place of the
    include lines, and parses the result. *)
Theorem C31_pipeline : forall pr fuel w pics wd name st, is_absolute wd = true ->
  read_statements pr fuel w pics (new_files wd) name = Ok st ->
  exists f s toks ls L T stmts,
    load w (new_files wd) None name = Ok (f, s) /\ read_bytes w (sf_name f) = Some (sf_contents f) /\
    lex_input (new_input (sf_id f) (sf_contents f)) = Ok toks /\ grouped toks ls /\
    expands w T (sf_name f) ls L /\ as_on_disk w T /\ In f (sf_list T) /\
    parse (List.concat L) = Ok stmts /\ replace_byte_includes pr w pics (sf_name f) T stmts = Ok st.
Proof.
  intros pr fuel w pics wd name st A H. unfold read_statements in H. cbn [path_of bind working_dir new_files] in H.
  assert (J: join wd (join wd name) = join wd name).
  { unfold join at 1. now rewrite (absolute_join wd name A). }
  destruct (load w (new_files wd) None (join wd name)) as [[f s]| | |] eqn:L; try discriminate. cbn [bind] in H.
  destruct (lex_input _) as [toks| | |] eqn:LX; try discriminate. cbn [bind] in H.
  destruct (replace_includes fuel w (join wd name) s toks) as [[out T]| | |] eqn:R; try discriminate. cbn [bind] in H.
  destruct (parse out) as [stmts| | |] eqn:P; try discriminate. cbn [bind] in H.
  destruct (state_kept _ _ (state_load _ _ _ _ _ L)) as [W D].
  destruct (includes_follow w fuel _ _ _ _ _ T W D R (grows_refl T)) as (L0 & -> & X).
  destruct (includes_keeps w fuel _ _ _ _ _ W D R) as (WT & DT & GT).
  assert (L2: load w (new_files wd) None name = Ok (f, s)).
  { unfold load, path_of in L |- *. cbn [bind working_dir new_files] in L |- *. rewrite J in L. exact L. }
  assert (N: sf_name f = join wd name).
  { destruct (load_inv _ _ _ _ _ _ (new_well wd) L2) as (p & PO & _ & _ & N & _ & [->|(_ & _ & NM & _)]).
    - destruct (sf_id f); discriminate.
    - cbn in PO. injection PO as <-. exact NM. }
  destruct (load_disk _ _ _ _ _ _ (new_well wd) (fun g I => match I with end) L2) as [_ I].
  rewrite <- N in *. exists f, s, toks, (lines toks), L0, T, stmts. split; [exact L2|]. split; [apply D, I|].
  split; [exact LX|]. split; [apply lines_grouped|]. split; [exact X|]. split; [exact DT|]. split; [eapply grows_in; eauto|]. auto.
Qed.
Print Assumptions C31_pipeline.

(** An include line inside a file: what stands before it, the lines of the file it refers to, what stands
    after it.  If no two of these lines run together, then the statements of the included file stand
    between those before and those after, and they are the ones that the included file has alone. *)
Theorem C31_in_place : forall w s f toks fuel out T before line after p,
  state w s -> In f (sf_list s) -> lex_input (new_input (sf_id f) (sf_contents f)) = Ok toks ->
  replace_includes fuel w (sf_name f) s toks = Ok (out, T) ->
  grouped toks (before ++ line :: after) -> asm_include (map t_type line) p ->
  exists g toks2 ls2 B I A,
    refers w T (sf_name f) p g /\ read_bytes w (sf_name g) = Some (sf_contents g) /\
    lex_input (new_input (sf_id g) (sf_contents g)) = Ok toks2 /\ grouped toks2 ls2 /\
    expands w T (sf_name f) before B /\ expands w T (sf_name g) ls2 I /\ expands w T (sf_name f) after A /\
    out = List.concat (B ++ I ++ A) /\
    (separate (B ++ I ++ A) -> forall sb d1 si d2 sa d3,
      part [] (map (map t_type) B) sb d1 -> part d1 (map (map t_type) I) si d2 -> program d2 (map (map t_type) A) sa d3 ->
      parse out = Ok (mkStatements (by_name d3) (sb ++ si ++ sa)) /\
      exists own, parse (List.concat I) = Ok (mkStatements (by_name own) si) /\ d2 = own ++ d1).
Proof.
  intros w s f toks fuel out T before line after p S IF LX R G AI.
  destruct (state_kept _ _ S) as [W D].
  destruct (includes_follow w fuel _ _ _ _ _ T W D R (grows_refl T)) as (L & -> & X).
  destruct (includes_keeps w fuel _ _ _ _ _ W D R) as (WT & DT & GT).
  apply lines_iff in G. rewrite G in X. apply expands_app in X as (B & R2 & -> & XB & X).
  apply (expands_asm_inv _ _ _ _ _ _ _ AI) in X as (g & toks2 & I & A & RF & LX2 & XI & XA & ->).
  exists g, toks2, (lines toks2), B, I, A. split; [exact RF|]. split; [destruct RF as (q & _ & IG & _); now apply DT|].
  split; [exact LX2|]. split; [apply lines_grouped|]. split; [exact XB|]. split; [exact XI|]. split; [exact XA|]. split; [reflexivity|].
  intros SP sb d1 si d2 sa d3 PB PI PA. split; [eapply parts_parse; eauto|].
  destruct (part_forget _ _ _ _ PI) as (own & E & PO & _). exists own. split; [|exact E].
  apply parse_iff. exists I, own, si. split; [|split; [now apply part_program|reflexivity]].
  apply separate_grouped. apply separate_app in SP as [_ SP]. now apply separate_app in SP as [SP _].
Qed.
Print Assumptions C31_in_place.

(** For a file with one include line, of a file without include lines, the lines never run together. *)
Theorem C31_one_include : forall w s f toks fuel out T before line after p g toks2 sb d1 si own sa d3,
  state w s -> In f (sf_list s) -> lex_input (new_input (sf_id f) (sf_contents f)) = Ok toks ->
  replace_includes fuel w (sf_name f) s toks = Ok (out, T) ->
  grouped toks (before ++ line :: after) -> asm_include (map t_type line) p ->
  Forall plain before -> Forall plain after ->
  refers w T (sf_name f) p g -> lex_input (new_input (sf_id g) (sf_contents g)) = Ok toks2 -> Forall plain (lines toks2) ->
  part [] (map (map t_type) before) sb d1 -> part d1 (map (map t_type) (lines toks2)) si (own ++ d1) ->
  program (own ++ d1) (map (map t_type) after) sa d3 ->
  parse toks2 = Ok (mkStatements (by_name own) si) /\ parse out = Ok (mkStatements (by_name d3) (sb ++ si ++ sa)).
Proof.
  intros w s f toks fuel out T before line after p g toks2 sb d1 si own sa d3 S IF LX R G AI PB PA RF LX2 P2 QB QI QA.
  destruct (C31_in_place _ _ _ _ _ _ _ _ _ _ _ S IF LX R G AI) as (g2 & t2 & ls2 & B & I & A & RF2 & _ & LX3 & G3 & XB & XI & XA & -> & C).
  destruct (state_kept _ _ S) as [W D]. destruct (includes_keeps w fuel _ _ _ _ _ W D R) as (WT & DT & GT).
  assert (g2 = g) by exact (refers_det _ _ _ _ _ _ WT RF2 RF). subst g2. rewrite LX2 in LX3. injection LX3 as <-.
  apply lines_iff in G3. subst ls2.
  assert (B = before) by (eapply plain_expands; eauto). assert (I = lines toks2) by (eapply plain_expands; eauto).
  assert (A = after) by (eapply plain_expands; eauto). subst B I A.
  destruct (lex_from _ _ _ LX) as [F1 _]. destruct (lex_from _ _ _ LX2) as [F2 NE2].
  assert (GC := grouped_concat _ _ G). assert (GC2 := grouped_concat _ _ (lines_grouped toks2)).
  assert (NID: sf_id f <> sf_id g).
  { intros E. assert (f = g).
    { apply (same_id T); auto; [eapply grows_in; eauto|destruct RF as (q & _ & IG & _); exact IG]. }
    subst g. rewrite LX in LX2. injection LX2 as <-. apply lines_iff in G. eapply plain_no_asm; eauto. }
  assert (SP: separate (before ++ lines toks2 ++ after)).
  { assert (SG := grouped_separate _ _ G). apply separate_parts in SG as [S1 S3].
    rewrite GC in F1. rewrite concat_app in F1. apply Forall_app in F1 as [FB FA]. cbn [List.concat] in FA. apply Forall_app in FA as [_ FA].
    apply separate_around with (f := sf_id f) (g := sf_id g); auto.
    - intros E. rewrite E in GC2. now apply NE2.
    - eapply grouped_separate, lines_grouped.
    - now rewrite <- GC2. }
  destruct (C SP _ _ _ _ _ _ QB QI QA) as [P1 (own2 & P3 & E)]. rewrite <- GC2 in P3.
  apply app_inv_tail in E. subst own2. auto.
Qed.
Print Assumptions C31_one_include.

(** Executed again, whatever was loaded in between, an include gives the same tokens. *)
Theorem C31_each_time : forall w s name toks fuel out T between,
  state w s -> replace_includes fuel w name s toks = Ok (out, T) ->
  replace_includes fuel w name (after T between) toks = Ok (out, after T between).
Proof.
  intros w s name toks fuel out T between S R. destruct (state_kept _ _ S) as [W D].
  destruct (includes_keeps w fuel _ _ _ _ _ W D R) as (WT & DT & GT). destruct (after_well between _ WT) as [WA GA].
  exact (includes_repeat w fuel _ _ _ _ _ _ W D R WA GA).
Qed.
Print Assumptions C31_each_time.

(** The bound on the nesting only matters for whether there is a result. *)
Theorem C31_depth : forall w s name toks n m, replace_includes n w name s toks <> Diverge -> (n <= m)%nat ->
  replace_includes m w name s toks = replace_includes n w name s toks.
Proof. intros. now apply includes_fuel. Qed.
Print Assumptions C31_depth.

(** A file that includes itself, directly or through others, is never read to the end, at any depth. *)
Theorem C31_no_cycle : forall w s f toks fuel out T,
  state w s -> In f (sf_list s) -> lex_input (new_input (sf_id f) (sf_contents f)) = Ok toks ->
  replace_includes fuel w (sf_name f) s toks = Ok (out, T) -> ~ leads w T f f.
Proof.
  intros w s f toks fuel out T S IF LX R LD. destruct (state_kept _ _ S) as [W D].
  destruct (includes_keeps w fuel _ _ _ _ _ W D R) as (WT & DT & GT).
  apply (runs_acyclic _ _ _ WT DT LD fuel). exists toks, out. split; [exact LX|].
  exact (includes_repeat w fuel _ _ _ _ _ _ W D R WT (grows_refl T)).
Qed.
Print Assumptions C31_no_cycle.

(** * Cases *)

(** A file system with three files. *)
Local Definition world (main lib sub : string) : fs :=
  mkFs (fun p => existsb (path_eqb p) ["/src/main.s"; "/src/lib/one.s"; "/src/lib/two.s"]) (fun p => existsb (path_eqb p) ["/src"; "/src/lib"])
    (fun p => if path_eqb p "/src/main.s" then Some main else if path_eqb p "/src/lib/one.s" then Some lib
              else if path_eqb p "/src/lib/two.s" then Some sub else None).

Local Definition q (s : string) : string := String "034" (s ++ String "034" "").

Local Definition main1 : string := ("start:" ++ NL ++ " .include " ++ q "lib/one.s" ++ NL ++ " nop" ++ NL)%string.
Local Definition lib1 : string := (" add #1 ; one" ++ NL ++ " sub #2" ++ NL)%string.
Local Definition w1 : fs := world main1 lib1 "".

Local Definition pics0 : pictures := fun _ => Err InvalidPath.

Example C31_pipeline_case : read_statements Debug 5 w1 pics0 (new_files "/src") "main.s" =
  Ok (mkStatements [] [SLabel "start"; SInstr (Add_i8 (ENumber 1 Decimal)); SInstr (Sub_i8 (ENumber 2 Decimal)); SInstr Nop]).
Proof. vm_compute. reflexivity. Qed.

Local Definition get {A : Type} (d : A) (o : outcome A) : A := match o with Ok x => x | _ => d end.
Local Definition toks_of (id : nat) (text : string) : list token := get [] (lex_input (new_input id text)).
Local Definition file1 : source_file := mkFile 0 "/src/main.s" main1.
Local Definition file2 : source_file := mkFile 1 "/src/lib/one.s" lib1.
Local Definition s1 : source_files := mkFiles "/src" [file1].
Local Definition T1 : source_files := mkFiles "/src" [file1; file2].
Local Definition before1 : list (list token) := firstn 1 (lines (toks_of 0 main1)).
Local Definition line1 : list token := nth 1 (lines (toks_of 0 main1)) [].
Local Definition after1 : list (list token) := skipn 2 (lines (toks_of 0 main1)).
Local Definition out1 : list token := List.concat before1 ++ toks_of 1 lib1 ++ List.concat after1.

Lemma state1 : state w1 s1.
Proof. apply (state_load w1 "/src" "main.s" file1). vm_compute. reflexivity. Qed.

Lemma refers1 : refers w1 T1 "/src/main.s" "lib/one.s" file2.
Proof.
  exists "/src/lib/one.s". split; [exists "/src/lib/one.s"; split|split].
  - apply (path_some_iff w1 T1). vm_compute. reflexivity.
  - apply (path_some_iff w1 T1). vm_compute. reflexivity.
  - right. now left.
  - apply sp_refl.
Qed.

Local Definition first_type (ls : list token_type) (bad : token_type -> bool) : bool :=
  match ls with t :: _ => negb (bad t) | [] => true end.

Lemma plains_ok ls : forallb (fun l => first_type (map t_type l) (fun t => match t with TName n => String.eqb n ".include" | _ => false end)) ls = true ->
  Forall plain ls.
Proof.
  intros H. rewrite forallb_forall in H. apply Forall_forall. intros l I r E. specialize (H l I). rewrite E in H. discriminate.
Qed.

Lemma no_macros_ok ls : forallb (fun l => first_type l (fun t => match t with TMacroIdent n => String.eqb n "%macro" | _ => false end)) ls = true ->
  Forall (fun ts => ~ first_is (TMacroIdent "%macro") ts) ls.
Proof.
  intros H. rewrite forallb_forall in H. apply Forall_forall. intros l I (r & E). specialize (H l I). rewrite E in H. discriminate.
Qed.

Local Ltac plains := apply plains_ok; vm_compute; reflexivity.
Local Ltac no_macros := apply no_macros_ok; vm_compute; reflexivity.

(** All hypotheses of [C31_one_include] and [C31_in_place] at once. *)
Example C31_one_include_case :
  state w1 s1 /\ In file1 (sf_list s1) /\ lex_input (new_input 0 main1) = Ok (toks_of 0 main1) /\
  replace_includes 5 w1 "/src/main.s" s1 (toks_of 0 main1) = Ok (out1, T1) /\
  grouped (toks_of 0 main1) (before1 ++ line1 :: after1) /\ asm_include (map t_type line1) "lib/one.s" /\
  Forall plain before1 /\ Forall plain after1 /\ refers w1 T1 "/src/main.s" "lib/one.s" file2 /\
  lex_input (new_input 1 lib1) = Ok (toks_of 1 lib1) /\ Forall plain (lines (toks_of 1 lib1)) /\
  part [] (map (map t_type) before1) [SLabel "start"] [] /\
  part [] (map (map t_type) (lines (toks_of 1 lib1))) [SInstr (Add_i8 (ENumber 1 Decimal)); SInstr (Sub_i8 (ENumber 2 Decimal))] [] /\
  program [] (map (map t_type) after1) [SInstr Nop] [].
Proof.
  split; [exact state1|]. split; [now left|]. split; [vm_compute; reflexivity|]. split; [vm_compute; reflexivity|].
  split; [apply lines_iff; vm_compute; reflexivity|].
  split. { apply ai_plain. apply ends_split. exists []. split; [vm_compute; reflexivity|]. split; [now left|]. cbn. intuition discriminate. }
  split; [plains|]. split; [plains|]. split; [exact refers1|]. split; [vm_compute; reflexivity|]. split; [plains|].
  split; [|split].
  - replace before1 with (lines (List.concat before1)) by (vm_compute; reflexivity). apply parse_part with (ms := []); [vm_compute; reflexivity|no_macros].
  - apply parse_part with (ms := []); [vm_compute; reflexivity|no_macros].
  - replace after1 with (lines (List.concat after1)) by (vm_compute; reflexivity). apply part_program, parse_part with (ms := []); [vm_compute; reflexivity|no_macros].
Qed.

Local Definition main2 : string := (" .include " ++ q "lib/one.s" ++ NL ++ "mid:" ++ NL ++ ".include asm " ++ q "./lib//one.s")%string.
Local Definition lib2 : string := ("nop" ++ NL ++ ".include " ++ q "two.s" ++ NL ++ "nop")%string.

(** Twice the same file, which includes a third one; the second time it comes from the table. *)
Example C31_each_time_case :
  read_statements Debug 5 (world main2 lib2 "ret") pics0 (new_files "/src") "main.s" =
  Ok (mkStatements [] [SInstr Nop; SInstr Ret; SInstr Nop; SLabel "mid"; SInstr Nop; SInstr Ret; SInstr Nop]) /\
  read_statements Debug 3 (world main2 lib2 "ret") pics0 (new_files "/src") "main.s" =
  read_statements Debug 5 (world main2 lib2 "ret") pics0 (new_files "/src") "main.s" /\
  read_statements Debug 2 (world main2 lib2 "ret") pics0 (new_files "/src") "main.s" = Diverge.
Proof. vm_compute. auto. Qed.

(** A file that includes itself under another spelling of its name.  The hypotheses of [C31_no_cycle]
    are those of [C31_one_include_case]. *)
Local Definition selfish2 : string := ("nop" ++ NL ++ ".include " ++ q ".//two.s")%string.
Local Definition ws2 : fs :=
  mkFs (fun p => path_eqb p "/src/lib/two.s") (fun p => false) (fun p => if path_eqb p "/src/lib/two.s" then Some selfish2 else None).
Local Definition sf2 : source_file := mkFile 0 "/src/lib/two.s" selfish2.
Local Definition ss2 : source_files := mkFiles "/src" [sf2].

Example C31_no_cycle_case :
  load ws2 (new_files "/src") None "lib/two.s" = Ok (sf2, ss2) /\ leads ws2 ss2 sf2 sf2 /\
  forall fuel, replace_includes fuel ws2 "/src/lib/two.s" ss2 (toks_of 0 selfish2) = Diverge.
Proof.
  split; [vm_compute; reflexivity|]. split.
  - apply ld_one. exists (toks_of 0 selfish2), (lines (toks_of 0 selfish2)), (nth 1 (lines (toks_of 0 selfish2)) []), ".//two.s".
    split; [vm_compute; reflexivity|]. split; [apply lines_grouped|]. split; [apply nth_In; vm_compute; repeat constructor|].
    split. { apply ai_plain, ends_split. exists [TEOF]. split; [vm_compute; reflexivity|]. split; [right; eauto|]. cbn. intuition discriminate. }
    exists "/src/lib/.//two.s". split; [exists "/src/lib/.//two.s"; split; apply (path_some_iff ws2 ss2); vm_compute; reflexivity|].
    split; [now left|]. apply path_eqb_same. vm_compute. reflexivity.
  - assert (E: forall rec, include_lines rec ws2 "/src/lib/two.s" ss2 (lines (toks_of 0 selfish2)) =
      bind (rec "/src/lib/two.s" ss2 (toks_of 0 selfish2)) (fun '(new, s3) => Ok (List.concat (firstn 1 (lines (toks_of 0 selfish2))) ++ new ++ [], s3))).
    { intros rec. replace (lines (toks_of 0 selfish2)) with [nth 0 (lines (toks_of 0 selfish2)) []; nth 1 (lines (toks_of 0 selfish2)) []] at 1 by (vm_compute; reflexivity).
      cbn [include_lines].
      replace (include_line rec ws2 "/src/lib/two.s" ss2 (nth 0 (lines (toks_of 0 selfish2)) [])) with
        (Ok (List.concat (firstn 1 (lines (toks_of 0 selfish2))), ss2)) by (vm_compute; reflexivity). cbn [bind].
      replace (include_line rec ws2 "/src/lib/two.s" ss2 (nth 1 (lines (toks_of 0 selfish2)) [])) with
        (bind (rec "/src/lib/two.s" ss2 (toks_of 0 selfish2)) (fun '(new, s3) => Ok (new, s3))).
      - destruct (rec "/src/lib/two.s" ss2 (toks_of 0 selfish2)) as [[new s3]| | |]; reflexivity.
      - unfold include_line. replace (parse_directive (stream_of (nth 1 (lines (toks_of 0 selfish2)) []))) with
          (Ok (Some (SDirective (DInclude IncAsm ".//two.s")), [TEOF])) by (vm_compute; reflexivity).
        cbn [fixup_paths]. replace (path_of ws2 ss2 (Some "/src/lib/two.s") ".//two.s") with (Ok "/src/lib/.//two.s") by (vm_compute; reflexivity).
        cbn [bind]. replace (load ws2 ss2 (Some "/src/lib/two.s") "/src/lib/.//two.s") with (Ok (sf2, ss2)) by (vm_compute; reflexivity).
        cbn [bind]. replace (lex_input (new_input (sf_id sf2) (sf_contents sf2))) with (Ok (toks_of 0 selfish2)) by (vm_compute; reflexivity).
        cbn [bind is_empty negb]. reflexivity. }
    induction fuel as [|fuel IH]; [reflexivity|]. cbn [replace_includes]. rewrite E, IH. reflexivity.
Qed.

(** * What is not so *)

(** A file of one line, included twice in a row: the lines run together and the second copy is lost. *)
Theorem C31_statements_refuted : exists w f g s T toks toks2 out l1 l2,
  load w (new_files "/src") None "main.s" = Ok (f, s) /\
  lex_input (new_input (sf_id f) (sf_contents f)) = Ok toks /\ grouped toks [l1; l2] /\
  asm_include (map t_type l1) "lib/one.s" /\ asm_include (map t_type l2) "lib/one.s" /\
  refers w T (sf_name f) "lib/one.s" g /\
  lex_input (new_input (sf_id g) (sf_contents g)) = Ok toks2 /\ parse toks2 = Ok (mkStatements [] [SInstr Nop]) /\
  replace_includes 5 w (sf_name f) s toks = Ok (out, T) /\ out = toks2 ++ toks2 /\
  parse out = Ok (mkStatements [] [SInstr Nop]).
Proof.
  set (m := (".include " ++ q "lib/one.s" ++ NL ++ ".include " ++ q "lib/one.s")%string).
  exists (world m "nop" ""), (mkFile 0 "/src/main.s" m), (mkFile 1 "/src/lib/one.s" "nop"),
    (mkFiles "/src" [mkFile 0 "/src/main.s" m]), (mkFiles "/src" [mkFile 0 "/src/main.s" m; mkFile 1 "/src/lib/one.s" "nop"]),
    (toks_of 0 m), (toks_of 1 "nop"), (toks_of 1 "nop" ++ toks_of 1 "nop"), (nth 0 (lines (toks_of 0 m)) []), (nth 1 (lines (toks_of 0 m)) []).
  split; [vm_compute; reflexivity|]. split; [vm_compute; reflexivity|]. split; [apply lines_iff; vm_compute; reflexivity|].
  split. { apply ai_plain, ends_split. exists []. split; [vm_compute; reflexivity|]. split; [now left|]. cbn. intuition discriminate. }
  split. { apply ai_plain, ends_split. exists [TEOF]. split; [vm_compute; reflexivity|]. split; [right; eauto|]. cbn. intuition discriminate. }
  split. { exists "/src/lib/one.s". split; [exists "/src/lib/one.s"; split; apply (path_some_iff _ (new_files "")); vm_compute; reflexivity|].
    split; [right; now left|apply sp_refl]. }
  repeat (split; [vm_compute; reflexivity|]). vm_compute. reflexivity.
Qed.
Print Assumptions C31_statements_refuted.

(** * C51: relative paths *)

(** In a file with an absolute name, a relative path means the file in the same directory, if there is one. *)
Theorem C51_beside : forall w d n p m, is_absolute (d ++ "/" ++ n) = true -> file_name n -> is_dir w (d ++ "/" ++ n) = false ->
  is_absolute p = false -> (forall c, same_path c (d ++ "/" ++ p) -> is_file w c = true) ->
  meant w (d ++ "/" ++ n) p m -> same_path m (d ++ "/" ++ p).
Proof.
  intros w d n p m A N D P F (c & F1 & F2).
  assert (C: same_path c (d ++ "/" ++ p) /\ is_absolute c = true).
  { inversion F1 as [X|c0 X B O|c0 X B O1 O2]; subst.
    - congruence.
    - eapply beside_text; eauto.
    - destruct (beside_text _ _ _ _ _ A N D P B) as [S _]. rewrite (F _ S) in O1. discriminate. }
  destruct C as [C1 C2]. inversion F2 as [X|c0 X B O|c0 X B O1 O2]; subst; congruence || exact C1.
Qed.
Print Assumptions C51_beside.

(** If it is neither there nor in the working directory, the error names the path in the directory of the
    including file; if it is only in the working directory, that one is taken, as long as the path again
    does not name a file beside the including file. *)
Theorem C51_elsewhere : forall w d n p, is_absolute (d ++ "/" ++ n) = true -> file_name n -> is_dir w (d ++ "/" ++ n) = false ->
  is_absolute p = false -> (forall c, same_path c (d ++ "/" ++ p) -> is_file w c = false) -> forall m,
  meant w (d ++ "/" ++ n) p m -> (is_file w p = true -> m = p) /\ (is_file w p = false -> same_path m (d ++ "/" ++ p)).
Proof.
  intros w d n p A N D P F m (c & F1 & F2).
  inversion F1 as [X|c0 X B O|c0 X B O1 O2]; subst; [congruence| |].
  - destruct (beside_text _ _ _ _ _ A N D P B) as [S AC]. destruct O as [O|O]; [rewrite (F _ S) in O; discriminate|].
    split; [congruence|]. intros _. inversion F2 as [Y|c1 Y B2 O3|c1 Y B2 O3 O4]; subst; congruence || exact S.
  - split; [|congruence]. intros _. inversion F2 as [Y|c1 Y B2 O3|c1 Y B2 O3 O4]; subst; [congruence| |reflexivity].
    destruct (beside_text _ _ _ _ _ A N D P B2) as [S AC]. rewrite (F _ S) in O3. destruct O3; congruence.
Qed.
Print Assumptions C51_elsewhere.

Example C51_case :
  is_absolute ("/src" ++ "/" ++ "main.s") = true /\ file_name "main.s" /\ is_dir ws2 ("/src" ++ "/" ++ "main.s") = false /\
  is_absolute "lib/two.s" = false /\ (forall c, same_path c ("/src" ++ "/" ++ "lib/two.s") -> is_file ws2 c = true) /\
  meant ws2 ("/src" ++ "/" ++ "main.s") "lib/two.s" "/src/lib/two.s" /\
  (forall c, same_path c ("/src" ++ "/" ++ "two.s") -> is_file ws2 c = false) /\
  meant ws2 ("/src" ++ "/" ++ "main.s") "two.s" "/src/two.s".
Proof.
  split; [reflexivity|]. split; [unfold file_name; cbn; repeat split; discriminate|]. split; [reflexivity|]. split; [reflexivity|].
  split. { intros c S. now apply path_eqb_same. }
  split. { exists "/src/lib/two.s". split; apply (path_some_iff ws2 ss2); vm_compute; reflexivity. }
  split. { intros c S. cbn [is_file ws2]. destruct (path_eqb c "/src/lib/two.s") eqn:E; [|reflexivity]. apply path_eqb_eq in E.
    apply same_components in S. rewrite E in S. vm_compute in S. discriminate. }
  exists "/src/two.s". split; apply (path_some_iff ws2 ss2); vm_compute; reflexivity.
Qed.

(** In a file with a relative name, which happens when it was itself found in the working directory, the
    path is resolved twice, so that a file one level down goes before the one beside the including file. *)
Theorem C51_beside_refuted : exists w d n p m, file_name n /\ is_dir w (d ++ "/" ++ n) = false /\ is_absolute p = false /\
  (forall c, same_path c (d ++ "/" ++ p) -> is_file w c = true) /\
  meant w (d ++ "/" ++ n) p m /\ ~ same_path m (d ++ "/" ++ p).
Proof.
  exists (mkFs (fun p => existsb (path_eqb p) ["lib/one.s"; "lib/two.s"; "lib/lib/two.s"]) (fun _ => false) (fun _ => None)),
    "lib", "one.s", "two.s", "lib/lib/two.s".
  split; [unfold file_name; cbn; repeat split; discriminate|]. split; [reflexivity|]. split; [reflexivity|].
  split. { intros c S. cbn [is_file existsb]. apply path_eqb_same in S. change ("lib" ++ "/" ++ "two.s")%string with "lib/two.s" in S. rewrite S. apply orb_true_iff. right. reflexivity. }
  split. { exists "lib/two.s". split; apply (path_some_iff _ (new_files "")); vm_compute; reflexivity. }
  intros S. apply same_components in S. vm_compute in S. discriminate.
Qed.
Print Assumptions C51_beside_refuted.
