(** Proofs for C43: the printed program assembles as the original one. *)
From Coq Require Import ZArith List String Ascii Bool Arith Lia.
From Verif Require Import Base Expr Instr Ast Macro Asm Lexer Parser Printer Files CHeader Img Include.
From Verif Require Import SpecParse SpecLine SpecFiles SpecInclude SpecPrint ParseProofs LineProofs LineProofs2 LineProofs3.
From Verif Require Import FilesProofs IncludeProofs IncludeProofs2 IncludeProofs3 PrintProofs4.
Import ListNotations.
Open Scope string_scope.
Open Scope list_scope.

Local Notation keep := (fun s => negb (is_comment s)).

(** * Comments do not matter *)

Lemma label_filter pr : forall l st, label_loop pr (filter keep l) st = label_loop pr l st.
Proof.
  induction l as [|s l IH]; intros st; [reflexivity|]. destruct (is_comment s) eqn:C.
  - destruct s; try discriminate. cbn [filter is_comment negb label_loop label_step bind]. apply IH.
  - cbn [filter]. rewrite C. cbn [negb label_loop]. destruct (label_step pr s st) as [x| | |]; cbn [bind]; try reflexivity. apply IH.
Qed.

Lemma name_max pr s st st2 : name_step pr s st = Ok st2 -> (n_pos st2 <= n_max st2)%Z.
Proof.
  unfold name_step. destruct (match s with SDirective _ => _ | _ => _ end) as [x| | |]; cbn [bind]; try discriminate.
  intros E. injection E as <-. cbn. destruct (Z.ltb_spec (n_max x) (n_pos x)); lia.
Qed.

Lemma name_filter pr : forall l st, (n_pos st <= n_max st)%Z -> name_loop pr (filter keep l) st = name_loop pr l st.
Proof.
  induction l as [|s l IH]; intros st H; [reflexivity|]. destruct (is_comment s) eqn:C.
  - destruct s; try discriminate. cbn [filter is_comment negb name_loop]. rewrite IH by exact H.
    unfold name_step. cbn [bind]. destruct st as [g p m]. cbn [n_globals n_pos n_max] in H |- *.
    destruct (Z.ltb_spec m p); [lia|reflexivity].
  - cbn [filter]. rewrite C. cbn [negb name_loop]. destruct (name_step pr s st) as [x| | |] eqn:E; cbn [bind]; try reflexivity.
    apply IH. eapply name_max; eauto.
Qed.

Lemma gen_filter pr ns : forall l st, gen_loop pr ns (filter keep l) st = gen_loop pr ns l st.
Proof.
  induction l as [|s l IH]; intros st; [reflexivity|]. destruct (is_comment s) eqn:C.
  - destruct s; try discriminate. cbn [filter is_comment negb gen_loop gen_step bind]. apply IH.
  - cbn [filter]. rewrite C. cbn [negb gen_loop]. destruct (gen_step pr ns s st) as [x| | |]; cbn [bind]; try reflexivity. apply IH.
Qed.

Theorem assemble_filter pr l : assemble pr (filter keep l) = assemble pr l.
Proof.
  unfold assemble, compute_names, compute_labels, generate_bytes. rewrite label_filter.
  destruct (label_loop pr l _) as [x| | |]; cbn [bind]; try reflexivity. rewrite name_filter by (cbn; lia).
  destruct (name_loop pr l _) as [y| | |]; cbn [bind]; try reflexivity. destruct (chk32 pr _) as [m| | |]; cbn [bind]; try reflexivity.
  destruct (chk_usize pr _) as [n| | |]; cbn [bind]; try reflexivity. destruct (zero_vec n) as [o| | |]; cbn [bind]; try reflexivity.
  now rewrite gen_filter.
Qed.

(** * Programs without calls and includes *)

Definition is_call (s : statement) : bool := match s with SMacroCall _ _ => true | _ => false end.
Definition is_include (s : statement) : bool := match s with SDirective (DInclude _ _) => true | _ => false end.

Lemma expand_none uuid fuel ms : forall l n, forallb (fun s => negb (is_call s)) l = true -> expand_list uuid fuel ms n l = Ok (l, n).
Proof.
  induction l as [|s l IH]; intros n H; [reflexivity|]. cbn in H. apply andb_true_iff in H as [H1 H2].
  destruct s; try discriminate; cbn [expand_list]; now rewrite IH.
Qed.

Lemma byte_none pr w pics name s : forall l, forallb (fun s => negb (is_include s)) l = true -> byte_includes pr w pics name s l = Ok l.
Proof.
  induction l as [|x l IH]; intros H; [reflexivity|]. cbn in H. apply andb_true_iff in H as [H1 H2].
  cbn [byte_includes]. rewrite IH by exact H2.
  destruct x as [d| | | | | |]; try reflexivity. destruct d; try reflexivity. discriminate.
Qed.

(** Only lines that are parsed as include directives are replaced. *)
Lemma include_kept rec w name s l front ss :
  ends (map t_type l) front -> line front ss -> forallb (fun s => negb (is_include s)) ss = true ->
  include_line rec w name s l = Ok (l, s).
Proof.
  intros E L N. unfold include_line, stream_of. destruct (parse_directive (map t_type l)) as [[[stmt|] r]| | |] eqn:P.
  - assert (Q := directive_sound _ _ _ P). destruct Q as (fr & d & A & -> & D).
    destruct d as [x|x|x|x y|x y|t p|x y]; try reflexivity. exfalso.
    assert (H: exists u v, front = TName ".include" :: u :: v /\ u <> TColon /\ u <> TEquals).
    { assert (G: exists u v, map t_type l = TName ".include" :: u :: v /\ u <> TColon /\ u <> TEquals /\ u <> TEOF).
      { rewrite A. inversion D; subst; eexists _, _; (split; [cbn [app]; reflexivity|]); repeat split; discriminate. }
      destruct G as (u & v & G0 & G1 & G2 & G3). rewrite G0 in E. inversion E as [ts NE EQ1 EQ2|ts rest NE EQ1 EQ2]; subst.
      - exists u, v. auto.
      - destruct front as [|a [|b c]]; cbn [app] in EQ1; [discriminate| |].
        + injection EQ1 as _ EQ1 _. congruence.
        + injection EQ1 as -> -> _. exists u, c. auto. }
    destruct H as (u & v & -> & H1 & H2). inversion L as [|n|n ts0 s0 C|n DN NI|ts0 s0 C NE|ts0 d0 D0|n ts0 e X NI|n ts0 e X NI]; subst; try congruence.
    + destruct (command_shape _ _ C) as (n & r0 & EQ & ND & _). injection EQ as <- _. apply ND. eexists. reflexivity.
    + inversion D0; subst; discriminate.
    + apply NI. cbn. auto 10.
  - reflexivity.
  - reflexivity.
  - exfalso. destruct (fine_directive (map t_type l)) as [H1 H2]. congruence.
  - exfalso. destruct (fine_directive (map t_type l)) as [H1 H2]. congruence.
Qed.

Lemma by_name_nil defs : by_name defs = [] -> defs = [].
Proof. destruct defs; [reflexivity|discriminate]. Qed.

Lemma program_grows : forall d ls ss all, program d ls ss all -> (List.length d <= List.length all)%nat.
Proof. induction 1; cbn [List.length] in *; lia. Qed.

Lemma lines_kept rec w name s : forall d ls ss all, program d (map (map t_type) ls) ss all -> d = [] -> all = [] ->
  forallb (fun x => negb (is_include x)) ss = true -> include_lines rec w name s ls = Ok (List.concat ls, s).
Proof.
  intros d ls ss all P. remember (map (map t_type) ls) as tss eqn:EL. revert ls EL.
  induction P as [d|d ts front ss rest stmts all M E L P IH|d ts n params ls0 body close rest stmts all H ND B C P IH|d ts n params ls0 body H ND B];
    intros ls EL D A N.
  - destruct ls; [reflexivity|discriminate].
  - destruct ls as [|l ls]; [discriminate|]. cbn [map] in EL. injection EL as -> ->. rewrite forallb_app in N. apply andb_true_iff in N as [N1 N2].
    cbn [include_lines List.concat]. rewrite (include_kept rec w name s l front ss E L N1). cbn [bind]. rewrite (IH ls eq_refl D A N2). reflexivity.
  - apply program_grows in P. subst. cbn in P. lia.
  - discriminate.
Qed.

Lemma includes_none fuel w name s toks ss : parse toks = Ok (mkStatements [] ss) ->
  forallb (fun x => negb (is_include x)) ss = true -> replace_includes (S fuel) w name s toks = Ok (toks, s).
Proof.
  intros P N. apply parse_iff in P as (groups & defs & stmts & G & PR & E). injection E as E ->. symmetry in E. apply by_name_nil in E. subst defs.
  cbn [replace_includes]. rewrite (proj2 (lines_iff _ _) G), (lines_kept _ w name s _ _ _ _ PR eq_refl eq_refl N).
  now rewrite <- (grouped_concat _ _ G).
Qed.

Lemma load_first w wd name text : read_bytes w (join wd name) = Some text -> valid_utf8 text = true ->
  load w (new_files wd) None name = Ok (mkFile 0 (join wd name) text, mkFiles wd [mkFile 0 (join wd name) text]).
Proof.
  intros R U. unfold load, path_of. cbn [bind working_dir new_files]. unfold get_id. cbn [sf_list find_name].
  unfold load_file. rewrite R, U. reflexivity.
Qed.

(** Reading a text that parses to statements without calls and includes. *)
Theorem read_plain pr fuel w pics wd name text ss : is_absolute wd = true ->
  read_bytes w (join wd name) = Some text -> valid_utf8 text = true ->
  (exists toks, lex_input (new_input 0 text) = Ok toks /\ parse toks = Ok (mkStatements [] ss)) ->
  forallb (fun x => negb (is_include x)) ss = true ->
  read_statements pr (S fuel) w pics (new_files wd) name = Ok (mkStatements [] ss).
Proof.
  intros A R U (toks & LX & P) N. unfold read_statements. cbn [path_of bind working_dir new_files].
  assert (J: join wd (join wd name) = join wd name) by (unfold join at 1; now rewrite (absolute_join wd name A)).
  rewrite <- J in R. rewrite (load_first _ _ _ _ R U). cbn [bind sf_id sf_contents]. rewrite LX. cbn [bind].
  rewrite (includes_none _ _ _ _ _ _ P N). cbn [bind]. rewrite P. cbn [bind]. unfold replace_byte_includes.
  cbn [st_list st_macros]. now rewrite byte_none.
Qed.

Lemma printable_plain l : Forall printable_statement l ->
  forallb (fun x => negb (is_include x)) (filter keep l) = true /\ forallb (fun x => negb (is_call x)) (filter keep l) = true.
Proof.
  induction 1 as [|s l P F [IH1 IH2]]; [split; reflexivity|]. destruct s as [d|n|i|n e|n e|c|n args]; cbn [filter is_comment negb forallb is_include is_call];
    try (rewrite ?IH1, ?IH2; split; reflexivity); [|destruct P].
  destruct d; cbn [is_include]; rewrite ?IH1, ?IH2; try (split; reflexivity). destruct P.
Qed.

Theorem expand_same uuid uuid2 pr fuel fuel2 w v pics pics2 wd wd2 name name2 st ex :
  read_statements pr fuel w pics (new_files wd) name = Ok st -> expand_macros uuid fuel st = Ok ex ->
  Forall printable_statement (st_list ex) ->
  exists text, expand_file uuid pr fuel w pics (new_files wd) name = Ok text /\
    (is_absolute wd2 = true -> valid_utf8 text = true -> read_bytes v (join wd2 name2) = Some text ->
     assemble_file uuid2 pr (S fuel2) v pics2 (new_files wd2) name2 = assemble_file uuid pr fuel w pics (new_files wd) name).
Proof.
  intros R X F. exists (expand_output (st_list ex)). split.
  - unfold expand_file. rewrite R. cbn [bind]. rewrite X. reflexivity.
  - intros A U RB. unfold assemble_file. destruct (printable_plain _ F) as [N1 N2].
    rewrite (read_plain pr fuel2 v pics2 wd2 name2 _ _ A RB U (output_reads 0 _ F) N1), R. cbn [bind]. rewrite X. cbn [bind].
    unfold expand_macros. cbn [st_macros st_list]. rewrite (expand_none _ _ _ _ _ N2). cbn [bind st_list]. apply assemble_filter.
Qed.
