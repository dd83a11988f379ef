(** Replacing includes keeps the lines of every file in place. *)
From Coq Require Import ZArith List String Ascii Bool Arith Lia.
From Verif Require Import Base Expr Ast Lexer Parser Files CHeader Include.
From Verif Require Import SpecParse SpecLine SpecFiles SpecInclude ParseProofs LineProofs LineProofs2 LineProofs3 FilesProofs.
Import ListNotations.
Open Scope string_scope.
Open Scope list_scope.

(** * Paths *)

Lemma path_some_iff w s root p q : path_of w s (Some root) p = Ok q <-> found w root p q.
Proof.
  unfold path_of. split.
  - destruct (is_absolute p) eqn:A; cbn [bind].
    + intros H. assert (q = p) as -> by (destruct (is_file w p || negb (is_file w p))%bool; injection H; auto).
      now apply fd_absolute.
    + intros H. set (c := if is_dir w root then Ok (join root p) else match parent root with None => Panic | Some d => Ok (join d p) end) in H.
      destruct c as [c0| | |] eqn:C; try discriminate. cbn [bind] in H.
      assert (B: beside w root p c0).
      { subst c. unfold beside. destruct (is_dir w root); [injection C as <-; left; auto|].
        destruct (parent root) as [d|]; [|discriminate]. injection C as <-. right. eauto. }
      destruct (is_file w c0) eqn:F1; cbn [orb] in H; [injection H as <-; eapply fd_beside; eauto|].
      destruct (is_file w p) eqn:F2; cbn [negb] in H; injection H as <-.
      * eapply fd_elsewhere; eauto.
      * eapply fd_beside; eauto.
  - intros [A|c A B F|c A B F1 F2]; rewrite A; cbn [bind].
    + destruct (is_file w p || negb (is_file w p))%bool; reflexivity.
    + destruct B as [[D ->]|[D (d & P & ->)]]; rewrite D, ?P; cbn [bind];
        (destruct F as [F|F]; rewrite F; [|cbn [negb]; rewrite orb_true_r]; reflexivity).
    + destruct B as [[D ->]|[D (d & P & ->)]]; rewrite D, ?P; cbn [bind]; rewrite F1, F2; reflexivity.
Qed.

Lemma path_some_any w s t root p : path_of w s (Some root) p = path_of w t (Some root) p.
Proof. reflexivity. Qed.

(** * The table of files *)

Lemma grows_trans a b c : grows a b -> grows b c -> grows a c.
Proof. intros [D1 G1] [D2 G2]. split; [congruence|auto]. Qed.

Lemma grows_in s t f : grows s t -> In f (sf_list s) -> In f (sf_list t).
Proof. intros [_ G] I. apply In_nth_error in I as (i & N). eapply nth_error_In, G, N. Qed.

Lemma load_disk w s root name f s1 : well_kept s -> as_on_disk w s -> load w s root name = Ok (f, s1) ->
  as_on_disk w s1 /\ In f (sf_list s1).
Proof.
  intros W D H. destruct (load_inv _ _ _ _ _ _ W H) as (p & _ & _ & _ & N & _ & [->|(E & R & NM & _)]).
  - split; [exact D|eapply nth_error_In, N].
  - split; [|eapply nth_error_In, N]. intros g I. rewrite E in I. apply in_app_or in I as [I|[<-|[]]]; [auto|now rewrite NM].
Qed.

(** What is there is found again, whatever has been added. *)
Lemma load_later w s root name f s1 t : well_kept s -> well_kept t -> load w s (Some root) name = Ok (f, s1) -> grows s1 t ->
  load w t (Some root) name = Ok (f, t).
Proof.
  intros W1 W2 H [_ G]. destruct (load_inv _ _ _ _ _ _ W1 H) as (p & P & _ & E & N & _).
  apply load_again with (p := p); auto.
Qed.

(** * One line *)

Lemma directive_cases ts : 
  (exists stmt r, parse_directive ts = Ok (Some stmt, r) /\ exists front d, ts = front ++ r /\ stmt = SDirective d /\ directive_of front d) \/
  (forall front d, ends ts front -> ~ directive_of front d).
Proof.
  destruct (parse_directive ts) as [[[stmt|] r]| | |] eqn:E.
  - left. exists stmt, r. split; [reflexivity|]. apply directive_sound in E as (front & d & A & B & C). eauto 6.
  - right. intros front d N D. apply ends_split in N as (rest & -> & F & _). rewrite (directive_complete _ _ _ D F) in E. discriminate.
  - right. intros front d N D. apply ends_split in N as (rest & -> & F & _). rewrite (directive_complete _ _ _ D F) in E. discriminate.
  - right. intros front d N D. apply ends_split in N as (rest & -> & F & _). rewrite (directive_complete _ _ _ D F) in E. discriminate.
  - right. intros front d N D. apply ends_split in N as (rest & -> & F & _). rewrite (directive_complete _ _ _ D F) in E. discriminate.
Qed.

Lemma asm_include_directive ts p : asm_include ts p -> exists front, ends ts front /\ directive_of front (DInclude IncAsm p).
Proof.
  intros [ts' q E|ts' q E]; eexists; (split; [exact E|]); [apply d_include|apply d_include_typed; cbn; auto].
Qed.

Lemma header_parses ts p : header_include ts p -> exists r, parse_directive ts = Ok (Some (SDirective (DInclude IncCHeader p)), r).
Proof. intros [q rest]. exists rest. reflexivity. Qed.

Lemma rename_renamed p q line : Forall2 (renamed p q) line (rename_strings p q line).
Proof.
  induction line as [|[ty sp] line IH]; cbn; constructor; [|exact IH].
  destruct ty; try (apply rn_other; discriminate). destruct (String.eqb_spec text p) as [->|N]; [apply rn_path|].
  apply rn_other. cbn. congruence.
Qed.

Lemma fin_not_eof r front : is_empty r = true -> ~ In TEOF front -> ends (front ++ r) front.
Proof. intros E N. apply ends_split. exists r. split; [reflexivity|]. split; [now apply is_empty_fin|exact N]. Qed.

Definition rec_type := string -> source_files -> list token -> outcome (list token * source_files).

(** What one line contributes. *)
Inductive contributes (rec : rec_type) (w : fs) (name : string) (s : source_files) (line : list token) :
  list token -> source_files -> Prop :=
| ct_asm : forall p q f s2 toks new s3, asm_include (map t_type line) p -> found w name p q ->
    load w s (Some name) q = Ok (f, s2) -> lex_input (new_input (sf_id f) (sf_contents f)) = Ok toks ->
    rec (sf_name f) s2 toks = Ok (new, s3) -> contributes rec w name s line new s3
| ct_header : forall p q f s2 toks, header_include (map t_type line) p -> found w name p q ->
    load w s (Some name) q = Ok (f, s2) -> header_lex (new_input (sf_id f) (sf_contents f)) = Ok toks ->
    contributes rec w name s line toks s2
| ct_data : forall p q, data_include (map t_type line) p -> found w name p q ->
    contributes rec w name s line (rename_strings p q line) s
| ct_line : (forall p, ~ asm_include (map t_type line) p) -> (forall p, ~ header_include (map t_type line) p) ->
    (forall front t p, ends (map t_type line) front -> ~ directive_of front (DInclude t p)) ->
    contributes rec w name s line line s.

Lemma parse_keeps front d r ts s : parse_directive ts = Ok (Some s, r) -> ends ts front -> directive_of front d -> s = SDirective d.
Proof.
  intros E N D. apply ends_split in N as (rest & -> & F & _). rewrite (directive_complete _ _ _ D F) in E. injection E as <- _. reflexivity.
Qed.

Lemma include_line_inv rec w name s line out s2 : include_line rec w name s line = Ok (out, s2) ->
  contributes rec w name s line out s2.
Proof.
  unfold include_line, stream_of. intros H.
  destruct (parse_directive (map t_type line)) as [[[stmt|] r]| | |] eqn:E; try discriminate.
  - assert (X := directive_sound _ _ _ E). destruct X as (front & d & A & -> & D).
    assert (KEEP: (forall t p, d <> DInclude t p) -> contributes rec w name s line line s).
    { intros N. apply ct_line.
      - intros p I. apply asm_include_directive in I as (fr & EN & DI). assert (Q := parse_keeps _ _ _ _ _ E EN DI). injection Q as ->. eapply N; eauto.
      - intros p I. apply header_parses in I as (r2 & Q). rewrite E in Q. injection Q as -> _. eapply N; eauto.
      - intros fr t p EN DI. assert (Q := parse_keeps _ _ _ _ _ E EN DI). injection Q as ->. eapply N; eauto. }
    destruct d as [l|z|l|z l|z l|t p|a b]; cbn [fixup_paths bind] in H;
      try (injection H as <- <-; apply KEEP; intros; discriminate).
    destruct (path_of w s (Some name) p) as [q| | |] eqn:P; try discriminate. cbn [bind] in H. apply path_some_iff in P.
    assert (DATA: data_kind t -> contributes rec w name s line (rename_strings p q line) s).
    { intros K. apply ct_data with (p := p); auto. rewrite A. econstructor; eauto. }
    destruct t as [| | |speed eye|k h].
    + destruct (load w s (Some name) q) as [[f s3]| | |] eqn:L; try discriminate. cbn [bind] in H.
      destruct (lex_input _) as [toks| | |] eqn:LX; try discriminate. cbn [bind] in H.
      destruct (rec (sf_name f) s3 toks) as [[new s4]| | |] eqn:R; try discriminate. cbn [bind] in H.
      destruct (is_empty r) eqn:EM; cbn [negb] in H; [injection H as <- <-|destruct (next r) as [[? ?]| | |]; discriminate].
      eapply ct_asm; eauto. rewrite A. inversion D as [| | | | | |s0|w0 t0 s0 I| |]; subst.
      * apply ai_plain. apply fin_not_eof; [exact EM|]. cbn. intros Q. repeat destruct Q as [Q|Q]; try discriminate; exact Q.
      * cbn in I. destruct I as [I|[I|[I|[]]]]; injection I as <-; try discriminate.
        apply ai_typed. apply fin_not_eof; [exact EM|]. cbn. intros Q. repeat destruct Q as [Q|Q]; try discriminate; exact Q.
    + injection H as <- <-. apply DATA. split; discriminate.
    + destruct (load w s (Some name) q) as [[f s3]| | |] eqn:L; try discriminate. cbn [bind] in H.
      destruct (header_lex _) as [toks| | |] eqn:LX; try discriminate. cbn [bind] in H. injection H as <- <-.
      eapply ct_header; eauto. rewrite A. inversion D as [| | | | | | |w0 t0 s0 I| |]; subst.
      cbn in I. destruct I as [I|[I|[I|[]]]]; injection I as <-; try discriminate. cbn [app]. constructor.
    + injection H as <- <-. apply DATA. split; discriminate.
    + injection H as <- <-. apply DATA. split; discriminate.
  - injection H as <- <-. apply ct_line.
    + intros p I. apply asm_include_directive in I as (fr & EN & DI). apply ends_split in EN as (rest & EQ & F & _).
      rewrite EQ, (directive_complete _ _ _ DI F) in E. discriminate.
    + intros p I. apply header_parses in I as (r2 & Q). rewrite E in Q. discriminate.
    + intros fr t p EN DI. apply ends_split in EN as (rest & EQ & F & _). rewrite EQ, (directive_complete _ _ _ DI F) in E. discriminate.
  - injection H as <- <-. apply ct_line.
    + intros p I. apply asm_include_directive in I as (fr & EN & DI). apply ends_split in EN as (rest & EQ & F & _).
      rewrite EQ, (directive_complete _ _ _ DI F) in E. discriminate.
    + intros p I. apply header_parses in I as (r2 & Q). rewrite E in Q. discriminate.
    + intros fr t p EN DI. apply ends_split in EN as (rest & EQ & F & _). rewrite EQ, (directive_complete _ _ _ DI F) in E. discriminate.
Qed.

(** * The state only grows *)

Definition keeps (w : fs) (rec : rec_type) : Prop := forall name s toks out s2, well_kept s -> as_on_disk w s ->
  rec name s toks = Ok (out, s2) -> well_kept s2 /\ as_on_disk w s2 /\ grows s s2.

Lemma line_keeps w rec name s line out s2 : keeps w rec -> well_kept s -> as_on_disk w s ->
  include_line rec w name s line = Ok (out, s2) -> well_kept s2 /\ as_on_disk w s2 /\ grows s s2.
Proof.
  intros K W D H. apply include_line_inv in H. destruct H as [p q f s3 toks new s4 I F L LX R|p q f s3 toks I F L LX|p q I F|].
  - destruct (load_inv _ _ _ _ _ _ W L) as (p1 & _ & W1 & _). destruct (load_disk _ _ _ _ _ _ W D L) as [D1 _].
    destruct (K _ _ _ _ _ W1 D1 R) as (W2 & D2 & G2). split; [exact W2|]. split; [exact D2|].
    eapply grows_trans; [eapply load_grows; eauto|exact G2].
  - destruct (load_inv _ _ _ _ _ _ W L) as (p1 & _ & W1 & _). destruct (load_disk _ _ _ _ _ _ W D L) as [D1 _].
    split; [exact W1|]. split; [exact D1|]. eapply load_grows; eauto.
  - split; [exact W|]. split; [exact D|apply grows_refl].
  - split; [exact W|]. split; [exact D|apply grows_refl].
Qed.

Lemma lines_keeps w rec name : keeps w rec -> forall ls s out s2, well_kept s -> as_on_disk w s ->
  include_lines rec w name s ls = Ok (out, s2) -> well_kept s2 /\ as_on_disk w s2 /\ grows s s2.
Proof.
  intros K. induction ls as [|l ls IH]; intros s out s2 W D H; cbn [include_lines] in H.
  - injection H as <- <-. split; [exact W|]. split; [exact D|apply grows_refl].
  - destruct (include_line rec w name s l) as [[a s1]| | |] eqn:E; try discriminate. cbn [bind] in H.
    destruct (include_lines rec w name s1 ls) as [[b s3]| | |] eqn:E2; try discriminate. cbn [bind] in H. injection H as <- <-.
    destruct (line_keeps _ _ _ _ _ _ _ K W D E) as (W1 & D1 & G1). destruct (IH _ _ _ W1 D1 E2) as (W2 & D2 & G2).
    split; [exact W2|]. split; [exact D2|]. eapply grows_trans; eauto.
Qed.

Lemma includes_keeps w : forall fuel, keeps w (replace_includes fuel w).
Proof.
  induction fuel as [|fuel IH]; intros name s toks out s2 W D H; cbn [replace_includes] in H; [discriminate|].
  eapply lines_keeps; eauto.
Qed.

(** * Expansion *)

Definition follows (w : fs) (rec : rec_type) : Prop := forall name s toks out s2 T, well_kept s -> as_on_disk w s ->
  rec name s toks = Ok (out, s2) -> grows s2 T -> exists L, out = List.concat L /\ expands w T name (lines toks) L.

Lemma grouped_concat : forall toks ls, grouped toks ls -> toks = List.concat ls.
Proof. induction 1 as [|t same rest groups F N G IH]; [reflexivity|]. cbn. now rewrite <- IH. Qed.

Lemma load_refers w s name p q f s2 T : well_kept s -> found w name p q -> load w s (Some name) q = Ok (f, s2) -> grows s2 T ->
  refers w T name p f.
Proof.
  intros W F L G. destruct (load_inv _ _ _ _ _ _ W L) as (m & P & _ & E & N & _). exists m. split.
  - exists q. split; [exact F|]. now apply path_some_iff in P.
  - split; [eapply grows_in; [exact G|]; eapply nth_error_In, N|]. now apply path_eqb_same.
Qed.

Lemma lines_follow w rec name : keeps w rec -> follows w rec -> forall ls s out s2 T, well_kept s -> as_on_disk w s ->
  include_lines rec w name s ls = Ok (out, s2) -> grows s2 T -> exists L, out = List.concat L /\ expands w T name ls L.
Proof.
  intros K FO. induction ls as [|l ls IH]; intros s out s2 T W D H G; cbn [include_lines] in H.
  - injection H as <- <-. exists []. split; [reflexivity|constructor].
  - destruct (include_line rec w name s l) as [[a s1]| | |] eqn:E; try discriminate. cbn [bind] in H.
    destruct (include_lines rec w name s1 ls) as [[b s3]| | |] eqn:E2; try discriminate. cbn [bind] in H. injection H as <- <-.
    destruct (line_keeps _ _ _ _ _ _ _ K W D E) as (W1 & D1 & G1).
    destruct (lines_keeps _ _ _ K _ _ _ _ W1 D1 E2) as (W2 & D2 & G2).
    destruct (IH _ _ _ _ W1 D1 E2 G) as (more & -> & XM).
    apply include_line_inv in E. destruct E as [p q f s4 toks new s5 I F L LX R|p q f s4 toks I F L LX|p q I F|N1 N2 N3].
    + destruct (load_inv _ _ _ _ _ _ W L) as (p1 & _ & W4 & _). destruct (load_disk _ _ _ _ _ _ W D L) as [D4 _].
      destruct (K _ _ _ _ _ W4 D4 R) as (W5 & D5 & G5).
      destruct (FO _ _ _ _ _ T W4 D4 R) as (inner & -> & XI); [eapply grows_trans; eauto|].
      exists (inner ++ more). split; [now rewrite concat_app|]. eapply ex_asm; eauto; [|apply lines_grouped].
      eapply load_refers; [exact W|exact F|exact L|]. eapply grows_trans; [exact G5|]. eapply grows_trans; eauto.
    + exists (lines toks ++ more). split.
      { rewrite concat_app. f_equal. apply grouped_concat, lines_grouped. }
      eapply ex_header; eauto; [|apply lines_grouped]. eapply load_refers; [exact W|exact F|exact L|]. eapply grows_trans; eauto.
    + exists (rename_strings p q l :: more). split; [reflexivity|]. eapply ex_data; eauto. apply rename_renamed.
    + exists (l :: more). split; [reflexivity|]. now apply ex_line.
Qed.

Lemma includes_follow w : forall fuel, follows w (replace_includes fuel w).
Proof.
  induction fuel as [|fuel IH]; intros name s toks out s2 T W D H G; cbn [replace_includes] in H; [discriminate|].
  eapply lines_follow; eauto. apply includes_keeps.
Qed.

(** * Once more *)

Definition repeats (w : fs) (rec : rec_type) : Prop := forall name s toks out s2 t, well_kept s -> as_on_disk w s ->
  rec name s toks = Ok (out, s2) -> well_kept t -> grows s2 t -> rec name t toks = Ok (out, t).

Lemma contributes_line_eq rec w name s line s2 out : include_line rec w name s line = Ok (out, s2) -> keeps w rec -> repeats w rec ->
  well_kept s -> as_on_disk w s -> forall t, well_kept t -> grows s2 t -> include_line rec w name t line = Ok (out, t).
Proof.
  unfold include_line. intros H K RP W D t WT G.
  destruct (parse_directive (stream_of line)) as [[[stmt|] r]| | |] eqn:E; try discriminate.
  - assert (X := directive_sound _ _ _ E). destruct X as (front & d & A & -> & DD).
    destruct d as [l|z|l|z l|z l|ty p|a b]; cbn [fixup_paths bind] in H |- *; try (injection H as <- <-; reflexivity).
    rewrite (path_some_any w t s). destruct (path_of w s (Some name) p) as [q| | |] eqn:P; try discriminate. cbn [bind] in H |- *.
    destruct ty as [| | |speed eye|k h]; try (injection H as <- <-; reflexivity).
    + destruct (load w s (Some name) q) as [[f s3]| | |] eqn:L; try discriminate. cbn [bind] in H.
      destruct (lex_input _) as [toks| | |] eqn:LX; try discriminate. cbn [bind] in H.
      destruct (rec (sf_name f) s3 toks) as [[new s4]| | |] eqn:R; try discriminate. cbn [bind] in H.
      destruct (is_empty r) eqn:EM; cbn [negb] in H; [injection H as <- <-|destruct (next r) as [[? ?]| | |]; discriminate].
      destruct (load_inv _ _ _ _ _ _ W L) as (p1 & _ & W3 & _). destruct (load_disk _ _ _ _ _ _ W D L) as [D3 _].
      destruct (K _ _ _ _ _ W3 D3 R) as (W4 & D4 & G4).
      rewrite (load_later _ _ _ _ _ _ t W WT L) by (eapply grows_trans; eauto). cbn [bind]. rewrite LX. cbn [bind].
      rewrite (RP _ _ _ _ _ t W3 D3 R WT G). reflexivity.
    + destruct (load w s (Some name) q) as [[f s3]| | |] eqn:L; try discriminate. cbn [bind] in H.
      destruct (header_lex _) as [toks| | |] eqn:LX; try discriminate. cbn [bind] in H. injection H as <- <-.
      rewrite (load_later _ _ _ _ _ _ t W WT L G). cbn [bind]. rewrite LX. reflexivity.
  - injection H as <- <-. reflexivity.
  - injection H as <- <-. reflexivity.
Qed.

Lemma lines_repeat w rec name : keeps w rec -> repeats w rec -> forall ls s out s2 t, well_kept s -> as_on_disk w s ->
  include_lines rec w name s ls = Ok (out, s2) -> well_kept t -> grows s2 t -> include_lines rec w name t ls = Ok (out, t).
Proof.
  intros K RP. induction ls as [|l ls IH]; intros s out s2 t W D H WT G; cbn [include_lines] in H |- *.
  - injection H as <- <-. reflexivity.
  - destruct (include_line rec w name s l) as [[a s1]| | |] eqn:E; try discriminate. cbn [bind] in H.
    destruct (include_lines rec w name s1 ls) as [[b s3]| | |] eqn:E2; try discriminate. cbn [bind] in H. injection H as <- <-.
    destruct (line_keeps _ _ _ _ _ _ _ K W D E) as (W1 & D1 & G1).
    destruct (lines_keeps _ _ _ K _ _ _ _ W1 D1 E2) as (W2 & D2 & G2).
    rewrite (contributes_line_eq _ _ _ _ _ _ _ E K RP W D t WT) by (eapply grows_trans; eauto). cbn [bind].
    rewrite (IH _ _ _ t W1 D1 E2 WT G). reflexivity.
Qed.

Lemma includes_repeat w : forall fuel, repeats w (replace_includes fuel w).
Proof.
  induction fuel as [|fuel IH]; intros name s toks out s2 t W D H WT G; cbn [replace_includes] in H |- *; [discriminate|].
  apply lines_repeat with (s := s) (s2 := s2); auto. apply includes_keeps.
Qed.

(** * Fuel *)

Definition no_less (r1 r2 : rec_type) : Prop := forall name s toks, r1 name s toks <> Diverge -> r2 name s toks = r1 name s toks.

Lemma include_line_fuel r1 r2 w name s line : no_less r1 r2 -> include_line r1 w name s line <> Diverge ->
  include_line r2 w name s line = include_line r1 w name s line.
Proof.
  intros N H. unfold include_line in *. destruct (parse_directive (stream_of line)) as [[[stmt|] r]| | |]; auto.
  destruct (fixup_paths w s (Some name) stmt) as [fixed| | |]; auto. cbn [bind] in *.
  destruct fixed; auto. destruct d; auto. destruct t; auto.
  destruct (load w s (Some name) path) as [[f s2]| | |]; auto. cbn [bind] in *.
  destruct (lex_input _) as [toks| | |]; auto. cbn [bind] in *.
  destruct (r1 (sf_name f) s2 toks) as [[new s3]| | |] eqn:R1; try (rewrite N; rewrite R1; congruence). now destruct H.
Qed.

Lemma include_lines_fuel r1 r2 w name : no_less r1 r2 -> forall ls s, include_lines r1 w name s ls <> Diverge ->
  include_lines r2 w name s ls = include_lines r1 w name s ls.
Proof.
  intros N. induction ls as [|l ls IH]; intros s H; cbn [include_lines] in *; [reflexivity|].
  assert (Q: include_line r1 w name s l <> Diverge) by (intros Q; rewrite Q in H; now apply H).
  rewrite (include_line_fuel _ _ _ _ _ _ N Q). destruct (include_line r1 w name s l) as [[a s2]| | |]; auto. cbn [bind] in *.
  rewrite IH; [reflexivity|]. intros Q2. rewrite Q2 in H. now apply H.
Qed.

Lemma includes_fuel_step w : forall fuel, no_less (replace_includes fuel w) (replace_includes (S fuel) w).
Proof.
  induction fuel as [|fuel IH]; intros name s toks H; [now destruct H|].
  change (replace_includes (S (S fuel)) w name s toks) with (include_lines (replace_includes (S fuel) w) w name s (lines toks)).
  apply include_lines_fuel; [exact IH|exact H].
Qed.

Lemma includes_fuel w name s toks : forall n m, replace_includes n w name s toks <> Diverge -> (n <= m)%nat ->
  replace_includes m w name s toks = replace_includes n w name s toks.
Proof.
  intros n m H L. induction L as [|m L IH]; [reflexivity|]. rewrite <- IH. apply includes_fuel_step. now rewrite IH.
Qed.
