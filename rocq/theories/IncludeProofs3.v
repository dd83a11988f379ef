(** Files of tokens, one include, cycles, and paths beside a file. *)
From Coq Require Import ZArith List String Ascii Bool Arith Lia.
From Verif Require Import Base Expr Ast Lexer Parser Files CHeader Include SpecLex LexProofs LexProofs5.
From Verif Require Import SpecParse SpecLine SpecFiles SpecInclude ParseProofs LineProofs LineProofs2 LineProofs3 FilesProofs.
From Verif Require Import IncludeProofs IncludeProofs2.
Import ListNotations.
Open Scope string_scope.
Open Scope list_scope.

(** * Places of tokens *)

Lemma tokens_from : forall f ps before, Forall (from_file f) (tokens_of f before ps).
Proof. induction ps as [|p ps IH]; intros before; cbn [tokens_of]; constructor; try (split; reflexivity); auto. Qed.

Lemma lex_from f text toks : lex_input (new_input f text) = Ok toks -> Forall (from_file f) toks /\ toks <> [].
Proof.
  intros H. apply lex_ok_iff in H as (ps & tail & _ & _ & _ & ->). split; [apply tokens_from|]. destruct ps; discriminate.
Qed.

Lemma grouped_nonempty : forall toks L, grouped toks L -> Forall (fun l => l <> []) L.
Proof. induction 1; constructor; [discriminate|assumption]. Qed.

Lemma separate_tail l ls : separate (l :: ls) -> separate ls.
Proof. intros H. inversion H; subst; [constructor|assumption]. Qed.

(** Lines of different files do not run together. *)
Lemma separate_join f g : f <> g -> forall L1, separate L1 -> forall L2, separate L2 ->
  Forall (from_file f) (List.concat L1) -> Forall (from_file g) (List.concat L2) -> separate (L1 ++ L2).
Proof.
  intros N. induction 1 as [|t same F|t same u r ls F NS S IH]; intros L2 S2 A B.
  - exact S2.
  - destruct L2 as [|[|u r] L2]; cbn [app].
    + now constructor.
    + inversion S2.
    + apply se_more; [exact F| |exact S2]. cbn in A, B. inversion A as [|? ? A1 _]; subst. inversion B as [|? ? B1 _]; subst.
      intros [_ Q]. destruct A1 as [_ A1], B1 as [B1 _]. congruence.
  - cbn [app]. apply se_more; [exact F|exact NS|]. apply IH; auto. cbn in A. inversion A as [|? ? _ A2]; subst.
    apply Forall_app in A2 as [_ A2]. exact A2.
Qed.

Lemma separate_parts L1 l L2 : separate (L1 ++ l :: L2) -> separate L1 /\ separate L2.
Proof.
  induction L1 as [|x L1 IH]; intros H.
  - split; [constructor|]. eapply separate_tail, H.
  - cbn [app] in H. assert (T := separate_tail _ _ H). destruct (IH T) as [S1 S2]. split; [|exact S2].
    destruct L1 as [|y L1].
    + inversion H; subst. now constructor.
    + cbn [app] in H. inversion H; subst. now constructor.
Qed.

Lemma separate_around f g before after I :
  f <> g -> I <> [] -> separate before -> separate I -> separate after ->
  Forall (from_file f) (List.concat before) -> Forall (from_file g) (List.concat I) -> Forall (from_file f) (List.concat after) ->
  separate (before ++ I ++ after).
Proof.
  intros N NE S1 S2 S3 F1 F2 F3.
  assert (S23: separate (I ++ after)) by (apply separate_join with (f := g) (g := f); auto).
  clear S3 F3. destruct I as [|l I]; [congruence|]. clear NE.
  revert F1. induction S1 as [|t same F|t same u r ls F NS S IH]; intros F1.
  - exact S23.
  - cbn [app] in S23 |- *. destruct l as [|u r]; [inversion S2|]. apply se_more; [exact F| |exact S23].
    cbn in F1, F2. inversion F1 as [|? ? A1 _]; subst. inversion F2 as [|? ? B1 _]; subst.
    intros [_ Q]. destruct A1 as [_ A1], B1 as [B1 _]. congruence.
  - cbn [app]. apply se_more; [exact F|exact NS|]. apply IH. cbn in F1. inversion F1 as [|? ? _ A2]; subst.
    apply Forall_app in A2 as [_ A2]. exact A2.
Qed.

(** The file referred to is unique. *)
Lemma refers_unique w T name p f g q : well_kept T -> found w name p q -> (forall q2, found w name p q2 -> q2 = q) ->
  refers w T name p f -> refers w T name p g -> (forall m a b, found w name m a -> found w name m b -> a = b) -> f = g.
Proof.
  intros [WI WU] F U (m1 & (a1 & A1 & B1) & I1 & S1) (m2 & (a2 & A2 & B2) & I2 & S2) D.
  assert (a1 = a2) by eauto. subst a2. assert (m1 = m2) by eauto. subst m2.
  apply In_nth_error in I1 as (i & I1). apply In_nth_error in I2 as (j & I2).
  assert (i = j). { apply (WU _ _ _ _ I1 I2). apply path_eqb_same. eapply sp_trans; [exact S1|]. now apply sp_sym. }
  subst j. congruence.
Qed.

Lemma found_det w name p a b : found w name p a -> found w name p b -> a = b.
Proof.
  intros H1 H2. apply (path_some_iff w (mkFiles "" [])) in H1, H2. congruence.
Qed.

Lemma refers_det w T name p f g : well_kept T -> refers w T name p f -> refers w T name p g -> f = g.
Proof.
  intros W A B. assert (C := A). destruct C as (m & (q & F & _) & _). 
  eapply refers_unique; eauto; intros; eapply found_det; eauto.
Qed.

Lemma same_id T f g : well_kept T -> In f (sf_list T) -> In g (sf_list T) -> sf_id f = sf_id g -> f = g.
Proof.
  intros [WI _] I J E. apply In_nth_error in I as (i & I). apply In_nth_error in J as (j & J).
  assert (A := WI _ _ I). assert (B := WI _ _ J). congruence.
Qed.

(** * Cycles *)

(** The text of [f] has a line that includes [g] as assembly. *)
Definition includes_file (w : fs) (T : source_files) (f g : source_file) : Prop :=
  exists toks ls line p, lex_input (new_input (sf_id f) (sf_contents f)) = Ok toks /\ grouped toks ls /\ In line ls /\
    asm_include (map t_type line) p /\ refers w T (sf_name f) p g.

Inductive leads (w : fs) (T : source_files) : source_file -> source_file -> Prop :=
| ld_one : forall f g, includes_file w T f g -> leads w T f g
| ld_more : forall f g h, includes_file w T f g -> leads w T g h -> leads w T f h.

Definition runs (w : fs) (T : source_files) (n : nat) (f : source_file) : Prop :=
  exists toks out, lex_input (new_input (sf_id f) (sf_contents f)) = Ok toks /\ replace_includes n w (sf_name f) T toks = Ok (out, T).

Lemma lines_run_one rec w name T : keeps w rec -> well_kept T -> as_on_disk w T -> forall ls out,
  include_lines rec w name T ls = Ok (out, T) -> forall line, In line ls -> exists a s s2, well_kept s /\ as_on_disk w s /\
  include_line rec w name s line = Ok (a, s2) /\ grows s2 T.
Proof.
  intros K W D ls out H.
  assert (GEN: forall ls s out s2, well_kept s -> as_on_disk w s -> include_lines rec w name s ls = Ok (out, s2) -> grows s2 T ->
    forall line, In line ls -> exists a s s2, well_kept s /\ as_on_disk w s /\ include_line rec w name s line = Ok (a, s2) /\ grows s2 T).
  { clear ls out H W D. induction ls as [|l ls IH]; intros s out s2 W D H G line I; [destruct I|]. cbn [include_lines] in H.
    destruct (include_line rec w name s l) as [[a s1]| | |] eqn:E; try discriminate. cbn [bind] in H.
    destruct (include_lines rec w name s1 ls) as [[b s3]| | |] eqn:E2; try discriminate. cbn [bind] in H. injection H as <- <-.
    destruct (line_keeps _ _ _ _ _ _ _ K W D E) as (W1 & D1 & G1).
    destruct (lines_keeps _ _ _ K _ _ _ _ W1 D1 E2) as (W2 & D2 & G2).
    destruct I as [<-|I]; [|exact (IH _ _ _ W1 D1 E2 G _ I)]. exists a, s, s1. split; [exact W|]. split; [exact D|]. split; [exact E|]. eapply grows_trans; eauto. }
  apply (GEN _ _ _ _ W D H (grows_refl T)).
Qed.

Lemma runs_step w T n f g : well_kept T -> as_on_disk w T -> runs w T (S n) f -> includes_file w T f g -> runs w T n g.
Proof.
  intros W D (toks & out & L & R) (toks2 & ls & line & p & L2 & G & I & A & RF). rewrite L in L2. injection L2 as <-.
  apply lines_iff in G. subst ls. cbn [replace_includes] in R.
  destruct (lines_run_one _ _ _ _ (includes_keeps w n) W D _ _ R _ I) as (a & s & s2 & W1 & D1 & E & G2).
  assert (X := E). apply include_line_inv in X. destruct X as [p2 q f2 s3 tk new s4 A2 F LD LX RR|p2 q f2 s3 tk A2 F LD LX|p2 q A2 F|N1 N2 N3].
  - assert (Q := asm_include_unique _ _ _ A A2). subst p2.
    destruct (load_inv _ _ _ _ _ _ W1 LD) as (p1 & _ & W3 & _). destruct (load_disk _ _ _ _ _ _ W1 D1 LD) as [D3 _].
    destruct (includes_keeps w n _ _ _ _ _ W3 D3 RR) as (W4 & D4 & G4).
    assert (RF2: refers w T (sf_name f) p f2) by (eapply load_refers; [exact W1|exact F|exact LD|eapply grows_trans; eauto]).
    assert (f2 = g) by exact (refers_det _ _ _ _ _ _ W RF2 RF). subst f2.
    exists tk, new. split; [exact LX|]. exact (includes_repeat w n _ _ _ _ _ _ W3 D3 RR W G2).
  - destruct (asm_not_header _ _ _ A A2).
  - destruct (asm_not_data _ _ _ A A2).
  - destruct (N1 _ A).
Qed.

Lemma runs_positive w T n f : runs w T n f -> exists m, n = S m.
Proof. intros (toks & out & _ & R). destruct n; [discriminate|eauto]. Qed.

Lemma runs_leads w T : well_kept T -> as_on_disk w T -> forall f g, leads w T f g -> forall n, runs w T n f -> exists m, (m < n)%nat /\ runs w T m g.
Proof.
  intros W D. induction 1 as [f g I|f g h I L IH]; intros n R; destruct (runs_positive _ _ _ _ R) as (m & ->);
    assert (R2 := runs_step _ _ _ _ _ W D R I).
  - exists m. split; [lia|exact R2].
  - destruct (IH _ R2) as (k & LT & R3). exists k. split; [lia|exact R3].
Qed.

Lemma runs_acyclic w T f : well_kept T -> as_on_disk w T -> leads w T f f -> forall n, ~ runs w T n f.
Proof.
  intros W D L. induction n as [n IH] using lt_wf_ind. intros R. destruct (runs_leads _ _ W D _ _ L _ R) as (m & LT & R2).
  exact (IH _ LT R2).
Qed.

(** * Paths beside a file *)

Definition flat (s : string) : list component := flat_map segment_component (segments s).

Lemma segments_slash : forall a b, segments (a ++ "/" ++ b) = segments a ++ segments b.
Proof.
  induction a as [|c a IH]; intros b; [reflexivity|]. cbn [append segments]. 
  change (a ++ String "/" b)%string with (a ++ "/" ++ b)%string. rewrite IH.
  destruct (Ascii.eqb c "/"); [reflexivity|]. destruct (segments_shape a) as (s0 & rest & E & _). rewrite E. reflexivity.
Qed.

Lemma flat_slash a b : flat (a ++ "/" ++ b) = flat a ++ flat b.
Proof. unfold flat. now rewrite segments_slash, flat_map_app. Qed.

Lemma components_absolute p : is_absolute p = true -> components p = RootDir :: flat p.
Proof. intros A. unfold components. rewrite A. reflexivity. Qed.

Lemma ends_slash : forall p, ends_with_slash p = true -> exists x, p = (x ++ "/")%string.
Proof.
  induction p as [|c p IH]; [discriminate|]. destruct p as [|d p].
  - cbn. intros H. apply Ascii.eqb_eq in H. subst. exists "". reflexivity.
  - intros H. destruct (IH H) as (x & E). exists (String c x). cbn. now rewrite E.
Qed.

Lemma flat_join d p : d <> "" -> is_absolute p = false -> flat (join d p) = flat d ++ flat p.
Proof.
  intros N A. unfold join. rewrite A. destruct d as [|c d]; [congruence|]. destruct (ends_with_slash (String c d)) eqn:E.
  - apply ends_slash in E as (x & ->). replace ((x ++ "/") ++ p)%string with (x ++ "/" ++ p)%string by now rewrite app_assoc_s.
    change "/" with ("/" ++ "")%string at 2. rewrite !flat_slash. cbn. now rewrite app_nil_r.
  - apply flat_slash.
Qed.

Lemma absolute_join d p : is_absolute d = true -> is_absolute (join d p) = true.
Proof.
  intros A. unfold join. destruct (is_absolute p) eqn:E; [exact E|]. destruct d as [|c d]; [discriminate|].
  destruct (ends_with_slash (String c d)); exact A.
Qed.

Lemma concat_tail : forall l, String.concat "/" ("" :: l) = match l with [] => "" | _ => tail_text l end.
Proof.
  induction l as [|s l IH]; [reflexivity|]. cbn [String.concat] in *. destruct l as [|t l].
  - cbn. now rewrite app_nil_r_s.
  - cbn [tail_text append] in *. injection IH as IH. now rewrite <- IH.
Qed.

Lemma flat_noslash d : Forall noslash (map component_text (flat d)).
Proof.
  destruct (segments_shape d) as (s0 & rest & E & _ & N & F). unfold flat. rewrite kept_texts, E.
  apply Forall_forall. intros x I. apply filter_In in I as [I _]. rewrite Forall_forall in F. destruct I as [<-|I]; auto.
Qed.

Lemma flat_render d : flat (render (RootDir :: flat d)) = flat d /\ is_absolute (render (RootDir :: flat d)) = true.
Proof.
  unfold render. destruct (flat d) as [|c l] eqn:E; [split; reflexivity|]. rewrite <- E.
  replace (map component_text (RootDir :: flat d)) with ("" :: map component_text (flat d)) by reflexivity.
  rewrite concat_tail. assert (NE: map component_text (flat d) <> []) by (rewrite E; discriminate).
  destruct (map component_text (flat d)) as [|t ts] eqn:ET; [congruence|]. rewrite <- ET. split; [|rewrite ET; reflexivity].
  unfold flat at 1. rewrite (segments_app (tail_text (map component_text (flat d))) "" (map component_text (flat d)) I (flat_noslash d) eq_refl).
  cbn [flat_map]. change (segment_component "") with (@nil component). cbn [app]. unfold flat. rewrite kept_texts. now rewrite <- flat_kept.
Qed.

(** A proper file name. *)
Definition file_name (n : string) : Prop := noslash n /\ n <> "" /\ n <> "." /\ n <> "..".

Lemma flat_name n : file_name n -> flat n = [Normal n].
Proof.
  intros (N & A & B & C). unfold flat. rewrite (segments_app n n [] N (Forall_nil _)); [|now rewrite app_nil_r_s].
  cbn. unfold segment_component. destruct (String.eqb_spec n ""), (String.eqb_spec n "."), (String.eqb_spec n ".."); congruence || reflexivity.
Qed.

Lemma parent_of d n : is_absolute (d ++ "/" ++ n) = true -> file_name n -> parent (d ++ "/" ++ n) = Some (render (RootDir :: flat d)).
Proof.
  intros A N. unfold parent. rewrite (components_absolute _ A), flat_slash, (flat_name _ N).
  rewrite app_comm_cons, rev_app_distr. cbn [rev app].
  destruct (rev (RootDir :: flat d)) eqn:E; [|]; cbn [rev] in *; rewrite ?rev_app_distr, ?rev_involutive; reflexivity.
Qed.

Lemma beside_text w d n p c : is_absolute (d ++ "/" ++ n) = true -> file_name n -> is_dir w (d ++ "/" ++ n) = false ->
  is_absolute p = false -> beside w (d ++ "/" ++ n) p c -> same_path c (d ++ "/" ++ p) /\ is_absolute c = true.
Proof.
  intros A N D P [[X _]|[_ (dir & PA & ->)]]; [congruence|]. rewrite (parent_of _ _ A N) in PA. assert (dir = render (RootDir :: flat d)) by congruence. subst dir. clear PA.
  destruct (flat_render d) as [F1 F2]. split; [|now apply absolute_join].
  apply path_eqb_same, path_eqb_eq. rewrite (components_absolute (join _ _)) by now apply absolute_join.
  assert (A2: is_absolute (d ++ "/" ++ p) = true) by (destruct d; [reflexivity|exact A]).
  rewrite (components_absolute _ A2), flat_slash. f_equal. rewrite flat_join; [now rewrite F1| |exact P].
  destruct (render (RootDir :: flat d)); [discriminate|congruence].
Qed.

(** * States *)

(** A table filled by requests to the file system [w]. *)
Definition state (w : fs) (s : source_files) : Prop :=
  exists wd reqs, Forall (fun r => rq_fs r = w) reqs /\ s = after (new_files wd) reqs.

Lemma after_disk w : forall reqs s, Forall (fun r => rq_fs r = w) reqs -> well_kept s -> as_on_disk w s -> as_on_disk w (after s reqs).
Proof.
  induction reqs as [|r reqs IH]; intros s F W D; [exact D|]. inversion F as [|r0 l0 E F2]; subst. cbn [after].
  destruct (load (rq_fs r) s (rq_root r) (rq_name r)) as [[f s1]| | |] eqn:L; auto.
  destruct (load_inv _ _ _ _ _ _ W L) as (p & _ & W1 & _). destruct (load_disk _ _ _ _ _ _ W D L) as [D1 _]. auto.
Qed.

Lemma state_kept w s : state w s -> well_kept s /\ as_on_disk w s.
Proof.
  intros (wd & reqs & F & ->). split; [apply after_well, new_well|]. apply after_disk; [exact F|apply new_well|].
  intros f [].
Qed.

Lemma state_load w wd name f s : load w (new_files wd) None name = Ok (f, s) -> state w s.
Proof.
  intros L. exists wd, [mkRequest w None name]. split; [repeat constructor|]. cbn [after rq_fs rq_root rq_name]. now rewrite L.
Qed.

(** * Parts of programs *)

Lemma part_forget : forall d ls ss all, part d ls ss all -> exists new, all = new ++ d /\ part [] ls ss new /\
  forall d0, (forall x, In x d0 -> In x d) -> part d0 ls ss (new ++ d0).
Proof.
  intros d ls ss all P. assert (GEN: exists new, all = new ++ d /\ forall d0, (forall x, In x d0 -> In x d) -> part d0 ls ss (new ++ d0)).
  { induction P as [d|d ts front ss rest stmts all N E L P IH|d ts n params ls body close rest stmts all H N B E P IH].
    - exists []. split; [reflexivity|]. intros d0 _. constructor.
    - destruct IH as (new & -> & Q). exists new. split; [reflexivity|]. intros d0 I. eapply pt_line; eauto.
    - destruct IH as (new & -> & Q). exists (new ++ [mkMacro n params body]). rewrite <- app_assoc. split; [reflexivity|].
      intros d0 I. rewrite <- app_assoc. cbn [app]. eapply pt_macro; eauto. apply Q. intros x [<-|X]; [now left|right; auto]. }
  destruct GEN as (new & E & Q). exists new. split; [exact E|]. split; [|exact Q]. 
  specialize (Q []). rewrite app_nil_r in Q. apply Q. intros x [].
Qed.

Lemma separate_app L1 L2 : separate (L1 ++ L2) -> separate L1 /\ separate L2.
Proof.
  induction L1 as [|x L1 IH]; intros H.
  - split; [constructor|exact H].
  - cbn [app] in H. destruct (IH (separate_tail _ _ H)) as [S1 S2]. split; [|exact S2].
    destruct L1 as [|y L1].
    + inversion H; subst; now constructor.
    + cbn [app] in H. inversion H; subst. now constructor.
Qed.

Lemma plain_no_asm ls line p before after : ls = before ++ line :: after -> asm_include (map t_type line) p -> ~ Forall plain ls.
Proof.
  intros -> A F. rewrite Forall_app in F. destruct F as [_ F]. inversion F as [|x l P _]; subst.
  inversion A as [ts2 p3 E2|ts2 p3 E2]; subst; apply ends_split in E2 as (r & E & _); destruct (P _ E).
Qed.

(** Programs without macro definitions. *)
Lemma program_part : forall d ls ss all, program d ls ss all -> Forall (fun ts => ~ first_is (TMacroIdent "%macro") ts) ls ->
  all = d /\ forall d0, part d0 ls ss d0.
Proof.
  induction 1 as [d|d ts front ss rest stmts all N E L P IH|d ts n params ls body close rest stmts all H N B E P IH|d ts n params ls body H N B]; intros F.
  - split; [reflexivity|]. intros d0. constructor.
  - inversion F as [|? ? _ F2]; subst. destruct (IH F2) as [-> Q]. split; [reflexivity|]. intros d0. eapply pt_line; eauto.
  - inversion F as [|? ? F1 F2]; subst. destruct F1. eapply header_first, H.
  - inversion F as [|? ? F1 F2]; subst. destruct F1. eapply header_first, H.
Qed.

Lemma parse_part toks ms ss : parse toks = Ok (mkStatements ms ss) ->
  Forall (fun ts => ~ first_is (TMacroIdent "%macro") ts) (map (map t_type) (lines toks)) ->
  forall d0, part d0 (map (map t_type) (lines toks)) ss d0.
Proof.
  intros P F. apply parse_iff in P as (gs & defs & stmts & G & P & E). apply lines_iff in G. subst gs. injection E as -> ->.
  apply (program_part _ _ _ _ P F).
Qed.
