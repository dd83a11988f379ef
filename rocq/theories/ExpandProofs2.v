(** What is read and expanded is printable unless it is one of the exceptions. *)
From Coq Require Import ZArith List String Ascii Bool Arith Lia.
From Verif Require Import Base Expr Instr Ast Macro Asm Lexer Parser Printer Files CHeader Img Include.
From Verif Require Import SpecIsa SpecExpr SpecAsm SpecImg AsmProofs ImgProofs2 SpecMacro MacroProofs MacroProofs2 SpecLex LexProofs PropsLex SpecParse SpecLine SpecFiles SpecHeader SpecInclude SpecPrint SpecExpand.
From Verif Require Import ParseProofs LineProofs LineProofs2 LineProofs3 FilesProofs HeaderProofs HeaderProofs2 IncludeProofs IncludeProofs2 IncludeProofs3.
From Verif Require Import PrintProofs5 ExpandProofs.
Import ListNotations.
Open Scope string_scope.
Open Scope list_scope.

(** * Names *)

Fixpoint named (e : expr) : Prop :=
  match e with
  | EName n => plain_name n
  | ENumber n _ => (-2147483648 <= n <= 2147483647)%Z
  | EMacroLabel n => exists w, plain_name w /\ n = (w ++ "%")%string
  | EMacroArg n => exists w, plain_name w /\ n = String "%" w
  | EPlus l r | EMinus l r | ETimes l r | EDivide l r | EXor l r | EAnd l r | EOr l r => named l /\ named r
  | EUnaryMinus x | EUpperByte x | ELowerByte x => named x
  end.

Lemma lexable_named e : lexable e -> named e.
Proof. induction e; cbn; try tauto. lia. Qed.

Lemma named_printable e : named e -> ordinary_expr e -> printable e.
Proof. unfold printable. induction e; cbn; intros N O; try tauto. Qed.

Definition bare (e : expr) : Prop := exists n, e = EMacroArg n.

Definition good_arg (a : arg) : Prop :=
  match a with AImm e => named e | AEx e => named e /\ ~ bare e | _ => True end.

Definition good_operand (k : kind) (o : expr + imode) : Prop :=
  match o with inl e => named e /\ (k = I8 \/ ~ bare e) | inr _ => True end.

Definition good_item (b : byte_value) : Prop := match b with BVExpr e => named e | BVString _ => True end.

Definition good_statement (s : statement) : Prop :=
  match s with
  | SDirective (DByte items) => Forall good_item items
  | SDirective (DWord es) => Forall named es
  | SDirective (DCnop a m) => named a /\ named m /\ typed (SDirective (DCnop a m))
  | SDirective (DText n _) | SDirective (DString n _) => (0 <= n)%Z
  | SDirective (DOrg n) => (0 <= n <= 2147483647)%Z
  | SDirective (DInclude (IncIcon speed eye) _) => (forall e, speed = Some e -> named e) /\ (forall v, eye = Some (BVString v) -> exists s, v = codes s)
  | SDirective _ => True
  | SLabel n => plain_name n
  | SInstr i => Forall2 good_operand (snd (key i)) (op_list i)
  | SVariable n e | SAlias n e => plain_name n /\ ~ In n directive_names /\ named e
  | SComment _ => True
  | SMacroCall _ args => Forall good_arg args
  end.

Definition good_macro_statement (s : macro_statement) : Prop :=
  match s with
  | MInstr _ args => Forall good_arg args
  | MLabel n => plain_name n
  | MMacroLabel n => exists w, plain_name w /\ n = (w ++ "%")%string
  end.

Lemma good_printable s : good_statement s -> ordinary_statement s -> is_include s = false -> is_call s = false -> printable_statement s.
Proof.
  destruct s as [d|n|i|n e|n e|c|n args]; cbn [is_include is_call]; intros G O NI NC; try discriminate.
  - destruct d as [items|z|es|z bs|z bs|t p|a m]; cbn in *; try contradiction; try discriminate.
    + destruct O as [O1 O2]. split; [exact O1|]. clear O1. induction items as [|b items IH]; [constructor|].
      inversion G; inversion O2; subst. constructor; [|auto]. destruct b; cbn in *; [now apply named_printable|assumption].
    + exact G.
    + destruct O as [O1 O2]. split; [exact O1|]. clear O1. induction es as [|e es IH]; [constructor|].
      inversion G; inversion O2; subst. constructor; [now apply named_printable|auto].
    + split; apply named_printable; tauto.
  - exact G.
  - cbn in *. destruct O as [O1 O2]. split; [|exact O2]. unfold printable_instr. clear O2.
    induction G as [|k o ks os H G IH]; [constructor|]. inversion O1; subst. constructor; [|auto].
    destruct o as [e|m]; [|exact Logic.I]. destruct H as [G1 G2]. split; [now apply named_printable|].
    destruct G2 as [G2|G2]; [now left|right]. intros n E. apply G2. now exists n.
  - cbn in *. destruct G as (G1 & G2 & G3). split; [exact G1|]. split; [exact G2|now apply named_printable].
  - cbn in *. destruct G as (G1 & G2 & G3). split; [exact G1|]. split; [exact G2|now apply named_printable].
  - exact O.
Qed.

(** * Tokens *)

Notation lexed_tokens := (fun toks => Forall lexed (map t_type toks)).

Lemma pieces_lexed f : forall ps before rest, c_pieces_ok ps rest -> lexed_tokens (tokens_of f before ps).
Proof.
  intros ps. induction ps as [|p ps IH]; intros before rest P; cbn; [constructor; [exact Logic.I|constructor]|].
  destruct P as (_ & W & F & _ & _ & P). constructor; [exact (writes_lexed _ _ W F)|exact (IH _ _ P)].
Qed.

Lemma header_lexed f text toks : header_lex (new_input f text) = Ok toks -> lexed_tokens toks.
Proof.
  unfold header_lex. destruct (lex_for_ws skip_c (new_input f text)) as [raw| | |] eqn:E; try discriminate. cbn [bind].
  apply header_tokens_iff in E as (ps & (tail & _ & P & _) & ->). intros H.
  assert (A: Forall (fun l => lexed_tokens l) (lines (tokens_of f "" ps))).
  { assert (Q := pieces_lexed f ps "" tail P). cbn beta in Q. rewrite (grouped_concat _ _ (lines_grouped _)) in Q.
    revert Q. generalize (lines (tokens_of f "" ps)) as ls. induction ls as [|l ls IH]; [constructor|].
    cbn [List.concat]. rewrite map_app. intros Q. apply Forall_app in Q as [Q1 Q2]. constructor; [exact Q1|now apply IH]. }
  revert toks H A. generalize (lines (tokens_of f "" ps)) as ls. induction ls as [|l ls IH]; intros toks H A; cbn [header_lines] in H.
  - injection H as <-. constructor.
  - destruct (header_line l) as [a| | |] eqn:HL; try discriminate. cbn [bind] in H.
    destruct (header_lines ls) as [b| | |]; try discriminate. cbn [bind] in H. injection H as <-.
    inversion A; subst. rewrite map_app. apply Forall_app. split; [|now apply IH].
    rename H1 into L1. clear - HL L1. unfold header_line in HL.
    destruct (check is_hash (stream_of l) && _)%bool; [|injection HL as <-; exact L1].
    destruct (next (stream_of l)) as [[? r1]| | |]; try discriminate. cbn [bind] in HL.
    destruct (next r1) as [[? r2]| | |]; try discriminate. cbn [bind] in HL.
    destruct (read_name r2) as [[? r3]| | |]; try discriminate. cbn [bind] in HL.
    destruct (parse_expr r3) as [?| | |]; try discriminate. cbn [bind] in HL.
    destruct l as [|h [|d [|n r]]]; try discriminate. injection HL as <-. cbn [map t_type] in L1 |- *.
    inversion L1 as [|? ? _ L2]; subst. inversion L2 as [|? ? _ L3]; subst. inversion L3; subst.
    constructor; [assumption|]. constructor; [apply plain_test; reflexivity|assumption].
Qed.

Lemma rename_lexed p q toks : lexed_tokens toks -> lexed_tokens (rename_strings p q toks).
Proof.
  unfold rename_strings. induction toks as [|[ty sp] toks IH]; cbn [map]; intros H; [constructor|]. inversion H; subst.
  constructor; [|now apply IH]. cbn [t_type] in *. destruct ty; try assumption. destruct (String.eqb text p); assumption.
Qed.

Definition keeps_lexed (rec : rec_type) : Prop := forall name s toks out s2, lexed_tokens toks -> rec name s toks = Ok (out, s2) -> lexed_tokens out.

Lemma lines_lexed_rec rec w name : keeps_lexed rec -> forall ls s out s2, Forall (fun l => lexed_tokens l) ls ->
  include_lines rec w name s ls = Ok (out, s2) -> lexed_tokens out.
Proof.
  intros K ls. induction ls as [|l ls IH]; intros s out s2 F H; cbn [include_lines] in H.
  - injection H as <- <-. constructor.
  - destruct (include_line rec w name s l) as [[a s1]| | |] eqn:E; try discriminate. cbn [bind] in H.
    destruct (include_lines rec w name s1 ls) as [[b s3]| | |] eqn:E2; try discriminate. cbn [bind] in H. injection H as <- <-.
    inversion F; subst. rewrite map_app. apply Forall_app. split; [|exact (IH _ _ _ H2 E2)].
    apply include_line_inv in E. inversion E; subst.
    + eapply K; [|eassumption]. eapply lex_lexed; eassumption.
    + eapply header_lexed; eassumption.
    + now apply rename_lexed.
    + assumption.
Qed.

Lemma lines_lexed toks : lexed_tokens toks -> Forall (fun l => lexed_tokens l) (lines toks).
Proof.
  cbn beta. intros Q. rewrite (grouped_concat _ _ (lines_grouped toks)) in Q. revert Q. generalize (lines toks) as ls.
  induction ls as [|l ls IH]; [constructor|]. cbn [List.concat]. rewrite map_app. intros Q. apply Forall_app in Q as [Q1 Q2].
  constructor; [exact Q1|now apply IH].
Qed.

Lemma includes_lexed w : forall fuel, keeps_lexed (replace_includes fuel w).
Proof.
  induction fuel as [|fuel IH]; intros name s toks out s2 L H; [discriminate|]. cbn [replace_includes] in H.
  exact (lines_lexed_rec _ _ _ IH _ _ _ _ (lines_lexed _ L) H).
Qed.

(** * Parsing *)

Lemma expression_named ts e : expression_of ts e -> Forall lexed ts -> named e.
Proof. intros H F. apply lexable_named. eapply expression_lexable; eauto. Qed.

Lemma operand_good ts a : operand_of ts a -> Forall lexed ts -> good_arg a.
Proof.
  intros H F. inversion H as [t m I|ts0 e X|ts0 n X|ts0 e X N]; subst; cbn; auto.
  - inversion F; subst. eapply expression_named; eauto.
  - split; [eapply expression_named; eauto|]. intros [n ->]. now apply (N n).
Qed.

Lemma operands_good ts args : maybe operand_of ts args -> Forall lexed ts -> Forall good_arg args.
Proof.
  intros [[-> ->]|M] F; [constructor|]. exact (separated_forall _ _ _ _ operand_good M F).
Qed.

Lemma shapes_good ks args os : shapes ks args os -> Forall good_arg args -> Forall2 good_operand ks os.
Proof.
  induction 1 as [|k ks a t o os H S IH]; intros F; [constructor|]. inversion F; subst. constructor; [|auto].
  destruct k, a; cbn in H; try contradiction; subst; cbn in *; tauto.
Qed.

Lemma command_good ts s : command ts s -> Forall lexed ts -> good_statement s.
Proof.
  intros [ts0 args f i M I K S|n ts0 args M NK ND] F; inversion F; subst; cbn [good_statement].
  - rewrite K. cbn [snd]. apply (shapes_good _ _ _ S). eapply operands_good; eauto.
  - eapply operands_good; eauto.
Qed.

Lemma items_good ts items : separated byte_item ts items -> Forall lexed ts -> Forall good_item items.
Proof.
  apply separated_forall. intros ts0 x [s|ts1 e X] F; cbn; [exact Logic.I|]. eapply expression_named; eauto.
Qed.

Definition good_property (v : byte_value) : Prop := match v with BVExpr e => named e | BVString b => exists s, b = codes s end.

Lemma property_good ts v : byte_item ts v -> Forall lexed ts -> good_property v.
Proof. intros [s|ts0 e X] F; cbn; [now exists s|]. eapply expression_named; eauto. Qed.

Lemma directive_good ts d : directive_of ts d -> Forall lexed ts -> good_statement (SDirective d).
Proof.
  intros D F. destruct D as [ts items S|n r|ts es S|n r s|n r s|ts1 a ts2 m X1 X2|s|w t s I|s ts ps speed eye M SP G|s ts ps k h M SK SH]; cbn [good_statement]; auto.
  - inversion F; subst. eapply items_good; eauto.
  - inversion F as [|? ? _ F2]; subst. inversion F2; subst. assumption.
  - inversion F; subst. refine (separated_forall _ _ _ _ _ S _); [apply expression_named|assumption].
  - inversion F as [|? ? _ F2]; subst. inversion F2; subst. cbn in *. lia.
  - inversion F as [|? ? _ F2]; subst. inversion F2; subst. cbn in *. lia.
  - inversion F as [|? ? _ F2]; subst. apply Forall_app in F2 as [F2 F3]. inversion F3; subst.
    split; [eapply expression_named; eauto|]. split; [eapply expression_named; eauto|].
    assert (L1: lexable a) by (eapply expression_lexable; eauto). assert (L2: lexable m) by (eapply expression_lexable; eauto).
    cbn [typed]. destruct a; try exact Logic.I. destruct m; try exact Logic.I. split; assumption.
  - cbn in I. destruct I as [I|[I|[I|[]]]]; injection I as <- <-; exact Logic.I.
  - inversion F as [|? ? _ F2]; subst. inversion F2 as [|? ? _ F3]; subst. inversion F3 as [|? ? _ F4]; subst.
    assert (P: Forall (fun kv => good_property (snd kv)) ps).
    { destruct M as [[-> ->]|M]; [constructor|]. refine (separated_forall _ _ _ _ _ M F4). intros ts0 x [n ts1 v B] G0.
      inversion G0 as [|? ? _ G1]; subst. inversion G1; subst. cbn [snd]. eapply property_good; eauto. }
    split.
    + intros e ->. inversion SP as [|? G0]; subst. destruct G0 as (x & y & -> & _). apply Forall_app in P as [_ P]. inversion P; subst. assumption.
    + intros v ->. destruct G as (x & y & -> & _). apply Forall_app in P as [_ P]. inversion P; subst. assumption.
Qed.

Lemma line_good ts ss : line ts ss -> Forall lexed ts -> Forall good_statement ss.
Proof.
  intros L F. inversion L as [|n|n ts0 s0 C|n DN NI|ts0 s0 C NE|ts0 d0 D0|n ts0 e X NI|n ts0 e X NI]; subst.
  - constructor.
  - inversion F; subst. constructor; [assumption|constructor].
  - inversion F as [|? ? F1 F2]; subst. inversion F2; subst. constructor; [assumption|]. constructor; [|constructor]. eapply command_good; eauto.
  - inversion F; subst. constructor; [assumption|constructor].
  - constructor; [|constructor]. eapply command_good; eauto.
  - constructor; [|constructor]. eapply directive_good; eauto.
  - inversion F as [|? ? F1 F2]; subst. inversion F2; subst. constructor; [|constructor]. cbn. split; [assumption|]. split; [exact NI|eapply expression_named; eauto].
  - inversion F as [|? ? F1 F2]; subst. inversion F2; subst. constructor; [|constructor]. cbn. split; [assumption|]. split; [exact NI|eapply expression_named; eauto].
Qed.

Lemma ends_lexed ts front : ends ts front -> Forall lexed ts -> Forall lexed front.
Proof. intros [ts0 N|ts0 rest N] F; [exact F|]. now apply Forall_app in F as [F _]. Qed.

Lemma body_line_good ts ss : body_line ts ss -> Forall lexed ts -> Forall good_macro_statement ss.
Proof.
  intros B F. inversion B as [ts0 E|ts0 n E|ts0 n E|n D|n D|ts0 n ops args E D M|ts0 l n ops args E D M|ts0 l n ops args E D M]; subst;
    try (apply (ends_lexed _ _ E) in F).
  - constructor.
  - inversion F; subst. constructor; [assumption|constructor].
  - inversion F; subst. constructor; [assumption|constructor].
  - inversion F; subst. constructor; [assumption|constructor].
  - inversion F; subst. constructor; [assumption|constructor].
  - inversion F; subst. constructor; [|constructor]. eapply operands_good; eauto.
  - inversion F as [|? ? F1 F2]; subst. inversion F2 as [|? ? _ F3]; subst. inversion F3; subst. constructor; [assumption|].
    constructor; [|constructor]. eapply operands_good; eauto.
  - inversion F as [|? ? F1 F2]; subst. inversion F2 as [|? ? _ F3]; subst. inversion F3; subst. constructor; [assumption|].
    constructor; [|constructor]. eapply operands_good; eauto.
Qed.

Lemma body_good ls body : body_lines ls body -> Forall (Forall lexed) ls -> Forall good_macro_statement body.
Proof.
  induction 1 as [|ts ss rest more N B R IH]; intros F; [constructor|]. inversion F; subst. apply Forall_app. split; [eapply body_line_good; eauto|auto].
Qed.

Definition good_def (d : macro_def) : Prop := Forall good_macro_statement (m_body d).

Lemma program_good : forall d ls ss all, program d ls ss all -> Forall (Forall lexed) ls -> Forall good_def d ->
  Forall good_statement ss /\ Forall good_def all.
Proof.
  induction 1 as [d|d ts front ss rest stmts all M E L P IH|d ts n params ls0 body close rest stmts all H ND B C P IH|d ts n params ls0 body H ND B];
    intros F G.
  - split; [constructor|exact G].
  - inversion F; subst. destruct IH as [I1 I2]; auto. split; [|exact I2]. apply Forall_app. split; [|exact I1].
    eapply line_good; eauto. eapply ends_lexed; eauto.
  - inversion F as [|? ? F1 F2]; subst. apply Forall_app in F2 as [F2 F3]. inversion F3; subst. apply IH; [assumption|].
    constructor; [|exact G]. unfold good_def. cbn. eapply body_good; eauto.
  - inversion F; subst. split; [constructor|]. constructor; [|exact G]. unfold good_def. cbn. eapply body_good; eauto.
Qed.

Definition good_statements (st : statements) : Prop :=
  Forall good_statement (st_list st) /\ forall n a d, find_macro (st_macros st) n a = Some d -> good_def d.

Lemma find_by_name defs n a d : find_macro (by_name defs) n a = Some d -> In d defs.
Proof.
  induction defs as [|x defs IH]; cbn; [discriminate|]. destruct (String.eqb _ _ && _)%bool; [|auto]. intros E. injection E as ->. now left.
Qed.

Lemma parse_good toks st : parse toks = Ok st -> lexed_tokens toks -> good_statements st.
Proof.
  intros P L. apply parse_iff in P as (groups & defs & stmts & G & PR & ->).
  assert (F: Forall (Forall lexed) (map (map t_type) groups)).
  { apply lines_iff in G. rewrite <- G. apply lines_lexed in L. clear - L. induction (lines toks) as [|l ls IH]; [constructor|]. inversion L; subst. constructor; [assumption|now apply IH]. }
  destruct (program_good _ _ _ _ PR F) as [A B]; [constructor|]. split; cbn; [exact A|]. intros n a d E. apply find_by_name in E.
  rewrite Forall_forall in B. now apply B.
Qed.

(** * Included data *)

Notation data := (fun s => good_statement s /\ is_include s = false).

Lemma good_num n r : (0 <= n <= 65535)%Z -> good_item (BVExpr (ENumber n r)).
Proof. cbn. lia. Qed.

Lemma wrapped z : (-2147483648 <= wrap32 z <= 2147483647)%Z.
Proof. unfold wrap32. pose proof (Z.mod_pos_bound (z + 2147483648) 4294967296 ltac:(lia)). lia. Qed.

Lemma land_range a k : (0 <= k)%Z -> (0 <= Z.land a (Z.ones k) < 2 ^ k)%Z.
Proof. intros K. rewrite Z.land_ones by exact K. apply Z.mod_pos_bound. now apply Z.pow_pos_nonneg. Qed.

Lemma below_pow a b k : (0 <= k)%Z -> (0 <= a < 2 ^ k)%Z -> (0 <= b < 2 ^ k)%Z -> (0 <= Z.lor a b < 2 ^ k)%Z.
Proof.
  intros K A B. assert (N: (0 <= Z.lor a b)%Z) by (apply Z.lor_nonneg; lia). split; [exact N|].
  destruct (Z.eq_dec (Z.lor a b) 0) as [->|NZ]; [now apply Z.pow_pos_nonneg|].
  assert (P: (0 < k)%Z).
  { destruct (Z.eq_dec k 0) as [->|]; [|lia]. exfalso. apply NZ. change (2 ^ 0)%Z with 1%Z in *. replace a with 0%Z by lia. replace b with 0%Z by lia. reflexivity. }
  assert (L: forall x, (0 <= x < 2 ^ k)%Z -> (Z.log2 x < k)%Z).
  { intros x X. destruct (Z.eq_dec x 0) as [->|]; [exact P|]. apply Z.log2_lt_pow2; lia. }
  apply Z.log2_lt_pow2; [lia|]. rewrite Z.log2_lor by lia. apply Z.max_lub_lt; now apply L.
Qed.

Lemma shifted a k n : (0 <= k)%Z -> (0 <= n)%Z -> (0 <= a < 2 ^ k)%Z -> (0 <= Z.shiftl a n < 2 ^ (k + n))%Z.
Proof.
  intros K N A. rewrite Z.shiftl_mul_pow2 by exact N. rewrite Z.pow_add_r by assumption.
  assert (0 < 2 ^ n)%Z by now apply Z.pow_pos_nonneg. split; [|apply Z.mul_lt_mono_pos_r]; try apply Z.mul_nonneg_nonneg; lia.
Qed.

Lemma nibble_range a : (0 <= Z.land a 15 < 16)%Z.
Proof. exact (land_range a 4 ltac:(lia)). Qed.

Lemma color_range c : (0 <= to_palette_color c <= 65535)%Z.
Proof.
  unfold to_palette_color. assert (H: forall x n, (0 <= n <= 12)%Z -> (0 <= Z.shiftl (Z.land x 15) n < 2 ^ 16)%Z).
  { intros x n N. pose proof (shifted (Z.land x 15) 4 n ltac:(lia) ltac:(lia) (nibble_range x)) as [A B]. split; [exact A|].
    apply (Z.lt_le_trans _ _ _ B). apply Z.pow_le_mono_r; lia. }
  cut (0 <= Z.lor (Z.lor (Z.lor (Z.shiftl (Z.land (alpha c) 15) 12) (Z.shiftl (Z.land (red c) 15) 8)) (Z.shiftl (Z.land (green c) 15) 4)) (Z.land (blue c) 15) < 2 ^ 16)%Z; [lia|].
  apply below_pow; [lia| |pose proof (nibble_range (blue c)); lia].
  apply below_pow; [lia| |apply H; lia]. apply below_pow; [lia| |]; apply H; lia.
Qed.

Lemma data_1bit f masked h out : frame_1bit f masked h = Ok out -> Forall data out.
Proof.
  unfold frame_1bit. cbv zeta.
  assert (R: forall pack rows l, (forall r b, pack r = Ok b -> Forall byte b) -> pack_rows pack rows = Ok l -> Forall data l).
  { intros pack rows. induction rows as [|r rows IH]; intros l K E; cbn [pack_rows] in E; [injection E as <-; constructor|].
    destruct (pack r) as [b| | |] eqn:P; try discriminate. cbn [bind] in E. destruct (pack_rows pack rows) as [m| | |]; try discriminate.
    cbn [bind] in E. injection E as <-. constructor; [|now apply IH]. split; [|reflexivity]. cbn. apply K in P. clear - P.
    induction P as [|x b B P IH]; constructor; [|assumption]. apply good_num. unfold byte in B. lia. }
  assert (KM: forall r b, mask_row r [] 0 = Ok b -> Forall byte b).
  { intros r b E. destruct (mask_row_packed r [] [] (packed_nil true)) as (b' & E' & P). change (zlen (@nil bool)) with 0%Z in E'.
    rewrite E in E'. injection E' as ->. apply P. }
  assert (KI: forall r b, image_row r [] 0 = Ok b -> Forall byte b).
  { intros r b E. destruct (image_row_packed r [] [] (packed_nil false)) as (b' & E' & P). change (zlen (@nil bool)) with 0%Z in E'.
    rewrite E in E'. injection E' as ->. apply P. }
  set (mask := if masked then pack_rows (fun row => mask_row row [] 0%Z) f else Ok []).
  assert (RM: forall l, mask = Ok l -> Forall data l).
  { intros l E. unfold mask in E. destruct masked; [exact (R _ _ _ KM E)|assert (l = []) as -> by congruence; constructor]. }
  destruct mask as [m| | |]; try discriminate. cbn [bind].
  destruct (pack_rows _ f) as [i| | |] eqn:E2; try discriminate. cbn [bind]. intros E. injection E as <-.
  constructor; [split; [exact Logic.I|reflexivity]|]. apply Forall_app. split; [|apply Forall_app; split].
  - destruct h; [|constructor]. constructor; [|constructor]. split; [|reflexivity]. cbn [good_statement].
    constructor; [apply wrapped|]. constructor; [apply wrapped|constructor].
  - now apply RM.
  - exact (R _ _ _ KI E2).
Qed.

Lemma data_image i masked h : forall out, image_1bit i masked h = Ok out -> Forall data out.
Proof.
  induction i as [|f i IH]; intros out E; cbn [image_1bit] in E; [injection E as <-; constructor|].
  destruct (frame_1bit f masked h) as [a| | |] eqn:EA; try discriminate. cbn [bind] in E.
  destruct (image_1bit i masked h) as [b| | |]; try discriminate. cbn [bind] in E. injection E as <-.
  apply Forall_app. split; [eapply data_1bit; eauto|now apply IH].
Qed.

Lemma data_rows pack f : (forall row l, pack row = Ok l -> Forall good_item l) -> forall out, byte_rows pack f = Ok out -> Forall data out.
Proof.
  intros K. induction f as [|r f IH]; intros out E; cbn [byte_rows] in E; [injection E as <-; constructor|].
  destruct (pack r) as [a| | |] eqn:EA; try discriminate. cbn [bind] in E.
  destruct (byte_rows pack f) as [b| | |]; try discriminate. cbn [bind] in E. injection E as <-.
  constructor; [|now apply IH]. split; [exact (K _ _ EA)|reflexivity].
Qed.

Lemma good_nibbles p : forall n row l, (List.length row <= n)%nat -> nibbles p row = Ok l -> Forall good_item l.
Proof.
  induction n as [|n IH]; intros row l LE E; (destruct row as [|a [|b row]]; cbn [nibbles] in E; [injection E as <-; constructor|discriminate|]); cbn in LE; [lia|].
  destruct (index_of p a) as [x| | |]; try discriminate. cbn [bind] in E. destruct (index_of p b) as [y| | |]; try discriminate. cbn [bind] in E.
  destruct (nibbles p row) as [r| | |] eqn:ER; try discriminate. cbn [bind] in E. injection E as <-. constructor; [|apply (IH row); [lia|exact ER]].
  apply good_num. assert (H: (0 <= Z.lor (Z.shiftl (Z.land x 15) 4) (Z.land y 15) < 2 ^ 8)%Z); [|change (2 ^ 8)%Z with 256%Z in H; change (0 <= Z.lor (Z.shiftl (Z.land x 15) 4) (Z.land y 15) <= 65535)%Z; lia].
  apply below_pow; [lia| |pose proof (nibble_range y); lia]. exact (shifted _ 4 4 ltac:(lia) ltac:(lia) (nibble_range x)).
Qed.

Lemma good_indices p : forall row l, indices p row = Ok l -> Forall good_item l.
Proof.
  induction row as [|a row IH]; intros l E; cbn [indices] in E; [injection E as <-; constructor|].
  destruct (index_of p a) as [x| | |]; try discriminate. cbn [bind] in E. destruct (indices p row) as [r| | |]; try discriminate.
  cbn [bind] in E. injection E as <-. constructor; [|now apply IH]. apply good_num. pose proof (land_range x 8 ltac:(lia)) as L.
  change (Z.ones 8) with 255%Z in L. lia.
Qed.

Lemma data_icon i p name out : image_to_icon i p name = Ok out -> Forall data out.
Proof.
  unfold image_to_icon. cbv zeta. match goal with |- context [(0 <? ?x)%nat] => set (len := x) end. destruct (0 <? len)%nat.
  - destruct (fill_palette p _) as [table| | |]; try discriminate. cbn [bind].
    destruct (if (len =? 16)%nat then _ else _) as [px| | |] eqn:EP; try discriminate. cbn [bind]. intros E. injection E as <-.
    constructor; [split; [exact Logic.I|reflexivity]|]. apply Forall_app. split.
    + unfold palette_lines. generalize (seq 0 (List.length table / 8)) as ys. induction ys as [|y ys IHy]; constructor; auto. split; [|reflexivity].
      cbn [good_statement]. apply Forall_forall. intros e X. apply in_map_iff in X as (k & <- & _). cbn [named num].
      match goal with |- context [to_palette_color ?c] => pose proof (color_range c) end. lia.
    + constructor; [split; [exact Logic.I|reflexivity]|]. destruct (len =? 16)%nat.
      * revert px EP. generalize 1%Z. generalize (1 <? List.length i)%nat. intros many. induction i as [|f i IH]; intros k px EP; cbn [nibble_frames] in EP; [injection EP as <-; constructor|].
        destruct (byte_rows _ f) as [a| | |] eqn:EA; try discriminate. cbn [bind] in EP.
        destruct (nibble_frames p many _ i) as [b| | |] eqn:EB; try discriminate. cbn [bind] in EP. injection EP as <-.
        apply Forall_app. split; [destruct many; repeat constructor|]. apply Forall_app. split; [|exact (IH _ _ EB)].
        eapply data_rows; [|exact EA]. intros row l. exact (good_nibbles p _ row l (le_n _)).
      * revert px EP. induction i as [|f i IH]; intros px EP; cbn [index_frames] in EP; [injection EP as <-; constructor|].
        destruct (byte_rows _ f) as [a| | |] eqn:EA; try discriminate. cbn [bind] in EP.
        destruct (index_frames p i) as [b| | |]; try discriminate. cbn [bind] in EP. injection EP as <-.
        apply Forall_app. split; [|now apply IH]. eapply data_rows; [|exact EA]. apply good_indices.
  - intros E. injection E as <-. unfold true_color. induction i as [|f i IH]; cbn [flat_map]; [constructor|]. apply Forall_app. split; [|exact IH].
    induction f as [|row f IHf]; constructor; auto. split; [|reflexivity]. cbn [good_statement]. apply Forall_forall. intros e X.
    apply in_map_iff in X as (c & <- & _). cbn [named num]. pose proof (land_range (to_palette_color c) 16 ltac:(lia)) as L.
    change (Z.ones 16) with 65535%Z in L. lia.
Qed.

Lemma eyecatch_range p : (0 <= eyecatch_type p <= 3)%Z.
Proof. unfold eyecatch_type. destruct p as [p|]; [|lia]. destruct (_ <=? _)%Z; [lia|]. destruct (_ <=? _)%Z; lia. Qed.

Lemma data_header t : (0 <= t <= 3)%Z -> Forall data (icon_header t).
Proof.
  intros T. assert (Z: Forall named (repeat (num 0) 10)) by (apply Forall_forall; intros e X; apply repeat_spec in X; subst; cbn; lia).
  assert (B: Forall good_item (repeat (BVExpr (num 0)) 10)) by (apply Forall_forall; intros e X; apply repeat_spec in X; subst; cbn; lia).
  unfold icon_header. repeat (constructor; [split; [cbn [good_statement]; first [exact Logic.I|exact B|repeat constructor; cbn; lia]|reflexivity]|]). constructor.
Qed.

Lemma data_to_icon pics path speed eye out : (forall v, speed = Some v -> (0 <= v <= 65535)%Z) -> to_icon pics path speed eye = Ok out -> Forall data out.
Proof.
  intros SP. unfold to_icon. destruct (load_image pics path) as [l| | |]; try discriminate. cbn [bind].
  destruct (16 <? _)%Z; [discriminate|]. destruct (negb _); [discriminate|].
  destruct (match eye with Some _ => _ | None => _ end) as [ec| | |]; try discriminate. cbn [bind].
  destruct (image_to_icon _ _ path) as [a| | |] eqn:EA; try discriminate. cbn [bind]. apply data_icon in EA.
  assert (H: forall q, Forall data (count_and_speed (scale_image 15 l) path (match speed with Some s => s | None => 10 end) ++ icon_header (eyecatch_type q) ++ a)%Z).
  { intros q. apply Forall_app. split; [|apply Forall_app; split; [apply data_header, eyecatch_range|exact EA]].
    unfold count_and_speed. cbv zeta. constructor; [split; [exact Logic.I|reflexivity]|]. constructor; [|constructor]. split; [|reflexivity].
    cbn [good_statement]. constructor; [apply wrapped|]. constructor; [|constructor]. cbn [named num]. destruct speed as [v|]; [specialize (SP v eq_refl); lia|lia]. }
  destruct ec as [[pth img]|]; [|intros E; match type of E with Ok ?x = Ok _ => assert (F: Forall data x) by apply (H None) end; injection E as <-; exact F].
  destruct (negb _); [discriminate|]. destruct (image_to_icon img _ pth) as [b| | |] eqn:EB; try discriminate. cbn [bind]. intros E.
  match type of E with Ok (?x ++ ?y) = Ok _ => assert (F: Forall data (x ++ y)); [apply Forall_app; split; [apply H|eapply data_icon; eauto]|] end.
  injection E as <-. exact F.
Qed.

Lemma data_sprite pics t h path out : sprite_statements pics t h path = Ok out -> Forall data out.
Proof.
  unfold sprite_statements. destruct (load_image pics path) as [l| | |]; try discriminate. cbn [bind].
  destruct (match h with HeaderYes => _ | HeaderNo => _ end) as [u| | |]; try discriminate. cbn [bind].
  destruct (image_1bit _ _ _) as [a| | |] eqn:EA; try discriminate. cbn [bind]. intros E. injection E as <-.
  constructor; [split; [exact Logic.I|reflexivity]|]. eapply data_image; eauto.
Qed.

Lemma byte_include_good pr w pics name s stmt out : byte_include pr w pics name s stmt = Ok out -> good_statement stmt -> Forall data out.
Proof.
  intros H G. assert (K: is_include stmt = false -> byte_include pr w pics name s stmt = Ok [stmt] -> Forall data out).
  { intros N E. rewrite E in H. injection H as <-. constructor; [split; assumption|constructor]. }
  destruct stmt as [d| | | | | |]; try (apply K; reflexivity). destruct d as [| | | | |t p|]; try (apply K; reflexivity).
  cbn [byte_include] in H. destruct t as [| | |speed eye|k h]; try discriminate.
  - destruct (path_of w s (Some name) p) as [q| | |]; try discriminate. cbn [bind] in H. destruct (read_bytes w q) as [c|]; try discriminate.
    injection H as <-. constructor; [|constructor]. split; [|reflexivity]. cbn. unfold byte_values.
    induction (list_ascii_of_string c) as [|ch l IH]; constructor; [|assumption]. apply good_num. pose proof (nat_ascii_bounded ch). lia.
  - destruct (match speed with Some _ => _ | None => _ end) as [x| | |] eqn:SP; try discriminate. cbn [bind] in H.
    destruct (match eye with Some _ => _ | None => _ end) as [y| | |]; try discriminate. cbn [bind] in H.
    destruct (path_of w s (Some name) p) as [q| | |]; try discriminate. cbn [bind] in H.
    destruct (match y with Some _ => _ | None => _ end) as [z| | |]; try discriminate. cbn [bind] in H.
    eapply data_to_icon; [|exact H]. intros v ->. destruct speed as [e|]; [|discriminate SP].
    destruct (eval _ _ e) as [n| | |]; try discriminate SP. cbn [bind] in SP. injection SP as <-. unfold wrap16. pose proof (Z.mod_pos_bound n 65536). lia.
  - destruct (path_of w s (Some name) p) as [q| | |]; try discriminate. cbn [bind] in H. eapply data_sprite; eauto.
Qed.

Lemma byte_includes_good pr w pics name s : forall l out, byte_includes pr w pics name s l = Ok out -> Forall good_statement l -> Forall data out.
Proof.
  induction l as [|x l IH]; intros out E G; cbn [byte_includes] in E; [injection E as <-; constructor|].
  destruct (byte_include pr w pics name s x) as [a| | |] eqn:EA; try discriminate. cbn [bind] in E.
  destruct (byte_includes pr w pics name s l) as [b| | |] eqn:EB; try discriminate. cbn [bind] in E. injection E as <-.
  inversion G; subst. apply Forall_app. split; [eapply byte_include_good; eauto|now apply IH].
Qed.

Theorem read_good pr fuel w pics s name st : read_statements pr fuel w pics s name = Ok st ->
  good_statements st /\ Forall (fun s => is_include s = false) (st_list st).
Proof.
  unfold read_statements. destruct (path_of w s None name) as [fn| | |]; try discriminate. cbn [bind].
  destruct (load w s None fn) as [[f s1]| | |]; try discriminate. cbn [bind].
  destruct (lex_input _) as [raw| | |] eqn:LX; try discriminate. cbn [bind].
  destruct (replace_includes fuel w fn s1 raw) as [[toks s2]| | |] eqn:R; try discriminate. cbn [bind].
  destruct (parse toks) as [stm| | |] eqn:P; try discriminate. cbn [bind]. unfold replace_byte_includes.
  destruct (byte_includes pr w pics fn s2 (st_list stm)) as [l| | |] eqn:B; try discriminate. cbn [bind]. intros E. injection E as <-.
  apply parse_good in P as [G1 G2]; [|eapply includes_lexed; [|exact R]; eapply lex_lexed; eauto].
  apply byte_includes_good in B; [|exact G1]. unfold good_statements. cbn [st_list st_macros].
  split; [split; [|exact G2]|]; (eapply Forall_impl; [|exact B]); cbn; tauto.
Qed.

(** * Macro expansion *)

Section Uuid.
Variable uuid : nat -> string.
Hypothesis proper : proper_uuid uuid.

Lemma all_app (P : ascii -> Prop) a b : all_chars P (a ++ b) <-> all_chars P a /\ all_chars P b.
Proof. induction a as [|c a IH]; cbn; [tauto|]. rewrite IH. tauto. Qed.

Lemma hex_char c : In c (list_ascii_of_string "0123456789abcdef") -> name_char c /\ lower_ascii c = c.
Proof. cbn. intros I. unfold name_char. repeat (destruct I as [<-|I]; [split; [cbn; tauto|reflexivity]|]). destruct I. Qed.

Lemma uuid_chars n : all_chars name_char (uuid n) /\ lower (uuid n) = uuid n.
Proof.
  assert (P := proper n). induction (uuid n) as [|c s IH]; [split; reflexivity|]. cbn in P. destruct P as [P1 P2].
  destruct (hex_char c P1) as [A B]. destruct (IH P2) as [C D]. split; [now split|]. cbn. now rewrite B, D.
Qed.

Lemma percent_not_name : ~ name_char "%".
Proof. unfold name_char. intros [I|I]; cbn in I; repeat (destruct I as [I|I]; [discriminate|]); destruct I. Qed.

Lemma start_char c : name_start c -> name_char c.
Proof. unfold name_start, name_char. intros [H|H]; [now left|right]. cbn in *. repeat (destruct H as [<-|H]; [tauto|]). destruct H. Qed.

Lemma plain_chars w : plain_name w -> all_chars name_char w.
Proof. intros [I _]. destruct w as [|c w]; [exact Logic.I|]. destruct I as [A B]. split; [now apply start_char|exact B]. Qed.

Lemma strip_label w : all_chars name_char w -> strip_percent (w ++ "%") = w.
Proof.
  induction w as [|c w IH]; intros H; [reflexivity|]. destruct H as [H1 H2]. cbn [String.append strip_percent].
  destruct (Ascii.eqb_spec c "%") as [->|N]; [destruct (percent_not_name H1)|]. now rewrite IH.
Qed.

Lemma lower_app2 a b : lower (a ++ b) = (lower a ++ lower b)%string.
Proof. induction a as [|c a IH]; [reflexivity|]. cbn. now rewrite IH. Qed.

Lemma label_plain w n : plain_name w -> plain_name (strip_percent (w ++ "%") ++ "_" ++ uuid n)%string.
Proof.
  intros P. rewrite (strip_label _ (plain_chars _ P)). destruct (uuid_chars n) as [A B]. destruct P as [I L]. split.
  - destruct w as [|c w]; [destruct I|]. destruct I as [I1 I2]. cbn [String.append]. split; [exact I1|]. apply all_app. split; [exact I2|].
    cbn. split; [|exact A]. right. cbn. tauto.
  - rewrite lower_app2, L. f_equal. cbn. now rewrite B.
Qed.

Definition good_labels (L : smap string) : Prop := forall x l, mget L x = Some l -> plain_name l.
Definition good_args (A : smap arg) : Prop := forall x a, mget A x = Some a -> good_arg a.

Lemma gen_labels_good : forall body L n L' n', Forall good_macro_statement body -> good_labels L ->
  gen_labels uuid L n body = Ok (L', n') -> good_labels L'.
Proof.
  induction body as [|s body IH]; intros L n L' n' F G E; cbn [gen_labels] in E; [injection E as <- <-; exact G|].
  inversion F as [|? ? F1 F2]; subst. destruct s as [m args|m|m]; try (exact (IH _ _ _ _ F2 G E)).
  destruct (mcontains L m); [discriminate|]. refine (IH _ _ _ _ F2 _ E). intros x l. rewrite mget_insert.
  destruct (String.eqb x m); [|apply G]. intros Q. injection Q as <-. destruct F1 as (w & PW & ->). now apply label_plain.
Qed.

Lemma argmap_good : forall params m args, good_args m -> Forall good_arg args -> good_args (make_argmap m params args).
Proof.
  induction params as [|p ps IH]; intros m args G F; [exact G|]. destruct args as [|a args]; [exact G|]. inversion F; subst.
  cbn [make_argmap]. apply IH; [|assumption]. intros x b. rewrite mget_insert. destruct (String.eqb x p); [|apply G]. intros E. injection E as <-. assumption.
Qed.

Lemma replace_good L A (GL : good_labels L) (GA : good_args A) : forall fuel e e', named e -> replace_expr fuel L A e = Ok e' -> named e' /\ ~ bare e'.
Proof.
  assert (NB: forall e, match e with EMacroArg _ => False | _ => True end -> ~ bare e) by (intros e H [n ->]; exact H).
  assert (B2: forall (mk : expr -> expr -> expr) (x y : outcome expr) e',
    (let! a := x in let! b := y in Ok (mk a b)) = Ok e' -> exists a b, x = Ok a /\ y = Ok b /\ e' = mk a b).
  { intros mk x y e' H. destruct x as [a| | |]; try discriminate. destruct y as [b| | |]; try discriminate. cbn in H. injection H as <-. eauto. }
  assert (B1: forall (mk : expr -> expr) (x : outcome expr) e', (let! a := x in Ok (mk a)) = Ok e' -> exists a, x = Ok a /\ e' = mk a).
  { intros mk x e' H. destruct x as [a| | |]; try discriminate. cbn in H. injection H as <-. eauto. }
  induction fuel as [|fuel IHf]; intros e; induction e as [n|l IHl r IHr|l IHl r IHr|x IHx|l IHl r IHr|l IHl r IHr|n r|x IHx|x IHx|n|n|l IHl r IHr|l IHl r IHr|l IHl r IHr];
    intros e' N H; cbn [replace_expr] in H;
    try (injection H as <-; split; [exact N|apply NB; exact Logic.I]);
    try (apply B2 in H as (a & b & HA & HB & ->); destruct N as [N1 N2]; split; [split; [now apply IHl|now apply IHr]|apply NB; exact Logic.I]);
    try (apply B1 in H as (a & HA & ->); split; [now apply (IHx a)|apply NB; exact Logic.I]).
  all: try (destruct (mget L n) as [l|] eqn:E; [|discriminate]; injection H as <-; split; [exact (GL _ _ E)|apply NB; exact Logic.I]).
  all: destruct (mget A n) as [a|] eqn:E; [|discriminate]; destruct a as [x|x|m|m]; try discriminate.
  apply GA in E. destruct E as [E1 E2]. exact (IHf _ _ E1 H).
Qed.

Lemma replace_args_good L A fuel (GL : good_labels L) (GA : good_args A) : forall l l', Forall good_arg l -> replace_args fuel L A l = Ok l' -> Forall good_arg l'.
Proof.
  induction l as [|a l IH]; intros l' F H; cbn [replace_args] in H; [injection H as <-; constructor|]. inversion F as [|? ? F1 F2]; subst.
  destruct (match a with AImm _ => _ | AEx _ => _ | AIM _ => _ | AMacroArg _ => _ end) as [a'| | |] eqn:E; try discriminate. cbn [bind] in H.
  destruct (replace_args fuel L A l) as [t| | |] eqn:E2; try discriminate. cbn [bind] in H. injection H as <-. constructor; [|now apply IH].
  destruct a as [e|e|m|n].
  - destruct (replace_expr fuel L A e) as [e2| | |] eqn:R; try discriminate. cbn in E. injection E as <-. cbn in F1 |- *. eapply replace_good; eauto.
  - destruct (replace_expr fuel L A e) as [e2| | |] eqn:R; try discriminate. cbn in E. injection E as <-. cbn in F1 |- *. eapply replace_good; try exact R; tauto.
  - injection E as <-. exact Logic.I.
  - destruct (mget A n) as [x|] eqn:Q; [|discriminate]. injection E as <-. exact (GA _ _ Q).
Qed.

Notation done := (fun s => good_statement s /\ is_include s = false /\ is_call s = false).

Variable ms : macros.
Hypothesis defs_good : forall n a d, find_macro ms n a = Some d -> good_def d.

Lemma body_expands (call : nat -> string -> list arg -> outcome (list statement * nat)) fuel L A :
  good_labels L -> good_args A ->
  (forall n name args out n', Forall good_arg args -> call n name args = Ok (out, n') -> Forall done out) ->
  forall body n out n', Forall good_macro_statement body -> expand_body call fuel ms L A n body = Ok (out, n') -> Forall done out.
Proof.
  intros GL GA K. induction body as [|s body IH]; intros n out n' F H; cbn [expand_body] in H; [injection H as <- <-; constructor|].
  inversion F as [|? ? F1 F2]; subst.
  destruct (match s with MInstr _ _ => _ | MLabel _ => _ | MMacroLabel _ => _ end) as [[here n1]| | |] eqn:E; try discriminate. cbn [bind] in H.
  destruct (expand_body call fuel ms L A n1 body) as [[rest n2]| | |] eqn:E2; try discriminate. cbn [bind] in H. injection H as <- <-.
  apply Forall_app. split; [|exact (IH _ _ _ F2 E2)]. destruct s as [iname iargs|m|m].
  - destruct (find_macro ms iname (List.length iargs)); (destruct (replace_args fuel L A iargs) as [na| | |] eqn:R; try discriminate); cbn [bind] in E.
    + eapply K; [|exact E]. eapply replace_args_good; eauto.
    + destruct (make_instr iname na) as [i| | |] eqn:M; try discriminate. cbn [bind] in E. injection E as <- <-. constructor; [|constructor].
      split; [|split; reflexivity]. apply make_instr_iff in M as (f & _ & _ & K2 & S). cbn [good_statement]. rewrite K2. cbn [snd].
      apply (shapes_good _ _ _ S). eapply replace_args_good; eauto.
  - injection E as <- <-. constructor; [|constructor]. split; [exact F1|split; reflexivity].
  - destruct (mget L m) as [l|] eqn:Q; [|discriminate]. injection E as <- <-. constructor; [|constructor]. split; [exact (GL _ _ Q)|split; reflexivity].
Qed.

Lemma expand_good : forall fuel n name args out n', Forall good_arg args -> expand uuid fuel ms n name args = Ok (out, n') -> Forall done out.
Proof.
  induction fuel as [|fuel IH]; intros n name args out n' F H; [discriminate|]. cbn [expand] in H.
  destruct (find_macro ms name (List.length args)) as [d|] eqn:D; [|discriminate]. destruct (Nat.eqb _ _); [|discriminate].
  destruct (gen_labels uuid [] n (m_body d)) as [[L n1]| | |] eqn:G; try discriminate. cbn [bind] in H.
  assert (GD := defs_good _ _ _ D). 
  refine (body_expands _ fuel L _ _ _ IH _ _ _ _ GD H).
  - eapply gen_labels_good; [exact GD| |exact G]. intros x l. discriminate.
  - apply argmap_good; [intros x a; discriminate|exact F].
Qed.

Lemma list_good : forall fuel l n out n', Forall (fun s => good_statement s /\ is_include s = false) l ->
  expand_list uuid fuel ms n l = Ok (out, n') -> Forall done out.
Proof.
  intros fuel. induction l as [|s l IH]; intros n out n' F H; cbn [expand_list] in H; [injection H as <- <-; constructor|].
  inversion F as [|? ? F1 F2]; subst. destruct F1 as [F1 F3].
  assert (K: is_call s = false -> (let! (rest, n2) := expand_list uuid fuel ms n l in Ok (s :: rest, n2)) = Ok (out, n') -> Forall done out).
  { intros C E. destruct (expand_list uuid fuel ms n l) as [[rest n2]| | |] eqn:R; try discriminate. cbn [bind] in E. injection E as <- <-.
    constructor; [auto|exact (IH _ _ _ F2 R)]. }
  destruct s; try (apply K; [reflexivity|exact H]). clear K.
  destruct (expand uuid fuel ms n name args) as [[here n1]| | |] eqn:E; try discriminate. cbn [bind] in H.
  destruct (expand_list uuid fuel ms n1 l) as [[rest n2]| | |] eqn:R; try discriminate. cbn [bind] in H. injection H as <- <-.
  apply Forall_app. split; [eapply expand_good; eauto|exact (IH _ _ _ F2 R)].
Qed.
End Uuid.

(** What is known of everything read and expanded. *)
Theorem expanded_good uuid pr fuel w pics s name st ex : proper_uuid uuid ->
  read_statements pr fuel w pics s name = Ok st -> expand_macros uuid fuel st = Ok ex ->
  Forall (fun x => good_statement x /\ is_include x = false /\ is_call x = false) (st_list ex).
Proof.
  intros U R X. apply read_good in R as [[G1 G2] NI]. unfold expand_macros in X.
  destruct (expand_list uuid fuel (st_macros st) 0 (st_list st)) as [[l n]| | |] eqn:E; try discriminate. cbn [bind] in X. injection X as <-.
  cbn [st_list] in *. apply (list_good uuid U (st_macros st) G2) in E; [exact E|].
  clear - G1 NI. induction G1; [constructor|]. inversion NI; subst. constructor; auto.
Qed.

(** Everything read and expanded is printable, up to the exceptions. *)
Theorem expanded_printable uuid pr fuel w pics s name st ex : proper_uuid uuid ->
  read_statements pr fuel w pics s name = Ok st -> expand_macros uuid fuel st = Ok ex ->
  Forall ordinary_statement (st_list ex) -> Forall printable_statement (st_list ex).
Proof.
  intros U R X O. assert (E := expanded_good _ _ _ _ _ _ _ _ _ U R X). cbn beta in E.
  induction E as [|x l H E IH]; [constructor|]. inversion O; subst. constructor; [|auto]. apply good_printable; tauto.
Qed.
