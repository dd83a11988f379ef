(** What the lexer and the parser produce is printable unless it is octal; octal literals; leading [equ]. *)
From Coq Require Import ZArith List String Ascii Bool Arith Lia.
From Verif Require Import Base Expr Instr Ast Lexer Parser Printer SpecIsa SpecMacro SpecLex LexProofs LexProofs3 LexProofs4 LexProofs5
  PropsLex MacroProofs SpecParse ParseProofs SpecLine LineProofs LineProofs2 LineProofs3 SpecPrint PrintProofs PrintProofs2 PrintProofs3 PrintProofs4.
Import ListNotations.
Open Scope string_scope.
Open Scope list_scope.
Local Open Scope nat_scope.

(** * Tokens *)

Definition plain_nameb (n : string) : bool :=
  (match n with String c t => ident_start c && forallb ident_char (list_ascii_of_string t) | _ => false end && String.eqb (lower n) n)%bool.

Lemma plain_test n : plain_nameb n = true -> plain_name n.
Proof.
  intros B. apply andb_prop in B as [B1 B2]. apply String.eqb_eq in B2. split; [|exact B2].
  destruct n as [|c t]; [discriminate|]. apply andb_prop in B1 as [B0 B1]. split; [now apply name_start_iff|].
  rewrite forallb_forall in B1. clear B0 B2. induction t as [|d t IH]; [exact Logic.I|]. split.
  - apply name_char_iff. apply B1. now left.
  - apply IH. intros x J. apply B1. now right.
Qed.

Definition lexed (ty : token_type) : Prop :=
  match ty with
  | TName n => plain_name n
  | TNumber n _ => (0 <= n <= 2147483647)%Z
  | TMacroLabel n => exists w, plain_name w /\ n = (w ++ "%")%string
  | TMacroIdent n => exists w, plain_name w /\ n = String "%" w
  | _ => True
  end.

Lemma lower_twice_c c : lower_ascii (lower_ascii c) = lower_ascii c.
Proof.
  assert (A := all_ascii_ok (fun c => Ascii.eqb (lower_ascii (lower_ascii c)) (lower_ascii c)) ltac:(vm_compute; reflexivity) c).
  now apply Ascii.eqb_eq.
Qed.

Lemma lower_start c : name_start c -> name_start (lower_ascii c).
Proof.
  rewrite <- !name_start_iff. intros H.
  assert (A := all_ascii_ok (fun c => implb (ident_start c) (ident_start (lower_ascii c))) ltac:(vm_compute; reflexivity) c).
  cbn beta in A. rewrite H in A. exact A.
Qed.

Lemma lower_char c : name_char c -> name_char (lower_ascii c).
Proof.
  rewrite <- !name_char_iff. intros H.
  assert (A := all_ascii_ok (fun c => implb (ident_char c) (ident_char (lower_ascii c))) ltac:(vm_compute; reflexivity) c).
  cbn beta in A. rewrite H in A. exact A.
Qed.

Lemma lower_cons c t : lower (String c t) = String (lower_ascii c) (lower t).
Proof. reflexivity. Qed.

Lemma lower_twice w : lower (lower w) = lower w.
Proof. induction w as [|c w IH]; [reflexivity|]. now rewrite !lower_cons, lower_twice_c, IH. Qed.

Lemma lower_plain w : identifier w -> plain_name (lower w).
Proof.
  intros H. split; [|apply lower_twice]. destruct w as [|c t]; [destruct H|]. destruct H as [H1 H2]. rewrite lower_cons.
  split; [now apply lower_start|]. clear H1. induction t as [|d t IH]; [exact Logic.I|]. destruct H2 as [A B]. rewrite lower_cons.
  split; [now apply lower_char|auto].
Qed.

Lemma positional_nonneg base vs : (0 <= base)%Z -> Forall (fun v => (0 <= v)%Z) vs -> (0 <= positional base vs)%Z.
Proof.
  intros B. induction 1 as [|v vs H F IH]; cbn; [lia|]. assert (0 <= base ^ Z.of_nat (List.length vs))%Z by (apply Z.pow_nonneg; lia). nia.
Qed.

Lemma digit_nonneg base c v : digit base c v -> (0 <= v)%Z.
Proof. intros [I _]. cbn in I. repeat destruct I as [I|I]; try (injection I as _ <-; lia). destruct I. Qed.

Lemma more_nonneg base s vs : more_digits base s vs -> Forall (fun v => (0 <= v)%Z) vs.
Proof. induction 1 as [|c v t vs D M IH|c v t vs D M IH]; constructor; auto; now apply digit_nonneg in D. Qed.

Lemma numeral_nonneg text n r : numeral text n r -> (0 <= n)%Z.
Proof.
  intros (p & base & body & vs & I & _ & (c & v & t & ws & _ & -> & D & M) & ->). apply positional_nonneg.
  - cbn in I. repeat destruct I as [I|I]; try (injection I as _ <- _; lia). destruct I.
  - constructor; [now apply digit_nonneg in D|now apply more_nonneg in M].
Qed.

Lemma writes_lexed text ty : writes text ty -> fits ty -> lexed ty.
Proof.
  intros W F. destruct W as [text ty I|w I|w I|w I|l s A B|text n r N]; cbn [lexed].
  - cbn in I. repeat destruct I as [I|I]; try (injection I as <- <-; exact Logic.I). destruct I.
  - now apply lower_plain.
  - exists (lower w). split; [now apply lower_plain|reflexivity].
  - exists (lower w). split; [now apply lower_plain|reflexivity].
  - exact Logic.I.
  - split; [now apply numeral_nonneg in N|exact F].
Qed.

Lemma lex_lexed f text toks : lex_input (new_input f text) = Ok toks -> Forall lexed (map t_type toks).
Proof.
  intros H. apply lex_ok_iff in H as (ps & tail & _ & P & _ & ->). rewrite types_of. apply Forall_app. split; [|constructor; [exact Logic.I|constructor]].
  revert P. generalize "" as before. induction ps as [|p ps IH]; intros before P; cbn; [constructor|].
  destruct P as (_ & W & F & _ & _ & P). constructor; [exact (writes_lexed _ _ W F)|exact (IH _ P)].
Qed.

Lemma expression_lexable l ts e : expression l ts e -> Forall lexed ts -> lexable e.
Proof.
  induction 1 as [op l mk ts1 e1 ts2 e2 I H1 IH1 H2 IH2|l ts e H IH N|op mk ts e I H IH|ts e H IH|n|n r|n|n]; intros F.
  - apply Forall_app in F as [F1 F2]. inversion F2; subst. specialize (IH1 F1). assert (L2: lexable e2) by auto.
    cbn in I. repeat destruct I as [I|I]; try (injection I as <- <- <-; cbn; auto). destruct I.
  - auto.
  - inversion F; subst. assert (L: lexable e) by auto. cbn in I. repeat destruct I as [I|I]; try (injection I as <- <-; exact L). destruct I.
  - inversion F as [|? ? _ F2]; subst. apply Forall_app in F2 as [F2 _]. auto.
  - inversion F; subst. assumption.
  - inversion F; subst. assumption.
  - inversion F; subst. assumption.
  - inversion F; subst. assumption.
Qed.

(** An expression read anywhere in a text. *)
Theorem parsed_expr_reads f text toks a b e rest : lex_input (new_input f text) = Ok toks -> toks = a ++ b ->
  parse_expr (map t_type b) = Ok (e, rest) -> octal_free e ->
  exists toks', lex_input (new_input f (show_expr e)) = Ok toks' /\ parse_expr (map t_type toks') = Ok (e, [TEOF]).
Proof.
  intros L -> P O. apply expr_reads. split; [|exact O]. apply lex_lexed in L. rewrite map_app in L. apply Forall_app in L as [_ L].
  apply parse_expr_sound in P as (front & E & H). rewrite E in L. apply Forall_app in L as [L _]. exact (expression_lexable _ _ _ H L).
Qed.

(** * Instructions *)

Lemma operand_lexable ts a : operand_of ts a -> Forall lexed ts -> match a with AImm e | AEx e => lexable e | _ => True end.
Proof.
  intros H F. inversion H; subst; auto.
  - inversion F; subst. eapply expression_lexable; eauto.
  - eapply expression_lexable; eauto.
Qed.

Lemma separated_forall {T : Type} (item : list token_type -> T -> Prop) (P : T -> Prop) ts xs :
  (forall ts x, item ts x -> Forall lexed ts -> P x) -> separated item ts xs -> Forall lexed ts -> Forall P xs.
Proof.
  intros K. induction 1 as [ts x H|ts x ts2 xs H S IH]; intros F.
  - constructor; [exact (K _ _ H F)|constructor].
  - apply Forall_app in F as [F1 F2]. inversion F2; subst. constructor; [exact (K _ _ H F1)|auto].
Qed.

Definition octal_free_instr (i : instr expr imode) : Prop :=
  Forall (fun o => match o with inl e => octal_free e | inr _ => True end) (op_list i).

Lemma command_printable ts i : command ts (SInstr i) -> Forall lexed ts -> octal_free_instr i -> printable_instr i.
Proof.
  intros C F O. inversion C as [ts' args f j M I K S|]; subst. unfold printable_instr, octal_free_instr in *. rewrite K. cbn [snd].
  assert (A: Forall (fun a => match a with AImm e | AEx e => lexable e | _ => True end) args).
  { inversion F; subst. destruct M as [[-> ->]|M]; [constructor|]. eapply separated_forall; [|exact M|assumption]. apply operand_lexable. }
  assert (B: Forall (fun a => match a with AEx e => forall n, e <> EMacroArg n | _ => True end) args).
  { destruct M as [[-> ->]|M]; [constructor|]. clear - M. induction M as [ts x H|ts x ts2 xs H S IH]; constructor; auto; inversion H; subst; auto. }
  clear - S O A B. induction S as [|k ks a t o os H S IH]; [constructor|]. inversion A; inversion B; inversion O; subst. constructor; [|auto].
  destruct k, a; cbn in H; try contradiction; subst; cbn; auto; repeat split; auto.
Qed.

Theorem parsed_instr_printable f text toks a b c stmts i : lex_input (new_input f text) = Ok toks -> toks = a ++ b ++ c ->
  parse_line (map t_type b) = Ok stmts -> In (SInstr i) stmts -> octal_free_instr i -> printable_instr i.
Proof.
  intros L -> P I O. apply lex_lexed in L. rewrite !map_app in L. apply Forall_app in L as [_ L]. apply Forall_app in L as [L _].
  apply parse_line_iff in P as (front & E & H).
  assert (F: Forall lexed front).
  { inversion E; subst; [exact L|]. match goal with X : _ = map t_type b |- _ => rewrite <- X in L end. apply Forall_app in L as [L _]. exact L. }
  inversion H; subst; cbn in I; repeat destruct I as [I|I]; try discriminate; try contradiction; subst.
  - apply command_printable with (ts := ts); auto. inversion F as [|? ? _ F2]; inversion F2; subst; assumption.
  - apply command_printable with (ts := front); auto.
Qed.

Lemma opens_tokens e : opens_with_equ e -> exists r, etoks e = TName "equ" :: r.
Proof.
  intros [->|(x & I)]; [eexists; reflexivity|]. cbn in I. repeat destruct I as [<-|I]; try destruct I; eexists; cbn [etoks complex app]; reflexivity.
Qed.

Lemma equ_tokens i : reads_as_equ i -> exists m r, itoks i = TName m :: TName "equ" :: r.
Proof.
  intros (k & ks & e & os & K & N & O & E). unfold itoks, iargs. rewrite K, O. cbn [args_for map].
  destruct (commas_first (arg_toks (arg_for k (inl e))) (map arg_toks (args_for ks os))) as (t & ->).
  destruct (opens_tokens e E) as (r & R). assert (X: arg_toks (arg_for k (inl e)) = etoks e) by (destruct k; congruence || reflexivity).
  rewrite X, R. cbn. eauto.
Qed.

(** A printed instruction is read back exactly if it does not look like the definition of a constant. *)
Theorem instr_reads_iff f i : printable_instr i ->
  ((exists toks, lex_input (new_input f (show_instr i)) = Ok toks /\ parse_line (map t_type toks) = Ok [SInstr i]) <-> ~ reads_as_equ i).
Proof.
  intros P. split; [|now apply instr_reads].
  intros (toks & L & PL) R. destruct (spelled_lex f (show_instr i) (itoks i)) as (toks2 & L2 & T); [apply instr_spelled; [exact P|apply stops_nil]|].
  assert (toks2 = toks) by congruence. subst toks2. rewrite T in PL. destruct (equ_tokens i R) as (m & r & E). rewrite E in PL.
  apply parse_line_iff in PL as (front & EN & H).
  assert (FX: front = itoks i).
  { pose proof (command_no_eof _ _ (instr_command i P)) as NO. rewrite E in *. clear - EN NO.
    apply ends_split in EN as (rest & X & [->|(q & ->)] & NI).
    - rewrite app_nil_r in X. subst front. exfalso. apply NI. apply in_or_app. right. now left.
    - revert X NI NO. generalize (TName m :: TName "equ" :: r) as g. intros g. revert front.
      induction g as [|x g IH]; intros [|y front] X NI NO; cbn in X.
      + reflexivity.
      + injection X as <- _. destruct NI. now left.
      + injection X as -> _. destruct NO. now left.
      + injection X as <- X. f_equal. apply IH; auto; intros Z; [apply NI|apply NO]; now right. }
  rewrite FX, E in H. inversion H; subst.
  - match goal with X : forall a r, _ <> _ |- _ => exact (X _ _ eq_refl) end.
Qed.

(** * Octal literals *)

Lemma positional_octal vs v : all_digits 8 (vs ++ [v]) -> (positional 16 (vs ++ [v]) = positional 8 (vs ++ [v]) <-> positional 8 (vs ++ [v]) < 8)%Z.
Proof.
  intros A. apply Forall_app in A as [A B]. inversion B; subst. rewrite !positional_app. cbn [List.length positional]. 
  change (Z.of_nat 1) with 1%Z. change (Z.of_nat 0) with 0%Z. rewrite !Z.pow_1_r, !Z.pow_0_r.
  assert (M: (0 <= positional 8 vs <= positional 16 vs)%Z).
  { clear - A. induction A as [|x vs H F IH]; cbn; [lia|].
    assert (0 <= 8 ^ Z.of_nat (List.length vs) <= 16 ^ Z.of_nat (List.length vs))%Z by (split; [apply Z.pow_nonneg; lia|apply Z.pow_le_mono_l; lia]). nia. }
  assert (Z0: (positional 8 vs = 0 -> positional 16 vs = 0)%Z).
  { clear - A. induction A as [|x vs H F IH]; cbn; [auto|]. intros E.
    assert (0 < 8 ^ Z.of_nat (List.length vs))%Z by (apply Z.pow_pos_nonneg; lia).
    assert (0 <= positional 8 vs)%Z by (apply positional_nonneg; [lia|eapply Forall_impl; [|exact F]; cbn; lia]).
    assert (x = 0)%Z by nia. subst x. rewrite IH; lia. }
  split; intros E; [lia|]. assert (positional 8 vs = 0)%Z by lia. rewrite (Z0 H). lia.
Qed.

(** An octal literal is printed as a hexadecimal one with the same digits. *)
Lemma octal_text n : (0 <= n <= 2147483647)%Z -> exists m, numeral (show_number n Octal) m Hex /\ (m = n <-> n < 8)%Z.
Proof.
  intros H. cbn [show_number]. unfold show_radix. rewrite Z.mod_small by lia.
  destruct (padded_spec 8 ltac:(lia) 4 n ltac:(lia)) as (vs & E & A & N & P). rewrite E. exists (positional 16 vs). split.
  - exists "$", 16%Z, (text_of vs), vs. split; [cbn; tauto|]. split; [reflexivity|]. split; [|reflexivity].
    apply text_some; [lia| |exact N]. eapply Forall_impl; [|exact A]. cbn. lia.
  - destruct (exists_last N) as (ws & v & ->). rewrite <- P. now apply positional_octal.
Qed.

Theorem octal_reads f n pr en : (0 <= n <= 2147483647)%Z ->
  ((exists toks e rest, lex_input (new_input f (show_expr (ENumber n Octal))) = Ok toks /\ parse_expr (map t_type toks) = Ok (e, rest) /\
     eval pr en e = Ok n) <-> (n < 8)%Z).
Proof.
  intros H. destruct (octal_text n H) as (m & N & E). cbn [show_expr].
  assert (Q: forall toks e rest, lex_input (new_input f (show_number n Octal)) = Ok toks -> parse_expr (map t_type toks) = Ok (e, rest) -> e = ENumber m Hex).
  { intros toks e rest L P. destruct (Z_le_gt_dec m 2147483647) as [LE|GT].
    - rewrite (C21_alone f _ _ _ N LE) in L. injection L as <-. cbn [map t_type] in P.
      assert (P2 := parse_expr_complete [TNumber m Hex] (ENumber m Hex) [TEOF] (lift_level _ _ _ (g_number m Hex)) ltac:(left; right; eauto)).
      cbn [app] in P2. congruence.
    - rewrite (C21_too_large_panics f _ _ _ N ltac:(lia)) in L. discriminate. }
  split.
  - intros (toks & e & rest & L & P & V). rewrite (Q toks e rest L P) in V. cbn in V. apply E. congruence.
  - intros LT. apply E in LT. subst m. eexists _, (ENumber n Hex), [TEOF]. split; [apply (C21_alone f _ _ _ N); lia|].
    split; [|reflexivity]. cbn [map t_type]. apply (parse_expr_complete [TNumber n Hex] (ENumber n Hex) [TEOF]); [apply lift_level, g_number|left; right; eauto].
Qed.
