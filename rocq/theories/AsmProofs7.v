(** Assembly never crashes on reasonable programs, and succeeds exactly on the well-formed ones. *)
From Coq Require Import ZArith List String Ascii Bool Lia.
From Verif Require Import Base Expr Bits Instr Ast Asm SpecIsa SpecExpr SpecAsm ExprProofs AsmProofs AsmProofs2 AsmProofs3 AsmProofs4 AsmProofs5 AsmProofs6.
Import ListNotations.
Open Scope string_scope.
Open Scope list_scope.
Open Scope Z_scope.

Local Arguments Z.add : simpl never.
Local Arguments Z.sub : simpl never.
Local Arguments Z.mul : simpl never.
Local Arguments Z.opp : simpl never.
Local Arguments Z.div : simpl never.
Local Arguments Z.pow : simpl never.
Local Arguments Z.modulo : simpl never.
Local Arguments Z.land : simpl never.
Local Arguments Z.shiftr : simpl never.
Local Arguments Z.leb : simpl never.
Local Arguments Z.ltb : simpl never.
Local Arguments Z.eqb : simpl never.
Local Arguments Z.max : simpl never.
Local Arguments Z.of_nat : simpl never.
Local Arguments Z.to_nat : simpl never.

Lemma rawcur_lowered l : Forall lower_label l -> lower (rawcur l) = rawcur l.
Proof.
  induction l as [|s l IH] using rev_ind; [reflexivity|].
  intros H. apply Forall_app in H. destruct H as [H1 H2]. rewrite rawcur_snoc.
  inversion H2 as [|? ? Hs _]; subst. destruct s; simpl in *; auto. destruct (is_local name); auto.
Qed.

Lemma gen_loop_total pr ns get prog N : Forall typed prog -> Forall plain prog -> 0 <= N <= 2147483647 -> top prog <= N ->
  (forall k, addr (firstn k prog) <= 2147483647) ->
  (pr = Debug -> forward_cnops prog) ->
  (forall l s rest, prog = l ++ s :: rest -> needs_env s = true -> exists lo, mget (locals ns) (rawcur l) = Some lo /\
     forall x, names_get (globals ns) lo x = get (List.length l) x) ->
  (forall k s e kw, nth_error prog k = Some s -> In e (stmt_exprs s) -> safe (eval pr (mkEnv kw (get k)) e)) ->
  forall l rest, prog = l ++ rest ->
  (exists st, gen_loop pr ns l (mkGen (repeat 0 (Z.to_nat N)) 0 "") = Ok st /\ ginv pr get l N st) \/
  (exists er k s, gen_loop pr ns l (mkGen (repeat 0 (Z.to_nat N)) 0 "") = Err er /\ nth_error prog k = Some s /\
     forall bs, ~ emits pr (get k) (addr (firstn k prog)) s bs).
Proof.
  intros Ht Hpl HN Htop Hall Hfw Hget Hsafe. induction l as [|s l IH] using rev_ind; intros rest Hpr.
  - left. eexists. split; [reflexivity|]. apply ginv_start. lia.
  - rewrite <- app_assoc in Hpr. cbn [app] in Hpr. rewrite gen_loop_app.
    destruct (IH (s :: rest) Hpr) as [(st & E & Hinv)|(er & k & t & E & Hk & Hno)].
    2:{ right. exists er, k, t. rewrite E. auto. }
    rewrite E. cbn [bind gen_loop]. pose proof Hinv as (H1 & H2 & H3 & H4 & _).
    assert (Hs : nth_error prog (List.length l) = Some s) by (subst prog; apply nth_mid).
    assert (Hf : firstn (List.length l) prog = l) by (subst prog; apply firstn_mid).
    assert (Hf' : firstn (S (List.length l)) prog = l ++ [s]).
    { rewrite Hpr. change (l ++ s :: rest) with (l ++ [s] ++ rest). rewrite app_assoc, firstn_pre by (rewrite app_length; simpl; lia).
      apply firstn_all2. rewrite app_length. simpl. lia. }
    assert (Hts : typed s) by (rewrite Forall_forall in Ht; apply Ht; eapply nth_error_In; eauto).
    assert (Hps : plain s) by (rewrite Forall_forall in Hpl; apply Hpl; eapply nth_error_In; eauto).
    assert (Hp : 0 <= addr l <= 2147483647) by (specialize (H2 (List.length l)); rewrite firstn_all in H2; assumption).
    assert (Hadv : advance (addr l) s <= N).
    { pose proof (top_bound prog (S (List.length l))) as Hb. rewrite Hf', addr_snoc in Hb. lia. }
    destruct (gen_step_total pr ns s st (get (List.length l)) Hts Hps) as [(st' & E')|(er & E' & Hno)].
    + rewrite H1. assumption.
    + rewrite H4. lia.
    + rewrite H1, H4. assumption.
    + intros Hd a m -> _ _. rewrite H1. specialize (Hfw Hd _ _ _ Hs). rewrite Hf, Hf', addr_snoc in Hfw. assumption.
    + rewrite H3. intros Hne. eauto.
    + intros e kw He. eauto.
    + left. rewrite E'. cbn [bind]. eexists. split; [reflexivity|].
      eapply (ginv_step pr ns get prog l s rest N st st'); eauto.
      * lia.
      * intros _ k a m _. apply Hall.
      * intros Hne lo Hlo. destruct (Hget l s rest Hpr Hne) as (lo' & Hlo' & Hx). rewrite Hlo in Hlo'. injection Hlo' as <-. exact Hx.
    + right. exists er, (List.length l), s. rewrite E'. split; [reflexivity|]. split; [assumption|]. rewrite Hf, <- H1. assumption.
Qed.

Lemma nonliteral_not_wf pr prog : nonliteral_cnop prog -> ~ well_formed pr prog.
Proof.
  intros (a & m & Hin & Hno) (_ & _ & He). apply In_nth_error in Hin. destruct Hin as (k & Hk).
  destruct (He _ _ Hk) as (get & bs & _ & Hem). simpl in Hem. tauto.
Qed.

Theorem assemble_complete pr prog : Forall typed prog -> Forall plain prog -> Forall lower_label prog -> layout_small prog ->
  (pr = Debug -> forward_cnops prog) ->
  (forall k s n e, nth_error prog k = Some s -> var_def s = Some (n, e) ->
     safe (eval pr (mkEnv "Name" (visible pr prog k)) e)) ->
  (forall k s get e kw, nth_error prog k = Some s -> env_at pr prog k get -> In e (stmt_exprs s) ->
     safe (eval pr (mkEnv kw get) e)) ->
  ((exists out, assemble pr prog = Ok out) /\ well_formed pr prog) \/
  ((exists er, assemble pr prog = Err er) /\ ~ well_formed pr prog).
Proof.
  intros Ht Hpl Hlow Hlay Hfw Hvs Hes.
  assert (Hr : range prog) by (intros k; specialize (Hlay k); lia).
  assert (Hcs : pr = Release -> cnop_small prog) by (intros _ k a m _; apply Hr).
  assert (Hok : forall out, assemble pr prog = Ok out -> well_formed pr prog).
  { intros out H. destruct (assemble_sound pr prog out Ht Hcs H) as (_ & (chunks & (Hl & Hch) & _) & Hd & Hv & _).
    split; [assumption|]. split; [assumption|]. intros k s Hk.
    assert (k < List.length prog)%nat by (apply nth_error_Some; congruence).
    destruct (nth_error chunks k) as [bs|] eqn:Hb; [|apply nth_error_None in Hb; lia].
    destruct (Hch k s bs Hk Hb) as (get & H1 & H2). eauto. }
  assert (Herr : forall er, assemble pr prog = Err er -> ~ well_formed pr prog -> ((exists out, assemble pr prog = Ok out) /\ well_formed pr prog) \/
    ((exists er, assemble pr prog = Err er) /\ ~ well_formed pr prog)) by (intros er H1 H2; right; eauto).
  destruct (compute_labels_spec pr prog Ht Hr) as [(El & Hg & Hreg)|[(El & Hnl)|[(x & El & Hd)|(El & Hn)]]]; [| | |contradiction].
  2:{ apply (Herr MustBeLiteralNumber); [unfold assemble, compute_names; rewrite El; reflexivity|apply nonliteral_not_wf; assumption]. }
  2:{ apply (Herr (NameAlreadyExists x)); [unfold assemble, compute_names; rewrite El; reflexivity|]. intros (H & _). exact (H x Hd). }
  destruct (name_loop_spec pr prog prog Ht Hr Hg (ex_intro _ [] (eq_sym (app_nil_r prog))))
    as [(nst & En & Hinv & Hv)|[(En & Hnl)|[(x & En & Hd)|[Hf|(En & Hn)]]]]; [| | | |contradiction].
  2:{ apply (Herr MustBeLiteralNumber); [unfold assemble, compute_names; rewrite El; cbn [bind label_names globals]; rewrite En; reflexivity|apply nonliteral_not_wf; assumption]. }
  2:{ apply (Herr (NameAlreadyExists x)); [unfold assemble, compute_names; rewrite El; cbn [bind label_names globals]; rewrite En; reflexivity|]. intros (H & _). exact (H x Hd). }
  2:{ destruct Hf as (k & s & n & e & Hk & Hvd & Hnv & En). destruct (safe_cases _ (Hvs k s n e Hk Hvd)) as [(v & Ev)|(er & Ev)]; rewrite Ev in En; cbn [bind] in En.
      - exfalso. exact (Hnv v Ev).
      - apply (Herr er); [unfold assemble, compute_names; rewrite El; cbn [bind label_names globals]; rewrite En; reflexivity|].
        intros (_ & H & _). destruct (H k s n e Hk Hvd). congruence. }
  assert (Htop : n_max nst = top prog) by apply Hinv.
  assert (HM : 0 <= top prog <= 2147483646).
  { destruct (top_reached prog) as (k & ->). apply Hlay. }
  set (ns := mkNames (n_globals nst) (locals (label_names prog))).
  assert (Easm : assemble pr prog = let! st := gen_loop pr ns prog (mkGen (repeat 0 (Z.to_nat (top prog))) 0 "") in Ok (g_out st)).
  { unfold assemble, compute_names. rewrite El. cbn [bind]. cbn [label_names globals]. rewrite En. cbn [bind]. rewrite Htop.
    rewrite chk32_ok by (unfold in32; lia). cbn [bind].
    unfold wrap_usize. rewrite Z.mod_small by lia. rewrite chk_usize_ok by lia. cbn [bind].
    replace (top prog + 1 - 1) with (top prog) by lia. unfold zero_vec.
    replace (9223372036854775807 <? top prog) with false by (symmetry; apply Z.ltb_ge; lia). reflexivity. }
  pose proof (gnames_nodup prog Ht Hg) as Hgn.
  destruct (gen_loop_total pr ns (getf (n_globals nst) prog) prog (top prog) Ht Hpl ltac:(lia) ltac:(lia)) with (l := prog) (rest := @nil statement)
    as [(st & E & _)|(er & k & s & E & Hk & Hno)]; auto.
  - intros k. apply Hr.
  - intros l s rest Hpr _. exists (rev (region (ngl l) prog)). split.
    + cbn [ns locals]. apply (scope_exists prog l (s :: rest) Hpr Hgn). apply rawcur_lowered.
      rewrite Hpr in Hlow. apply Forall_app in Hlow. tauto.
    + intros x. unfold getf. replace (scope_no prog (List.length l)) with (ngl l) by (unfold scope_no; rewrite Hpr, firstn_mid; reflexivity).
      reflexivity.
  - intros k s e kw Hk He. eapply Hes; eauto. apply getf_env_at; assumption.
  - rewrite app_nil_r. reflexivity.
  - left. split; [exists (g_out st); rewrite Easm, E; reflexivity|]. apply (Hok (g_out st)). rewrite Easm, E. reflexivity.
  - apply (Herr er); [rewrite Easm, E; reflexivity|]. intros (_ & _ & H). destruct (H k s Hk) as (get & bs & He & Hem).
    apply (Hno bs). eapply emits_ext; [|exact Hem]. eapply env_at_unique; [exact He|]. apply getf_env_at; assumption.
Qed.
