(** The name pass, the emission pass and the whole assembly. *)
From Coq Require Import ZArith List String Ascii Bool Lia.
From Verif Require Import Base Expr Bits Instr Ast Asm SpecIsa SpecExpr SpecAsm ExprProofs AsmProofs AsmProofs2 AsmProofs3 AsmProofs4.
Import ListNotations.
Open Scope string_scope.
Open Scope list_scope.
Open Scope Z_scope.

Local Arguments Z.add : simpl never.
Local Arguments Z.sub : simpl never.
Local Arguments Z.mul : simpl never.
Local Arguments Z.opp : simpl never.
Local Arguments Z.div : simpl never.
Local Arguments Z.pow : simpl never.
Local Arguments Z.modulo : simpl never.
Local Arguments Z.land : simpl never.
Local Arguments Z.shiftr : simpl never.
Local Arguments Z.leb : simpl never.
Local Arguments Z.ltb : simpl never.
Local Arguments Z.eqb : simpl never.
Local Arguments Z.max : simpl never.
Local Arguments Z.of_nat : simpl never.
Local Arguments Z.to_nat : simpl never.

Lemma nth_mid {A : Type} (l : list A) s rest : nth_error (l ++ s :: rest) (List.length l) = Some s.
Proof. rewrite nth_error_app2, Nat.sub_diag by lia. reflexivity. Qed.

Lemma firstn_mid {A : Type} (l : list A) rest : firstn (List.length l) (l ++ rest) = l.
Proof. rewrite firstn_app, Nat.sub_diag, firstn_all. simpl. apply app_nil_r. Qed.

Lemma firstn_pre {A : Type} k (l rest : list A) : (k <= List.length l)%nat -> firstn k (l ++ rest) = firstn k l.
Proof. intros H. rewrite firstn_app. replace (k - List.length l)%nat with 0%nat by lia. simpl. apply app_nil_r. Qed.

Lemma top_snoc l s : top (l ++ [s]) = Z.max (top l) (addr (l ++ [s])).
Proof.
  unfold top. rewrite app_length. simpl List.length. rewrite Nat.add_1_r.
  rewrite (seq_S (S (List.length l)) 0), map_app, fold_right_app. cbn [map fold_right Nat.add].
  replace (firstn (S (List.length l)) (l ++ [s])) with (l ++ [s])
    by (rewrite firstn_all2; [reflexivity|rewrite app_length; simpl; lia]).
  rewrite (map_ext_in (fun k => addr (firstn k (l ++ [s]))) (fun k => addr (firstn k l))).
  2:{ intros k Hk. apply in_seq in Hk. rewrite firstn_pre by lia. reflexivity. }
  generalize (map (fun k => addr (firstn k l)) (seq 0 (S (List.length l)))) as L. intros L.
  assert (E : forall z, 0 <= fold_right Z.max 0 L /\ fold_right Z.max (Z.max z 0) L = Z.max (fold_right Z.max 0 L) z).
  { intros z. induction L as [|y L IH]; cbn [fold_right]; lia. }
  apply E.
Qed.

Lemma top_bound l k : addr (firstn k l) <= top l.
Proof.
  revert k. induction l as [|s l IH] using rev_ind; intros k.
  - rewrite firstn_nil. reflexivity.
  - rewrite top_snoc. destruct (le_lt_dec k (List.length l)) as [H|H].
    + rewrite firstn_pre by assumption. specialize (IH k). lia.
    + rewrite firstn_all2 by (rewrite app_length; simpl; lia). lia.
Qed.

Lemma top_reached l : exists k, top l = addr (firstn k l).
Proof.
  induction l as [|s l IH] using rev_ind.
  - exists 0%nat. reflexivity.
  - rewrite top_snoc. destruct IH as (k & Hk). destruct (Z_le_gt_dec (addr (l ++ [s])) (top l)).
    + destruct (le_lt_dec k (List.length l)) as [H|H].
      * exists k. rewrite firstn_pre by assumption. lia.
      * exists (List.length l). rewrite firstn_mid. rewrite firstn_all2 in Hk by lia. lia.
    + exists (List.length (l ++ [s])). rewrite firstn_all. lia.
Qed.

Lemma top_nonneg l : 0 <= top l.
Proof. apply (top_bound l 0). Qed.

(** ** The name pass *)

Definition vnames (l : list statement) : list string :=
  flat_map (fun s => match var_def s with Some (n, _) => [lower n] | None => [] end) l.

Definition ninv (pr : profile) (prog l : list statement) (st : nam_state) : Prop :=
  n_pos st = addr l /\ n_max st = top l /\
  (forall x, mget (n_globals st) x = visible pr prog (List.length l) x) /\
  map fst (n_globals st) = rev (vnames l) ++ rev (map fst (globs 0 prog)) /\
  NoDup (map fst (n_globals st)).

Lemma visible_skip pr prog l s rest x : prog = l ++ s :: rest -> var_def s = None ->
  visible pr prog (S (List.length l)) x = visible pr prog (List.length l) x.
Proof. intros -> H. cbn [visible]. rewrite nth_mid, H. reflexivity. Qed.

Lemma vnames_snoc l s : vnames (l ++ [s]) = vnames l ++ match var_def s with Some (n, _) => [lower n] | None => [] end.
Proof. unfold vnames. rewrite flat_map_app. simpl. rewrite app_nil_r. reflexivity. Qed.

Lemma max_if a b : (if a <? b then b else a) = Z.max a b.
Proof. destruct (a <? b) eqn:E; [apply Z.ltb_lt in E|apply Z.ltb_ge in E]; lia. Qed.

Lemma ninv_skip pr prog l s rest st p : prog = l ++ s :: rest -> ninv pr prog l st -> var_def s = None ->
  p = advance (addr l) s ->
  ninv pr prog (l ++ [s]) (mkNam (n_globals st) p (if n_max st <? p then p else n_max st)).
Proof.
  intros Hpr (H1 & H2 & H3 & H4 & H5) Hv ->. unfold ninv. cbn [n_pos n_max n_globals].
  rewrite top_snoc, addr_snoc, vnames_snoc, Hv, app_nil_r, app_length, Nat.add_1_r, max_if, H2. repeat split; auto.
  intros x. rewrite (visible_skip pr prog l s rest) by assumption. auto.
Qed.

(** Where a name found in the tables was defined. *)
Lemma name_twice prog l s rest n e : prog = l ++ s :: rest -> var_def s = Some (n, e) ->
  In (lower n) (rev (vnames l) ++ rev (map fst (globs 0 prog))) -> defined_twice prog (lower n).
Proof.
  intros Hpr Hv Hin. left.
  assert (Hg : global_def s = Some (lower n)) by (destruct s; simpl in Hv; try discriminate; injection Hv as -> _; reflexivity).
  assert (Hs : nth_error prog (List.length l) = Some s) by (subst; apply nth_mid).
  apply in_app_iff in Hin. rewrite <- !in_rev in Hin. destruct Hin as [Hin|Hin].
  - unfold vnames in Hin. apply in_flat_map in Hin. destruct Hin as (t & Ht & Hin).
    destruct (var_def t) as [[m e']|] eqn:E; [|destruct Hin]. destruct Hin as [Hm|[]].
    apply In_nth_error in Ht. destruct Ht as (i & Hi).
    assert (i < List.length l)%nat by (apply nth_error_Some; congruence).
    exists i, (List.length l), t, s. split; [lia|]. split; [subst prog; rewrite nth_error_app1 by lia; assumption|].
    split; [assumption|]. split; [|assumption].
    destruct t; simpl in E; try discriminate; injection E as -> _; simpl; congruence.
  - apply in_map_iff in Hin. destruct Hin as ([x v] & E & Hin). simpl in E. subst x.
    apply globs_in in Hin. destruct Hin as (k & m & Hk & Hl & Hx & _).
    exists k, (List.length l), (SLabel m), s.
    split; [intros ->; rewrite Hs in Hk; injection Hk as ->; discriminate|].
    repeat split; auto. simpl. rewrite Hl, Hx. reflexivity.
Qed.

Lemma name_step_spec pr prog l s rest st : prog = l ++ s :: rest -> ninv pr prog l st -> typed s ->
  0 <= addr l <= 2147483647 -> advance (addr l) s <= 2147483647 ->
  (exists st', name_step pr s st = Ok st' /\ ninv pr prog (l ++ [s]) st' /\
     forall n e, var_def s = Some (n, e) -> exists v, eval pr (mkEnv "Name" (visible pr prog (List.length l))) e = Ok v) \/
  (name_step pr s st = Err MustBeLiteralNumber /\ exists a m, s = SDirective (DCnop a m) /\ ~ (literal a /\ literal m)) \/
  (exists x, name_step pr s st = Err (NameAlreadyExists x) /\ defined_twice prog x) \/
  (exists n e, var_def s = Some (n, e) /\ (forall v, eval pr (mkEnv "Name" (visible pr prog (List.length l))) e <> Ok v) /\
     name_step pr s st = let! _ := eval pr (mkEnv "Name" (visible pr prog (List.length l))) e in Diverge) \/
  (name_step pr s st = Panic /\ ~ plain s).
Proof.
  intros Hpr Hinv Ht Hp Hadv. pose proof Hinv as (H1 & H2 & H3 & H4 & H5).
  assert (Hskip : var_def s = None -> advance (addr l) s = addr l ->
    ninv pr prog (l ++ [s]) (mkNam (n_globals st) (n_pos st) (if n_max st <? n_pos st then n_pos st else n_max st))).
  { intros Hv E. eapply ninv_skip; eauto. congruence. }
  assert (Hvar : forall n e, var_def s = Some (n, e) -> name_step pr s st =
      (let! st1 := (let! v := eval pr (map_env "Name" (n_globals st)) e in
                    let! gl := add_name (lower n) v (n_globals st) in
                    Ok (mkNam gl (n_pos st) (n_max st))) in
       Ok (mkNam (n_globals st1) (n_pos st1) (if n_max st1 <? n_pos st1 then n_pos st1 else n_max st1)))).
  { intros n e Hv. destruct s; simpl in Hv; try discriminate; injection Hv as -> ->; reflexivity. }
  assert (Hvar2 : forall n e, var_def s = Some (n, e) ->
    (exists st', name_step pr s st = Ok st' /\ ninv pr prog (l ++ [s]) st' /\
       forall n e, var_def s = Some (n, e) -> exists v, eval pr (mkEnv "Name" (visible pr prog (List.length l))) e = Ok v) \/
    (exists x, name_step pr s st = Err (NameAlreadyExists x) /\ defined_twice prog x) \/
    (exists n e, var_def s = Some (n, e) /\ (forall v, eval pr (mkEnv "Name" (visible pr prog (List.length l))) e <> Ok v) /\
       name_step pr s st = let! _ := eval pr (mkEnv "Name" (visible pr prog (List.length l))) e in Diverge)).
  { intros n e Hv. rewrite (Hvar n e Hv). unfold map_env.
    rewrite (eval_ext pr "Name" (mget (n_globals st)) (visible pr prog (List.length l)) e) by assumption.
    destruct (eval pr (mkEnv "Name" (visible pr prog (List.length l))) e) as [v|er| |] eqn:E; cbn [bind];
      try (right; right; exists n, e; rewrite E; split; [auto|]; split; [discriminate|reflexivity]; fail).
    unfold add_name. destruct (mcontains (n_globals st) (lower n)) eqn:C.
    - right. left. exists (lower n). split; [reflexivity|]. apply mcontains_in in C. rewrite H4 in C.
      eapply name_twice; eauto.
    - left. cbn [bind n_globals n_pos n_max]. eexists. split; [reflexivity|]. apply mcontains_false in C. split.
      + assert (Ha : advance (addr l) s = addr l) by (destruct s; simpl in Hv; try discriminate; reflexivity).
        unfold ninv. cbn [n_pos n_max n_globals].
        rewrite top_snoc, addr_snoc, Ha, vnames_snoc, Hv, app_length, Nat.add_1_r, max_if, H1, H2. repeat split; auto.
        * intros x. unfold minsert. cbn [mget visible]. rewrite Hpr at 1. rewrite nth_mid, Hv, (String.eqb_sym x).
          destruct (String.eqb (lower n) x); auto. rewrite E. reflexivity.
        * unfold minsert. cbn [map fst]. rewrite rev_app_distr. cbn [rev app]. f_equal. assumption.
        * unfold minsert. cbn [map fst]. constructor; auto.
      + intros n' e' Hv'. rewrite Hv in Hv'. injection Hv' as <- <-. eauto. }
  destruct s as [d|n|i|n e|n e|t|n args]; cbn [var_def] in *.
  - unfold name_step. pose proof (advance_typed _ _ (proj1 Hp) Ht) as Hpos. rewrite H1.
    destruct (dir_size_ok pr d (addr l) ltac:(lia) Ht Hadv) as [(k & E1 & E2)|(E1 & a & m & -> & Hno)].
    + left. rewrite E1. cbn [bind]. rewrite E2, chk32_ok by (unfold in32; lia). cbn [bind n_globals n_pos n_max].
      eexists. split; [reflexivity|]. split; [eapply ninv_skip; eauto|discriminate].
    + right. left. rewrite E1. cbn [bind]. split; [reflexivity|]. eauto.
  - left. unfold name_step; cbn [bind]. eexists. split; [reflexivity|]. split; [apply Hskip; reflexivity|discriminate].
  - left. pose proof (doc_length_pos i) as Hd. cbn [advance] in Hadv. unfold name_step. rewrite H1.
    rewrite size_doc, wrap32_id, chk32_ok by (unfold in32; lia). cbn [bind n_globals n_pos n_max].
    eexists. split; [reflexivity|]. split; [eapply ninv_skip; eauto|discriminate].
  - destruct (Hvar2 n e eq_refl) as [H|[H|H]]; auto.
  - destruct (Hvar2 n e eq_refl) as [H|[H|H]]; auto.
  - left. unfold name_step; cbn [bind]. eexists. split; [reflexivity|]. split; [apply Hskip; reflexivity|discriminate].
  - right. right. right. right. split; [reflexivity|]. simpl. tauto.
Qed.

Lemma name_loop_app pr a b st : name_loop pr (a ++ b) st = let! st' := name_loop pr a st in name_loop pr b st'.
Proof.
  revert st. induction a as [|s a IH]; intros st; simpl; auto. destruct (name_step pr s st); simpl; auto.
Qed.

Definition var_fails (pr : profile) (prog : list statement) (o : outcome nam_state) : Prop :=
  exists k s n e, nth_error prog k = Some s /\ var_def s = Some (n, e) /\ (forall v, eval pr (mkEnv "Name" (visible pr prog k)) e <> Ok v) /\
    o = let! _ := eval pr (mkEnv "Name" (visible pr prog k)) e in Diverge.

Lemma name_loop_spec pr prog l : Forall typed l -> range l -> NoDup (map fst (globs 0 prog)) ->
  (exists rest, prog = l ++ rest) ->
  (exists st, name_loop pr l (mkNam (rev (globs 0 prog)) 0 0) = Ok st /\ ninv pr prog l st /\
     forall k s n e, nth_error l k = Some s -> var_def s = Some (n, e) ->
       exists v, eval pr (mkEnv "Name" (visible pr prog k)) e = Ok v) \/
  (name_loop pr l (mkNam (rev (globs 0 prog)) 0 0) = Err MustBeLiteralNumber /\ nonliteral_cnop l) \/
  (exists x, name_loop pr l (mkNam (rev (globs 0 prog)) 0 0) = Err (NameAlreadyExists x) /\ defined_twice prog x) \/
  (var_fails pr prog (name_loop pr l (mkNam (rev (globs 0 prog)) 0 0))) \/
  (name_loop pr l (mkNam (rev (globs 0 prog)) 0 0) = Panic /\ ~ Forall plain l).
Proof.
  intros Ht Hr Hn. induction l as [|s l IH] using rev_ind; intros (rest & Hpr).
  - left. eexists. split; [reflexivity|]. split.
    + unfold ninv. cbn [n_pos n_max n_globals]. repeat split; auto.
      * intros x. cbn [visible List.length]. rewrite label_addr_globs. apply mget_rev. assumption.
      * simpl. apply map_rev.
      * rewrite map_rev. apply NoDup_rev. assumption.
    + intros [|k]; discriminate.
  - apply Forall_app in Ht. destruct Ht as [Ht Hs]. apply range_snoc in Hr. destruct Hr as (Hr & Hp & Hadv).
    assert (Hs0 : typed s) by (inversion Hs; assumption). rewrite name_loop_app.
    rewrite <- app_assoc in Hpr. cbn [app] in Hpr.
    destruct (IH Ht Hr (ex_intro _ _ Hpr)) as [(st & E & Hinv & Hv)|[(E & a & m & Hin & Hno)|[(x & E & Hd)|[Hf|(E & Hnp)]]]].
    + rewrite E. cbn [bind name_loop].
      destruct (name_step_spec pr prog l s rest st Hpr Hinv Hs0 Hp Hadv)
        as [(st' & E' & Hinv' & Hv')|[(E' & a & m & -> & Hno)|[(x & E' & Hd)|[(n & e & Hvd & Hnv & E')|(E' & Hnp)]]]]; rewrite E'.
      * cbn [bind]. left. eexists. split; [reflexivity|]. split; [assumption|].
        intros k t n e Hk Hvd. destruct (lt_dec k (List.length l)) as [Hlt|Hge].
        -- rewrite nth_error_app1 in Hk by assumption. eauto.
        -- assert (k = List.length l).
           { assert (k < List.length (l ++ [s]))%nat by (apply nth_error_Some; congruence). rewrite app_length in H. simpl in H. lia. }
           subst k. rewrite nth_mid in Hk. injection Hk as <-. eauto.
      * cbn [bind]. right. left. split; [reflexivity|]. exists a, m. split; [apply in_or_app; right; left; reflexivity|assumption].
      * cbn [bind]. right. right. left. eauto.
      * right. right. right. left. exists (List.length l), s, n, e. split; [subst prog; apply nth_mid|]. split; [assumption|]. split; [assumption|].
        destruct (eval pr (mkEnv "Name" (visible pr prog (List.length l))) e); reflexivity.
      * cbn [bind]. right. right. right. right. split; [reflexivity|]. intros H. apply Forall_app in H. destruct H as [_ H].
        inversion H; subst. contradiction.
    + rewrite E. cbn [bind]. right. left. split; [reflexivity|]. exists a, m. split; [apply in_or_app; left; assumption|assumption].
    + rewrite E. cbn [bind]. right. right. left. exists x. auto.
    + right. right. right. left. destruct Hf as (k & t & n & e & Hk & Hvd & Hnv & E). exists k, t, n, e.
      split; [assumption|]. split; [assumption|]. split; [assumption|]. rewrite E.
      destruct (eval pr (mkEnv "Name" (visible pr prog k)) e); reflexivity.
    + rewrite E. cbn [bind]. right. right. right. right. split; [reflexivity|]. intros H. apply Forall_app in H. tauto.
Qed.

(** Without any assumption the furthest position is a non-negative 32-bit number. *)
Lemma chk32_in pr z r : chk32 pr z = Ok r -> in32 r.
Proof.
  unfold chk32. destruct (fits32 z) eqn:E.
  - intros [= <-]. apply fits32_in32. assumption.
  - destruct pr; [discriminate|]. intros [= <-]. apply wrap32_in32.
Qed.

Lemma name_step_max pr s st st' : name_step pr s st = Ok st' ->
  in32 (n_pos st) -> 0 <= n_max st <= 2147483647 -> in32 (n_pos st') /\ 0 <= n_max st' <= 2147483647.
Proof.
  unfold name_step. intros H Hp Hm. apply bind_ok in H. destruct H as (st1 & H1 & H). injection H as <-. cbn [n_pos n_max].
  assert (Hq : in32 (n_pos st1) /\ n_max st1 = n_max st).
  { destruct s; repeat (apply bind_ok in H1; destruct H1 as (? & ? & H1)); try discriminate; injection H1 as <-; cbn [n_pos n_max]; auto.
    - split; [eapply chk32_in; eauto|reflexivity].
    - split; [eapply chk32_in; eauto|reflexivity]. }
  destruct Hq as [Hq ->]. unfold in32 in *. rewrite max_if. lia.
Qed.

Lemma name_loop_max pr l : forall st st', name_loop pr l st = Ok st' ->
  in32 (n_pos st) -> 0 <= n_max st <= 2147483647 -> 0 <= n_max st' <= 2147483647.
Proof.
  induction l as [|s l IH]; intros st st'; cbn [name_loop].
  - intros [= <-]. auto.
  - intros H Hp Hm. apply bind_ok in H. destruct H as (st1 & H1 & H).
    destruct (name_step_max _ _ _ _ H1 Hp Hm). eauto.
Qed.
