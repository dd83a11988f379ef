(** Consequences of soundness and completeness for the individual properties. *)
From Coq Require Import ZArith List String Ascii Bool Lia.
From Verif Require Import Base Expr Bits Instr Ast Asm SpecIsa SpecExpr SpecAsm ExprProofs AsmProofs AsmProofs2 AsmProofs3 AsmProofs4 AsmProofs5 AsmProofs6 AsmProofs7.
Import ListNotations.
Open Scope string_scope.
Open Scope list_scope.
Open Scope Z_scope.

Local Arguments Z.add : simpl never.
Local Arguments Z.sub : simpl never.
Local Arguments Z.mul : simpl never.
Local Arguments Z.opp : simpl never.
Local Arguments Z.div : simpl never.
Local Arguments Z.pow : simpl never.
Local Arguments Z.modulo : simpl never.
Local Arguments Z.land : simpl never.
Local Arguments Z.shiftr : simpl never.
Local Arguments Z.leb : simpl never.
Local Arguments Z.ltb : simpl never.
Local Arguments Z.eqb : simpl never.
Local Arguments Z.max : simpl never.
Local Arguments Z.of_nat : simpl never.
Local Arguments Z.to_nat : simpl never.

Lemma firstn_S_snoc {A : Type} k (l : list A) s : nth_error l k = Some s -> firstn (S k) l = firstn k l ++ [s].
Proof.
  revert k. induction l as [|a l IH]; intros [|k] H; try discriminate.
  - simpl in H. injection H as ->. reflexivity.
  - change (a :: firstn (S k) l = a :: (firstn k l ++ [s])). rewrite (IH k H). reflexivity.
Qed.

Lemma addr_S k prog s : nth_error prog k = Some s -> addr (firstn (S k) prog) = advance (addr (firstn k prog)) s.
Proof. intros H. rewrite (firstn_S_snoc _ _ _ H). apply addr_snoc. Qed.

(** The bytes of a statement are found at its address unless a later statement writes there. *)
Theorem placed pr prog out k s : Forall typed prog -> (pr = Release -> cnop_small prog) ->
  assemble pr prog = Ok out -> nth_error prog k = Some s ->
  exists get bs, env_at pr prog k get /\ emits pr get (addr (firstn k prog)) s bs /\
    forall i b, get_at bs i = Some b -> untouched prog k (addr (firstn k prog) + i) ->
      get_at out (addr (firstn k prog) + i) = Some b.
Proof.
  intros Ht Hc Ha Hk. destruct (assemble_sound pr prog out Ht Hc Ha) as (Hz & (chunks & (Hl & Hch) & Hb) & _ & _ & Hlay & _).
  assert (Hlt : (k < List.length prog)%nat) by (apply nth_error_Some; congruence).
  destruct (nth_error chunks k) as [bs|] eqn:Hck; [|apply nth_error_None in Hck; lia].
  destruct (Hch k s bs Hk Hck) as (get & Henv & Hem). exists get, bs. split; [assumption|]. split; [assumption|].
  intros i b Hi Hun. set (o := addr (firstn k prog) + i) in *.
  pose proof (get_at_range _ _ _ Hi) as Hir. fold (zlen bs) in Hir.
  assert (Hend : addr (firstn (S k) prog) = addr (firstn k prog) + zlen bs).
  { rewrite (addr_S _ _ _ Hk). pose proof (emits_advance _ _ _ _ _ Hem) as E.
    destruct s as [d| | | | | |]; auto. destruct d; auto; subst bs; unfold zlen in Hir; simpl in Hir; lia. }
  assert (Hr : 0 <= o < zlen out).
  { pose proof (top_bound prog (S k)). specialize (Hlay k). unfold o. lia. }
  destruct (Hb o Hr) as (b' & Hg & Him). rewrite Hg. f_equal.
  assert (Hcov : covers prog chunks k o b).
  { exists bs. split; auto. unfold o. replace (addr (firstn k prog) + i - addr (firstn k prog)) with i by lia. assumption. }
  destruct Him as [(j & Hj & Hlast)|(_ & Hnone)]; [|exfalso; eapply Hnone; eauto].
  destruct (lt_eq_lt_dec j k) as [[H|H]|H].
  - exfalso. eapply (Hlast k b); eauto.
  - subst j. destruct Hj as (c & Hc1 & Hc2), Hcov as (c' & Hc1' & Hc2'). congruence.
  - exfalso. apply (Hun j H). destruct Hj as (c & Hc1 & Hc2).
    assert (Hjl : (j < List.length prog)%nat) by (rewrite <- Hl; apply nth_error_Some; congruence).
    destruct (nth_error prog j) as [t|] eqn:Hjs; [|apply nth_error_None in Hjs; lia].
    destruct (Hch j t c Hjs Hc1) as (g' & _ & Hem'). pose proof (get_at_range _ _ _ Hc2) as Hr2. fold (zlen c) in Hr2.
    rewrite (addr_S _ _ _ Hjs). pose proof (emits_advance _ _ _ _ _ Hem') as E.
    destruct t as [d| | | | | |]; try lia. destruct d; try lia; subst c; unfold zlen in Hr2; simpl in Hr2; lia.
Qed.

(** If the counter never moves backwards nothing is overwritten. *)
Lemma forward_untouched prog k o : (forall j, addr (firstn j prog) <= addr (firstn (S j) prog)) ->
  o < addr (firstn (S k) prog) -> untouched prog k o.
Proof.
  intros Hm Ho j Hj [H1 H2].
  assert (Hmono : forall d, addr (firstn (S k) prog) <= addr (firstn (S k + d) prog)).
  { induction d as [|d IH]; [rewrite Nat.add_0_r; lia|]. specialize (Hm (S k + d)%nat). rewrite Nat.add_succ_r. lia. }
  specialize (Hmono (j - S k)%nat). replace (S k + (j - S k))%nat with j in Hmono by lia. lia.
Qed.

Lemma data_forward prog : Forall typed prog ->
  Forall data_only prog ->
  forall j, addr (firstn j prog) <= addr (firstn (S j) prog).
Proof.
  intros Ht Hf j. destruct (nth_error prog j) as [s|] eqn:E.
  - rewrite (addr_S _ _ _ E). apply nth_error_In in E. rewrite Forall_forall in Ht, Hf. specialize (Ht s E). specialize (Hf s E).
    destruct s as [d| |i| | | |]; simpl in *; try lia.
    + destruct d; simpl in *; try lia; try tauto.
      pose proof (sum_nonneg items). lia.
    + pose proof (doc_length_pos i). lia.
  - apply nth_error_None in E. rewrite !firstn_all2 by lia. lia.
Qed.

(** ** Labels and variables *)

Lemma label_addr_at l : forall p k n, nth_error l k = Some (SLabel n) -> is_local n = false ->
  (forall j m, (j < k)%nat -> nth_error l j = Some (SLabel m) -> is_local m = false -> lower m <> lower n) ->
  label_addr p l (lower n) = Some (fold_left advance (firstn k l) p).
Proof.
  induction l as [|s l IH]; intros p [|k] n Hk Hn Hfirst; try discriminate.
  - simpl in Hk. injection Hk as ->. simpl. rewrite Hn, String.eqb_refl. reflexivity.
  - simpl in Hk. assert (Hrec : forall q, label_addr q l (lower n) = Some (fold_left advance (firstn k l) q)).
    { intros q. apply IH; auto. intros j m Hj Hm. apply (Hfirst (S j) m); [lia|exact Hm]. }
    cbn [label_addr firstn fold_left]. destruct s; try apply Hrec.
    destruct (is_local name) eqn:E; simpl; [apply Hrec|].
    destruct (String.eqb (lower name) (lower n)) eqn:E'; [|apply Hrec].
    apply String.eqb_eq in E'. exfalso. apply (Hfirst 0%nat name); auto. lia.
Qed.

Lemma label_addr_inv l : forall p x v, label_addr p l x = Some v ->
  exists k n, nth_error l k = Some (SLabel n) /\ is_local n = false /\ lower n = x /\ v = fold_left advance (firstn k l) p.
Proof. intros p x v. rewrite label_addr_globs. intros H. apply mget_in, globs_in in H. exact H. Qed.

Lemma visible_no_var pr prog x : (forall j s m e, nth_error prog j = Some s -> var_def s = Some (m, e) -> lower m <> x) ->
  forall k, visible pr prog k x = label_addr 0 prog x.
Proof.
  intros H. induction k as [|k IH]; [reflexivity|]. cbn [visible].
  destruct (nth_error prog k) as [s|] eqn:E; [|assumption].
  destruct (var_def s) as [[m e]|] eqn:Ev; [|assumption].
  destruct (String.eqb (lower m) x) eqn:Ex; [|assumption]. apply String.eqb_eq in Ex. exfalso. eapply H; eauto.
Qed.

Lemma visible_var pr prog i s n e : nth_error prog i = Some s -> var_def s = Some (n, e) ->
  (forall j t m e', (i < j)%nat -> nth_error prog j = Some t -> var_def t = Some (m, e') -> lower m <> lower n) ->
  forall k, (i < k)%nat -> visible pr prog k (lower n) =
    match eval pr (mkEnv "Name" (visible pr prog i)) e with Ok v => Some v | _ => None end.
Proof.
  intros Hi Hv Hlast. induction k as [|k IH]; intros Hik; [lia|]. cbn [visible].
  destruct (Nat.eq_dec k i) as [->|Hne].
  - rewrite Hi, Hv, String.eqb_refl. reflexivity.
  - specialize (IH ltac:(lia)). destruct (nth_error prog k) as [t|] eqn:E; [|assumption].
    destruct (var_def t) as [[m e']|] eqn:Ev; [|assumption].
    destruct (String.eqb (lower m) (lower n)) eqn:Ex; [|assumption].
    apply String.eqb_eq in Ex. exfalso. apply (Hlast k t m e'); auto. lia.
Qed.

(** What can be seen was defined: a global label, or an earlier variable. *)
Lemma visible_inv pr prog k x v : visible pr prog k x = Some v ->
  (exists j n, nth_error prog j = Some (SLabel n) /\ is_local n = false /\ lower n = x /\ v = addr (firstn j prog)) \/
  (exists j s n e, (j < k)%nat /\ nth_error prog j = Some s /\ var_def s = Some (n, e) /\ lower n = x /\
     eval pr (mkEnv "Name" (visible pr prog j)) e = Ok v).
Proof.
  induction k as [|k IH]; cbn [visible].
  - intros H. left. apply label_addr_inv in H. exact H.
  - assert (IH' : visible pr prog k x = Some v ->
      (exists j n, nth_error prog j = Some (SLabel n) /\ is_local n = false /\ lower n = x /\ v = addr (firstn j prog)) \/
      (exists j s n e, (j < S k)%nat /\ nth_error prog j = Some s /\ var_def s = Some (n, e) /\ lower n = x /\
         eval pr (mkEnv "Name" (visible pr prog j)) e = Ok v)).
    { intros H. destruct (IH H) as [H'|(j & s & n & e & Hj & H')]; [left; exact H'|]. right. exists j, s, n, e. split; [lia|exact H']. }
    destruct (nth_error prog k) as [s|] eqn:E; [|exact IH'].
    destruct (var_def s) as [[n e]|] eqn:Ev; [|exact IH'].
    destruct (String.eqb (lower n) x) eqn:Ex; [|exact IH'].
    destruct (eval pr (mkEnv "Name" (visible pr prog k)) e) as [w| | |] eqn:Ee; try discriminate.
    intros [= ->]. apply String.eqb_eq in Ex. right. exists k, s, n, e. repeat split; auto.
Qed.

Lemma var_global s n e : var_def s = Some (n, e) -> global_def s = Some (lower n).
Proof. destruct s; simpl; try discriminate; intros [= -> ->]; reflexivity. Qed.

Lemma global_label_visible pr prog k n : (forall x, ~ defined_twice prog x) ->
  nth_error prog k = Some (SLabel n) -> is_local n = false ->
  forall j, visible pr prog j (lower n) = Some (addr (firstn k prog)).
Proof.
  intros Hd Hk Hn j.
  assert (Hg : global_def (SLabel n) = Some (lower n)) by (simpl; rewrite Hn; reflexivity).
  rewrite visible_no_var.
  - apply label_addr_at; auto. intros i m Hi Hm Hl E.
    apply (Hd (lower n)). left. exists i, k, (SLabel m), (SLabel n). repeat split; auto; [lia|]. simpl. rewrite Hl, E. reflexivity.
  - intros i s m e Hi Hv E. apply (Hd (lower n)). left. exists i, k, s, (SLabel n).
    split; [intros ->; rewrite Hk in Hi; injection Hi as <-; discriminate|]. repeat split; auto. rewrite <- E. eapply var_global; eauto.
Qed.

Theorem global_label_value pr prog out k n j get : Forall typed prog -> (pr = Release -> cnop_small prog) ->
  assemble pr prog = Ok out -> nth_error prog k = Some (SLabel n) -> is_local n = false ->
  visible pr prog j (lower n) = Some (addr (firstn k prog)) /\
  (env_at pr prog j get -> get (lower n) = Some (addr (firstn k prog))).
Proof.
  intros Ht Hc Ha Hk Hn. destruct (assemble_sound pr prog out Ht Hc Ha) as (_ & _ & Hd & _).
  split; [apply global_label_visible; assumption|]. intros [Henv _].
  rewrite Henv by (rewrite is_local_lower; assumption). apply global_label_visible; assumption.
Qed.

Theorem local_label_value pr prog k j n get : 
  nth_error prog j = Some (SLabel n) -> is_local n = true -> scope_no prog j = scope_no prog k ->
  env_at pr prog k get -> get (lower n) = Some (addr (firstn j prog)).
Proof.
  intros Hj Hn Hs [_ Henv]. apply Henv; [rewrite is_local_lower; assumption|]. exists j, n. auto.
Qed.

Theorem variable_value pr prog out i s n e : Forall typed prog -> (pr = Release -> cnop_small prog) ->
  assemble pr prog = Ok out -> nth_error prog i = Some s -> var_def s = Some (n, e) ->
  exists v, eval pr (mkEnv "Name" (visible pr prog i)) e = Ok v /\
    (forall j, (i < j)%nat -> visible pr prog j (lower n) = Some v) /\
    (forall j, (j <= i)%nat -> visible pr prog j (lower n) = None) /\
    (forall j get, env_at pr prog j get -> is_local n = false -> get (lower n) = Some v).
Proof.
  intros Ht Hc Ha Hi Hv. destruct (assemble_sound pr prog out Ht Hc Ha) as (_ & _ & Hd & Hvars & _).
  destruct (Hvars i s n e Hi Hv) as (v & Ev). exists v. split; [assumption|].
  assert (Hlater : forall j, (i < j)%nat -> visible pr prog j (lower n) = Some v).
  { intros j Hj. rewrite (visible_var pr prog i s n e Hi Hv); [| |exact Hj].
    2:{ intros k t m e' Hk Ht' Hvt E. apply (Hd (lower n)). left. exists i, k, s, t.
        split; [lia|]. split; [assumption|]. split; [assumption|]. split; [eapply var_global; eauto|].
        rewrite <- E. eapply var_global; eauto. }
    rewrite Ev. reflexivity. }
  split; [assumption|]. split.
  - intros j Hj. destruct (visible pr prog j (lower n)) as [w|] eqn:E; [|reflexivity]. exfalso. apply (Hd (lower n)). left.
    apply visible_inv in E. destruct E as [(k & m & Hk & Hm & Em & _)|(k & t & m & e' & Hk & Hkt & Hvt & Em & _)].
    + exists k, i, (SLabel m), s. split; [intros ->; rewrite Hi in Hk; injection Hk as ->; discriminate|].
      repeat split; auto; [simpl; rewrite Hm, Em; reflexivity|eapply var_global; eauto].
    + exists k, i, t, s. split; [lia|]. repeat split; auto; [rewrite <- Em; eapply var_global; eauto|eapply var_global; eauto].
  - intros j get [Henv _] Hn. rewrite Henv by (rewrite is_local_lower; assumption). apply Hlater.
    apply nth_error_Some. congruence.
Qed.

(** ** Duplicates *)

Theorem duplicates_never_assemble pr prog x out : Forall typed prog -> (pr = Release -> cnop_small prog) ->
  defined_twice prog x -> assemble pr prog <> Ok out.
Proof.
  intros Ht Hc Hd Ha. destruct (assemble_sound pr prog out Ht Hc Ha) as (_ & _ & Hn & _). exact (Hn x Hd).
Qed.

Theorem duplicates_reported pr prog x : Forall typed prog -> Forall plain prog -> layout_small prog ->
  ~ nonliteral_cnop prog -> vars_defined pr prog -> defined_twice prog x ->
  exists y, assemble pr prog = Err (NameAlreadyExists y) /\ defined_twice prog y.
Proof.
  intros Ht Hpl Hlay Hlit Hv Hd. assert (Hr : range prog) by (intros k; specialize (Hlay k); lia).
  unfold assemble, compute_names.
  destruct (compute_labels_spec pr prog Ht Hr) as [(El & Hg & Hreg)|[(El & Hnl)|[(y & El & Hy)|(El & Hn)]]]; try contradiction.
  2:{ exists y. rewrite El. auto. }
  rewrite El. cbn [bind label_names globals].
  destruct (name_loop_spec pr prog prog Ht Hr Hg (ex_intro _ [] (eq_sym (app_nil_r prog))))
    as [(nst & En & Hinv & _)|[(En & Hnl)|[(y & En & Hy)|[Hf|(En & Hn)]]]]; try contradiction.
  - exfalso. exact (ninv_nodup pr prog nst Hinv Hreg x Hd).
  - exists y. rewrite En. auto.
  - exfalso. destruct Hf as (k & s & n & e & Hk & Hvd & Hnv & _). destruct (Hv k s n e Hk Hvd) as (v & Ev). exact (Hnv v Ev).
Qed.

(** The error is only given for a real duplicate. *)
Definition no_dup_err {A : Type} (o : outcome A) : Prop := forall x, o <> Err (NameAlreadyExists x).

Lemma nd_bind {A B : Type} (a : outcome A) (f : A -> outcome B) : no_dup_err a -> (forall v, no_dup_err (f v)) ->
  no_dup_err (let! v := a in f v).
Proof. intros Ha Hf x. destruct a as [v|e| |]; cbn [bind]; try discriminate; [apply Hf|]. intros [= ->]. exact (Ha x eq_refl). Qed.

Lemma nd_ok {A : Type} (v : A) : no_dup_err (Ok v). Proof. intros x. discriminate. Qed.
Lemma nd_panic {A : Type} : no_dup_err (@Panic A). Proof. intros x. discriminate. Qed.
Lemma nd_chk32 pr z : no_dup_err (chk32 pr z).
Proof. intros x. unfold chk32. destruct (fits32 z); [|destruct pr]; discriminate. Qed.
Lemma nd_chku pr z : no_dup_err (chk_usize pr z).
Proof. intros x. unfold chk_usize. destruct (fits_usize z); [|destruct pr]; discriminate. Qed.
Create HintDb nd.
Global Hint Resolve nd_ok nd_panic nd_chk32 nd_chku : nd.
Ltac nd := repeat first
  [ solve [auto with nd] | apply nd_bind; [|intros ?] | intros ?x; discriminate
  | match goal with |- no_dup_err (match ?c with _ => _ end) => destruct c end
  | match goal with |- no_dup_err (if ?c then _ else _) => destruct c end ].
Lemma nd_eval pr en e : no_dup_err (eval pr en e).
Proof. induction e; cbn [eval]; nd. Qed.
Global Hint Resolve nd_eval : nd.
Lemma nd_as_env ns k c : no_dup_err (as_env ns k c). Proof. unfold as_env. nd. Qed.
Lemma nd_bits pr en b e : no_dup_err (eval_bits pr en b e). Proof. unfold eval_bits. nd. Qed.
Global Hint Resolve nd_as_env nd_bits : nd.
Lemma nd_12 pr en b e : no_dup_err (eval12 pr en b e). Proof. unfold eval12. nd. Qed.
Lemma nd_r8 pr en b e : no_dup_err (rel8 pr en b e). Proof. unfold rel8. nd. Qed.
Lemma nd_r16 pr en b e : no_dup_err (rel16 pr en b e). Proof. unfold rel16. nd. Qed.
Global Hint Resolve nd_12 nd_r8 nd_r16 : nd.
Lemma nd_instr pr pos l ns i : no_dup_err (eval_instr pr pos l ns i).
Proof.
  unfold eval_instr. apply nd_bind; [apply nd_as_env|intros e1]. apply nd_bind; [apply nd_as_env|intros e2].
  apply nd_bind; [apply nd_as_env|intros e3]. destruct i; nd.
Qed.
Lemma nd_write (l : list Z) i v : no_dup_err (write_at l i v). Proof. unfold write_at. nd. Qed.
Global Hint Resolve nd_instr nd_write : nd.
Lemma nd_emit pr bs : forall out p, no_dup_err (emit pr bs out p).
Proof. induction bs as [|b t IH]; intros out p; cbn [emit]; nd. Qed.
Global Hint Resolve nd_emit : nd.
Lemma nd_items pr en l : forall out p, no_dup_err (emit_items pr en l out p).
Proof.
  induction l as [|b t IH]; intros out p; cbn [emit_items]; [nd|]. apply nd_bind; [destruct b; cbn [emit_item]; nd|].
  intros [o q]. apply IH.
Qed.
Lemma nd_words pr en l : forall out p, no_dup_err (emit_words pr en l out p).
Proof.
  induction l as [|b t IH]; intros out p; cbn [emit_words]; [nd|]. apply nd_bind; [nd|]. intros v.
  destruct ((v <? -32768) || (65535 <? v)); [nd|]. apply nd_bind; [nd|]. intros [o q]. apply IH.
Qed.
Global Hint Resolve nd_items nd_words : nd.
Lemma nd_text pr pad n bs out p : no_dup_err (emit_text pr pad n bs out p).
Proof. unfold emit_text. cbv zeta. destruct (n <? Z.of_nat (List.length bs)); [nd|]. apply nd_bind; [nd|]. intros [o q]. nd. Qed.
Global Hint Resolve nd_text : nd.
Lemma nd_rounds pr pos m p : forall s, match rounds (cnop_step pr pos m) p s with inl _ => True | inr r => no_dup_err r end.
Proof.
  assert (H1 : forall s, match cnop_step pr pos m s with inl _ => True | inr r => no_dup_err r end).
  { intros s. unfold cnop_step. destruct (pos <=? s); [nd|]. destruct (chk32 pr (s + m)); nd; exact I. }
  induction p as [q IH|q IH|]; intros s; cbn [rounds].
  - specialize (H1 s). destruct (cnop_step pr pos m s) as [s1|r]; [|exact H1].
    specialize (IH s1) as IH1. destruct (rounds (cnop_step pr pos m) q s1) as [s2|r]; [apply IH|exact IH1].
  - specialize (IH s) as IH1. destruct (rounds (cnop_step pr pos m) q s) as [s2|r]; [apply IH|exact IH1].
  - apply H1.
Qed.
Lemma nd_cnop pr p add multiple : no_dup_err (eval_cnop pr p add multiple).
Proof.
  unfold eval_cnop.
  apply nd_bind; [destruct add; cbn [eval_cnop_expr]; nd|intros a]. apply nd_bind; [destruct multiple; cbn [eval_cnop_expr]; nd|intros m].
  destruct (m =? 0); [nd|]. apply nd_bind; [|nd]. unfold cnop_loop.
  pose proof (nd_rounds pr p m 4294967297 0) as H. revert H. generalize 4294967297%positive as q. intros q.
  destruct (rounds (cnop_step pr p m) q 0); [nd|auto].
Qed.
Global Hint Resolve nd_cnop : nd.
Lemma nd_dirsize pr d p : no_dup_err (dir_size pr d p).
Proof. destruct d; cbn [dir_size]; try (apply nd_bind; [apply nd_cnop|intros ?]); nd. Qed.
Global Hint Resolve nd_dirsize : nd.
Lemma nd_gen pr ns l : forall st, no_dup_err (gen_loop pr ns l st).
Proof.
  induction l as [|s l IH]; intros st; cbn [gen_loop]; [nd|]. apply nd_bind; [|auto].
  destruct s; cbn [gen_step]; nd.
  destruct d; cbn [gen_dir]; nd.
Qed.

Theorem duplicate_error_sound pr prog x : Forall typed prog -> layout_small prog ->
  assemble pr prog = Err (NameAlreadyExists x) -> defined_twice prog x.
Proof.
  intros Ht Hlay H. assert (Hr : range prog) by (intros k; specialize (Hlay k); lia).
  unfold assemble, compute_names in H.
  destruct (compute_labels_spec pr prog Ht Hr) as [(El & Hg & Hreg)|[(El & Hnl)|[(y & El & Hy)|(El & Hn)]]]; rewrite El in H; try discriminate.
  2:{ injection H as ->. assumption. }
  cbn [bind label_names globals] in H.
  destruct (name_loop_spec pr prog prog Ht Hr Hg (ex_intro _ [] (eq_sym (app_nil_r prog))))
    as [(nst & En & Hinv & _)|[(En & Hnl)|[(y & En & Hy)|[Hf|(En & Hn)]]]].
  2,3,5: rewrite En in H; try discriminate; injection H as ->; assumption.
  - rewrite En in H. cbn [bind] in H. exfalso. revert H. match goal with |- ?o = _ -> _ => enough (Hnd : no_dup_err o) by apply Hnd end.
    apply nd_bind; [nd|]. intros [mp ns]. apply nd_bind; [nd|]. intros n. apply nd_bind; [unfold zero_vec; nd|].
    intros v. unfold generate_bytes. apply nd_bind; [apply nd_gen|nd].
  - exfalso. destruct Hf as (k & s & n & e & _ & _ & _ & En). rewrite En in H. pose proof (nd_eval pr (mkEnv "Name" (visible pr prog k)) e) as Hnd.
    destruct (eval pr (mkEnv "Name" (visible pr prog k)) e) as [v|er| |]; try discriminate. cbn [bind] in H. injection H as ->. exact (Hnd x eq_refl).
Qed.

(** ** Data *)

Lemma get_at_app_r {A : Type} (a b : list A) i x : get_at b i = Some x -> get_at (a ++ b) (zlen a + i) = Some x.
Proof.
  intros H. pose proof (get_at_range _ _ _ H) as Hr. unfold get_at in *. unfold zlen.
  replace (i <? 0) with false in H by (symmetry; apply Z.ltb_ge; lia).
  replace (Z.of_nat (List.length a) + i <? 0) with false by (symmetry; apply Z.ltb_ge; lia).
  rewrite nth_error_app2 by lia. replace (Z.to_nat (Z.of_nat (List.length a) + i) - List.length a)%nat with (Z.to_nat i) by lia. assumption.
Qed.

Lemma get_at_app_l {A : Type} (a b : list A) i x : get_at a i = Some x -> get_at (a ++ b) i = Some x.
Proof.
  intros H. pose proof (get_at_range _ _ _ H) as Hr. unfold get_at in *.
  destruct (i <? 0); [discriminate|]. rewrite nth_error_app1 by lia. assumption.
Qed.

Lemma forall2_nth {A B : Type} (R : A -> B -> Prop) xs ys : Forall2 R xs ys -> forall j x, nth_error xs j = Some x ->
  exists y, nth_error ys j = Some y /\ R x y.
Proof.
  induction 1 as [|x y xs ys Hxy H IH]; intros [|j] z Hz; try discriminate; simpl in *.
  - injection Hz as <-. eauto.
  - eauto.
Qed.

Lemma forall2_firstn {A B : Type} (R : A -> B -> Prop) xs ys : Forall2 R xs ys -> forall j, Forall2 R (firstn j xs) (firstn j ys).
Proof. induction 1; intros [|j]; simpl; constructor; auto. Qed.

Lemma concat_at {A : Type} (l : list (list A)) : forall j bs i b, nth_error l j = Some bs -> get_at bs i = Some b ->
  get_at (List.concat l) (zlen (List.concat (firstn j l)) + i) = Some b.
Proof.
  induction l as [|c l IH]; intros [|j] bs i b Hj Hb; try discriminate; simpl in *.
  - injection Hj as ->. replace (zlen [] + i) with i by (unfold zlen; simpl; lia). apply get_at_app_l. assumption.
  - rewrite zlen_app, <- Z.add_assoc. apply get_at_app_r. eauto.
Qed.

Theorem byte_item_value pr prog out k items j e : Forall typed prog -> (pr = Release -> cnop_small prog) ->
  assemble pr prog = Ok out -> nth_error prog k = Some (SDirective (DByte items)) -> nth_error items j = Some (BVExpr e) ->
  exists get v, env_at pr prog k get /\ eval pr (mkEnv "Name" get) e = Ok v /\ -128 <= v <= 255 /\
    let o := addr (firstn k prog) + SpecAsm.sum (map item_length (firstn j items)) in
    (untouched prog k o -> get_at out o = Some (v mod 256)).
Proof.
  intros Ht Hc Ha Hk Hj. destruct (placed pr prog out k _ Ht Hc Ha Hk) as (get & bs & He & (l & Hl & ->) & Hp).
  destruct (forall2_nth _ _ _ Hl j _ Hj) as (c & Hcj & v & Hv & Hr & ->).
  exists get, v. split; [assumption|]. split; [assumption|]. split; [assumption|]. intros o Ho.
  apply Hp; [|exact Ho].
  rewrite <- (items_len _ _ _ _ (forall2_firstn _ _ _ Hl j)).
  rewrite <- (Z.add_0_r (zlen (List.concat (firstn j l)))). apply (concat_at l j [v mod 256] 0); [assumption|reflexivity].
Qed.

Theorem byte_string_value pr prog out k items j t i b : Forall typed prog -> (pr = Release -> cnop_small prog) ->
  assemble pr prog = Ok out -> nth_error prog k = Some (SDirective (DByte items)) -> nth_error items j = Some (BVString t) ->
  get_at t i = Some b ->
  let o := addr (firstn k prog) + SpecAsm.sum (map item_length (firstn j items)) + i in
  untouched prog k o -> get_at out o = Some b.
Proof.
  intros Ht Hc Ha Hk Hj Hi o Ho. destruct (placed pr prog out k _ Ht Hc Ha Hk) as (get & bs & He & (l & Hl & ->) & Hp).
  destruct (forall2_nth _ _ _ Hl j _ Hj) as (c & Hcj & Hb). simpl in Hb. subst c. unfold o in *. rewrite <- Z.add_assoc in *.
  apply Hp; [|exact Ho]. rewrite <- (items_len _ _ _ _ (forall2_firstn _ _ _ Hl j)). apply (concat_at l j t i); assumption.
Qed.

Theorem word_value pr prog out k ws j e : Forall typed prog -> (pr = Release -> cnop_small prog) ->
  assemble pr prog = Ok out -> nth_error prog k = Some (SDirective (DWord ws)) -> nth_error ws j = Some e ->
  exists get v, env_at pr prog k get /\ eval pr (mkEnv "Name" get) e = Ok v /\ -32768 <= v <= 65535 /\
    let o := addr (firstn k prog) + 2 * Z.of_nat j in
    (untouched prog k o -> get_at out o = Some (v mod 256)) /\
    (untouched prog k (o + 1) -> get_at out (o + 1) = Some (v / 256 mod 256)).
Proof.
  intros Ht Hc Ha Hk Hj. destruct (placed pr prog out k _ Ht Hc Ha Hk) as (get & bs & He & (l & Hl & ->) & Hp).
  destruct (forall2_nth _ _ _ Hl j _ Hj) as (c & Hcj & v & Hv & Hr & ->).
  exists get, v. split; [assumption|]. split; [assumption|]. split; [assumption|]. intros o.
  assert (Hlen : zlen (List.concat (firstn j l)) = 2 * Z.of_nat j).
  { rewrite (words_len _ _ _ _ (forall2_firstn _ _ _ Hl j)). unfold zlen. rewrite firstn_length.
    assert (j < List.length ws)%nat by (apply nth_error_Some; congruence). lia. }
  split; intros Ho.
  - apply Hp; [|exact Ho]. rewrite <- Hlen, <- (Z.add_0_r (zlen _)). eapply concat_at; [exact Hcj|reflexivity].
  - unfold o in *. rewrite <- Z.add_assoc in *. apply Hp; [|exact Ho]. rewrite <- Hlen. eapply concat_at; [exact Hcj|reflexivity].
Qed.

Lemma get_at_repeat {A : Type} (x : A) n i : 0 <= i < n -> get_at (repeat x (Z.to_nat n)) i = Some x.
Proof.
  intros H. destruct (get_at_some (repeat x (Z.to_nat n)) i) as (b & Hb); [rewrite repeat_length; lia|].
  rewrite Hb. f_equal. unfold get_at in Hb. destruct (i <? 0); [discriminate|]. apply nth_error_In, repeat_spec in Hb. assumption.
Qed.

Lemma padded_at pad n t bs i : padded pad n t bs -> 0 <= i < n ->
  get_at bs i = if i <? zlen t then get_at t i else Some pad.
Proof.
  intros (Hn & ->) Hi. destruct (i <? zlen t) eqn:E.
  - apply Z.ltb_lt in E. destruct (get_at_some t i) as (b & Hb); [fold (zlen t); lia|]. rewrite Hb. apply get_at_app_l. assumption.
  - apply Z.ltb_ge in E. replace i with (zlen t + (i - zlen t)) by lia. apply get_at_app_r. apply get_at_repeat. unfold zlen in *. lia.
Qed.

Theorem text_value pr prog out k n t i : Forall typed prog -> (pr = Release -> cnop_small prog) ->
  assemble pr prog = Ok out ->
  (nth_error prog k = Some (SDirective (DText n t)) -> zlen t <= n /\
     (0 <= i < n -> untouched prog k (addr (firstn k prog) + i) ->
      get_at out (addr (firstn k prog) + i) = if i <? zlen t then get_at t i else Some 32)) /\
  (nth_error prog k = Some (SDirective (DString n t)) -> zlen t <= n /\
     (0 <= i < n -> untouched prog k (addr (firstn k prog) + i) ->
      get_at out (addr (firstn k prog) + i) = if i <? zlen t then get_at t i else Some 0)).
Proof.
  intros Ht Hc Ha. split; intros Hk; destruct (placed pr prog out k _ Ht Hc Ha Hk) as (get & bs & He & Hem & Hp);
    simpl in Hem; pose proof Hem as (Hn & _); (split; [exact Hn|]); intros Hi Ho;
    rewrite <- (padded_at _ _ _ _ _ Hem Hi).
  - destruct (get_at bs i) as [b|] eqn:E; [auto|]. exfalso. rewrite (padded_at _ _ _ _ _ Hem Hi) in E.
    destruct (i <? zlen t) eqn:E2; [|discriminate]. apply Z.ltb_lt in E2.
    destruct (get_at_some t i) as (b & Hb); [fold (zlen t); lia|]. congruence.
  - destruct (get_at bs i) as [b|] eqn:E; [auto|]. exfalso. rewrite (padded_at _ _ _ _ _ Hem Hi) in E.
    destruct (i <? zlen t) eqn:E2; [|discriminate]. apply Z.ltb_lt in E2.
    destruct (get_at_some t i) as (b & Hb); [fold (zlen t); lia|]. congruence.
Qed.

(** ** Sizes *)

Theorem size_is_emitted pr ns s st st' : gen_step pr ns s st = Ok st' -> typed s ->
  0 <= g_pos st <= 2147483647 -> zlen (g_out st) <= 2147483647 ->
  (pr = Release -> forall a m, s = SDirective (DCnop a m) -> advance (g_pos st) s <= 2147483647) ->
  match s with
  | SInstr i => g_pos st' = g_pos st + size i
  | SDirective d => exists n, dir_size pr d (g_pos st) = Ok n /\ g_pos st' = g_pos st + n
  | _ => g_pos st' = g_pos st
  end.
Proof.
  intros H Ht Hp Hl Hc.
  destruct (gen_step_ok pr ns s st st' (match mget (locals ns) (g_current st) with Some lo => names_get (globals ns) lo | None => fun _ => None end) H Ht Hp Hl Hc)
    as (bs & Hem & Hq & Hle & _).
  { intros _ lo Hlo x. rewrite Hlo. reflexivity. }
  destruct s as [d|n|i|n e|n e|t|n args]; rewrite Hq; cbn [advance]; auto.
  - destruct (dir_size_ok pr d (g_pos st) ltac:(lia) Ht Hle) as [(k & E1 & E2)|(E1 & a & m & -> & Hno)].
    + exists k. split; [assumption|]. cbn [advance] in E2. lia.
    + exfalso. simpl in Hem. tauto.
  - rewrite size_doc. reflexivity.
Qed.

(** ** Alignment *)

Lemma round_up_spec p m : 0 < m -> 0 <= p -> exists q, round_up p m = m * q /\ 0 <= q /\ p <= m * q /\ forall q', p <= m * q' -> q <= q'.
Proof.
  intros Hm Hp. exists (- (- p / m)). unfold round_up.
  pose proof (Z.mul_div_le (- p) m Hm). pose proof (Z.mul_succ_div_gt (- p) m Hm).
  split; [reflexivity|]. repeat split; try nia.
Qed.

Theorem cnop_moves pr p a m ra rm n : 0 <= p <= 2147483647 -> 0 <= a <= 2147483647 -> 0 < m <= 2147483647 ->
  a + m * ((p + m - 1) / m) <= 2147483647 ->
  dir_size pr (DCnop (ENumber a ra) (ENumber m rm)) p = Ok n ->
  exists q, 0 <= q /\ p + n = a + m * q /\ p <= m * q /\ forall q', p <= m * q' -> q <= q'.
Proof.
  intros Hp Ha Hm Hb H. destruct (round_up_spec p m ltac:(lia) ltac:(lia)) as (q & E & Hq & Hpq & Hleast).
  assert (Hq2 : q <= (p + m - 1) / m).
  { apply Hleast. pose proof (Z.mul_succ_div_gt (p + m - 1) m ltac:(lia)). lia. }
  assert (Hadv : advance p (SDirective (DCnop (ENumber a ra) (ENumber m rm))) = a + m * q).
  { cbn [advance]. replace (m =? 0) with false by (symmetry; apply Z.eqb_neq; lia). rewrite E. reflexivity. }
  destruct (dir_size_ok pr (DCnop (ENumber a ra) (ENumber m rm)) p Hp) as [(k & E1 & E2)|(E1 & _)].
  - simpl. lia.
  - rewrite Hadv. nia.
  - rewrite H in E1. injection E1 as <-. exists q. rewrite <- Hadv, <- E2. repeat split; auto; lia.
  - congruence.
Qed.

(** ** No crash *)

Lemma visible_ok pr prog : layout_small prog ->
  (forall k s n e, nth_error prog k = Some s -> var_def s = Some (n, e) -> lits_ok e) ->
  forall k, get_ok (visible pr prog k).
Proof.
  intros Hlay Hl k. induction k as [k IH] using lt_wf_ind. intros x v Hv.
  apply visible_inv in Hv. destruct Hv as [(j & n & _ & _ & _ & ->)|(j & s & n & e & Hj & Hs & Hvd & _ & Ev)].
  - specialize (Hlay j). unfold in32. lia.
  - eapply eval_in32; [|eapply Hl; eauto|exact Ev]. cbn [env_get]. apply IH. assumption.
Qed.

Lemma env_at_ok pr prog : layout_small prog ->
  (forall k s n e, nth_error prog k = Some s -> var_def s = Some (n, e) -> lits_ok e) ->
  forall k get, env_at pr prog k get -> get_ok get.
Proof.
  intros Hlay Hl k get [H1 H2] x v Hv. destruct (is_local x) eqn:E.
  - apply (H2 x v E) in Hv. destruct Hv as (j & n & _ & _ & _ & _ & ->). specialize (Hlay j). unfold in32. lia.
  - rewrite (H1 x E) in Hv. eapply visible_ok; eauto.
Qed.

Theorem assemble_outcome pr prog : Forall typed prog -> Forall plain prog -> Forall lower_label prog -> layout_small prog ->
  (pr = Debug -> forward_cnops prog) -> exprs_fit pr prog ->
  ((exists out, assemble pr prog = Ok out) /\ well_formed pr prog) \/
  ((exists er, assemble pr prog = Err er) /\ ~ well_formed pr prog).
Proof.
  intros Ht Hpl Hlow Hlay Hfw [Hv He].
  assert (Hl : forall k s n e, nth_error prog k = Some s -> var_def s = Some (n, e) -> lits_ok e) by (intros; eapply Hv; eauto).
  apply assemble_complete; auto.
  - intros k s n e Hk Hvd. destruct (Hv k s n e Hk Hvd) as [H1 H2]. apply fits_safe; auto. cbn [env_get]. apply visible_ok; assumption.
  - intros k s get e kw Hk Henv Hin. destruct (He k s get e Hk Henv Hin) as [H1 H2]. apply fits_safe; auto.
    cbn [env_get]. eapply env_at_ok; eauto.
Qed.
