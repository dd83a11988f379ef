(** Proofs about macro expansion: calls, termination, hygiene, evaluation. *)
From Coq Require Import ZArith List String Ascii Bool Lia Arith Relations.
From Verif Require Import Base Expr Instr Ast Macro SpecIsa SpecMacro MacroProofs MacroProofs2.
Import ListNotations.
Open Scope string_scope.
Open Scope list_scope.
Local Open Scope nat_scope.

Section Calls.
Variables (uuid : nat -> string) (ms : macros).

Definition agree (L : smap string) (A : smap arg) (lab : string -> string -> Prop) (par : string -> arg -> Prop) : Prop :=
  (forall x l, mget L x = Some l <-> lab x l) /\ (forall x a, mget A x = Some a <-> par x a) /\
  (forall x a, par x a -> plain_arg a).

Lemma agree_plain L A lab par : agree L A lab par -> forall x e, mget A x = Some (AEx e) -> plain e.
Proof. intros (_ & H1 & H2) x e H. apply H1, H2 in H. auto. Qed.

Lemma body_sound call f L A lab par :
  agree L A lab par ->
  (forall n name args out n', Forall plain_arg args -> call n name args = Ok (out, n') -> call_rel uuid ms n name args out n') ->
  forall body n out n', expand_body call f ms L A n body = Ok (out, n') -> body_rel uuid ms lab par n body out n'.
Proof.
  intros HA HC. pose proof (agree_plain _ _ _ _ HA) as HP. destruct HA as (HL & HR & HPA).
  induction body as [|s t IH]; cbn [expand_body]; intros n out n' H.
  - inversion H; subst. constructor.
  - apply bind_ok in H as ([here n1] & Hs & H). apply bind_ok in H as ([rest n2] & Ht & H). inversion H; subst.
    apply IH in Ht. destruct s as [nm args|nm|nm].
    + destruct (find_macro ms nm (List.length args)) eqn:F.
      * apply bind_ok in Hs as (args' & Ha & Hs). apply replace_args_sound in Ha; auto.
        apply subst_args_ext with (lab' := lab) (par' := par) in Ha; [|intros; apply HL; auto|intros; apply HR; auto].
        eapply body_call; eauto. apply HC; auto. eapply subst_args_plain; eauto.
      * apply bind_ok in Hs as (args' & Ha & Hs). apply replace_args_sound in Ha; auto.
        apply subst_args_ext with (lab' := lab) (par' := par) in Ha; [|intros; apply HL; auto|intros; apply HR; auto].
        apply bind_ok in Hs as (i & Hi & Hs). inversion Hs; subst. cbn [app].
        apply make_instr_iff in Hi as (fm & F1 & F2 & F3 & F4). eapply body_instr; eauto.
    + inversion Hs; subst. constructor; auto.
    + destruct (mget L nm) eqn:E; inversion Hs; subst. apply HL in E. cbn. constructor; auto.
Qed.

Lemma call_agree n def args L n1 : gen_labels uuid [] n (m_body def) = Ok (L, n1) ->
  List.length (m_args def) = List.length args -> Forall plain_arg args ->
  agree L (make_argmap [] (m_args def) args) (label_name uuid n (m_body def)) (binds (m_args def) args).
Proof.
  intros HG HL HP. split; [|split].
  - intros x l. apply gen_labels_iff in HG as (_ & _ & HG). apply HG.
  - intros x a. rewrite argmap_spec by auto. split; [intros [?|[_ H]]; [auto|discriminate]|auto].
  - intros x a H. apply binds_in in H. rewrite Forall_forall in HP. auto.
Qed.

Lemma expand_sound fuel : forall n name args out n', Forall plain_arg args ->
  expand uuid fuel ms n name args = Ok (out, n') -> call_rel uuid ms n name args out n'.
Proof.
  induction fuel as [|f IH]; intros n name args out n' HP H; [discriminate|].
  cbn [expand] in H. destruct (find_macro ms name (List.length args)) as [def|] eqn:F; [|discriminate].
  destruct (Nat.eqb (List.length args) (List.length (m_args def))) eqn:E; [|discriminate].
  apply Nat.eqb_eq in E. apply bind_ok in H as ([L n1] & HG & H).
  pose proof (call_agree _ _ _ _ _ HG (eq_sym E) HP) as HA.
  apply gen_labels_iff in HG as (HN & -> & _).
  econstructor; eauto. eapply body_sound; eauto.
Qed.

(** More fuel does not change a result. *)
Lemma expand_complete_both :
  (forall n name args out n', call_rel uuid ms n name args out n' ->
     Forall plain_arg args -> exists F, forall fuel, F <= fuel -> expand uuid fuel ms n name args = Ok (out, n')) /\
  (forall lab par n body out n', body_rel uuid ms lab par n body out n' ->
     forall L A, agree L A lab par -> exists F, forall fuel, F <= fuel ->
       expand_body (expand uuid fuel ms) fuel ms L A n body = Ok (out, n')).
Proof.
  apply call_body_ind.
  - intros n name args def out n' HF HL HN _ IH HP.
    destruct (gen_labels_ok uuid (m_body def) [] n HN) as ([L n1] & HG); [auto|].
    pose proof (call_agree _ _ _ _ _ HG HL HP) as HA.
    destruct (IH _ _ HA) as [F HFu].
    exists (S F). intros [|fuel] Hf; [lia|]. cbn [expand]. rewrite HF.
    rewrite HL, Nat.eqb_refl, HG. cbn [bind]. pose proof HG as HG2. apply gen_labels_iff in HG2 as (_ & -> & _).
    apply HFu. lia.
  - intros lab par n L A HA. exists 0. auto.
  - intros lab par n x t out n' _ IH L A HA. destruct (IH L A HA) as [F HF].
    exists F. intros fuel Hf. cbn [expand_body]. cbn [bind]. rewrite HF by auto. reflexivity.
  - intros lab par n x l t out n' Hl _ IH L A HA. destruct (IH L A HA) as [F HF].
    exists F. intros fuel Hf. cbn [expand_body]. destruct HA as (HL & _).
    apply HL in Hl. rewrite Hl. cbn [bind]. rewrite HF by auto. reflexivity.
  - intros lab par n name args args' f i t out n' Hn Ha F1 F2 F3 F4 _ IH L A HA. destruct (IH L A HA) as [F HF].
    exists (S F). intros [|fuel] Hf; [lia|]. cbn [expand_body]. rewrite Hn.
    rewrite (replace_args_complete L A (agree_plain _ _ _ _ HA) fuel args args').
    + cbn [bind]. assert (HI : make_instr name args' = Ok i) by (apply make_instr_iff; exists f; auto).
      rewrite HI. cbn [bind]. rewrite HF by lia. reflexivity.
    + destruct HA as (HL & HR & _). eapply subst_args_ext; [| |eauto]; [intros; apply HL; auto|intros; apply HR; auto].
  - intros lab par n name args args' def here n1 t out n' Hn Ha _ IHc _ IH L A HA.
    destruct (IH L A HA) as [F HF].
    destruct IHc as [F' HF']; [destruct HA as (_ & _ & HP); eapply subst_args_plain; eauto|].
    exists (S (F + F')). intros [|fuel] Hf; [lia|]. cbn [expand_body]. rewrite Hn.
    rewrite (replace_args_complete L A (agree_plain _ _ _ _ HA) fuel args args').
    + cbn [bind]. rewrite HF' by lia. cbn [bind]. rewrite HF by lia. reflexivity.
    + destruct HA as (HL & HR & _). eapply subst_args_ext; [| |eauto]; [intros; apply HL; auto|intros; apply HR; auto].
Qed.

Lemma expand_complete n name args out n' : call_rel uuid ms n name args out n' -> Forall plain_arg args ->
  exists F, forall fuel, F <= fuel -> expand uuid fuel ms n name args = Ok (out, n').
Proof. intros H. destruct expand_complete_both as [C _]. apply C; auto. Qed.

Lemma list_sound fuel l : forall n out n', Forall plain_call l ->
  expand_list uuid fuel ms n l = Ok (out, n') -> list_rel uuid ms n l out n'.
Proof.
  induction l as [|s t IH]; intros n out n' HP H.
  - cbn in H. inversion H; subst. constructor.
  - inversion HP; subst. destruct s; cbn [expand_list] in H;
      try (apply bind_ok in H as ([rest n2] & Ht & H); inversion H; subst; apply lr_other; [discriminate|auto]; fail).
    apply bind_ok in H as ([here n1] & Hc & H). apply bind_ok in H as ([rest n2] & Ht & H). inversion H; subst.
    eapply lr_call; eauto. eapply expand_sound; eauto.
Qed.

Lemma list_complete n l out n' : list_rel uuid ms n l out n' -> Forall plain_call l ->
  exists F, forall fuel, F <= fuel -> expand_list uuid fuel ms n l = Ok (out, n').
Proof.
  induction 1 as [n|n name args here n1 t out n' HC HL IH|n s t out n' HS HL IH]; intros HP.
  - exists 0. auto.
  - inversion HP; subst. destruct (IH H2) as [F HF]. destruct (expand_complete _ _ _ _ _ HC H1) as [F' HF'].
    exists (F + F'). intros fuel Hf. cbn [expand_list]. rewrite HF' by lia. cbn [bind]. rewrite HF by lia. reflexivity.
  - inversion HP; subst. destruct (IH H2) as [F HF]. exists F. intros fuel Hf.
    destruct s; cbn [expand_list]; rewrite ?HF by auto; auto. exfalso. eapply HS; eauto.
Qed.

(** ** The result is plain *)

Lemma shapes_plain ks args os : shapes ks args os -> Forall plain_arg args -> Forall plain_operand os.
Proof.
  induction 1; intros HP; constructor; inversion HP; subst; auto.
  destruct k, a; cbn in *; try contradiction; subst; auto.
Qed.

Lemma call_plain_both :
  (forall n name args out n', call_rel uuid ms n name args out n' ->
     Forall plain_arg args -> Forall plain_statement out) /\
  (forall lab par n body out n', body_rel uuid ms lab par n body out n' ->
     (forall x a, par x a -> plain_arg a) -> Forall plain_statement out).
Proof.
  apply call_body_ind.
  - intros n name args def out n' _ _ _ _ IH HP. apply IH. intros x a H. apply binds_in in H.
    rewrite Forall_forall in HP. auto.
  - constructor.
  - intros. constructor; cbn; auto.
  - intros. constructor; cbn; auto.
  - intros lab par n name args args' f i t out n' Hn Ha F1 F2 F3 F4 _ IH HP. constructor; auto.
    cbn. eapply shapes_plain; eauto. eapply subst_args_plain; eauto.
  - intros lab par n name args args' def here n1 t out n' Hn Ha _ IHc _ IH HP. apply Forall_app. split; auto.
    apply IHc. eapply subst_args_plain; eauto.
Qed.

Lemma list_plain n l out n' : list_rel uuid ms n l out n' -> Forall plain_call l ->
  (forall s, In s l -> (forall name args, s <> SMacroCall name args) -> plain_statement s) ->
  Forall plain_statement out.
Proof.
  induction 1 as [n|n name args here n1 t out n' HC HL IH|n s t out n' HS HL IH]; intros HP HO.
  - constructor.
  - inversion HP; subst. apply Forall_app. split.
    + eapply (proj1 call_plain_both); eauto.
    + apply IH; auto. intros; apply HO; auto. right; auto.
  - inversion HP; subst. constructor; [apply HO; [left; auto|auto]|].
    apply IH; auto. intros; apply HO; auto. right; auto.
Qed.

(** ** Termination *)

(** A chain of calls starting at [a] with [k] further macros. *)
Inductive chain : nat -> string * nat -> list (string * nat) -> Prop :=
| chain_one a : chain 0 a []
| chain_more k a b l : calls ms a b -> chain k b l -> chain (S k) a (b :: l).

Lemma body_div call f L A lab par :
  agree L A lab par -> forall body0 n, 
  expand_body call (S f) ms L A n body0 = Diverge ->
  exists name args args' m, In (MInstr name args) body0 /\ List.length args' = List.length args /\
    find_macro ms name (List.length args) <> None /\ Forall plain_arg args' /\ call m name args' = Diverge.
Proof.
  intros HA. pose proof (agree_plain _ _ _ _ HA) as HP. destruct HA as (HL & HR & HPA).
  induction body0 as [|s t IH]; cbn [expand_body]; intros n H; [discriminate|].
  apply bind_div in H as [H|([here n1] & _ & H)].
  - destruct s as [nm args|nm|nm]; [|discriminate|destruct (mget L nm); discriminate].
    pose proof (proj1 (replace_args_total L A HP f args)) as HT.
    destruct (find_macro ms nm (List.length args)) eqn:F.
    + apply bind_div in H as [H|(args' & Ha & H)]; [contradiction|].
      exists nm, args, args', n. split; [left; auto|]. split; [eapply replace_args_length; eauto|].
      split; [congruence|]. split; auto.
      apply replace_args_sound in Ha; auto. eapply subst_args_plain; [|exact Ha].
      intros x a Hx. cbn in Hx. apply HR in Hx. eauto.
    + apply bind_div in H as [H|(args' & Ha & H)]; [contradiction|].
      apply bind_div in H as [H|(i & Hi & H)]; [|discriminate].
      pose proof (make_instr_made nm args') as M. rewrite H in M. contradiction.
  - apply bind_div in H as [H|([? ?] & _ & H)]; [|discriminate].
    apply IH in H as (a & b & c & d & Hi & H). exists a, b, c, d. split; [right; auto|auto].
Qed.

Lemma expand_div_step f n name args : Forall plain_arg args ->
  expand uuid (S (S f)) ms n name args = Diverge ->
  exists nm args' m, calls ms (name, List.length args) (nm, List.length args') /\ Forall plain_arg args' /\
    expand uuid (S f) ms m nm args' = Diverge.
Proof.
  intros HP H. remember (S f) as g eqn:Hg. cbn [expand] in H.
  destruct (find_macro ms name (List.length args)) as [def|] eqn:F; [|discriminate].
  destruct (Nat.eqb (List.length args) (List.length (m_args def))) eqn:E; [|discriminate].
  apply Nat.eqb_eq in E. apply bind_div in H as [H|([L n1] & HG & H)]; [exact (False_ind _ (proj1 (gen_labels_total _ _ _ _) H))|].
  pose proof (call_agree _ _ _ _ _ HG (eq_sym E) HP) as HA. rewrite Hg in H at 2.
  apply (body_div _ _ _ _ _ _ HA) in H as (nm & a & a' & m & H1 & H2 & H3 & H4 & H5).
  exists nm, a', m. split; auto. exists def, a. cbn [fst snd]. rewrite H2. auto.
Qed.

Lemma expand_div fuel : forall n name args, Forall plain_arg args ->
  expand uuid (S (S fuel)) ms n name args = Diverge -> exists l, chain (S fuel) (name, List.length args) l.
Proof.
  induction fuel as [|f IH]; intros n name args HP H; apply expand_div_step in H as (nm & a & m & H1 & H2 & H3); auto.
  - eexists. econstructor; eauto. constructor.
  - apply IH in H3 as (l & H3); auto. eexists. econstructor; eauto.
Qed.

Lemma calls_in a b : calls ms a b -> In a (map fst ms) /\ In b (map fst ms).
Proof.
  assert (K : forall m n k d, find_macro m n k = Some d -> In (n, k) (map fst m)).
  { induction m as [|[[n' k'] d'] m IH]; cbn; intros n k d H; [discriminate|].
    destruct (String.eqb n' n && Nat.eqb k' k)%bool eqn:E; [|right; eauto].
    apply andb_true_iff in E as [E1 E2]. apply String.eqb_eq in E1. apply Nat.eqb_eq in E2. subst. left; auto. }
  intros (def & args & H1 & _ & _ & H2). destruct a, b; cbn in *. split; [eapply K; eauto|].
  destruct (find_macro ms s0 n0) eqn:E; [eapply K; eauto|congruence].
Qed.

Lemma chain_trans k a l : chain k a l -> forall b, In b l -> clos_trans _ (calls ms) a b.
Proof.
  induction 1; intros c Hc; [contradiction|]. destruct Hc as [<-|Hc]; [constructor; auto|].
  econstructor 2; [constructor; eauto|auto].
Qed.

Lemma chain_short k a l : acyclic ms -> chain k a l -> (k <= List.length ms)%nat.
Proof.
  intros HA HC.
  assert (HN : NoDup l /\ List.length l = k /\ incl l (map fst ms)).
  { induction HC as [|k a b l HB HC (H1 & H2 & H3)]; [repeat split; [constructor|intros x []]|].
    split; [constructor; auto|split; [cbn; lia|]].
    - intros Hb. apply (HA b). eapply chain_trans; eauto.
    - intros x [<-|Hx]; [apply calls_in in HB; tauto|auto]. }
  destruct HN as (H1 & <- & H3). apply NoDup_incl_length in H3; auto. rewrite map_length in H3. auto.
Qed.

Lemma expand_terminates fuel n name args : acyclic ms -> Forall plain_arg args ->
  List.length ms + 2 <= fuel -> expand uuid fuel ms n name args <> Diverge.
Proof.
  intros HA HP Hf H. destruct fuel as [|[|fuel]]; [lia|lia|].
  apply expand_div in H as (l & H); auto. apply chain_short in H; auto. lia.
Qed.

Lemma body_panic call f L A lab par :
  agree L A lab par ->
  (forall n name args, Forall plain_arg args -> call n name args <> Panic) ->
  forall body, (forall x, In (MMacroLabel x) body -> mget L x <> None) -> forall n,
  expand_body call f ms L A n body <> Panic.
Proof.
  intros HA HC. pose proof (agree_plain _ _ _ _ HA) as HP. destruct HA as (HL & HR & HPA).
  assert (RP : forall args, replace_args f L A args <> Panic).
  { destruct f; intros args; [|apply replace_args_total; auto].
    assert (RE : forall e, replace_expr 0 L A e <> Panic).
    { induction e; cbn; intros H;
        repeat match goal with H : bind _ _ = Panic |- _ => apply bind_panic in H as [H|(? & ? & H)] end;
        try contradiction; try discriminate.
      - destruct (mget L name); discriminate.
      - destruct (mget A name) as [[]|]; discriminate. }
    induction args as [|a t IH]; cbn; [discriminate|]. intros H.
    apply bind_panic in H as [H|(? & ? & H)].
    - destruct a; repeat match goal with H : bind _ _ = Panic |- _ => apply bind_panic in H as [H|(? & ? & H)] end;
        try discriminate; try (match goal with H : _ = Panic |- _ => exact (RE _ H) end). destruct (mget A name); discriminate.
    - apply bind_panic in H as [H|(? & ? & H)]; [contradiction|discriminate]. }
  induction body as [|s t IH]; cbn [expand_body]; intros HM n H; [discriminate|].
  apply bind_panic in H as [H|([here n1] & _ & H)].
  - destruct s as [nm args|nm|nm].
    + destruct (find_macro ms nm (List.length args)) eqn:F.
      * apply bind_panic in H as [H|(args' & Ha & H)]; [exact (RP _ H)|].
        eapply HC; [|exact H]. apply replace_args_sound in Ha; auto. eapply subst_args_plain; [|exact Ha].
        intros x a Hx. cbn in Hx. apply HR in Hx. eauto.
      * apply bind_panic in H as [H|(args' & Ha & H)]; [exact (RP _ H)|].
        apply bind_panic in H as [H|(i & Hi & H)]; [|discriminate].
        pose proof (make_instr_made nm args') as M. rewrite H in M. contradiction.
    + discriminate.
    + destruct (mget L nm) eqn:E; [discriminate|]. apply (HM nm); [left; auto|auto].
  - apply bind_panic in H as [H|([? ?] & _ & H)]; [|discriminate].
    apply IH in H; auto. intros x Hx. apply HM. right; auto.
Qed.

Lemma in_macro_labels x body : In (MMacroLabel x) body <-> In x (macro_labels body).
Proof.
  unfold macro_labels. rewrite in_flat_map. split.
  - intros H. exists (MMacroLabel x). split; auto. left; auto.
  - intros (s & H1 & H2). destruct s; cbn in H2; try contradiction. destruct H2 as [<-|[]]. auto.
Qed.

Lemma expand_no_panic fuel : forall n name args, Forall plain_arg args -> expand uuid fuel ms n name args <> Panic.
Proof.
  induction fuel as [|f IH]; intros n name args HP H; [discriminate|].
  cbn [expand] in H. destruct (find_macro ms name (List.length args)) as [def|] eqn:F; [|discriminate].
  destruct (Nat.eqb (List.length args) (List.length (m_args def))) eqn:E; [|discriminate].
  apply Nat.eqb_eq in E. apply bind_panic in H as [H|([L n1] & HG & H)]; [exact (proj2 (gen_labels_total _ _ _ _) H)|].
  pose proof (call_agree _ _ _ _ _ HG (eq_sym E) HP) as HA.
  refine (body_panic _ _ _ _ _ _ HA _ _ _ _ H); [intros; apply IH; auto|].
  intros x Hx. apply in_macro_labels in Hx. apply In_nth_error in Hx as (i & Hi).
  apply gen_labels_iff in HG as (_ & _ & HG).
  assert (mget L x = Some (no_percent x ++ "_" ++ uuid (n + i))%string) by (apply HG; exists i; auto). congruence.
Qed.

(** ** Recursion never succeeds *)

Lemma body_calls call f L A body : forall n out n',
  expand_body call f ms L A n body = Ok (out, n') ->
  forall name args, In (MInstr name args) body -> find_macro ms name (List.length args) <> None ->
  exists args' m r, List.length args' = List.length args /\ call m name args' = Ok r.
Proof.
  induction body as [|s t IH]; intros n out n' H name args HI HF; [contradiction|].
  cbn [expand_body] in H. apply bind_ok in H as ([here n1] & Hs & H). apply bind_ok in H as ([rest n2] & Ht & H).
  destruct HI as [->|HI]; [|eapply IH; eauto].
  destruct (find_macro ms name (List.length args)) eqn:F; [|congruence].
  apply bind_ok in Hs as (args' & Ha & Hs). exists args', n, (here, n1). split; auto.
  eapply replace_args_length; eauto.
Qed.

Lemma expand_ok_chain fuel : forall n name args r, expand uuid fuel ms n name args = Ok r ->
  forall k l, chain k (name, List.length args) l -> (k < fuel)%nat.
Proof.
  induction fuel as [|f IH]; intros n name args r H k l HC; [discriminate|].
  inversion HC as [|k' a b l' HB HC']; subst; [lia|].
  destruct HB as (def & iargs & H1 & H2 & H3 & H4). cbn [fst snd] in *.
  cbn [expand] in H. rewrite H1 in H.
  destruct (Nat.eqb (List.length args) (List.length (m_args def))) eqn:E; [|discriminate].
  apply bind_ok in H as ([L n1] & HG & H). destruct r as [out n'].
  destruct b as [bn bk]. cbn [fst snd] in *. subst bk.
  apply (body_calls _ _ _ _ _ _ _ _ H) in H2 as (args' & m & r' & Hl & Hr); auto.
  rewrite <- Hl in HC'. pose proof (IH _ _ _ _ Hr k' l' HC'). lia.
Qed.

(** Reaching a cycle gives chains of every length. *)
Inductive path : nat -> string * nat -> string * nat -> Prop :=
| path_nil a : path 0 a a
| path_cons k a b c : calls ms a b -> path k b c -> path (S k) a c.

Lemma path_app k a b : path k a b -> forall j c, path j b c -> path (k + j) a c.
Proof. induction 1; intros j d H1; cbn [Nat.add]; auto. econstructor; eauto. Qed.

Lemma path_chain k a b : path k a b -> exists l, chain k a l.
Proof. induction 1 as [|k a b c H HP (l & IH)]; eexists; econstructor; eauto. Qed.

Lemma trans_path a b : clos_trans _ (calls ms) a b -> exists k, (0 < k)%nat /\ path k a b.
Proof.
  induction 1 as [a b H|a b c H1 (k1 & K1 & C1) H2 (k2 & K2 & C2)].
  - exists 1. split; [lia|]. econstructor; eauto. constructor.
  - exists (k1 + k2). split; [lia|]. eapply path_app; eauto.
Qed.

Lemma cycle_chain a : clos_trans _ (calls ms) a a -> forall k, exists j l, (k <= j)%nat /\ chain j a l.
Proof.
  intros H k. apply trans_path in H as (k0 & K0 & C0).
  assert (HP : exists j, k <= j /\ path j a a).
  { induction k as [|k (j & Hj & Hl)].
    - exists 0. split; [lia|constructor].
    - exists (k0 + j). split; [lia|]. eapply path_app; eauto. }
  destruct HP as (j & Hj & HP). apply path_chain in HP as (l & HP). eauto.
Qed.

Lemma recursion_never_ok name args c : clos_refl_trans _ (calls ms) (name, List.length args) c ->
  clos_trans _ (calls ms) c c -> forall fuel n r, expand uuid fuel ms n name args <> Ok r.
Proof.
  intros HR HC fuel n r H.
  destruct (cycle_chain c HC fuel) as (j & l & Hj & Hl).
  apply clos_rt_rtn1 in HR. apply clos_rtn1_rt in HR.
  assert (HX : exists j' l', fuel <= j' /\ chain j' (name, List.length args) l').
  { apply clos_rt_rt1n in HR. clear H HC. induction HR as [x|x y z Hxy Hyz IH].
    - eauto.
    - destruct IH as (j' & l' & H1 & H2); auto. exists (S j'), (y :: l'). split; [lia|]. econstructor; eauto. }
  destruct HX as (j' & l' & H1 & H2). apply (expand_ok_chain _ _ _ _ _ H) in H2. lia.
Qed.

(** ** Hygiene *)

(** What a statement of an expansion is: with tag [Some k] a label made from suffix [k], with [None]
    not a made label. *)
Definition tagged (src : string -> Prop) (s : statement) (t : option nat) : Prop :=
  match t with
  | Some k => exists p, s = SLabel (p ++ uuid k)%string
  | None => forall x, s = SLabel x -> src x
  end.

Definition tags_of (t : list (option nat)) : list nat :=
  flat_map (fun o => match o with Some k => [k] | None => [] end) t.

Lemma tags_app a b : tags_of (a ++ b) = tags_of a ++ tags_of b.
Proof. apply flat_map_app. Qed.

Definition src0 (x : string) : Prop :=
  exists name k def, find_macro ms name k = Some def /\ In (MLabel x) (m_body def).

Lemma NoDup_app2 {X} (a b : list X) : NoDup a -> NoDup b -> (forall x, In x a -> In x b -> False) -> NoDup (a ++ b).
Proof.
  induction a as [|x a IH]; intros HA HB HD; auto. inversion HA; subst. cbn. constructor.
  - rewrite in_app_iff. intros [H|H]; [contradiction|]. eapply HD; [left; auto|eauto].
  - apply IH; auto. intros y H3 H4. eapply HD; [right; eauto|auto].
Qed.

Lemma macro_labels_app a b : macro_labels (a ++ b) = macro_labels a ++ macro_labels b.
Proof. apply flat_map_app. Qed.

Lemma append_assoc2 (a b c : string) : (a ++ (b ++ c) = (a ++ b) ++ c)%string.
Proof. induction a; cbn; congruence. Qed.

Lemma hyg_both :
  (forall n name args out n', call_rel uuid ms n name args out n' ->
     n <= n' /\ exists tags, Forall2 (tagged src0) out tags /\ NoDup (tags_of tags) /\
       forall k, In k (tags_of tags) -> n <= k < n') /\
  (forall lab par n body out n', body_rel uuid ms lab par n body out n' ->
     forall n0 pre body0 def0 name0 k0, find_macro ms name0 k0 = Some def0 -> m_body def0 = body0 ->
       NoDup (macro_labels body0) ->
       lab = label_name uuid n0 body0 -> body0 = pre ++ body -> n0 + List.length (macro_labels body0) <= n ->
     n <= n' /\ exists tags, Forall2 (tagged src0) out tags /\ NoDup (tags_of tags) /\
       forall k, In k (tags_of tags) ->
         n0 + List.length (macro_labels pre) <= k < n0 + List.length (macro_labels body0) \/ n <= k < n').
Proof.
  apply call_body_ind.
  - intros n name args def out n' HF HL HN _ IH.
    destruct (IH n [] _ def name _ HF eq_refl HN eq_refl eq_refl (le_n _)) as (H1 & tags & H2 & H3 & H4).
    split; [lia|]. exists tags. split; auto. split; auto. intros k Hk. apply H4 in Hk. cbn in Hk. lia.
  - intros lab par n n0 pre body0 def0 name0 k0 HF HB HN Hlab Hpre Hn. split; [lia|].
    exists []. split; [constructor|]. split; [constructor|]. intros k [].
  - intros lab par n x t out n' _ IH n0 pre body0 def0 name0 k0 HF HB HN Hlab Hpre Hn.
    destruct (IH n0 (pre ++ [MLabel x]) body0 def0 name0 k0) as (H1 & tags & H2 & H3 & H4); auto.
    { rewrite <- app_assoc. auto. }
    split; [lia|]. exists (None :: tags). split.
    { constructor; auto. cbn. intros y Hy. inversion Hy; subst y. exists name0, k0, def0. split; auto.
      rewrite HB, Hpre. apply in_or_app. right; left; auto. }
    split; auto. intros k Hk. apply H4 in Hk. rewrite macro_labels_app in Hk. cbn in Hk.
    rewrite app_nil_r in Hk. auto.
  - intros lab par n x l t out n' Hl _ IH n0 pre body0 def0 name0 k0 HF HB HN Hlab Hpre Hn.
    destruct (IH n0 (pre ++ [MMacroLabel x]) body0 def0 name0 k0) as (H1 & tags & H2 & H3 & H4); auto.
    { rewrite <- app_assoc. auto. }
    rewrite macro_labels_app, app_length in H4. cbn in H4.
    rewrite Hlab in Hl. destruct Hl as (i & Hi & El).
    assert (Ei : i = List.length (macro_labels pre)).
    { apply (proj1 (NoDup_nth_error _) HN); [apply nth_error_Some; congruence|].
      rewrite Hi, Hpre, macro_labels_app. rewrite nth_error_app2 by auto. rewrite Nat.sub_diag. auto. }
    assert (Hlt : i < List.length (macro_labels body0)) by (apply nth_error_Some; congruence).
    split; [lia|]. exists (Some (n0 + i) :: tags). split.
    { constructor; auto. cbn. exists (no_percent x ++ "_")%string. rewrite El. f_equal.
      apply append_assoc2. }
    split.
    { unfold tags_of; cbn; fold (tags_of tags). constructor; auto. intros Hk. apply H4 in Hk. lia. }
    intros k [<-|Hk]; [lia|]. apply H4 in Hk. lia.
  - intros lab par n name args args' f i t out n' Hn Ha F1 F2 F3 F4 _ IH n0 pre body0 def0 name0 k0 HF HB HN Hlab Hpre Hn0.
    destruct (IH n0 (pre ++ [MInstr name args]) body0 def0 name0 k0) as (H1 & tags & H2 & H3 & H4); auto.
    { rewrite <- app_assoc. auto. }
    split; [lia|]. exists (None :: tags). split.
    { constructor; auto. cbn. discriminate. }
    split; auto. intros k Hk. apply H4 in Hk. rewrite macro_labels_app in Hk. cbn in Hk.
    rewrite app_nil_r in Hk. auto.
  - intros lab par n name args args' def here n1 t out n' Hn Ha _ (C1 & ctags & C2 & C3 & C4) _ IH
      n0 pre body0 def0 name0 k0 HF HB HN Hlab Hpre Hn0.
    destruct (IH n0 (pre ++ [MInstr name args]) body0 def0 name0 k0) as (H1 & tags & H2 & H3 & H4); auto.
    { rewrite <- app_assoc. auto. } { lia. }
    rewrite macro_labels_app, app_length in H4. cbn in H4.
    split; [lia|]. exists (ctags ++ tags). split; [apply Forall2_app; auto|]. rewrite tags_app. split.
    { apply NoDup_app2; auto. intros k Hk1 Hk2. apply C4 in Hk1. apply H4 in Hk2. lia. }
    intros k Hk. apply in_app_or in Hk as [Hk|Hk]; [apply C4 in Hk; lia|apply H4 in Hk; lia].
Qed.

Lemma hyg_list n l out n' : list_rel uuid ms n l out n' ->
  n <= n' /\ exists tags, Forall2 (tagged (source_label ms l)) out tags /\ NoDup (tags_of tags) /\
       forall k, In k (tags_of tags) -> n <= k < n'.
Proof.
  assert (mono : forall (P Q : string -> Prop) out tags, (forall x, P x -> Q x) -> Forall2 (tagged P) out tags -> Forall2 (tagged Q) out tags).
  { intros P Q o tg HPQ H. induction H as [|s t o tg Hs H IH]; constructor; auto. destruct t; cbn in *; auto. }
  induction 1 as [n|n name args here n1 t out n' HC HL IH|n s t out n' HS HL IH].
  - split; auto. exists []. split; [constructor|]. split; [constructor|]. intros k [].
  - destruct (proj1 hyg_both _ _ _ _ _ HC) as (C1 & ctags & C2 & C3 & C4).
    destruct IH as (H1 & tags & H2 & H3 & H4).
    split; [lia|]. exists (ctags ++ tags). split.
    + apply Forall2_app; [eapply mono; [|exact C2]|eapply mono; [|exact H2]].
      * intros x (a & b & c & d). right. eauto.
      * intros x [Hx|Hx]; [left; right; auto|right; auto].
    + rewrite tags_app. split.
      { apply NoDup_app2; auto. intros k Hk1 Hk2. apply C4 in Hk1. apply H4 in Hk2. lia. }
      intros k Hk. apply in_app_or in Hk as [Hk|Hk]; [apply C4 in Hk; lia|apply H4 in Hk; lia].
  - destruct IH as (H1 & tags & H2 & H3 & H4). split; auto. exists (None :: tags). split; auto.
    constructor.
    + cbn. intros x ->. left; left; auto.
    + eapply mono; [|exact H2]. intros x [Hx|Hx]; [left; right; auto|right; auto].
Qed.

Lemma tags_inj tags : NoDup (tags_of tags) -> forall i j k,
  nth_error tags i = Some (Some k) -> nth_error tags j = Some (Some k) -> i = j.
Proof.
  induction tags as [|o tags IH]; intros HN i j k Hi Hj; [destruct i; discriminate|].
  assert (In_t : forall m, nth_error tags m = Some (Some k) -> In k (tags_of tags)).
  { intros m Hm. apply nth_error_In in Hm. apply in_flat_map. exists (Some k). split; auto. left; auto. }
  destruct i as [|i], j as [|j]; auto.
  - cbn in Hi. inversion Hi; subst o. exfalso. unfold tags_of in HN; cbn in HN. inversion HN; subst. eauto.
  - cbn in Hj. inversion Hj; subst o. exfalso. unfold tags_of in HN; cbn in HN. inversion HN; subst. eauto.
  - f_equal. eapply IH; eauto. destruct o; auto. inversion HN; auto.
Qed.

Lemma lower_app a b : lower (a ++ b) = (lower a ++ lower b)%string.
Proof. induction a; cbn; congruence. Qed.

Lemma lower_length a : String.length (lower a) = String.length a.
Proof. induction a; cbn; congruence. Qed.

Lemma append_len (a b : string) : String.length (a ++ b) = String.length a + String.length b.
Proof. induction a; cbn; congruence. Qed.

Lemma append_tail a : forall b c d, String.length c = String.length d -> (a ++ c = b ++ d)%string -> c = d.
Proof.
  induction a as [|x a IH]; intros [|y b] c d HL H; cbn in H; auto.
  - exfalso. apply (f_equal String.length) in H. cbn in H. rewrite append_len in H. lia.
  - exfalso. apply (f_equal String.length) in H. cbn in H. rewrite append_len in H. lia.
  - inversion H; subst. eapply IH; eauto.
Qed.

Lemma hygiene n l out n' width : list_rel uuid ms n l out n' ->
  (forall k, k < n' -> String.length (uuid k) = width) ->
  (forall j k, j < n' -> k < n' -> lower (uuid j) = lower (uuid k) -> j = k) ->
  (forall x k, k < n' -> source_label ms l x -> ~ ends_in (lower x) (lower (uuid k))) ->
  forall i j a b, i <> j -> nth_error out i = Some (SLabel a) -> nth_error out j = Some (SLabel b) ->
    lower a = lower b -> source_label ms l a /\ source_label ms l b.
Proof.
  intros HR HW HI HS i j a b Hij Ha Hb E.
  apply hyg_list in HR as (_ & tags & H1 & H2 & HB).
  assert (BT : forall i k, nth_error tags i = Some (Some k) -> k < n').
  { intros i0 k Hk. apply nth_error_In in Hk. apply HB. apply in_flat_map. exists (Some k). split; auto. left; auto. }
  assert (G : forall i s, nth_error out i = Some s -> exists t, nth_error tags i = Some t /\ tagged (source_label ms l) s t).
  { clear -H1. induction H1; intros [|i] s Hs; try discriminate; cbn in Hs |- *.
    - inversion Hs; subst. eauto.
    - eauto. }
  destruct (G _ _ Ha) as (ta & Ta & Ga). destruct (G _ _ Hb) as (tb & Tb & Gb).
  destruct ta as [k1|], tb as [k2|]; cbn in Ga, Gb.
  - exfalso. destruct Ga as (p1 & E1). destruct Gb as (p2 & E2). inversion E1; inversion E2; subst.
    rewrite !lower_app in E. apply append_tail in E; [|rewrite !lower_length, !HW; eauto].
    apply HI in E; eauto. subst. apply Hij. eapply tags_inj; eauto.
  - exfalso. destruct Ga as (p1 & E1). inversion E1; subst. apply (HS b k1); [eauto|apply Gb; auto|].
    exists (lower p1). rewrite <- E. apply lower_app.
  - exfalso. destruct Gb as (p1 & E1). inversion E1; subst. apply (HS a k2); [eauto|apply Ga; auto|].
    exists (lower p1). rewrite E. apply lower_app.
  - split; [apply Ga|apply Gb]; auto.
Qed.

Lemma list_total fuel l : acyclic ms -> Forall plain_call l -> List.length ms + 2 <= fuel -> forall n,
  expand_list uuid fuel ms n l <> Diverge /\ expand_list uuid fuel ms n l <> Panic.
Proof.
  intros HA HP Hf. induction HP as [|s t Hs HP IH]; intros n; [split; discriminate|].
  destruct s; cbn [expand_list];
    try (destruct (IH n) as [I1 I2]; split; intros H;
         [apply bind_div in H as [H|([? ?] & _ & H)]; [auto|discriminate]
         |apply bind_panic in H as [H|([? ?] & _ & H)]; [auto|discriminate]]; fail).
  split; intros H.
  - apply bind_div in H as [H|([h n1] & _ & H)]; [eapply expand_terminates; eauto|].
    apply bind_div in H as [H|([? ?] & _ & H)]; [exact (proj1 (IH n1) H)|discriminate].
  - apply bind_panic in H as [H|([h n1] & _ & H)]; [eapply expand_no_panic; eauto|].
    apply bind_panic in H as [H|([? ?] & _ & H)]; [exact (proj2 (IH n1) H)|discriminate].
Qed.

Lemma list_no_calls fuel l : (forall s, In s l -> forall name args, s <> SMacroCall name args) -> forall n,
  expand_list uuid fuel ms n l = Ok (l, n).
Proof.
  induction l as [|s t IH]; intros H n; auto.
  destruct s; cbn [expand_list]; rewrite ?IH by (intros; apply H; right; auto); auto.
  exfalso. eapply H; [left; auto|eauto].
Qed.

End Calls.

(** ** Evaluation *)

Lemma eval_subst (lab : string -> string -> Prop) (par : string -> arg -> Prop) pr en en' labf P e e' :
  env_kind en' = env_kind en ->
  (forall n, mentions e n \/ (exists x, lab x n) -> env_get en' (lower n) = env_get en (lower n)) ->
  (forall x l, lab x l -> l = labf x) ->
  (forall x a, par x (AEx a) -> exists v, eval pr en a = Ok v /\ env_get en' (lower (P x)) = Some v) ->
  subst lab par e e' -> eval pr en e' = eval pr en' (rename labf P e).
Proof.
  intros HK HN HLf HP HS. induction HS; cbn [eval rename mentions] in *;
    repeat match goal with
           | IH : _ -> eval _ _ _ = _ |- _ => rewrite IH by (intros ? [?|?]; apply HN; tauto); clear IH
           end; auto.
  - rewrite HN by auto. rewrite HK. auto.
  - pose proof (HLf _ _ H) as E. subst l. rewrite HN by eauto. rewrite HK. auto.
  - destruct (HP _ _ H) as (v & Hv & HE). rewrite HE. auto.
Qed.

(** ** Closing lemmas *)

Lemma accepted_iff_listed name args : (exists i, make_instr name args = Ok i) <-> listed name args.
Proof.
  split; [|apply form_has_instr].
  intros (i & H). apply make_instr_iff in H as (f & F1 & F2 & F3 & F4). exists f, (op_list i). auto.
Qed.

Lemma nodup_map_eq {X Y} (k : X -> Y) l : NoDup (map k l) -> forall f g, In f l -> In g l -> k f = k g -> f = g.
Proof.
  induction l as [|x l IH]; cbn; intros HN f g HF HG E; [contradiction|]. inversion HN; subst.
  destruct HF as [<-|HF], HG as [<-|HG]; auto.
  - exfalso. apply H1. rewrite E. apply in_map. auto.
  - exfalso. apply H1. rewrite <- E. apply in_map. auto.
Qed.

Fixpoint nodupb (l : list (string * list kind)) : bool :=
  match l with
  | [] => true
  | x :: t => forallb (fun y => if SpecAsm.key_eq_dec x y then false else true) t && nodupb t
  end.

Lemma nodupb_NoDup l : nodupb l = true -> NoDup l.
Proof.
  induction l as [|x t IH]; cbn; intros H; constructor; apply andb_true_iff in H as [H1 H2]; auto.
  intros Hx. rewrite forallb_forall in H1. apply H1 in Hx. destruct (SpecAsm.key_eq_dec x x); congruence.
Qed.

Lemma unique_rows f g : In f isa -> In g isa -> f_name f = f_name g -> f_kinds f = f_kinds g -> f = g.
Proof.
  intros F G H1 H2. apply (nodup_map_eq (fun f => (f_name f, f_kinds f)) isa); auto; [|congruence].
  apply nodupb_NoDup. vm_compute. reflexivity.
Qed.

Lemma unique_form f g args os ps : In f isa -> In g isa -> f_name f = f_name g ->
  shapes (f_kinds f) args os -> shapes (f_kinds g) args ps -> f = g /\ os = ps.
Proof.
  intros F G HN HF HG.
  assert (C : forallb (fun f => forallb (fun g => negb (String.eqb (f_name f) (f_name g) &&
      nl_eqb (map kcls (f_kinds f)) (map kcls (f_kinds g))) ||
      (if list_eq_dec SpecAsm.kind_eq_dec (f_kinds f) (f_kinds g) then true else false)) isa) isa = true)
    by (vm_compute; reflexivity).
  rewrite forallb_forall in C. specialize (C f F). rewrite forallb_forall in C. specialize (C g G).
  rewrite HN, String.eqb_refl in C. cbn [andb] in C.
  replace (nl_eqb (map kcls (f_kinds f)) (map kcls (f_kinds g))) with true in C
    by (symmetry; apply nl_eqb_eq; apply shapes_cls in HF; apply shapes_cls in HG; congruence).
  cbn in C. destruct (list_eq_dec _ _ _) as [EK|]; [|discriminate].
  split.
  - apply unique_rows; auto.
  - rewrite <- EK in HG. clear -HF HG. revert ps HG.
    induction HF as [|k ks a t o os Hs H IH]; intros ps HG; inversion HG; subst; auto.
    f_equal; [|auto]. destruct k, a; cbn in *; try contradiction; congruence.
Qed.

Section Final.
Variables (uuid : nat -> string).

Lemma expand_macros_iff s out : Forall plain_call (st_list s) ->
  ((exists fuel, expand_macros uuid fuel s = Ok (mkStatements (st_macros s) out)) <->
   exists n', list_rel uuid (st_macros s) 0 (st_list s) out n').
Proof.
  intros HP. split.
  - intros (fuel & H). unfold expand_macros in H. apply bind_ok in H as ([l n'] & Hl & H). inversion H; subst.
    exists n'. eapply list_sound; eauto.
  - intros (n' & H). apply list_complete in H as (F & H); auto. exists F. unfold expand_macros. rewrite H by lia. auto.
Qed.

Lemma expand_macros_inv fuel s out : expand_macros uuid fuel s = Ok out ->
  exists n', st_macros out = st_macros s /\ expand_list uuid fuel (st_macros s) 0 (st_list s) = Ok (st_list out, n').
Proof.
  unfold expand_macros. intros H. apply bind_ok in H as ([l n'] & Hl & H). inversion H; subst. exists n'. auto.
Qed.

Lemma expand_macros_plain fuel s out : Forall plain_call (st_list s) ->
  (forall x, In x (st_list s) -> (forall name args, x <> SMacroCall name args) -> plain_statement x) ->
  expand_macros uuid fuel s = Ok out -> Forall plain_statement (st_list out) /\ st_macros out = st_macros s.
Proof.
  intros HP HO H. apply expand_macros_inv in H as (n' & H1 & H2). split; auto.
  eapply list_plain; eauto. eapply list_sound; eauto.
Qed.

Lemma expand_macros_no_calls fuel s :
  (forall x, In x (st_list s) -> forall name args, x <> SMacroCall name args) -> expand_macros uuid fuel s = Ok s.
Proof. intros H. unfold expand_macros. rewrite list_no_calls by auto. destruct s; auto. Qed.

Lemma expand_macros_hygiene fuel ms l out N : Forall plain_call l ->
  expand_list uuid fuel ms 0 l = Ok (out, N) ->
  (forall k, k < N -> String.length (uuid k) = 32) ->
  (forall j k, j < N -> k < N -> lower (uuid j) = lower (uuid k) -> j = k) ->
  (forall x k, k < N -> source_label ms l x -> ~ ends_in (lower x) (lower (uuid k))) ->
  forall i j a b, i <> j ->
    nth_error out i = Some (SLabel a) -> nth_error out j = Some (SLabel b) ->
    lower a = lower b -> source_label ms l a /\ source_label ms l b.
Proof. intros HP H HW HI HS. apply list_sound in H; auto. eapply hygiene; eauto. Qed.

Lemma expand_macros_terminates s fuel : acyclic (st_macros s) -> Forall plain_call (st_list s) ->
  (List.length (st_macros s) + 2 <= fuel)%nat ->
  (exists out, expand_macros uuid fuel s = Ok out) \/ (exists e, expand_macros uuid fuel s = Err e).
Proof.
  intros HA HP Hf. unfold expand_macros.
  destruct (list_total uuid (st_macros s) fuel (st_list s) HA HP Hf 0) as [H1 H2].
  destruct (expand_list uuid fuel (st_macros s) 0 (st_list s)) as [[l n]|e| |]; cbn; eauto; congruence.
Qed.

End Final.

Lemma self_call_diverges name : exists ms, forall uuid fuel n, expand uuid fuel ms n name [] = Diverge.
Proof.
  exists [((name, 0), mkMacro name [] [MInstr name []])].
  intros uuid fuel. induction fuel as [|f IH]; intros n; auto.
  cbn. rewrite String.eqb_refl. cbn. rewrite String.eqb_refl. cbn. rewrite IH. auto.
Qed.

Lemma replace_iff fuel labels args e e' :
  (forall x a, mget args x = Some (AEx a) -> plain a) ->
  (replace_expr (S fuel) labels args e = Ok e' <->
   subst (fun x l => mget labels x = Some l) (fun x a => mget args x = Some a) e e').
Proof.
  intros HP. split; intros H; [apply replace_sound in H; auto|apply replace_complete; auto].
Qed.

Lemma replace_args_iff fuel labels args l l' :
  (forall x a, mget args x = Some (AEx a) -> plain a) ->
  (replace_args (S fuel) labels args l = Ok l' <->
   Forall2 (subst_arg (fun x l => mget labels x = Some l) (fun x a => mget args x = Some a)) l l').
Proof.
  intros HP. split; intros H; [apply replace_args_sound in H; auto|apply replace_args_complete; auto].
Qed.

Lemma argmap_binds params args x a : List.length params = List.length args ->
  (mget (make_argmap [] params args) x = Some a <-> binds params args x a).
Proof. intros H. rewrite argmap_spec by auto. split; [intros [?|[_ H1]]; [auto|discriminate]|auto]. Qed.

Lemma replace_value fuel labels args e e' pr en en' P :
  (forall x a, mget args x = Some (AEx a) -> plain a) ->
  replace_expr (S fuel) labels args e = Ok e' ->
  env_kind en' = env_kind en ->
  (forall n, mentions e n \/ (exists x, mget labels x = Some n) -> env_get en' (lower n) = env_get en (lower n)) ->
  (forall x a, mget args x = Some (AEx a) -> exists v, eval pr en a = Ok v /\ env_get en' (lower (P x)) = Some v) ->
  eval pr en e' = eval pr en' (rename (fun x => match mget labels x with Some l => l | None => x end) P e).
Proof.
  intros HP HR HK HN HV. apply replace_iff in HR; auto. refine (eval_subst _ _ _ _ _ _ _ _ _ HK HN _ HV HR).
  intros x l Hx. rewrite Hx. auto.
Qed.

Lemma self_reference_diverges : exists labels args e, forall fuel, replace_expr fuel labels args e = Diverge.
Proof.
  exists [], [("n", AEx (EPlus (EMacroArg "n") (ENumber 1 Decimal)))], (EMacroArg "n").
  assert (H : forall fuel, replace_expr fuel [] [("n", AEx (EPlus (EMacroArg "n") (ENumber 1 Decimal)))] (EMacroArg "n") = Diverge /\
    replace_expr fuel [] [("n", AEx (EPlus (EMacroArg "n") (ENumber 1 Decimal)))] (EPlus (EMacroArg "n") (ENumber 1 Decimal)) = Diverge).
  { induction fuel as [|f [I1 I2]]; [auto|]. split.
    - cbn [replace_expr mget String.eqb Ascii.eqb Bool.eqb]. exact I2.
    - cbn [replace_expr mget String.eqb Ascii.eqb Bool.eqb bind]. rewrite I2. auto. }
  intros fuel. apply H.
Qed.

(** ** Fuel only decides between a result and no result *)

Lemma bind_mono {X Y} (a a' : outcome X) (f f' : X -> outcome Y) :
  (a <> Diverge -> a' = a) -> (forall x, f x <> Diverge -> f' x = f x) ->
  bind a f <> Diverge -> bind a' f' = bind a f.
Proof.
  intros HA HF H. destruct a; cbn in *; try (rewrite HA by discriminate; cbn; auto; fail); try congruence.
Qed.

Lemma replace_mono f : forall L A e, replace_expr f L A e <> Diverge -> replace_expr (S f) L A e = replace_expr f L A e.
Proof.
  induction f as [|f IH]; intros L A; induction e; intros H;
    try reflexivity;
    try (change (replace_expr (S ?g)) with (replace_expr (S g)));
    try (cbn [replace_expr] in *;
         apply bind_mono; [assumption| |assumption]; intros x Hx;
         first [reflexivity | apply bind_mono; [assumption|intros; reflexivity|assumption]]; fail).
  - cbn in *. destruct (mget A name) as [[]|]; auto. congruence.
  - assert (X : forall g, replace_expr (S g) L A (EMacroArg name) =
      match mget A name with
      | Some (AImm _) => Err ImmediateValueNotAllowedHere
      | Some (AEx x) => replace_expr g L A x
      | Some (AIM _) => Err IndirectionModeNotAllowedHere
      | Some (AMacroArg _) => Err MacroArgOutsideOfMacro
      | None => Err InvalidMacroArg
      end) by reflexivity.
    rewrite X in H. rewrite !X. destruct (mget A name) as [[]|]; auto.
Qed.

Lemma replace_args_mono f L A l : replace_args f L A l <> Diverge -> replace_args (S f) L A l = replace_args f L A l.
Proof.
  induction l as [|a t IH]; intros H; [reflexivity|]. cbn [replace_args] in *.
  apply bind_mono; [|intros x Hx; apply bind_mono; auto|auto].
  destruct a; intros Ha; auto; apply bind_mono; auto; apply replace_mono.
Qed.

Lemma body_mono call call' f ms L A body :
  (forall n name args, call n name args <> Diverge -> call' n name args = call n name args) -> forall n,
  expand_body call f ms L A n body <> Diverge ->
  expand_body call' (S f) ms L A n body = expand_body call f ms L A n body.
Proof.
  intros HC. induction body as [|s t IH]; intros n H; [reflexivity|]. cbn [expand_body] in *.
  apply bind_mono; [| |exact H].
  - destruct s as [nm args|nm|nm]; intros Hs; auto.
    destruct (find_macro ms nm (List.length args)); apply bind_mono; auto; apply replace_args_mono.
  - intros [here n1] Hx. apply bind_mono; auto.
Qed.

Lemma expand_mono uuid ms f : forall n name args, expand uuid f ms n name args <> Diverge ->
  expand uuid (S f) ms n name args = expand uuid f ms n name args.
Proof.
  induction f as [|f IH]; intros n name args H; [cbn in H; congruence|].
  assert (X : forall g, expand uuid (S g) ms n name args =
      match find_macro ms name (List.length args) with
      | None => Err (NoSuchMacro name)
      | Some def =>
          if Nat.eqb (List.length args) (List.length (m_args def)) then
            bind (gen_labels uuid [] n (m_body def)) (fun '(labels, n1) =>
              expand_body (expand uuid g ms) g ms labels (make_argmap [] (m_args def) args) n1 (m_body def))
          else Err (WrongNumberOfMacroArgs (List.length (m_args def)) (List.length args))
      end) by reflexivity.
  rewrite X in H. rewrite !X. destruct (find_macro ms name (List.length args)); auto.
  destruct (Nat.eqb _ _); auto. apply bind_mono; auto.
  intros [L n1] Hx. apply body_mono; auto.
Qed.

Lemma expand_macros_mono uuid f s : expand_macros uuid f s <> Diverge ->
  forall g, f <= g -> expand_macros uuid g s = expand_macros uuid f s.
Proof.
  intros H g Hg. induction Hg as [|g Hg IH]; auto. rewrite <- IH. rewrite <- IH in H. clear IH.
  assert (M : forall l n, expand_list uuid g (st_macros s) n l <> Diverge ->
    expand_list uuid (S g) (st_macros s) n l = expand_list uuid g (st_macros s) n l).
  { induction l as [|x t IHl]; intros n Hx; [reflexivity|].
    destruct x; cbn [expand_list] in *;
      try (apply bind_mono; [auto|intros [? ?] ?; auto|auto]; fail).
    apply bind_mono; [apply expand_mono| |auto]. intros [? ?] Hy. apply bind_mono; auto. }
  unfold expand_macros in *. apply bind_mono; auto.
Qed.
