(** Proofs about macro expansion: substitution, labels, soundness and completeness. *)
From Coq Require Import ZArith List String Ascii Bool Lia Arith.
From Verif Require Import Base Expr Instr Ast Macro SpecIsa SpecMacro MacroProofs.
Import ListNotations.
Open Scope string_scope.
Open Scope list_scope.

(** ** Substitution in expressions *)

Lemma bind_ok {A B} (a : outcome A) (f : A -> outcome B) b :
  bind a f = Ok b <-> exists x, a = Ok x /\ f x = Ok b.
Proof.
  destruct a; cbn; split; intros H; try discriminate; eauto.
  - destruct H as (x & E & F). congruence.
  - destruct H as (x & E & F). congruence.
  - destruct H as (x & E & F). congruence.
  - destruct H as (x & E & F). congruence.
Qed.

Lemma bind_div {A B} (a : outcome A) (f : A -> outcome B) :
  bind a f = Diverge <-> a = Diverge \/ exists x, a = Ok x /\ f x = Diverge.
Proof.
  destruct a; cbn; split; intros H; try discriminate; eauto.
  - destruct H as [H|(x & E & F)]; congruence.
  - destruct H as [H|(x & E & F)]; congruence.
  - destruct H as [H|(x & E & F)]; congruence.
Qed.

Lemma bind_panic {A B} (a : outcome A) (f : A -> outcome B) :
  bind a f = Panic <-> a = Panic \/ exists x, a = Ok x /\ f x = Panic.
Proof.
  destruct a; cbn; split; intros H; try discriminate; eauto.
  - destruct H as [H|(x & E & F)]; congruence.
  - destruct H as [H|(x & E & F)]; congruence.
  - destruct H as [H|(x & E & F)]; congruence.
Qed.

Lemma replace_plain f L A e : plain e -> replace_expr f L A e = Ok e.
Proof.
  destruct f; induction e; intros H; cbn in *; try contradiction; auto;
    repeat match goal with
           | H : _ /\ _ |- _ => destruct H
           | IH : plain ?x -> _, H : plain ?x |- _ => rewrite (IH H); clear IH; cbn
           end; auto.
Qed.

Section Fixed.
Variables (L : smap string) (A : smap arg).
Hypothesis plainA : forall x e, mget A x = Some (AEx e) -> plain e.

Let lab (x l : string) : Prop := mget L x = Some l.
Let par (x : string) (a : arg) : Prop := mget A x = Some a.

Lemma replace_sound f e : forall e', replace_expr f L A e = Ok e' -> subst lab par e e'.
Proof.
  destruct f; induction e; intros e' H; cbn in *;
    repeat match goal with
           | H : bind _ _ = Ok _ |- _ => apply bind_ok in H as (? & ? & H)
           | H : Ok _ = Ok _ |- _ => inversion H; subst; clear H
           end; try (constructor; auto; fail).
  - destruct (mget L name) eqn:E; [|discriminate]. inversion H; subst. constructor; auto.
  - destruct (mget A name) as [[]|] eqn:E; discriminate.
  - destruct (mget L name) eqn:E; [|discriminate]. inversion H; subst. constructor; auto.
  - destruct (mget A name) as [[]|] eqn:E; try discriminate. constructor.
    rewrite replace_plain in H by (eapply plainA; eauto). inversion H; subst. auto.
Qed.

Lemma replace_complete f e e' : subst lab par e e' -> replace_expr (S f) L A e = Ok e'.
Proof.
  induction 1; cbn [replace_expr];
    repeat match goal with
           | H : replace_expr _ _ _ ?x = Ok _ |- _ => cbn [replace_expr] in H
           end; auto;
    repeat match goal with
           | H : ?x = Ok _ |- context [?x] => rewrite H; clear H; cbn [bind]
           end; auto.
  - unfold lab in H. rewrite H. auto.
  - unfold par in H. rewrite H. apply replace_plain. eapply plainA; eauto.
Qed.

Lemma replace_total f e : replace_expr (S f) L A e <> Diverge /\ replace_expr (S f) L A e <> Panic.
Proof.
  induction e; cbn [replace_expr];
    repeat match goal with
           | H : _ /\ _ |- _ => destruct H
           end; split; intros HD; try discriminate;
    try match goal with
        | H : bind _ _ = Diverge |- _ => apply bind_div in H as [H|(? & ? & H)]
        | H : bind _ _ = Panic |- _ => apply bind_panic in H as [H|(? & ? & H)]
        end; try contradiction;
    try match goal with
        | H : bind _ _ = Diverge |- _ => apply bind_div in H as [H|(? & ? & H)]
        | H : bind _ _ = Panic |- _ => apply bind_panic in H as [H|(? & ? & H)]
        end; try contradiction; try discriminate.
  - destruct (mget L name); discriminate.
  - destruct (mget L name); discriminate.
  - destruct (mget A name) as [[]|] eqn:E; try discriminate.
    rewrite replace_plain in HD by (eapply plainA; eauto). discriminate.
  - destruct (mget A name) as [[]|] eqn:E; try discriminate.
    rewrite replace_plain in HD by (eapply plainA; eauto). discriminate.
Qed.

Lemma replace_args_sound f l : forall l', replace_args f L A l = Ok l' -> Forall2 (subst_arg lab par) l l'.
Proof.
  induction l as [|a t IH]; cbn; intros l' H.
  - inversion H; constructor.
  - apply bind_ok in H as (a' & Ha & H). apply bind_ok in H as (t' & Ht & H). inversion H; subst.
    constructor; auto. destruct a.
    + apply bind_ok in Ha as (e' & He & Ha). inversion Ha; subst. constructor. eapply replace_sound; eauto.
    + apply bind_ok in Ha as (e' & He & Ha). inversion Ha; subst. constructor. eapply replace_sound; eauto.
    + inversion Ha; subst. constructor.
    + destruct (mget A name) eqn:E; inversion Ha; subst. constructor. auto.
Qed.

Lemma replace_args_complete f l l' : Forall2 (subst_arg lab par) l l' -> replace_args (S f) L A l = Ok l'.
Proof.
  induction 1 as [|a a' t t' Ha Ht IH]; cbn [replace_args]; auto. rewrite IH.
  destruct Ha.
  - unfold par in H. rewrite H. auto.
  - rewrite (replace_complete _ _ _ H). auto.
  - rewrite (replace_complete _ _ _ H). auto.
  - auto.
Qed.

Lemma replace_args_total f l : replace_args (S f) L A l <> Diverge /\ replace_args (S f) L A l <> Panic.
Proof.
  induction l as [|a t [IH1 IH2]]; cbn [replace_args]; [split; discriminate|].
  assert (T := fun e => replace_total f e).
  split; intros HD.
  - apply bind_div in HD as [HD|(x & Hx & HD)].
    + destruct a.
      * apply bind_div in HD as [HD|(? & ? & HD)]; [apply (T e) in HD; auto|discriminate].
      * apply bind_div in HD as [HD|(? & ? & HD)]; [apply (T e) in HD; auto|discriminate].
      * discriminate.
      * destruct (mget A name); discriminate.
    + apply bind_div in HD as [HD|(? & ? & HD)]; [auto|discriminate].
  - apply bind_panic in HD as [HD|(x & Hx & HD)].
    + destruct a.
      * apply bind_panic in HD as [HD|(? & ? & HD)]; [apply (T e) in HD; auto|discriminate].
      * apply bind_panic in HD as [HD|(? & ? & HD)]; [apply (T e) in HD; auto|discriminate].
      * discriminate.
      * destruct (mget A name); discriminate.
    + apply bind_panic in HD as [HD|(? & ? & HD)]; [auto|discriminate].
Qed.

End Fixed.

Lemma replace_args_length f L A l : forall l', replace_args f L A l = Ok l' -> List.length l' = List.length l.
Proof.
  induction l as [|a t IH]; cbn; intros l' H.
  - inversion H; auto.
  - apply bind_ok in H as (a' & Ha & H). apply bind_ok in H as (t' & Ht & H). inversion H; subst. cbn. auto.
Qed.

(** Substitution only depends on the bindings up to equivalence. *)
Lemma subst_ext (lab lab' : string -> string -> Prop) (par par' : string -> arg -> Prop) e e' :
  (forall x l, lab x l -> lab' x l) -> (forall x a, par x a -> par' x a) ->
  subst lab par e e' -> subst lab' par' e e'.
Proof. intros HL HP. induction 1; constructor; auto. Qed.

Lemma subst_args_ext (lab lab' : string -> string -> Prop) (par par' : string -> arg -> Prop) l l' :
  (forall x l, lab x l -> lab' x l) -> (forall x a, par x a -> par' x a) ->
  Forall2 (subst_arg lab par) l l' -> Forall2 (subst_arg lab' par') l l'.
Proof.
  intros HL HP. induction 1 as [|a a' t t' Ha Ht IH]; constructor; auto.
  destruct Ha; constructor; auto; eapply subst_ext; eauto.
Qed.

Lemma subst_plain (lab : string -> string -> Prop) (par : string -> arg -> Prop) e e' : (forall x e, par x (AEx e) -> plain e) -> subst lab par e e' -> plain e'.
Proof. intros HP. induction 1; cbn; auto. eauto. Qed.

Lemma subst_args_plain (lab : string -> string -> Prop) (par : string -> arg -> Prop) l l' : (forall x a, par x a -> plain_arg a) ->
  Forall2 (subst_arg lab par) l l' -> Forall plain_arg l'.
Proof.
  intros HP. induction 1 as [|a a' t t' Ha Ht IH]; constructor; auto.
  assert (HE : forall x e, par x (AEx e) -> plain e) by (intros x e Hx; apply HP in Hx; auto).
  destruct Ha; cbn; auto; eauto using subst_plain.
Qed.

(** ** The maps *)

Lemma mget_insert {A} (m : smap A) k v x : mget (minsert m k v) x = if String.eqb x k then Some v else mget m x.
Proof. reflexivity. Qed.

Lemma argmap_spec params : forall m args x a, List.length params = List.length args ->
  mget (make_argmap m params args) x = Some a <->
  binds params args x a \/ (~ In x params /\ mget m x = Some a).
Proof.
  induction params as [|p ps IH]; intros m [|a0 rest] x a HL; try discriminate HL.
  - cbn. split; [intros H; right; split; auto | intros [(i & H & _)|[_ H]]; auto].
    destruct i; discriminate.
  - cbn [make_argmap]. rewrite IH by (cbn in HL; lia). rewrite mget_insert. split.
    + intros [(i & H1 & H2 & H3)|[H1 H2]].
      * left. exists (S i). repeat split; auto. intros [|j] Hj; [lia|]. apply H3. lia.
      * destruct (String.eqb x p) eqn:E.
        -- apply String.eqb_eq in E. subst. inversion H2; subst. left. exists 0%nat. repeat split; auto.
           intros [|j] Hj; [lia|]. cbn. intros Hn. apply nth_error_In in Hn. contradiction.
        -- apply String.eqb_neq in E. right. split; auto. intros [Hx|Hx]; [congruence|contradiction].
    + intros [(i & H1 & H2 & H3)|[H1 H2]].
      * destruct i as [|i].
        -- cbn in H1, H2. inversion H1; inversion H2; subst. right. rewrite String.eqb_refl. split; auto.
           intros Hx. apply In_nth_error in Hx as (j & Hj). apply (H3 (S j)); [lia|auto].
        -- left. exists i. repeat split; auto. intros j Hj. apply (H3 (S j)). lia.
      * right. split; [intros Hx; apply H1; right; auto|].
        destruct (String.eqb x p) eqn:E; auto. apply String.eqb_eq in E. subst. contradiction H1. left; auto.
Qed.

Lemma binds_in params args x a : binds params args x a -> In a args.
Proof. intros (i & _ & H & _). eapply nth_error_In; eauto. Qed.

Lemma strip_no_percent s : strip_percent s = no_percent s.
Proof.
  unfold no_percent. induction s; cbn; auto. destruct (Ascii.eqb a "%"); cbn; rewrite IHs; auto.
Qed.

Section Labels.
Variable uuid : nat -> string.

Lemma gen_labels_spec body : forall m n L n',
  (forall x, mcontains m x = true <-> mget m x <> None) ->
  gen_labels uuid m n body = Ok (L, n') <->
  (NoDup (macro_labels body) /\ (forall x, In x (macro_labels body) -> mget m x = None) /\
   n' = (n + List.length (macro_labels body))%nat /\
   gen_labels uuid m n body = Ok (L, n')).
Proof.
  induction body as [|s t IH]; intros m n L n' HM.
  - cbn. split; [|tauto]. intros H. inversion H; subst. split; [constructor|]. split; [contradiction|]. split; [lia|auto].
  - destruct s as [nm a|nm|nm]; cbn [gen_labels]; unfold macro_labels; cbn [flat_map app]; fold (macro_labels t);
      try (apply IH; auto).
    destruct (mcontains m nm) eqn:E.
    + split; [discriminate|]. intros (_ & _ & _ & H). discriminate H.
    + assert (HM' : forall x, mcontains (minsert m nm (strip_percent nm ++ "_" ++ uuid n)%string) x = true <->
        mget (minsert m nm (strip_percent nm ++ "_" ++ uuid n)%string) x <> None).
      { intros x. unfold mcontains. destruct (mget _ x); split; congruence. }
      split; [|tauto]. intros H. pose proof H as H0. apply IH in H; auto. destruct H as (H1 & H2 & H3 & _).
      assert (Hn : mget m nm = None).
      { destruct (mget m nm) eqn:E2; auto. assert (mcontains m nm = true) by (apply HM; congruence). congruence. }
      assert (Hi : ~ In nm (macro_labels t)).
      { intros Hi. apply H2 in Hi. rewrite mget_insert, String.eqb_refl in Hi. discriminate. }
      split; [constructor; auto|]. split.
      * intros x [<-|Hx]; auto. pose proof (H2 x Hx) as H4. rewrite mget_insert in H4.
        destruct (String.eqb x nm); [discriminate|auto].
      * split; auto. cbn [List.length]. lia.
Qed.

Lemma gen_labels_get body : forall m n L n' x l, gen_labels uuid m n body = Ok (L, n') ->
  NoDup (macro_labels body) ->
  (mget L x = Some l <-> label_name uuid n body x l \/ (~ In x (macro_labels body) /\ mget m x = Some l)).
Proof.
  induction body as [|s t IH]; intros m n L n' x l H HN.
  - cbn in H. inversion H; subst. cbn. split; [auto|]. intros [(i & Hi & _)|[_ Hx]]; auto. destruct i; discriminate.
  - destruct s as [nm a|nm|nm]; cbn [gen_labels] in H; unfold label_name, macro_labels in *; cbn [flat_map app] in *;
      fold (macro_labels t) in *; try (eapply IH; eauto; fail).
    destruct (mcontains m nm) eqn:E; [discriminate|].
    inversion HN; subst. rewrite (IH _ _ _ _ x l H H3). rewrite mget_insert. split.
    + intros [(i & H1 & H4)|[H1 H4]].
      * left. exists (S i). split; auto. rewrite H4. rewrite ?Nat.add_succ_r. auto.
      * destruct (String.eqb x nm) eqn:E2.
        -- apply String.eqb_eq in E2. subst x. left. exists 0%nat. split; auto. inversion H4.
           rewrite strip_no_percent, Nat.add_0_r. auto.
        -- apply String.eqb_neq in E2. right. split; auto. intros [Hx|Hx]; [congruence|contradiction].
    + intros [(i & H1 & H4)|[H1 H4]].
      * destruct i as [|i].
        -- cbn in H1. inversion H1; subst. right. rewrite String.eqb_refl. split; auto.
           rewrite strip_no_percent, Nat.add_0_r. auto.
        -- left. exists i. split; auto. rewrite H4. rewrite ?Nat.add_succ_r. auto.
      * right. split; [intros Hx; apply H1; right; auto|].
        destruct (String.eqb x nm) eqn:E2; auto. apply String.eqb_eq in E2. subst. contradiction H1. left; auto.
Qed.

Lemma gen_labels_ok body : forall m n, NoDup (macro_labels body) ->
  (forall x, In x (macro_labels body) -> mget m x = None) -> exists r, gen_labels uuid m n body = Ok r.
Proof.
  induction body as [|s t IH]; intros m n HN HM; cbn; eauto.
  destruct s as [nm a|nm|nm]; eauto.
  unfold macro_labels in *; cbn [flat_map app] in *; fold (macro_labels t) in *.
  unfold mcontains. rewrite (HM nm) by (left; auto). inversion HN; subst. apply IH; auto.
  intros x Hx. rewrite mget_insert. destruct (String.eqb x nm) eqn:E; [|apply HM; right; auto].
  apply String.eqb_eq in E. subst. contradiction.
Qed.

Lemma gen_labels_total body : forall m n, gen_labels uuid m n body <> Diverge /\ gen_labels uuid m n body <> Panic.
Proof.
  induction body as [|s t IH]; intros m n; cbn; [split; discriminate|].
  destruct s; auto. destruct (mcontains m name); [split; discriminate|apply IH].
Qed.

(** The labels map of a call, in terms of the specification. *)
Lemma gen_labels_iff n body L n' : gen_labels uuid [] n body = Ok (L, n') ->
  NoDup (macro_labels body) /\ n' = (n + List.length (macro_labels body))%nat /\
  forall x l, mget L x = Some l <-> label_name uuid n body x l.
Proof.
  intros H. pose proof H as H0. apply gen_labels_spec in H.
  - destruct H as (H1 & _ & H2 & _). split; auto. split; auto. intros x l.
    rewrite (gen_labels_get _ _ _ _ _ x l H0 H1). split; [|auto]. intros [?|[_ Hx]]; [auto|discriminate].
  - intros x. unfold mcontains. destruct (mget [] x); split; congruence.
Qed.
End Labels.
