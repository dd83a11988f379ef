(** Proofs about instruction selection. *)
From Coq Require Import ZArith List String Ascii Bool Lia.
From Verif Require Import Base Expr Instr Ast Macro SpecIsa SpecMacro AsmProofs2.
Import ListNotations.
Open Scope string_scope.
Open Scope list_scope.

Definition kcls (k : kind) : nat := match k with I8 => 0 | Ri => 1 | _ => 2 end.
Definition acls (a : arg) : nat := match a with AImm _ => 0 | AIM _ => 1 | AEx _ => 2 | AMacroArg _ => 3 end.

Fixpoint nl_eqb (a b : list nat) : bool :=
  match a, b with
  | [], [] => true
  | x :: s, y :: t => Nat.eqb x y && nl_eqb s t
  | _, _ => false
  end.

Lemma nl_eqb_eq a : forall b, nl_eqb a b = true <-> a = b.
Proof.
  induction a; intros [|y b]; cbn; split; intros H; try discriminate; auto.
  - apply andb_true_iff in H as [H1 H2]. apply Nat.eqb_eq in H1. apply IHa in H2. congruence.
  - inversion H; subst. rewrite Nat.eqb_refl. apply IHa. auto.
Qed.

Definition listedb (name : string) (c : list nat) : bool :=
  existsb (fun f => String.eqb (f_name f) name && nl_eqb (map kcls (f_kinds f)) c) isa.

Definition knownb (name : string) : bool := existsb (fun f => String.eqb (f_name f) name) isa.

Lemma shapes_cls ks args os : shapes ks args os -> map kcls ks = map acls args.
Proof.
  induction 1; cbn; auto. rewrite IHshapes. f_equal.
  destruct k, a; cbn in *; try contradiction; auto.
Qed.

Lemma listed_listedb name args : listed name args -> listedb name (map acls args) = true.
Proof.
  intros (f & os & H1 & H2 & H3). apply existsb_exists. exists f. split; auto.
  rewrite H2, String.eqb_refl. cbn. apply nl_eqb_eq. eapply shapes_cls; eauto.
Qed.

Lemma knownb_known name : knownb name = true <-> known name.
Proof.
  unfold knownb, known. rewrite existsb_exists. split; intros (f & A & B); exists f; split; auto.
  - apply String.eqb_eq; auto.
  - apply String.eqb_eq; auto.
Qed.

Lemma isa_short : forallb (fun f => Nat.leb (List.length (f_kinds f)) 3) isa = true.
Proof. vm_compute. reflexivity. Qed.

Lemma listed_short name args : listed name args -> (List.length args <= 3)%nat.
Proof.
  intros (f & os & H1 & H2 & H3). apply shapes_cls in H3. apply (f_equal (@List.length nat)) in H3.
  rewrite !map_length in H3. rewrite <- H3.
  pose proof isa_short as HS. rewrite forallb_forall in HS. apply Nat.leb_le, HS, H1.
Qed.

Lemma key_listed {E J} (i : instr E J) : exists f, In f isa /\ key i = (f_name f, f_kinds f).
Proof.
  assert (H : existsb (fun f => String.eqb (f_name f) (fst (key i)) &&
    (if list_eq_dec (SpecAsm.kind_eq_dec) (f_kinds f) (snd (key i)) then true else false)) isa = true)
    by (destruct i; vm_compute; reflexivity).
  apply existsb_exists in H as (f & H1 & H2). exists f. split; auto.
  apply andb_true_iff in H2 as [H2 H3]. apply String.eqb_eq in H2.
  destruct (list_eq_dec _ _ _) as [E0|]; [|discriminate].
  rewrite H2, E0. destruct (key i); auto.
Qed.

Definition forms_of (name : string) : list (list nat) :=
  map (fun f => map kcls (f_kinds f)) (filter (fun f => String.eqb (f_name f) name) isa).

Lemma listed_forms name args : listed name args -> In (map acls args) (forms_of name).
Proof.
  intros (f & os & H1 & H2 & H3). unfold forms_of. apply in_map_iff. exists f. split.
  - eapply shapes_cls; eauto.
  - apply filter_In. split; auto. apply String.eqb_eq; auto.
Qed.

Definition made (name : string) (args : list arg) (r : outcome (instr expr imode)) : Prop :=
  match r with
  | Ok i => fst (key i) = name /\ shapes (snd (key i)) args (op_list i)
  | Err (WrongInstructionArgs n) => n = name /\ knownb name = true /\ ~ listed name args
  | Err UnknownInstruction => knownb name = false
  | _ => False
  end.

Ltac leaf :=
  match goal with
  | |- made _ _ (Ok _) => cbn; split; [reflexivity|]; repeat (apply shapes_cons || apply shapes_nil); cbn; reflexivity
  | K : ?k = true, F : forms_of _ = _ |- made _ _ (Err _) =>
      cbn [made]; split; [reflexivity|]; split; [exact K|];
      let H := fresh in intros H; apply listed_forms in H; rewrite F in H; cbn [map acls In] in H;
      repeat (destruct H as [H|H]; [discriminate H|]); contradiction
  end.

Ltac branches :=
  match goal with
  | |- made _ _ (match ?x with _ => _ end) => is_var x; destruct x; branches
  | |- _ => leaf
  end.

Lemma known_names name : knownb name = true ->
  In name ["add"; "addc"; "sub"; "subc"; "inc"; "dec"; "mul"; "div"; "and"; "or"; "xor"; "rol"; "rolc"; "ror"; "rorc";
           "ld"; "st"; "mov"; "ldc"; "push"; "pop"; "xch"; "jmp"; "jmpf"; "br"; "brf"; "bz"; "bnz"; "bp"; "bpc"; "bn";
           "dbnz"; "be"; "bne"; "call"; "callf"; "callr"; "ret"; "reti"; "clr1"; "set1"; "not1"; "nop"; "ldf"; "stf"].
Proof.
  intros H. apply existsb_exists in H as (f & H1 & H2). apply String.eqb_eq in H2. subst name.
  cbn [isa In] in H1.
  repeat (destruct H1 as [<-|H1]; [cbn; tauto|]). contradiction.
Qed.

Ltac named :=
  match goal with
  | |- made ?name ?args (if String.eqb ?name ?s then _ else _) =>
      let E := fresh "E" in
      destruct (String.eqb name s) eqn:E;
      [ apply String.eqb_eq in E; subst name; clear;
        let F := fresh "F" in let K := fresh "K" in
        let v := eval vm_compute in (forms_of s) in
        assert (F : forms_of s = v) by (vm_compute; reflexivity);
        assert (K : knownb s = true) by (vm_compute; reflexivity);
        branches
      | apply String.eqb_neq in E ]
  end.

Lemma make_instr_made name args : made name args (make_instr name args).
Proof.
  unfold make_instr.
  repeat named.
  cbn [made]. destruct (knownb name) eqn:K; auto.
  apply known_names in K. cbn [In] in K.
  repeat (destruct K as [K|K]; [congruence|]). contradiction.
Qed.

(** Selection is correct and complete, and the selected form is unique. *)
Lemma make_instr_iff name args i : make_instr name args = Ok i <->
  exists f, In f isa /\ f_name f = name /\ key i = (f_name f, f_kinds f) /\ shapes (f_kinds f) args (op_list i).
Proof.
  pose proof (make_instr_made name args) as M. split.
  - intros E. rewrite E in M. destruct M as [M1 M2].
    destruct (key_listed i) as (f & F1 & F2). exists f. rewrite F2 in M1, M2. cbn in M1, M2. auto.
  - intros (f & F1 & F2 & F3 & F4).
    destruct (make_instr name args) as [j|e| |]; cbn [made] in M.
    + destruct M as [M1 M2]. f_equal.
      assert (K : key j = key i).
      { rewrite F3. rewrite (surjective_pairing (key j)), M1. f_equal; auto.
        destruct (key_listed j) as (g & G1 & G2). rewrite G2 in M1, M2 |- *. cbn in M1, M2 |- *.
        apply shapes_cls in M2. apply shapes_cls in F4.
        assert (C : forallb (fun f => forallb (fun g => negb (String.eqb (f_name f) (f_name g) &&
            nl_eqb (map kcls (f_kinds f)) (map kcls (f_kinds g))) ||
            (if list_eq_dec SpecAsm.kind_eq_dec (f_kinds f) (f_kinds g) then true else false)) isa) isa = true)
          by (vm_compute; reflexivity).
        rewrite forallb_forall in C. specialize (C f F1). rewrite forallb_forall in C. specialize (C g G1).
        rewrite F2, M1, String.eqb_refl in C. cbn [andb] in C.
        replace (nl_eqb (map kcls (f_kinds f)) (map kcls (f_kinds g))) with true in C
          by (symmetry; apply nl_eqb_eq; congruence).
        cbn in C. destruct (list_eq_dec _ _ _); [congruence|discriminate]. }
      assert (O : op_list j = op_list i).
      { rewrite K in M2. rewrite F3 in M2. cbn in M2. clear -M2 F4. remember (f_kinds f) as ks. clear Heqks.
        generalize dependent args. generalize (op_list i) as a, (op_list j) as b. clear.
        induction ks; intros a0 b args H1 H2; inversion H1; subst; inversion H2; subst; auto.
        f_equal; [|eapply IHks; eauto].
        destruct a, a1; cbn in *; try contradiction; congruence. }
      clear -K O. destruct i; destruct j; cbn in K; try discriminate K; cbn in O; inversion O; reflexivity.
    + destruct e; try contradiction.
      * assert (KN : known name) by (exists f; auto). apply knownb_known in KN. congruence.
      * destruct M as (_ & _ & M). contradiction M. exists f, (op_list i). auto.
    + contradiction.
    + contradiction.
Qed.

Lemma make_instr_wrong name args : known name -> ~ listed name args ->
  make_instr name args = Err (WrongInstructionArgs name).
Proof.
  intros K L. pose proof (make_instr_made name args) as M.
  destruct (make_instr name args) as [j|e| |] eqn:E; cbn [made] in M; try contradiction.
  - apply make_instr_iff in E as (f & F1 & F2 & F3 & F4). contradiction L. exists f, (op_list j); auto.
  - destruct e; try contradiction.
    + apply knownb_known in K. congruence.
    + destruct M as (-> & _). auto.
Qed.

Lemma make_instr_unknown name args : ~ known name -> make_instr name args = Err UnknownInstruction.
Proof.
  intros K. pose proof (make_instr_made name args) as M.
  destruct (make_instr name args) as [j|e| |] eqn:E; cbn [made] in M; try contradiction.
  - apply make_instr_iff in E as (f & F1 & F2 & F3 & F4). contradiction K. exists f; auto.
  - destruct e; try contradiction; auto. destruct M as (_ & M & _). apply knownb_known in M. contradiction.
Qed.

(** Every documented form with operands of its shapes is the form of some instruction. *)
Lemma form_has_instr name args : listed name args -> exists i, make_instr name args = Ok i.
Proof.
  intros L. pose proof (make_instr_made name args) as M.
  destruct (make_instr name args) as [j|e| |] eqn:E; cbn [made] in M; try contradiction; eauto.
  destruct e; try contradiction.
  - destruct L as (f & os & F1 & F2 & _). assert (known name) by (exists f; auto). apply knownb_known in H. congruence.
  - destruct M as (_ & _ & M). contradiction.
Qed.
