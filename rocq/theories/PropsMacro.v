(** C27-C30 and C45: macro expansion and instruction selection. *)
From Coq Require Import ZArith List String Ascii Bool Lia Relations.
From Verif Require Import Base Expr Instr Ast Macro SpecIsa SpecMacro MacroProofs MacroProofs2 MacroProofs3.
Import ListNotations.
Open Scope string_scope.
Open Scope list_scope.
Open Scope Z_scope.

(** * C45: mnemonic and operand shape select the unique instruction form *)

Theorem C45_selection : forall name args i,
  make_instr name args = Ok i <->
  exists f, In f isa /\ f_name f = name /\ key i = (f_name f, f_kinds f) /\ shapes (f_kinds f) args (op_list i).
Proof. exact make_instr_iff. Qed.
Print Assumptions C45_selection.

Theorem C45_accepted_iff_listed : forall name args,
  (exists i, make_instr name args = Ok i) <-> listed name args.
Proof. exact accepted_iff_listed. Qed.
Print Assumptions C45_accepted_iff_listed.

Theorem C45_wrong_args : forall name args, known name -> ~ listed name args ->
  make_instr name args = Err (WrongInstructionArgs name).
Proof. exact make_instr_wrong. Qed.
Print Assumptions C45_wrong_args.

Theorem C45_unknown : forall name args, ~ known name -> make_instr name args = Err UnknownInstruction.
Proof. exact make_instr_unknown. Qed.
Print Assumptions C45_unknown.

Theorem C45_unique_form : forall f g args os ps, In f isa -> In g isa -> f_name f = f_name g ->
  shapes (f_kinds f) args os -> shapes (f_kinds g) args ps -> f = g /\ os = ps.
Proof. exact unique_form. Qed.
Print Assumptions C45_unique_form.

Example C45_case : make_instr "be" [AIM R2; AImm (ENumber 7 Decimal); AEx (EName "loop")]
  = Ok (Be_Rj R2 (ENumber 7 Decimal) (EName "loop")).
Proof. reflexivity. Qed.

Example C45_case_listed : listed "be" [AIM R2; AImm (ENumber 7 Decimal); AEx (EName "loop")].
Proof. apply C45_accepted_iff_listed. eexists. reflexivity. Qed.

Example C45_case_wrong : known "push" /\ ~ listed "push" [AIM R0] /\
  make_instr "push" [AIM R0] = Err (WrongInstructionArgs "push").
Proof.
  split; [|split].
  - apply knownb_known. vm_compute. reflexivity.
  - intros H. apply C45_accepted_iff_listed in H as (i & H). discriminate H.
  - reflexivity.
Qed.

Example C45_case_unknown : ~ known "adc" /\ make_instr "adc" [] = Err UnknownInstruction.
Proof. split; [|reflexivity]. rewrite <- knownb_known. vm_compute. discriminate. Qed.

(** * A program used in the examples

    [[
    %macro wait %n
      mov %n+1, b          ; immediate, written #
    again%:
      dbnz b, again%
    %end
    %macro twice %n
      wait %n
      wait %n*2
    %end
    start:
      twice 5
      nop
    ]] *)

Definition wait_def : macro_def := mkMacro "wait" ["n"]
  [MInstr "mov" [AImm (EPlus (EMacroArg "n") (ENumber 1 Decimal)); AEx (EName "b")];
   MMacroLabel "again%";
   MInstr "dbnz" [AEx (EName "b"); AEx (EMacroLabel "again%")]].

Definition twice_def : macro_def := mkMacro "twice" ["n"]
  [MInstr "wait" [AMacroArg "n"]; MInstr "wait" [AEx (ETimes (EMacroArg "n") (ENumber 2 Decimal))]].

Definition macro_sample : statements :=
  mkStatements [(("wait", 1%nat), wait_def); (("twice", 1%nat), twice_def)]
    [SLabel "start"; SMacroCall "twice" [AEx (ENumber 5 Decimal)]; SInstr Nop].

(** Unique suffixes for the examples: 30 zeros and two letters. *)
Definition sample_uuid (n : nat) : string :=
  match n with
  | 0%nat => "000000000000000000000000000000aa"
  | _ => "000000000000000000000000000000bb"
  end.

Definition macro_sample_out : list statement :=
  [SLabel "start";
   SInstr (Mov_d9 (EPlus (ENumber 5 Decimal) (ENumber 1 Decimal)) (EName "b"));
   SLabel "again_000000000000000000000000000000aa";
   SInstr (Dbnz_d9 (EName "b") (EName "again_000000000000000000000000000000aa"));
   SInstr (Mov_d9 (EPlus (ETimes (ENumber 5 Decimal) (ENumber 2 Decimal)) (ENumber 1 Decimal)) (EName "b"));
   SLabel "again_000000000000000000000000000000bb";
   SInstr (Dbnz_d9 (EName "b") (EName "again_000000000000000000000000000000bb"));
   SInstr Nop].

Example macro_sample_plain : Forall plain_call (st_list macro_sample).
Proof. repeat constructor. Qed.

Example macro_sample_runs :
  expand_macros sample_uuid 5 macro_sample = Ok (mkStatements (st_macros macro_sample) macro_sample_out).
Proof. vm_compute. reflexivity. Qed.

(** * C27: expansion leaves plain statements, and each call becomes the body it stands for *)

Theorem C27_expansion_is_the_meaning : forall uuid s out, Forall plain_call (st_list s) ->
  ((exists fuel, expand_macros uuid fuel s = Ok (mkStatements (st_macros s) out)) <->
   exists n', list_rel uuid (st_macros s) 0 (st_list s) out n').
Proof. exact expand_macros_iff. Qed.
Print Assumptions C27_expansion_is_the_meaning.

Example C27_case : exists n', list_rel sample_uuid (st_macros macro_sample) 0 (st_list macro_sample) macro_sample_out n'.
Proof.
  apply (C27_expansion_is_the_meaning _ _ _ macro_sample_plain). exists 5%nat. exact macro_sample_runs.
Qed.

Theorem C27_result_is_plain : forall uuid fuel s out, Forall plain_call (st_list s) ->
  (forall x, In x (st_list s) -> (forall name args, x <> SMacroCall name args) -> plain_statement x) ->
  expand_macros uuid fuel s = Ok out -> Forall plain_statement (st_list out) /\ st_macros out = st_macros s.
Proof. exact expand_macros_plain. Qed.
Print Assumptions C27_result_is_plain.

Example C27_plain_case : Forall plain_statement macro_sample_out.
Proof.
  apply (C27_result_is_plain sample_uuid 5 macro_sample (mkStatements (st_macros macro_sample) macro_sample_out) macro_sample_plain);
    [|exact macro_sample_runs].
  intros x [<-|[<-|[<-|[]]]] Hx; cbn; auto. exfalso. eapply Hx; eauto.
Qed.

Theorem C27_no_calls_no_change : forall uuid fuel s,
  (forall x, In x (st_list s) -> forall name args, x <> SMacroCall name args) ->
  expand_macros uuid fuel s = Ok s.
Proof. exact expand_macros_no_calls. Qed.
Print Assumptions C27_no_calls_no_change.

Example C27_no_calls_case :
  expand_macros sample_uuid 0 (mkStatements [] [SLabel "a"; SInstr Nop]) = Ok (mkStatements [] [SLabel "a"; SInstr Nop]).
Proof. apply C27_no_calls_no_change. cbn. intros x [<-|[<-|[]]]; discriminate. Qed.

(** Without the condition on the arguments of calls a macro label can remain: a bare parameter is
    replaced by the caller's argument as it stands, even if that is a macro label. *)
Theorem C27_macro_label_remains_refuted : exists uuid fuel s out,
  (forall x, In x (st_list s) -> (forall name args, x <> SMacroCall name args) -> plain_statement x) /\
  expand_macros uuid fuel s = Ok out /\ ~ Forall plain_statement (st_list out).
Proof.
  exists sample_uuid, 3%nat,
    (mkStatements [(("go", 1%nat), mkMacro "go" ["to"] [MInstr "jmp" [AMacroArg "to"]])]
       [SMacroCall "go" [AEx (EMacroLabel "x%")]]),
    (mkStatements [(("go", 1%nat), mkMacro "go" ["to"] [MInstr "jmp" [AMacroArg "to"]])]
       [SInstr (Jmp (EMacroLabel "x%"))]).
  split; [|split].
  - intros x [<-|[]] H. exfalso. eapply H; eauto.
  - vm_compute. reflexivity.
  - intros H. inversion H; subst. cbn in H2. inversion H2; subst. exact H4.
Qed.
Print Assumptions C27_macro_label_remains_refuted.

(** * C28: labels inside macros are hygienic *)

Theorem C28_hygiene : forall uuid fuel ms l out N, Forall plain_call l ->
  expand_list uuid fuel ms 0 l = Ok (out, N) ->
  (forall k, (k < N)%nat -> String.length (uuid k) = 32%nat) ->
  (forall j k, (j < N)%nat -> (k < N)%nat -> lower (uuid j) = lower (uuid k) -> j = k) ->
  (forall x k, (k < N)%nat -> source_label ms l x -> ~ ends_in (lower x) (lower (uuid k))) ->
  forall i j a b, i <> j ->
    nth_error out i = Some (SLabel a) -> nth_error out j = Some (SLabel b) ->
    lower a = lower b -> source_label ms l a /\ source_label ms l b.
Proof. exact expand_macros_hygiene. Qed.
Print Assumptions C28_hygiene.

Example C28_case : let ms := st_macros macro_sample in let l := st_list macro_sample in
  expand_list sample_uuid 5 ms 0 l = Ok (macro_sample_out, 2%nat) /\
  (forall k, (k < 2)%nat -> String.length (sample_uuid k) = 32%nat) /\
  (forall j k, (j < 2)%nat -> (k < 2)%nat -> lower (sample_uuid j) = lower (sample_uuid k) -> j = k) /\
  (forall x k, (k < 2)%nat -> source_label ms l x -> ~ ends_in (lower x) (lower (sample_uuid k))).
Proof.
  cbv zeta. split; [vm_compute; reflexivity|].
  assert (L : forall k, String.length (sample_uuid k) = 32%nat) by (intros [|k]; reflexivity).
  split; [auto|split].
  - intros j k Hj Hk H. destruct j as [|[|j]], k as [|[|k]]; try lia; vm_compute in H; discriminate.
  - intros x k _ [Hx|(nm & a & def & Hd & Hx)] (p & E).
    + cbn in Hx. destruct Hx as [Hx|[Hx|[Hx|[]]]]; try discriminate. inversion Hx; subst x.
      apply (f_equal String.length) in E. rewrite append_len, !lower_length, L in E. cbn in E. lia.
    + cbn [macro_sample st_macros find_macro] in Hd.
      destruct (String.eqb "wait" nm && Nat.eqb 1 a)%bool; [inversion Hd; subst; cbn in Hx; intuition discriminate|].
      destruct (String.eqb "twice" nm && Nat.eqb 1 a)%bool; [inversion Hd; subst; cbn in Hx; intuition discriminate|].
      discriminate.
Qed.

(** * C29: expansion terminates when macros are not recursive *)

Theorem C29_terminates : forall uuid s fuel, acyclic (st_macros s) -> Forall plain_call (st_list s) ->
  (List.length (st_macros s) + 2 <= fuel)%nat ->
  (exists out, expand_macros uuid fuel s = Ok out) \/ (exists e, expand_macros uuid fuel s = Err e).
Proof. exact expand_macros_terminates. Qed.
Print Assumptions C29_terminates.

Example C29_case : acyclic (st_macros macro_sample).
Proof.
  assert (R : forall a b, calls (st_macros macro_sample) a b -> fst a = "twice" /\ fst b = "wait").
  { intros [an ak] [bn bk] (def & args & H1 & H2 & H3 & H4). cbn [fst snd] in *.
    cbn [macro_sample st_macros find_macro] in *.
    destruct (String.eqb "wait" an && Nat.eqb 1 ak)%bool.
    - inversion H1; subst def. cbn in H2. subst bk.
      destruct H2 as [H2|[H2|[H2|[]]]]; inversion H2; subst; cbn in H4; congruence.
    - destruct (String.eqb "twice" an && Nat.eqb 1 ak)%bool eqn:E; [|discriminate].
      apply andb_true_iff in E as [E _]. apply String.eqb_eq in E. subst an.
      inversion H1; subst def. cbn in H2. destruct H2 as [H2|[H2|[]]]; inversion H2; subst; auto. }
  assert (T : forall a b, clos_trans _ (calls (st_macros macro_sample)) a b -> fst a = "twice" /\ fst b = "wait").
  { induction 1 as [x y H|x y z H1 [I1 I2] H2 [I3 I4]]; auto. }
  intros a H. apply T in H as [H1 H2]. congruence.
Qed.

Theorem C29_recursion_never_succeeds : forall uuid ms name args c,
  clos_refl_trans _ (calls ms) (name, List.length args) c -> clos_trans _ (calls ms) c c ->
  forall fuel n r, expand uuid fuel ms n name args <> Ok r.
Proof. exact recursion_never_ok. Qed.
Print Assumptions C29_recursion_never_succeeds.

(** Recursion is not reported either: the simplest recursive macro expands forever. *)
Theorem C29_recursion_detected_refuted : forall name, exists ms, forall uuid fuel n, expand uuid fuel ms n name [] = Diverge.
Proof. exact self_call_diverges. Qed.
Print Assumptions C29_recursion_detected_refuted.

Example C29_recursion_case : let ms := [(("f", 0%nat), mkMacro "f" [] [MInstr "nop" []; MInstr "f" []])] in
  clos_refl_trans _ (calls ms) ("f", 0%nat) ("f", 0%nat) /\ clos_trans _ (calls ms) ("f", 0%nat) ("f", 0%nat).
Proof.
  split; [apply rt_refl|]. apply t_step. eexists _, []. cbn. split; [reflexivity|]. split; [right; left; reflexivity|].
  split; [reflexivity|discriminate].
Qed.

(** * C30: arguments are substituted simultaneously *)

Theorem C30_substitution : forall fuel labels args e e',
  (forall x a, mget args x = Some (AEx a) -> plain a) ->
  (replace_expr (S fuel) labels args e = Ok e' <->
   subst (fun x l => mget labels x = Some l) (fun x a => mget args x = Some a) e e').
Proof. exact replace_iff. Qed.
Print Assumptions C30_substitution.

Example C30_case : replace_expr 1 [("again%", "again_1")] [("n", AEx (EName "m")); ("m", AEx (ENumber 3 Decimal))]
    (EPlus (EMacroArg "n") (EMinus (EMacroArg "m") (EMacroLabel "again%")))
  = Ok (EPlus (EName "m") (EMinus (ENumber 3 Decimal) (EName "again_1"))).
Proof. reflexivity. Qed.

Theorem C30_operands : forall fuel labels args l l',
  (forall x a, mget args x = Some (AEx a) -> plain a) ->
  (replace_args (S fuel) labels args l = Ok l' <->
   Forall2 (subst_arg (fun x l => mget labels x = Some l) (fun x a => mget args x = Some a)) l l').
Proof. exact replace_args_iff. Qed.
Print Assumptions C30_operands.

Example C30_operands_case : replace_args 1 [] [("p", AImm (ENumber 3 Decimal)); ("q", AIM R1)] [AMacroArg "p"; AMacroArg "q"]
  = Ok [AImm (ENumber 3 Decimal); AIM R1].
Proof. reflexivity. Qed.

(** The last of several parameters of one name counts; otherwise parameters are matched by position. *)
Theorem C30_binding : forall params args x a, List.length params = List.length args ->
  (mget (make_argmap [] params args) x = Some a <-> binds params args x a).
Proof. exact argmap_binds. Qed.
Print Assumptions C30_binding.

Example C30_binding_case : binds ["a"; "b"] [AIM R0; AIM R1] "b" (AIM R1).
Proof. apply C30_binding; reflexivity. Qed.

(** Evaluating the substituted body is evaluating the body with the parameters, written as the names
    [P x], bound to the values of the arguments. *)
Theorem C30_value : forall fuel labels args e e' pr en en' P,
  (forall x a, mget args x = Some (AEx a) -> plain a) ->
  replace_expr (S fuel) labels args e = Ok e' ->
  env_kind en' = env_kind en ->
  (forall n, mentions e n \/ (exists x, mget labels x = Some n) -> env_get en' (lower n) = env_get en (lower n)) ->
  (forall x a, mget args x = Some (AEx a) -> exists v, eval pr en a = Ok v /\ env_get en' (lower (P x)) = Some v) ->
  eval pr en e' = eval pr en' (rename (fun x => match mget labels x with Some l => l | None => x end) P e).
Proof. exact replace_value. Qed.
Print Assumptions C30_value.

Example C30_value_case :
  let en := mkEnv "label" (fun x => if String.eqb x "m" then Some 7 else None) in
  let en' := mkEnv "label" (fun x => if String.eqb x "p!" then Some 7 else if String.eqb x "m" then Some 7 else None) in
  (exists v, eval Debug en (EName "m") = Ok v /\ env_get en' (lower "P!") = Some v) /\
  eval Debug en (EPlus (EName "m") (EName "m")) =
  eval Debug en' (rename (fun x => x) (fun _ => "P!") (EPlus (EMacroArg "n") (EName "m"))).
Proof. split; [exists 7; split; reflexivity|reflexivity]. Qed.

(** An argument that mentions a parameter of its own name makes the replacement run forever. *)
Theorem C30_self_reference_refuted : exists labels args e, forall fuel, replace_expr fuel labels args e = Diverge.
Proof. exact self_reference_diverges. Qed.
Print Assumptions C30_self_reference_refuted.

(** A macro label in an argument inside an expression is captured by the label of that name in the
    macro called: the argument is not put in as it is. *)
Theorem C30_label_capture_refuted : exists uuid fuel ms n name x out n',
  expand uuid fuel ms n name [AEx (EMacroLabel x)] = Ok (out, n') /\
  In (SInstr (Jmp (EPlus (EName ("x_" ++ uuid n)) (ENumber 0 Decimal)))) out.
Proof.
  exists sample_uuid, 4%nat,
   [(("go", 1%nat), mkMacro "go" ["to"] [MMacroLabel "x%"; MInstr "jmp" [AEx (EPlus (EMacroArg "to") (ENumber 0 Decimal))]])],
   0%nat, "go", "x%".
  eexists _, _. split; [vm_compute; reflexivity|]. right. left. reflexivity.
Qed.
Print Assumptions C30_label_capture_refuted.

(** The amount of fuel, which the code does not have, only decides whether there is a result. *)
Theorem C29_fuel_irrelevant : forall uuid f s, expand_macros uuid f s <> Diverge ->
  forall g, (f <= g)%nat -> expand_macros uuid g s = expand_macros uuid f s.
Proof. exact expand_macros_mono. Qed.
Print Assumptions C29_fuel_irrelevant.

Example C29_fuel_case : expand_macros sample_uuid 5 macro_sample <> Diverge /\
  expand_macros sample_uuid 500 macro_sample = expand_macros sample_uuid 5 macro_sample.
Proof. split; [vm_compute; discriminate|]. apply C29_fuel_irrelevant; [vm_compute; discriminate|lia]. Qed.
