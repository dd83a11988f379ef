(** Macro calls, what they stand for and what is wrong with them: C68. *)
From Coq Require Import ZArith List String Ascii Bool Arith Lia.
From Verif Require Import Base Expr Instr Ast Macro Lexer Span SpanInclude SpecSpan SpecIsa SpecMacro SpecCalls CallProofs CallProofs2 CallProofs3.
Import ListNotations.
Open Scope string_scope.
Open Scope list_scope.
Local Open Scope nat_scope.

(** ** C68 *)

(** A program whose calls are expanded: each stands for the body of its macro. *)
Theorem C68_expands : forall uuid fuel ms n l out n2, expand_list_s uuid fuel ms n l = POk (out, n2) -> list_at uuid ms n l out n2.
Proof. intros uuid fuel ms n l out n2. apply (list_right uuid ms fuel l n). Qed.
Print Assumptions C68_expands.

(** Any error is the first thing wrong, at its place. *)
Theorem C68_wrong : forall uuid fuel ms n l e at_, expand_list_s uuid fuel ms n l = PErr e at_ -> wrong_list uuid ms n l e at_.
Proof. intros uuid fuel ms n l e at_. apply (list_right uuid ms fuel l n). Qed.
Print Assumptions C68_wrong.

(** With enough fuel, which the program does not need, whatever stands for something is expanded. *)
Theorem C68_expands_all : forall uuid ms n l out n2, list_at uuid ms n l out n2 ->
  exists enough, forall fuel, enough <= fuel -> expand_list_s uuid fuel ms n l = POk (out, n2).
Proof. intros uuid ms n l out n2. apply (list_lastly uuid ms n l out n2). Qed.
Print Assumptions C68_expands_all.

(** Whatever is wrong is reported. *)
Theorem C68_wrong_all : forall uuid ms n l e at_, wrong_list uuid ms n l e at_ ->
  exists enough, forall fuel, enough <= fuel -> expand_list_s uuid fuel ms n l = PErr e at_.
Proof. intros uuid ms n l e at_. apply (wrong_lastly uuid ms n l e at_). Qed.
Print Assumptions C68_wrong_all.

(** There is one answer at most: what a program stands for, the error, and its places are determined. *)
Theorem C68_one_answer : forall uuid ms n l,
  (forall o1 n1 o2 n2, list_at uuid ms n l o1 n1 -> list_at uuid ms n l o2 n2 -> o1 = o2 /\ n1 = n2) /\
  (forall e1 a1 e2 a2, wrong_list uuid ms n l e1 a1 -> wrong_list uuid ms n l e2 a2 -> e1 = e2 /\ a1 = a2) /\
  (forall o n2 e a, list_at uuid ms n l o n2 -> ~ wrong_list uuid ms n l e a).
Proof.
  intros uuid ms n l. repeat split.
  1, 2: destruct (C68_expands_all _ _ _ _ _ _ H) as (F1 & K1); destruct (C68_expands_all _ _ _ _ _ _ H0) as (F2 & K2);
    specialize (K1 (F1 + F2) ltac:(lia)); specialize (K2 (F1 + F2) ltac:(lia)); congruence.
  1, 2: destruct (C68_wrong_all _ _ _ _ _ _ H) as (F1 & K1); destruct (C68_wrong_all _ _ _ _ _ _ H0) as (F2 & K2);
    specialize (K1 (F1 + F2) ltac:(lia)); specialize (K2 (F1 + F2) ltac:(lia)); congruence.
  intros o n2 e a H H0. destruct (C68_expands_all _ _ _ _ _ _ H) as (F1 & K1); destruct (C68_wrong_all _ _ _ _ _ _ H0) as (F2 & K2).
  specialize (K1 (F1 + F2) ltac:(lia)). specialize (K2 (F1 + F2) ltac:(lia)). congruence.
Qed.
Print Assumptions C68_one_answer.

(** And there is an answer unless the expansion goes on for ever: it never crashes otherwise. *)
Theorem C68_endless : forall uuid ms n l,
  (forall fuel, expand_list_s uuid fuel ms n l = PDiverge) <->
  (forall out n2, ~ list_at uuid ms n l out n2) /\ (forall e at_, ~ wrong_list uuid ms n l e at_).
Proof.
  intros uuid ms n l. split.
  - intros D. split.
    + intros out n2 H. destruct (C68_expands_all _ _ _ _ _ _ H) as (F & K). specialize (K F (le_n F)). rewrite D in K. discriminate.
    + intros e at_ H. destruct (C68_wrong_all _ _ _ _ _ _ H) as (F & K). specialize (K F (le_n F)). rewrite D in K. discriminate.
  - intros [N1 N2] fuel. destruct (expand_list_s uuid fuel ms n l) as [[out n2]|e at_| |] eqn:E.
    + apply C68_expands in E. now apply N1 in E.
    + apply C68_wrong in E. now apply N2 in E.
    + now apply list_calm in E.
    + reflexivity.
Qed.
Print Assumptions C68_endless.

(** ** What the specification says *)

(** A call puts its places behind all places of an expression without parameters, and changes nothing else of it. *)
Theorem C68_places_behind : forall inv lab par e e2, put inv lab par e e2 -> (forall x s n, part_of x e -> x <> XMacroArg_ s n) ->
  forall x2, part_of x2 e2 -> exists x, part_of x e /\ span_of x2 = mkP (here (span_of x)) (here inv :: parents inv).
Proof.
  intros inv lab par e e2 P. induction P as [s n|s n r|s n l K|s n x y K P IH|op s x y P IH|op s l r l2 r2 P1 IH1 P2 IH2]; intros N x2 I.
  - inversion I; subst. eexists. split; [constructor|reflexivity].
  - inversion I; subst. eexists. split; [constructor|reflexivity].
  - inversion I; subst. eexists. split; [constructor|reflexivity].
  - exfalso. eapply N; [constructor|reflexivity].
  - inversion I; subst; [eexists; split; [constructor|reflexivity]|]. destruct IH with (x2 := x2) as (z & Z & E); [|assumption|].
    + intros z s2 n Z. apply (N z s2 n). now constructor.
    + exists z. split; [now constructor|exact E].
  - inversion I; subst; [eexists; split; [constructor|reflexivity]| |].
    + destruct IH1 with (x2 := x2) as (z & Z & E); [|assumption|].
      * intros z s2 n Z. apply (N z s2 n). now constructor.
      * exists z. split; [now constructor|exact E].
    + destruct IH2 with (x2 := x2) as (z & Z & E); [|assumption|].
      * intros z s2 n Z. apply (N z s2 n). now constructor.
      * exists z. split; [now apply part_right|exact E].
Qed.
Print Assumptions C68_places_behind.

(** A wrong program has a call, and what is wrong is shown somewhere. *)
Theorem C68_shown : forall uuid ms n l e at_, wrong_list uuid ms n l e at_ -> at_ <> [].
Proof.
  assert (WE: forall inv lab par x e at_, wrong_expr inv lab par x e at_ -> at_ <> []) by (induction 1; assumption || discriminate).
  assert (WA: forall inv lab par a e at_, wrong_arg inv lab par a e at_ -> at_ <> []) by (destruct 1; [discriminate|eauto|eauto]).
  assert (W: forall uuid ms,
    (forall n inv name args e at_, wrong_call uuid ms n inv name args e at_ -> at_ <> []) /\
    (forall inv lab par n b e at_, wrong_body uuid ms inv lab par n b e at_ -> at_ <> [])).
  { intros uuid ms. apply wrong_call_body_ind; intros; try discriminate; try assumption. destruct H as (before & bad & after & ready & _ & _ & H). eauto. }
  intros uuid ms n l e at_ (before & sp & name & args & after & out & n1 & _ & _ & H). now apply (proj1 (W uuid ms)) in H.
Qed.
Print Assumptions C68_shown.

(** * Cases *)

Local Definition pl (a b : nat) : pspan := mkP (mkSpan (mkLoc 0 a 1 a) (mkLoc 0 b 1 b)) [].
Local Definition numbered (n : nat) : string := String (ascii_of_nat (48 + n)) "".

(** [%macro wait %n / %loop: dec %n / bnz %loop / %end] and [%macro twice %n, %m / wait %n / wait %m + 1 / %end]. *)
Local Definition wait : smacro_def := mkSMacro (pl 0 4) "wait" ["%n"]
  [SMMacroLabel (pl 10 16) "%loop"; SMInstr (pl 17 23) "dec" [SAMacroArg (pl 21 23) "%n"];
   SMInstr (pl 30 39) "bnz" [SAEx (XMacroLabel_ (pl 34 39) "%loop")]].
Local Definition twice : smacro_def := mkSMacro (pl 50 55) "twice" ["%n"; "%m"]
  [SMInstr (pl 60 67) "wait" [SAMacroArg (pl 65 67) "%n"];
   SMInstr (pl 70 81) "wait" [SAEx (XBin BPlus (pl 75 81) (XMacroArg_ (pl 75 77) "%m") (XNumber_ (pl 80 81) 1 Decimal))]].
Local Definition known : smacros := [(("wait", 1), wait); (("twice", 2), twice)].

(** Both calls of [wait] get labels of their own. *)
Example C68_expands_case : exists i1 i2 i3 i4,
  expand_list_s numbered 5 known 0 [SSLabel (pl 90 95) "start"; SSMacroCall (pl 100 110) "twice" [SAEx (XName_ (pl 106 107) "a"); SAEx (XName_ (pl 109 110) "b")]] =
  POk ([SSLabel (pl 90 95) "start";
        SSLabel (pl 10 16) "loop_0"; SSInstr (mkP (here (pl 17 23)) [here (pl 60 67); here (pl 100 110)]) i1; SSInstr (mkP (here (pl 30 39)) [here (pl 60 67); here (pl 100 110)]) i2;
        SSLabel (pl 10 16) "loop_1"; SSInstr (mkP (here (pl 17 23)) [here (pl 70 81); here (pl 100 110)]) i3; SSInstr (mkP (here (pl 30 39)) [here (pl 70 81); here (pl 100 110)]) i4], 2) /\
  map (fun i => map erase (operand_exprs i)) [i1; i2; i3; i4] = [[EName "a"]; [EName "loop_0"]; [EPlus (EName "b") (ENumber 1 Decimal)]; [EName "loop_1"]] /\
  map (fun i => map (fun e => (span_of e)) (operand_exprs i)) [i1; i3] = [[pl 106 107]; [mkP (here (pl 75 81)) [here (pl 100 110)]]].
Proof. do 4 eexists. split; [vm_compute; reflexivity|]. split; [vm_compute; reflexivity|]. vm_compute. reflexivity. Qed.

(** Each way for a call to be wrong: no such macro; an instruction in the body that there is not, because of the arguments of the call; an
    argument that is no expression, in a sum; a parameter that the macro has not; a label twice; a label that the macro has not. *)
Local Definition run (ms : smacros) (name : string) (args : list sarg) := expand_list_s numbered 5 ms 0 [SSMacroCall (pl 100 110) name args].
Local Definition one (body : list smacro_statement) : smacros := [(("m", 1), mkSMacro (pl 0 4) "m" ["%x"] body)].

Example C68_wrong_case :
  run known "wait" [] = PErr (NoSuchMacro "wait") [pl 100 110] /\
  run known "twice" [SAImm (XNumber_ (pl 106 107) 1 Decimal); SAEx (XName_ (pl 109 110) "b")] =
    PErr (WrongInstructionArgs "dec") [mkP (here (pl 17 23)) [here (pl 60 67); here (pl 100 110)]] /\
  run known "twice" [SAEx (XName_ (pl 106 107) "a"); SAImm (XNumber_ (pl 109 110) 1 Decimal)] =
    PErr ImmediateValueNotAllowedHere [mkP (here (pl 75 77)) [here (pl 109 110)]] /\
  run (one [SMInstr (pl 10 15) "ld" [SAMacroArg (pl 13 15) "%y"]]) "m" [SAEx (XName_ (pl 106 107) "a")] = PErr InvalidMacroArg [pl 13 15] /\
  run (one [SMMacroLabel (pl 10 12) "%a"; SMLabel (pl 13 14) "b"; SMMacroLabel (pl 20 22) "%a"]) "m" [SAEx (XName_ (pl 106 107) "a")] =
    PErr (DuplicateLabel "%a") [pl 20 22] /\
  run (one [SMInstr (pl 10 15) "br" [SAEx (XMacroLabel_ (pl 13 15) "%q")]]) "m" [SAEx (XName_ (pl 106 107) "a")] = PErr MacroLabelOutsideOfMacro [pl 13 15] /\
  run (one [SMInstr (pl 10 15) "nope" []]) "m" [SAEx (XName_ (pl 106 107) "a")] = PErr UnknownInstruction [mkP (here (pl 10 15)) [here (pl 100 110)]] /\
  run [(("m", 1), mkSMacro (pl 0 4) "m" [] [])] "m" [SAEx (XName_ (pl 106 107) "a")] = PErr (WrongNumberOfMacroArgs 0 1) [pl 100 110; pl 0 4].
Proof. repeat split; vm_compute; reflexivity. Qed.

(** A macro that calls itself goes on for ever: it stands for nothing, and nothing is wrong with it. *)
Example C68_endless_case : forall uuid fuel n,
  expand_list_s uuid fuel [(("m", 0), mkSMacro (pl 0 4) "m" [] [SMInstr (pl 10 11) "m" []])] n [SSMacroCall (pl 100 110) "m" []] = PDiverge.
Proof.
  intros uuid fuel n. cbn [expand_list_s]. set (inv := pl 100 110). clearbody inv. revert inv. induction fuel as [|f IH]; intros inv; [reflexivity|].
  cbn -[expand_s] in *. cbn [expand_s find_macro_s String.eqb Ascii.eqb Bool.eqb Nat.eqb List.length andb sm_args sm_body pbind make_argmap_s gen_labels_s expand_body_s replace_args_s].
  specialize (IH (with_parent (pl 10 11) inv)). destruct (expand_s uuid f _ n (with_parent (pl 10 11) inv) "m" []) as [[]| | |]; cbn in *; congruence.
Qed.

Example C68_places_behind_case : exists e2,
  put (pl 100 110) (fun _ _ => False) (fun _ _ => False) (XBin BPlus (pl 10 15) (XName_ (pl 10 11) "a") (XUn UMinus (pl 14 15) (XNumber_ (pl 15 15) 1 Decimal))) e2.
Proof. eexists. repeat constructor. Qed.
