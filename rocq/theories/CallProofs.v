(** Proofs about macro calls with places. *)
From Coq Require Import ZArith List String Ascii Bool Arith Lia.
From Verif Require Import Base Expr Instr Ast Macro Span SpanInclude SpecSpan SpanProofs SpanProofs2 SpanProofs3 SpecIsa SpecMacro MacroProofs MacroProofs2 SpecCalls.
From Verif Require WrittenProofs.
Import ListNotations.
Open Scope string_scope.
Open Scope list_scope.
Local Open Scope nat_scope.
Local Arguments make_instr_s : simpl never.

Lemma moved_same : forall e p, with_span e p = moved e p. Proof. intros [] p; reflexivity. Qed.

Lemma pbind_ok {A B} (a : placed A) (f : A -> placed B) b : pbind a f = POk b -> exists x, a = POk x /\ f x = POk b.
Proof. destruct a; cbn; try discriminate. intros H. eauto. Qed.

Lemma pbind_err {A B} (a : placed A) (f : A -> placed B) e at_ : pbind a f = PErr e at_ -> a = PErr e at_ \/ exists x, a = POk x /\ f x = PErr e at_.
Proof. destruct a as [x|e2 at2| |]; cbn; intros H; try discriminate; [right; now exists x|left; now injection H as -> ->]. Qed.

(** * Operands *)

Section Operands.
Variable inv : pspan.
Variable L : smap string.
Variable A : smap sarg.
Variable lab : string -> string -> Prop.
Variable par : string -> sarg -> Prop.
Hypothesis HL : forall x l, mget L x = Some l <-> lab x l.
Hypothesis HA : forall x a, mget A x = Some a <-> par x a.

Lemma no_lab : forall x, mget L x = None -> forall l, ~ lab x l. Proof. intros x H l K. apply HL in K. congruence. Qed.
Lemma no_par : forall x, mget A x = None -> forall a, ~ par x a. Proof. intros x H a K. apply HA in K. congruence. Qed.
Lemma none_lab : forall x, (forall l, ~ lab x l) -> mget L x = None.
Proof. intros x H. destruct (mget L x) as [l|] eqn:E; [|reflexivity]. apply HL in E. now apply H in E. Qed.
Lemma none_par : forall x, (forall a, ~ par x a) -> mget A x = None.
Proof. intros x H. destruct (mget A x) as [a|] eqn:E; [|reflexivity]. apply HA in E. now apply H in E. Qed.

Lemma replace_put : forall f e,
  (forall e2, replace_expr_s f inv L A e = POk e2 -> put inv lab par e e2) /\
  (forall x at_, replace_expr_s f inv L A e = PErr x at_ -> wrong_expr inv lab par e x at_).
Proof.
  induction f as [|f IHf]; (induction e as [s n|s n r|s n|s n|op s x IH|op s l IHl r IHr];
    [split; intros; cbn in *; [injection H as <-; constructor|discriminate]
    |split; intros; cbn in *; [injection H as <-; constructor|discriminate]
    |cbn; destruct (mget L n) as [l|] eqn:E; split; intros; try discriminate;
       [injection H as <-; constructor; now apply HL|injection H as <- <-; constructor; now apply no_lab]
    | |
    |]).
  1, 4: cbn [replace_expr_s]; destruct (mget A n) as [[x|x|s2 m|s2 m]|] eqn:E; try (apply HA in E);
        split; intros; try discriminate; try (injection H as <- <-; econstructor; eauto; now apply no_par).
  - apply pbind_ok in H as (y & H & K). injection K as <-. rewrite moved_same. econstructor; [exact E|]. now apply IHf.
  - apply pbind_err in H as [H|(y & _ & K)]; [|discriminate]. eapply we_inside; [exact E|]. now apply IHf.
  - cbn [replace_expr_s] in *. split; intros.
    + apply pbind_ok in H as (y & H & K). injection K as <-. constructor. now apply IH.
    + apply pbind_err in H as [H|(y & _ & K)]; [|discriminate]. constructor. now apply IH.
  - cbn [replace_expr_s] in *. split; intros.
    + apply pbind_ok in H as (y & H & K). apply pbind_ok in K as (z & K & J). injection J as <-. constructor; [now apply IHl|now apply IHr].
    + apply pbind_err in H as [H|(y & H & K)]; [apply we_left; now apply IHl|]. apply pbind_err in K as [K|(z & _ & J)]; [|discriminate].
      eapply we_right; [apply IHl, H|apply IHr, K].
  - cbn [replace_expr_s] in *. split; intros.
    + apply pbind_ok in H as (y & H & K). injection K as <-. constructor. now apply IH.
    + apply pbind_err in H as [H|(y & _ & K)]; [|discriminate]. constructor. now apply IH.
  - cbn [replace_expr_s] in *. split; intros.
    + apply pbind_ok in H as (y & H & K). apply pbind_ok in K as (z & K & J). injection J as <-. constructor; [now apply IHl|now apply IHr].
    + apply pbind_err in H as [H|(y & H & K)]; [apply we_left; now apply IHl|]. apply pbind_err in K as [K|(z & _ & J)]; [|discriminate].
      eapply we_right; [apply IHl, H|apply IHr, K].
Qed.

(** What a function says for enough fuel. *)
Definition lastly {R : Type} (f : nat -> R) (r : R) : Prop := exists F, forall fuel, F <= fuel -> f fuel = r.

Lemma put_replace : forall e e2, put inv lab par e e2 -> lastly (fun fuel => replace_expr_s fuel inv L A e) (POk e2).
Proof.
  induction 1 as [s n|s n r|s n l K|s n x y K P (F & IH)|op s x y P (F & IH)|op s l r l2 r2 P1 (F1 & IH1) P2 (F2 & IH2)].
  - exists 0. intros [|f] _; reflexivity.
  - exists 0. intros [|f] _; reflexivity.
  - apply HL in K. exists 0. intros [|f] _; cbn; rewrite K; reflexivity.
  - apply HA in K. exists (S F). intros [|f] G; [lia|]. cbn [replace_expr_s]. rewrite K, IH by lia. cbn [pbind]. now rewrite moved_same.
  - exists F. intros f G. specialize (IH f G). destruct f; cbn [replace_expr_s] in *; rewrite IH; reflexivity.
  - exists (F1 + F2). intros f G. specialize (IH1 f ltac:(lia)). specialize (IH2 f ltac:(lia)).
    destruct f; cbn [replace_expr_s] in *; rewrite IH1; cbn [pbind]; rewrite IH2; reflexivity.
Qed.

Lemma wrong_replace : forall e x at_, wrong_expr inv lab par e x at_ -> lastly (fun fuel => replace_expr_s fuel inv L A e) (PErr x at_).
Proof.
  induction 1 as [s n N|s n N|s n x K|s n s2 m K|s n s2 m K|s n x e at_ K W (F & IH)|op s x e at_ W (F & IH)|op s l r e at_ W (F & IH)|op s l r l2 e at_ P W (F & IH)].
  1: apply none_lab in N; exists 0; intros [|f] _; cbn; now rewrite N.
  1: apply none_par in N; exists 0; intros [|f] _; cbn; now rewrite N.
  1, 2, 3: apply HA in K; exists 0; intros [|f] _; cbn; now rewrite K.
  - apply HA in K. exists (S F). intros [|f] G; [lia|]. cbn [replace_expr_s]. rewrite K, IH by lia. reflexivity.
  - exists F. intros f G. specialize (IH f G). destruct f; cbn [replace_expr_s] in *; rewrite IH; reflexivity.
  - exists F. intros f G. specialize (IH f G). destruct f; cbn [replace_expr_s] in *; rewrite IH; reflexivity.
  - apply put_replace in P as (F1 & IH1). exists (F + F1). intros f G. specialize (IH f ltac:(lia)). specialize (IH1 f ltac:(lia)).
    destruct f; cbn [replace_expr_s] in *; rewrite IH1; cbn [pbind]; rewrite IH; reflexivity.
Qed.

Lemma args_put : forall f args,
  (forall ready, replace_args_s f inv L A args = POk ready -> Forall2 (put_arg inv lab par) args ready) /\
  (forall x at_, replace_args_s f inv L A args = PErr x at_ -> wrong_args inv lab par args x at_).
Proof.
  intros f. induction args as [|a t IH]; cbn [replace_args_s].
  - split; intros; [injection H as <-; constructor|discriminate].
  - assert (ONE: (forall a2, (match a with
        | SAMacroArg s n => match mget A n with Some x => POk x | None => PErr InvalidMacroArg [s] end
        | SAImm e => let? e' := replace_expr_s f inv L A e in POk (SAImm e')
        | SAEx e => let? e' := replace_expr_s f inv L A e in POk (SAEx e')
        | SAIM s m => POk (SAIM s m) end) = POk a2 -> put_arg inv lab par a a2) /\
      (forall x at_, (match a with
        | SAMacroArg s n => match mget A n with Some x => POk x | None => PErr InvalidMacroArg [s] end
        | SAImm e => let? e' := replace_expr_s f inv L A e in POk (SAImm e')
        | SAEx e => let? e' := replace_expr_s f inv L A e in POk (SAEx e')
        | SAIM s m => POk (SAIM s m) end) = PErr x at_ -> wrong_arg inv lab par a x at_)).
    { destruct a as [e|e|s m|s n].
      - split; intros.
        + apply pbind_ok in H as (y & H & K). injection K as <-. constructor. now apply (replace_put f).
        + apply pbind_err in H as [H|(y & _ & K)]; [|discriminate]. constructor. now apply (replace_put f).
      - split; intros.
        + apply pbind_ok in H as (y & H & K). injection K as <-. constructor. now apply (replace_put f).
        + apply pbind_err in H as [H|(y & _ & K)]; [|discriminate]. constructor. now apply (replace_put f).
      - split; intros; [injection H as <-; constructor|discriminate].
      - destruct (mget A n) as [x|] eqn:E; split; intros; try discriminate.
        + injection H as <-. constructor. now apply HA.
        + injection H as <- <-. constructor. now apply no_par. }
    destruct ONE as [ONE1 ONE2]. split; intros.
    + apply pbind_ok in H as (a2 & H & K). apply pbind_ok in K as (t2 & K & J). injection J as <-. constructor; [now apply ONE1|now apply IH].
    + apply pbind_err in H as [H|(a2 & H & K)].
      * exists [], a, t, []. split; [reflexivity|]. split; [constructor|]. now apply ONE2.
      * apply pbind_err in K as [K|(t2 & _ & J)]; [|discriminate]. apply IH in K as (before & bad & after & ready & -> & F & W).
        exists (a :: before), bad, after, (a2 :: ready). split; [reflexivity|]. split; [|exact W]. constructor; [now apply ONE1|exact F].
Qed.

Lemma put_arg_replace : forall args ready, Forall2 (put_arg inv lab par) args ready ->
  forall rest r, lastly (fun fuel => replace_args_s fuel inv L A rest) r ->
  lastly (fun fuel => replace_args_s fuel inv L A (args ++ rest)) (let? t := r in POk (ready ++ t)).
Proof.
  induction 1 as [|a b args ready P F IH]; intros rest r K.
  - destruct K as (F & K). exists F. intros f G. cbn [app]. rewrite (K f G). destruct r; reflexivity.
  - destruct (IH rest r K) as (F1 & IH1). cbn [app replace_args_s].
    assert (ONE: lastly (fun f => match a with
        | SAMacroArg s n => match mget A n with Some x => POk x | None => PErr InvalidMacroArg [s] end
        | SAImm e => let? e' := replace_expr_s f inv L A e in POk (SAImm e')
        | SAEx e => let? e' := replace_expr_s f inv L A e in POk (SAEx e')
        | SAIM s m => POk (SAIM s m) end) (POk b)).
    { destruct P as [s n a E|e e2 P|e e2 P|s m].
      - exists 0. intros f _. apply HA in E. now rewrite E.
      - destruct (put_replace _ _ P) as (F2 & H). exists F2. intros f G. now rewrite H.
      - destruct (put_replace _ _ P) as (F2 & H). exists F2. intros f G. now rewrite H.
      - now exists 0. }
    destruct ONE as (F2 & ONE). exists (F1 + F2). intros f G. rewrite ONE by lia. cbn [pbind]. rewrite IH1 by lia. destruct r; reflexivity.
Qed.

Lemma ready_replace : forall args ready, Forall2 (put_arg inv lab par) args ready -> lastly (fun fuel => replace_args_s fuel inv L A args) (POk ready).
Proof.
  intros args ready F. destruct (put_arg_replace args ready F [] (POk [])) as (F1 & H); [now exists 0|]. exists F1. intros f G.
  rewrite <- (app_nil_r args). rewrite H by lia. cbn [pbind]. now rewrite app_nil_r.
Qed.

Lemma wrong_args_replace : forall args x at_, wrong_args inv lab par args x at_ -> lastly (fun fuel => replace_args_s fuel inv L A args) (PErr x at_).
Proof.
  intros args x at_ (before & bad & after & ready & -> & F & W).
  assert (K: lastly (fun fuel => replace_args_s fuel inv L A (bad :: after)) (PErr x at_)).
  { destruct W as [s n N|e x at_ W|e x at_ W].
    - exists 0. intros f _. cbn [replace_args_s]. now rewrite (none_par n N).
    - destruct (wrong_replace _ _ _ W) as (F2 & H). exists F2. intros f G. cbn [replace_args_s]. now rewrite H.
    - destruct (wrong_replace _ _ _ W) as (F2 & H). exists F2. intros f G. cbn [replace_args_s]. now rewrite H. }
  exact (put_arg_replace before ready F (bad :: after) _ K).
Qed.

End Operands.

(** * Instructions *)

Lemma make_cases : forall s name args,
  (forall i, make_instr_s s name args = POk i <-> instruction_of name args i) /\
  (forall e at_, make_instr_s s name args = PErr e at_ <-> no_instruction name args e /\ at_ = [s]).
Proof.
  intros s name args. assert (Q := make_same s name args). assert (W := make_from s name args). assert (O := WrittenProofs.make_order s name args).
  assert (INJ: forall i j : instr sexpr imode, map_instr erase i = map_instr erase j -> operand_exprs i = operand_exprs j -> i = j).
  { intros i j. destruct i, j; cbn; intros E; try discriminate E; intros X; try (injection X as <-); try (injection X as <- <-); try (injection X as <- <- <-); try reflexivity; injection E; intros; subst; reflexivity. }
  split.
  - intros i. split.
    + intros H. split; [now apply O|]. rewrite H in Q. cbn [unplaced] in Q. symmetry in Q. now apply make_instr_iff in Q.
    + intros (E & K). apply make_instr_iff in K. rewrite K in Q. destruct (make_instr_s s name args) as [j|e at_| |] eqn:M; cbn [unplaced] in Q; try discriminate.
      injection Q as Q. f_equal. apply INJ; [exact Q|]. rewrite E. now apply O.
  - intros e at_. split.
    + intros H. rewrite H in Q, W. cbn in Q, W. split; [|exact W]. symmetry in Q.
      destruct (knownb name) eqn:KB.
      * apply knownb_known in KB. assert (NL: ~ listed name (map erase_arg args)). { intros LI. destruct (form_has_instr _ _ LI) as (i & I). congruence. }
        rewrite (make_instr_wrong _ _ KB NL) in Q. injection Q as <-. now constructor.
      * assert (NK: ~ SpecMacro.known name). { intros K. apply knownb_known in K. congruence. }
        rewrite (make_instr_unknown _ _ NK) in Q. injection Q as <-. now constructor.
    + intros (N & ->). assert (E: make_instr name (map erase_arg args) = Err e).
      { destruct N as [N|K N]; [now apply make_instr_unknown|now apply make_instr_wrong]. }
      rewrite E in Q. destruct (make_instr_s s name args) as [j|e2 at_| |] eqn:M; cbn [unplaced] in Q; try discriminate. injection Q as ->. cbn in W. now subst.
Qed.
