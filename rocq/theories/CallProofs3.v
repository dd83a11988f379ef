(** Proofs about macro calls with places: they never crash. *)
From Coq Require Import ZArith List String Ascii Bool Arith Lia.
From Verif Require Import Base Expr Instr Ast Macro Span SpanInclude SpecSpan SpanProofs SpanProofs2 SpanProofs3 SpecIsa SpecMacro MacroProofs MacroProofs2 SpecCalls CallProofs CallProofs2.
Import ListNotations.
Open Scope string_scope.
Open Scope list_scope.
Local Open Scope nat_scope.
Local Arguments make_instr_s : simpl never.

Lemma pbind_panic {A B : Type} (r : placed A) (f : A -> placed B) : pbind r f = PPanic -> r = PPanic \/ exists x, r = POk x /\ f x = PPanic.
Proof. destruct r; cbn; intros H; try discriminate; [right; eauto|now left]. Qed.

Lemma replace_calm inv L A : forall fuel e, replace_expr_s fuel inv L A e <> PPanic.
Proof.
  induction fuel as [|f IHf]; intros e; induction e; cbn [replace_expr_s]; intros H.
  all: repeat match type of H with context [mget ?m ?k] => destruct (mget m k) as [[]|] end.
  all: try discriminate.
  all: try (match type of H with context [mget ?m ?k] => destruct (mget m k) end); try discriminate.
  all: repeat (apply pbind_panic in H as [H|(? & ? & H)]; try contradiction; try discriminate).
  all: now apply IHf in H.
Qed.

Lemma args_calm inv L A fuel : forall args, replace_args_s fuel inv L A args <> PPanic.
Proof.
  induction args as [|a t IH]; cbn [replace_args_s]; intros H; [discriminate|].
  apply pbind_panic in H as [H|(x & _ & H)].
  - destruct a; try discriminate; try (apply pbind_panic in H as [H|(y & _ & H)]; [now apply replace_calm in H|discriminate]).
    match type of H with context [mget A ?n] => destruct (mget A n) end; discriminate.
  - apply pbind_panic in H as [H|(y & _ & H)]; [contradiction|discriminate].
Qed.

Lemma make_calm s name args : make_instr_s s name args <> PPanic.
Proof.
  intros H. assert (M := make_same s name args). rewrite H in M. cbn [unplaced] in M. symmetry in M.
  assert (F := make_instr_made name (map erase_arg args)). rewrite M in F. inversion F.
Qed.

Section Calls.
Variable uuid : nat -> string.
Variable ms : smacros.

Lemma own_in s x body : In (SMMacroLabel s x) body -> In x (own_labels body).
Proof. intros I. apply in_flat_map. exists (SMMacroLabel s x). split; [exact I|now left]. Qed.

Lemma body_calm call fuel inv L A : (forall n inv name args, call n inv name args <> PPanic) ->
  forall body n, (forall s x, In (SMMacroLabel s x) body -> exists l, mget L x = Some l) -> expand_body_s call fuel ms inv L A n body <> PPanic.
Proof.
  intros C. induction body as [|b t IH]; intros n K; cbn [expand_body_s]; intros H; [discriminate|].
  apply pbind_panic in H as [H|([part n1] & _ & H)].
  - destruct b as [s name args|s x|s x].
    + destruct (find_macro_s ms name (List.length args)); apply pbind_panic in H as [H|(ready & _ & H)]; try (now apply args_calm in H); [now apply C in H|].
      apply pbind_panic in H as [H|(i & _ & H)]; [now apply make_calm in H|discriminate].
    + discriminate.
    + destruct (K s x) as (l & E); [now left|]. rewrite E in H. discriminate.
  - apply pbind_panic in H as [H|([rest n3] & _ & H)]; [|discriminate]. revert H. apply IH. intros s x I. apply (K s x). now right.
Qed.

Lemma expand_calm : forall fuel n inv name args, expand_s uuid fuel ms n inv name args <> PPanic.
Proof.
  induction fuel as [|f IHf]; intros n inv name args; cbn [expand_s]; [discriminate|].
  destruct (find_macro_s ms name (List.length args)) as [d|]; [|discriminate].
  destruct (Nat.eqb (List.length args) (List.length (sm_args d))); [|discriminate].
  destruct (labels_cases uuid (sm_body d) n) as [(before & s & x & after & EB & ND & I & G)|(L & ND & HL & G)]; rewrite G; cbn [pbind]; [discriminate|].
  apply body_calm; [exact IHf|]. intros s x I. apply own_in in I. apply In_nth_error in I as (i & I).
  eexists. apply HL. exists i. split; [exact I|reflexivity].
Qed.

Lemma list_calm fuel : forall l n, expand_list_s uuid fuel ms n l <> PPanic.
Proof.
  induction l as [|s t IH]; intros n H; [discriminate|].
  destruct s; cbn [expand_list_s] in H; apply pbind_panic in H as [H|([part n1] & _ & H)]; try discriminate; try (now apply IH in H).
  - now apply expand_calm in H.
  - apply pbind_panic in H as [H|([rest n3] & _ & H)]; [now apply IH in H|discriminate].
Qed.

End Calls.
