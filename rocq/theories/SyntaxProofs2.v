(** The parsers of operands, lists and directives stop at the first token that cannot be right. *)
From Coq Require Import ZArith List String Ascii Bool Arith Lia.
From Verif Require Import Base Expr Instr Ast Macro Lexer Parser SpecParse ParseProofs Span SpanParser SpecSpan SpanProofs SpanProofs2.
From Verif Require Import SpecIsa SpecMacro SpecLine LineProofs SpecSyntax SyntaxProofs.
Import ListNotations.
Open Scope string_scope.
Open Scope list_scope.
Local Open Scope nat_scope.

Local Arguments parse_expr_s : simpl never.

(** * Expressions *)

Definition exprL : language := fun ts => exists e, expression_of ts e.

Lemma operator_extends : forall l ts e, expression l ts e -> forall op lo mk n, In (op, lo, mk) operators ->
  exists l2 e2, (prec_of l2 = Z.min (prec_of l) (prec_of lo))%Z /\ expression l2 (ts ++ [op; TName n]) e2.
Proof.
  intros l ts e X op lo mk n O.
  assert (U: forall l1 ts1 e1, expression l1 ts1 e1 -> (prec_of lo <= prec_of l1)%Z ->
    exists l2 e2, (prec_of l2 = Z.min (prec_of l1) (prec_of lo))%Z /\ expression l2 (ts1 ++ [op; TName n]) e2).
  { intros l1 ts1 e1 Y L. exists lo, (mk e1 (EName n)). split; [lia|]. apply (g_binary op lo mk ts1 e1 [TName n] (EName n) O).
    - now apply (weaken l1).
    - apply (weaken Unaries); [clear; destruct lo; cbn; lia|]. apply g_name. }
  assert (W: (prec_of lo < prec_of Unaries)%Z).
  { cbn in O. repeat destruct O as [O|O]; try (injection O as <- <- <-; cbn; lia); destruct O. }
  induction X.
  - destruct (Z_le_gt_dec (prec_of lo) (prec_of l)) as [L|L]; [eapply (U l); [now apply (g_binary op0 l mk0); eauto|exact L]|].
    destruct IHX2 as (l2 & e3 & P & Y). exists l. exists (mk0 e1 e3). split; [lia|]. rewrite <- app_assoc. cbn.
    apply (g_binary op0 l mk0); auto. apply (weaken l2); auto. rewrite P. clear -L W. destruct l, lo; cbn in *; lia.
  - destruct (Z_le_gt_dec (prec_of lo) (prec_of l)) as [L|L]; [eapply (U l); [apply g_tighter; eauto|exact L]|].
    destruct IHX as (l2 & e2 & P & Y). exists l, e2. split; [lia|]. apply (weaken l2); auto. rewrite P. clear -L W. destruct l, lo; cbn in *; lia.
  - eapply (U Unaries); [|lia]. eapply g_unary; eauto.
  - eapply (U Unaries); [|lia]. eapply g_paren; eauto.
  - eapply (U Unaries); [|lia]. apply g_name.
  - eapply (U Unaries); [|lia]. apply g_number.
  - eapply (U Unaries); [|lia]. apply g_macro_label.
  - eapply (U Unaries); [|lia]. apply g_macro_arg.
Qed.

Lemma continues_extends : forall ts e op l mk, expression_of ts e -> In (op, l, mk) operators -> completable exprL (ts ++ [op]).
Proof.
  intros ts e op l mk X O. destruct (operator_extends _ _ _ X op l mk "x" O) as (l2 & e2 & P & Y).
  exists [TName "x"]. exists e2. rewrite <- app_assoc. cbn. apply (weaken l2); auto. rewrite P. destruct l; cbn; lia.
Qed.

Lemma continues_dec : forall ts, continues ts \/ ~ continues ts.
Proof.
  intros [|t r]; [right; intros (? & ? & ? & ? & E & _); discriminate|].
  destruct (Z_lt_le_dec 0 (precedence (t :: r))) as [L|L].
  - left. destruct (prec_operator _ _ L) as (l & mk & O). exists t, l, mk, r. auto.
  - right. intros (op & l & mk & q & E & O). injection E as <- <-. rewrite (operator_prec _ _ _ r O) in L. destruct l; cbn in L; lia.
Qed.

Lemma expr_next : forall ts y, exprL ts -> completable exprL (ts ++ [y]) -> exists l mk, In (y, l, mk) operators.
Proof.
  intros ts y (e & X) (m & e2 & Y). rewrite <- app_assoc in Y. cbn in Y.
  destruct (continues_dec (y :: m)) as [(op & l & mk & q & E & O)|N]; [injection E as <- _; eauto|].
  assert (A: parse_expr (ts ++ y :: m) = Ok (e, y :: m)) by (apply parse_expr_iff; exists ts; auto).
  assert (B: parse_expr (ts ++ y :: m) = Ok (e2, [])).
  { apply parse_expr_iff. exists (ts ++ y :: m). rewrite app_nil_r. split; auto. split; auto. intros (? & ? & ? & ? & E & _). discriminate. }
  rewrite A in B. discriminate.
Qed.

Lemma expr_apart : forall f, (forall t l mk, In (t, l, mk) operators -> f t = false) -> forall H, starting H f -> apart exprL H.
Proof.
  intros f F H S u y X C (m & Y). destruct (expr_next u y X C) as (l & mk & O). destruct (S _ Y) as (t & r & E & T).
  injection E as <- _. rewrite (F _ _ _ O) in T. discriminate.
Qed.

Lemma reads_expr : reads parse_expr_s exprL.
Proof.
  intros ts. destruct (parse_expr_s ts) as [[e r]|e at_| |] eqn:P; auto.
  - destruct (parse_marked _ _ _ P) as (front & -> & M). exists front. split; auto.
    assert (X: exprL (types front)) by (exists (erase e); now apply marked_expression).
    split; [exact X|]. intros t q -> C. destruct (expr_next _ _ X C) as (l & mk & O).
    assert (Q := same_parse (front ++ t :: q)). rewrite P in Q. cbn [unplaced er fst snd] in Q. symmetry in Q.
    apply parse_expr_iff in Q as (f2 & E & _ & N). apply N. exists (t_type t), l, mk, (types q). split; auto.
  - assert (NOT: forall front rest, types ts = front ++ rest -> exprL front -> ~ continues rest -> False).
    { intros front rest E (x & X) N. assert (Q := same_parse ts). rewrite P in Q. cbn [unplaced] in Q. symmetry in Q.
      assert (A: parse_expr (types ts) = Ok (x, rest)) by (apply parse_expr_iff; exists front; auto). congruence. }
    destruct (parse_error _ _ _ P) as [(-> & -> & V)|(front & t & rest & -> & B & V & N)].
    + left. split; auto. split; auto. split; [destruct V as (m & x & V); exists m; now exists x|].
      intros X. apply (NOT (types ts) []); auto; [now rewrite app_nil_r|]. intros (? & ? & ? & ? & E & _). discriminate.
    + right. exists front, t, rest. split; auto. split; [destruct V as (m & x & V); exists m; now exists x|]. rewrite tapp in N. cbn in N. split; [|split].
      * intros (m & x & Y). apply N. now exists m, x.
      * destruct B as [[B ->]|[B ->]]; (split; [|auto]); subst; constructor.
      * intros _ (x & X). destruct (continues_dec (types (t :: rest))) as [(op & l & mk & q & E & O)|C].
        -- injection E as <- _. apply N. destruct (continues_extends _ _ _ _ _ X O) as (m & x2 & Y). now exists m, x2.
        -- apply (NOT (types front) (types (t :: rest))); auto; [now rewrite tapp|]. now exists x.
Qed.

Lemma exprL_nonempty : ~ exprL [].
Proof. intros (e & X). destruct (expression_head _ _ _ X) as (t & r & E & _). discriminate. Qed.
Lemma exprL_some : exprL [TName "x"].
Proof. exists (EName "x"). apply (weaken Unaries); [cbn; lia|]. apply g_name. Qed.
Lemma exprL_head : starting exprL expr_head.
Proof. intros ts (e & X). apply (expression_head _ _ _ X). Qed.

(** * Lists *)

Definition comma : token_type -> bool := fun t => match t with TComma => true | _ => false end.

Section Items.
Context {T : Type} (p : list token -> placed (T * list token)) (G : language).
Hypothesis R : reads p G.
Hypothesis some : exists ts, G ts.
Hypothesis heads : forall ts, G ts -> exists t r, ts = t :: r /\ t <> TEOF.
Hypothesis no_comma : apart G (fun ts => exists r, ts = TComma :: r).

(** More items, each after a comma. *)
Inductive moreL : language :=
| more_none : moreL []
| more_one : forall a b, G a -> moreL b -> moreL (TComma :: a ++ b).

Lemma moreL_head : starting (fun ts => moreL ts /\ ts <> []) comma.
Proof. intros ts [M N]. destruct M; [congruence|]. eauto. Qed.

Lemma apart_more : apart G moreL.
Proof. intros u y X C (m & Y). inversion Y; subst. apply (no_comma u TComma X C). exists []. exists []. reflexivity. Qed.

Lemma reads_comma : reads (fun ts => pbind (consume_comma_s ts) (fun r => POk (tt, r))) (one comma).
Proof.
  apply (reads_one _ _ (ExpectedTokenNotFound "','")); [constructor|now exists TComma|reflexivity|].
  intros t r. cbn [consume_comma_s]. destruct (t_type t); cbn; eauto.
Qed.

Lemma finishes_loop : forall f, finishes (list_loop_s p f) moreL.
Proof.
  induction f as [|f IH].
  - intros ts. cbn [list_loop_s]. destruct (is_empty_s ts) eqn:E; auto. exists []. split; auto. split; [constructor|].
    unfold at_end. destruct ts as [|t r]; [now left|]. right. cbn in E. exists (types r). cbn. destruct (t_type t); try discriminate. reflexivity.
  - intros ts. cbn [list_loop_s]. destruct (is_empty_s ts) eqn:E.
    { exists []. split; auto. split; [constructor|].
      unfold at_end. destruct ts as [|t r]; [now left|]. right. cbn in E. exists (types r). cbn. destruct (t_type t); try discriminate. reflexivity. }
    assert (F: finishes (fun ts => pbind (pbind (consume_comma_s ts) (fun r => POk (tt, r))) (fun '(_, r) =>
       pbind (p r) (fun '(v, r2) => pbind (list_loop_s p f r2) (fun '(vs, r3) => POk (v :: vs, r3))))) (joined (one comma) (joined G moreL))).
    { apply reads_finish with (k := fun _ r => pbind (p r) (fun '(v, r2) => pbind (list_loop_s p f r2) (fun '(vs, r3) => POk (v :: vs, r3))));
        [apply reads_comma| |apply one_apart|destruct some as (a & A); exists a, a, []; rewrite app_nil_r; repeat split; auto; constructor].
      intros _. apply reads_finish with (k := fun v r2 => pbind (list_loop_s p f r2) (fun '(vs, r3) => POk (v :: vs, r3)));
        [exact R| |exact apart_more|exists []; constructor].
      intros v. now apply (finishes_map _ _ (fun vs => v :: vs)). }
    specialize (F ts).
    assert (Q: pbind (pbind (consume_comma_s ts) (fun r => POk (tt, r))) (fun '(_, r) =>
       pbind (p r) (fun '(v, r2) => pbind (list_loop_s p f r2) (fun '(vs, r3) => POk (v :: vs, r3)))) =
       pbind (consume_comma_s ts) (fun r => pbind (p r) (fun '(v, r2) => pbind (list_loop_s p f r2) (fun '(vs, r3) => POk (v :: vs, r3))))).
    { destruct (consume_comma_s ts); reflexivity. }
    cbv beta in F. rewrite Q in F. clear Q.
    assert (S: forall w, joined (one comma) (joined G moreL) w <-> moreL w /\ w <> []).
    { intros w. split.
      - intros (a & b & -> & (t & -> & C) & (c & d & -> & X & Y)). destruct t; try discriminate. split; [|discriminate]. cbn [app]. apply more_one; assumption.
      - intros [M N]. destruct M as [|a b A B]; [congruence|]. exists [TComma], (a ++ b). split; auto. split; [now exists TComma|]. now exists a, b. }
    destruct (pbind (consume_comma_s ts) _) as [[v r]|e at_| |]; auto.
    + destruct F as (front & -> & X & Y). exists front. split; auto. split; auto. now apply S.
    + destruct F as [(-> & -> & C & N)|(b & t & a & -> & C & N & M & K)].
      * left. split; auto. split; auto. split.
        -- destruct C as (m & C). exists m. now apply S.
        -- intros X. apply N. apply S. split; auto. destruct ts; [discriminate|]. discriminate.
      * right. exists b, t, a. split; auto. split; [destruct C as (m & C); exists m; now apply S|]. split; [|split; [exact M|]].
        -- intros (m & X). apply N. exists m. apply S. split; auto. destruct (types b); discriminate.
        -- intros [[]|Y] X. apply K; [now right|]. apply S. split; auto. destruct b; [cbn in E; rewrite Y in E|]; discriminate.
Qed.

(** At least one item. *)
Definition listL : language := joined G moreL.

Lemma listL_nonempty : ~ listL [].
Proof. intros (a & b & E & A & _). destruct (heads _ A) as (t & r & -> & _). discriminate. Qed.

Lemma parse_list_cases : forall ts, (is_empty_s ts = true /\ parse_list_s p ts = POk ([], ts)) \/
  (is_empty_s ts = false /\ match parse_list_s p ts with
    | POk (vs, r) => vs <> [] /\ exists front, ts = front ++ r /\ listL (types front) /\ at_end r
    | PErr e at_ => stuck False listL ts e at_
    | _ => True
    end).
Proof.
  intros ts. unfold parse_list_s. destruct (is_empty_s ts) eqn:E; [now left|]. right. split; auto.
  assert (F: finishes (fun ts => pbind (p ts) (fun '(v, r) => pbind (list_loop_s p (List.length r) r) (fun '(vs, r2) => POk (v :: vs, r2)))) listL).
  { apply reads_finish with (k := fun v r => pbind (list_loop_s p (List.length r) r) (fun '(vs, r2) => POk (v :: vs, r2)));
      [exact R| |exact apart_more|exists []; constructor].
    intros v ts2. generalize (List.length ts2). intros f. apply (finishes_map (list_loop_s p f) moreL (fun vs => v :: vs)). apply finishes_loop. }
  specialize (F ts). cbv beta in F. revert F. destruct (p ts) as [[v r]|e at_| |]; cbn [pbind]; auto.
  destruct (list_loop_s p (List.length r) r) as [[vs r2]|e at_| |]; cbn [pbind]; auto. intros F. split; [discriminate|exact F].
Qed.

Lemma empty_end : forall ts, is_empty_s ts = true -> at_end ts.
Proof.
  intros [|t r] E; [now left|]. right. exists (types r). cbn in *. destruct (t_type t); try discriminate. reflexivity.
Qed.

(** Any number of items. *)
Lemma finishes_list : finishes (parse_list_s p) (either listL nothing).
Proof.
  intros ts. destruct (parse_list_cases ts) as [[E ->]|[E L]].
  - exists []. split; auto. split; [now right|]. now apply empty_end.
  - destruct (parse_list_s p ts) as [[vs r]|e at_| |]; auto.
    + destruct L as (_ & front & -> & X & Y). exists front. split; auto. split; [now left|]. exact Y.
    + destruct L as [(-> & -> & C & N)|(b & t & a & -> & C & N & M & K)].
      * left. split; auto. split; auto. split; [destruct C as (m & C); exists m; now left|].
        intros [X|X]; auto. destruct ts; [discriminate|discriminate].
      * right. exists b, t, a. split; auto. split; [destruct C as (m & C); exists m; now left|]. split; [|split; [exact M|]].
        -- intros (m & [X|X]); [apply N; now exists m|]. unfold nothing in X. destruct (types b); discriminate.
        -- intros [[]|Y] [X|X]; [apply K; auto|]. destruct b; [cbn in E; rewrite Y in E|]; discriminate.
Qed.
End Items.
