(** The expression parser against the grammar. *)
From Coq Require Import ZArith List String Ascii Bool Arith Lia.
From Verif Require Import Base Expr Instr Ast Macro Lexer Parser SpecParse.
Import ListNotations.
Open Scope list_scope.
Local Open Scope nat_scope.

(** * Fuel *)

Definition ok_shorter {A} (n : nat) (o : outcome (A * stream)) : Prop :=
  match o with Ok (_, r) => List.length r < n | Err _ => True | Panic => False | Diverge => False end.

Lemma shorter_le : forall A n m (o : outcome (A * stream)), ok_shorter n o -> n <= m -> ok_shorter m o.
Proof. intros A n m [[a r]|e| |] H L; cbn in *; auto; lia. Qed.

Lemma shorter_bind : forall A B n (o : outcome (A * stream)) (k : A * stream -> outcome (B * stream)) m,
  ok_shorter n o -> (forall a r, List.length r < n -> ok_shorter m (k (a, r))) -> ok_shorter m (bind o k).
Proof. intros A B n [[a r]|e| |] k m H K; cbn in *; auto. Qed.

Definition good (n : nat) (parse : expr_parser) : Prop :=
  forall p ts, (0 <= p)%Z -> List.length ts < n -> ok_shorter (List.length ts) (parse p ts).

Lemma prefix_good : forall n parse p x tok ts, good n parse -> List.length ts < n ->
  expr_type tok = Some x -> prefix_table x = Some p ->
  ok_shorter (S (List.length ts)) (prefix_parse parse p tok ts).
Proof.
  intros n parse p x tok ts G L X T.
  destruct p; cbn [prefix_parse].
  - apply (shorter_bind _ _ (List.length ts)); [apply G; auto; lia|]. intros a r H. destruct r as [|[] r]; cbn in *; auto; lia.
  - destruct tok; cbn in X; inversion X; subst; cbn in T; try discriminate; cbn; lia.
  - destruct tok; cbn in X; inversion X; subst; cbn in T; try discriminate; cbn; lia.
  - destruct tok; cbn in X; inversion X; subst; cbn in T; try discriminate; cbn; lia.
  - destruct tok; cbn in X; inversion X; subst; cbn in T; try discriminate; cbn; lia.
  - apply (shorter_bind _ _ (List.length ts)); [apply G; auto; unfold Prefix; lia|]. intros a r H. destruct tok; cbn in *; auto; lia.
Qed.

Lemma infix_good : forall n parse p l tok ts, (0 <= p)%Z -> good n parse -> List.length ts < n ->
  ok_shorter (List.length ts) (infix_parse parse p l tok ts).
Proof.
  intros n parse p l tok ts P G L. unfold infix_parse.
  apply (shorter_bind _ _ (List.length ts)); [now apply G|]. intros a r H. destruct tok; cbn in *; auto.
Qed.

Lemma infix_pos : forall x q, infix_table x = Some q -> (0 < q <= 4)%Z.
Proof. intros [] q H; cbn in H; inversion H; unfold Bitwise, Sum, Product; lia. Qed.

Lemma precedence_range : forall ts, (0 <= precedence ts <= 4)%Z.
Proof.
  intros [|t r]; cbn [precedence]; [lia|]. destruct (expr_type t) as [x|]; [|lia].
  destruct (infix_table x) eqn:E; [|lia]. apply infix_pos in E. lia.
Qed.

Lemma loop_good : forall n parse fuel prec l ts, (0 <= prec)%Z -> good n parse -> List.length ts <= n -> List.length ts <= fuel ->
  ok_shorter (S (List.length ts)) (infix_loop parse fuel prec l ts).
Proof.
  intros n parse. induction fuel as [|f IH]; intros prec l ts P G L F.
  - destruct ts; cbn in F; [|lia]. cbn [infix_loop precedence]. replace (prec <? 0)%Z with false by (symmetry; apply Z.ltb_ge; lia). cbn. lia.
  - cbn [infix_loop]. destruct (prec <? precedence ts)%Z eqn:E; [|cbn; lia].
    destruct ts as [|t r]; [cbn in E; apply Z.ltb_lt in E; lia|]. cbn [next bind].
    unfold expr_tok_type.
    destruct (expr_type t) as [x|] eqn:X; cbn [bind]; [|exact I].
    destruct (infix_table x) as [q|] eqn:Q; cbn [bind]; [|exact I].
    cbn [List.length] in *.
    apply (shorter_bind _ _ (List.length r)); [apply (infix_good n); auto; apply infix_pos in Q; lia|]. intros a r2 H.
    eapply shorter_le; [apply IH; auto; lia|lia].
Qed.

Lemma pratt_good : forall n, good n (pratt n).
Proof.
  induction n as [|n IH]; intros p ts P L; [lia|]. cbn [pratt].
  destruct ts as [|t r]; cbn [next bind]; [exact I|]. unfold expr_tok_type. cbn [List.length] in *.
  destruct (expr_type t) as [x|] eqn:X; cbn [bind]; [|exact I].
  destruct (prefix_table x) as [q|] eqn:Q; cbn [bind]; [|exact I].
  apply (shorter_bind _ _ (S (List.length r))); [apply (prefix_good n _ _ x); auto; lia|].
  intros a r2 H. eapply shorter_le; [apply (loop_good n); auto; lia|lia].
Qed.

(** Enough fuel is as good as more. *)
Definition agree (n : nat) (p q : expr_parser) : Prop := forall k ts, (0 <= k)%Z -> List.length ts < n -> p k ts = q k ts.

Lemma loop_agree : forall n p q, good n p -> agree n p q -> forall f g prec l ts, (0 <= prec)%Z ->
  List.length ts <= n -> List.length ts <= f -> List.length ts <= g ->
  infix_loop p f prec l ts = infix_loop q g prec l ts.
Proof.
  intros n p q G A. induction f as [|f IH]; intros g prec l ts P L F F2.
  - destruct ts; cbn in F; [|lia]. destruct g; cbn [infix_loop precedence];
    replace (prec <? 0)%Z with false by (symmetry; apply Z.ltb_ge; lia); reflexivity.
  - destruct g as [|g].
    + destruct ts; cbn in F2; [|lia]. cbn [infix_loop precedence].
      replace (prec <? 0)%Z with false by (symmetry; apply Z.ltb_ge; lia); reflexivity.
    + cbn [infix_loop]. destruct (prec <? precedence ts)%Z eqn:E; [|reflexivity].
      destruct ts as [|t r]; [reflexivity|]. cbn [next bind]. unfold expr_tok_type. cbn [List.length] in *.
      destruct (expr_type t) as [x|] eqn:X; cbn [bind]; [|reflexivity].
      destruct (infix_table x) as [w|] eqn:Q; cbn [bind]; [|reflexivity].
      assert (W := infix_pos _ _ Q).
      unfold infix_parse. rewrite <- A by lia.
      assert (S1 := G w r ltac:(lia) ltac:(lia)). destruct (p w r) as [[a r2]|e| |]; cbn [bind]; try reflexivity.
      cbn in S1. destruct t; cbn [bind]; try reflexivity; apply IH; lia.
Qed.

Lemma pratt_agree : forall n m, n <= m -> agree n (pratt n) (pratt m).
Proof.
  induction n as [|n IH]; intros m L k ts K T; [lia|]. destruct m as [|m]; [lia|].
  assert (A := IH m ltac:(lia)). cbn [pratt].
  destruct ts as [|t r]; cbn [next bind]; [reflexivity|]. unfold expr_tok_type. cbn [List.length] in *.
  destruct (expr_type t) as [x|] eqn:X; cbn [bind]; [|reflexivity].
  destruct (prefix_table x) as [q|] eqn:Q; cbn [bind]; [|reflexivity].
  assert (E: prefix_parse (pratt n) q t r = prefix_parse (pratt m) q t r).
  { destruct q; cbn [prefix_parse]; try reflexivity; rewrite A by (unfold Prefix; lia); reflexivity. }
  rewrite <- E. assert (G := prefix_good n (pratt n) q x t r (pratt_good n) ltac:(lia) X Q).
  destruct (prefix_parse (pratt n) q t r) as [[a r2]|e| |]; cbn [bind]; try reflexivity. cbn in G.
  apply (loop_agree n); auto; try lia. apply pratt_good.
Qed.

(** * The parser without fuel *)

Definition P (p : Z) (ts : stream) : outcome (expr * stream) := pratt (S (List.length ts)) p ts.
Definition L (p : Z) (l : expr) (ts : stream) : outcome (expr * stream) :=
  infix_loop (pratt (S (List.length ts))) (List.length ts) p l ts.

Lemma pratt_P : forall n p ts, (0 <= p)%Z -> List.length ts < n -> pratt n p ts = P p ts.
Proof. intros. unfold P. symmetry. apply (pratt_agree (S (List.length ts)) n); lia. Qed.

Lemma loop_L : forall n f p l ts, (0 <= p)%Z -> List.length ts <= n -> List.length ts <= f ->
  infix_loop (pratt n) f p l ts = L p l ts.
Proof.
  intros n f p l ts H K F. unfold L. set (m := Nat.min n (S (List.length ts))).
  rewrite <- (loop_agree m (pratt m) (pratt n) (pratt_good m)) with (f := f); try (unfold m; lia).
  - apply (loop_agree m); try apply pratt_good; try (unfold m; lia). apply pratt_agree. unfold m; lia.
  - apply pratt_agree. unfold m; lia.
Qed.

Lemma P_parse : forall ts, parse_expr ts = P 0 ts. Proof. reflexivity. Qed.

Lemma P_shorter : forall p ts, (0 <= p)%Z -> ok_shorter (List.length ts) (P p ts).
Proof. intros. apply pratt_good; lia. Qed.

Lemma L_shorter : forall p l ts, (0 <= p)%Z -> ok_shorter (S (List.length ts)) (L p l ts).
Proof. intros. apply (loop_good (S (List.length ts))); try lia. apply pratt_good. Qed.

Definition pre (q : prefix_parselet) (tok : token_type) (ts : stream) : outcome (expr * stream) := prefix_parse P q tok ts.

Lemma P_cons : forall p t r, (0 <= p)%Z -> P p (t :: r) =
  let! x := expr_tok_type t in
  match prefix_table x with
  | None => Err InvalidExpression
  | Some q => let! (l, r2) := prefix_parse P q t r in L p l r2
  end.
Proof.
  intros p t r H. unfold P at 1. cbn [pratt next bind]. unfold expr_tok_type.
  destruct (expr_type t) as [x|] eqn:X; cbn [bind]; [|reflexivity].
  destruct (prefix_table x) as [q|] eqn:Q; [|reflexivity].
  assert (E: prefix_parse (pratt (S (List.length r))) q t r = prefix_parse P q t r).
  { destruct q; cbn [prefix_parse]; try reflexivity; rewrite pratt_P by (unfold Prefix; lia); reflexivity. }
  cbn [List.length]. rewrite E.
  assert (G := prefix_good (S (List.length r)) P q x t r).
  assert (G2: good (S (List.length r)) P) by (intros k ts K _; now apply P_shorter).
  specialize (G G2 ltac:(lia) X Q).
  destruct (prefix_parse P q t r) as [[a r2]|e| |]; cbn [bind]; try reflexivity. cbn in G.
  apply loop_L; lia.
Qed.

Lemma P_nil : forall p, P p [] = Err UnexpectedEof. Proof. reflexivity. Qed.

Lemma L_stop : forall p l ts, (precedence ts <= p)%Z -> L p l ts = Ok (l, ts).
Proof. intros p l ts H. unfold L. destruct (List.length ts); cbn [infix_loop]; replace (p <? precedence ts)%Z with false by (symmetry; apply Z.ltb_ge; lia); reflexivity. Qed.

Lemma L_step : forall op l mk p lhs r, In (op, l, mk) operators -> (0 <= p)%Z -> (p < precedence (op :: r))%Z ->
  L p lhs (op :: r) = let! (rhs, r2) := P (precedence (op :: r)) r in L p (mk lhs rhs) r2.
Proof.
  intros op l mk p lhs r I H K. unfold L at 1. cbn [List.length infix_loop]. rewrite (proj2 (Z.ltb_lt _ _) K).
  cbn [next bind]. assert (K2 := precedence_range (op :: r)).
  assert (S1 := P_shorter (precedence (op :: r)) r ltac:(lia)).
  cbn [In operators] in I. repeat (destruct I as [I|I]; [injection I as <- <- <-|]); [..|destruct I];
  cbn [expr_tok_type expr_type infix_table bind precedence] in *; unfold infix_parse;
  rewrite pratt_P by (unfold Bitwise, Sum, Product; lia);
  match goal with |- context[P ?a r] => destruct (P a r) as [[rhs r2]|e| |]; cbn [bind]; try reflexivity end;
  cbn in S1; apply loop_L; lia.
Qed.

(** * The grammar is followed *)

Definition prec_of (l : level) : Z := match l with Bits => 1 | Sums => 3 | Products => 4 | Unaries => 6 end.

Lemma operator_prec : forall op l mk r, In (op, l, mk) operators -> precedence (op :: r) = prec_of l.
Proof. intros op l mk r I. cbn [In operators] in I. repeat (destruct I as [I|I]; [injection I as <- <- <-; reflexivity|]). destruct I. Qed.

Lemma prec_operator : forall t r, (0 < precedence (t :: r))%Z -> exists l mk, In (t, l, mk) operators.
Proof. intros t r H. destruct t; cbn in H; try lia; eexists _, _; cbn; eauto 10. Qed.

Lemma prec_cons : forall t r r2, precedence (t :: r) = precedence (t :: r2). Proof. reflexivity. Qed.

Lemma continues_iff : forall ts, continues ts <-> (0 < precedence ts)%Z.
Proof.
  intros ts. split.
  - intros (op & l & mk & rest & -> & I). rewrite (operator_prec _ _ _ _ I). destruct l; cbn; lia.
  - intros H. destruct ts as [|t r]; [cbn in H; lia|]. destruct (prec_operator _ _ H) as (l & mk & I).
    now exists t, l, mk, r.
Qed.

Lemma operator_level : forall op l mk, In (op, l, mk) operators -> l <> Unaries.
Proof. intros op l mk I. cbn [In operators] in I. repeat (destruct I as [I|I]; [injection I as <- <- <-; discriminate|]). destruct I. Qed.

Lemma grammar_complete : forall l ts e, expression l ts e -> forall p rest,
  (0 <= p)%Z -> (l = Unaries \/ p < prec_of l)%Z -> (precedence rest <= prec_of l)%Z -> P p (ts ++ rest) = L p e rest.
Proof.
  intros l ts e X. induction X as [op l mk ts1 e1 ts2 e2 I X1 IH1 X2 IH2|l ts e X IH N|op mk ts e I X IH|ts e X IH|n|n r|n|n];
  intros p rest Hp Hl Hr.
  - assert (N := operator_level _ _ _ I). assert (Hp2: (p < prec_of l)%Z) by (destruct Hl; [congruence|assumption]).
    rewrite <- app_assoc. cbn [app]. assert (E := operator_prec op l mk (ts2 ++ rest) I).
    rewrite IH1; auto; [|lia]. rewrite (L_step op l mk) by (auto; lia). rewrite E.
    rewrite IH2.
    + rewrite L_stop by lia. reflexivity.
    + destruct l; cbn; lia.
    + destruct l; cbn; [right; lia|right; lia|left; reflexivity|congruence].
    + destruct l; cbn in *; try lia.
  - destruct Hl as [Hl|Hl]; [congruence|]. apply IH; auto.
    + destruct l; cbn in *; [right; lia|right; lia|left; reflexivity|congruence].
    + destruct l; cbn in *; lia.
  - cbn [app]. rewrite P_cons by lia. assert (K := precedence_range rest).
    assert (Q: P Prefix (ts ++ rest) = Ok (e, rest)).
    { rewrite IH; [|unfold Prefix; lia|now left|lia]. rewrite L_stop by (unfold Prefix; lia). reflexivity. }
    cbn [In unary_operators] in I. repeat (destruct I as [I|I]; [injection I as <- <-|]); [..|destruct I];
    cbn [expr_tok_type expr_type bind prefix_table prefix_parse]; rewrite Q; reflexivity.
  - cbn [app]. rewrite P_cons by lia. cbn [expr_tok_type expr_type bind prefix_table prefix_parse].
    rewrite <- app_assoc. cbn [app]. rewrite IH; [|lia|cbn; lia|cbn; lia].
    rewrite L_stop by (cbn; lia). reflexivity.
  - cbn [app]. rewrite P_cons by lia. reflexivity.
  - cbn [app]. rewrite P_cons by lia. reflexivity.
  - cbn [app]. rewrite P_cons by lia. reflexivity.
  - cbn [app]. rewrite P_cons by lia. reflexivity.
Qed.

(** Weakening of levels. *)
Lemma weaken : forall l l2 ts e, (prec_of l2 <= prec_of l)%Z -> expression l ts e -> expression l2 ts e.
Proof.
  intros l l2 ts e H X.
  destruct l, l2; cbn in H; try lia; try assumption;
  repeat (first [exact X | apply g_tighter; [cbn [tighter]|discriminate]]).
Qed.

(** The level of what [P p] accepts. *)
Definition above (p : Z) : level :=
  if (p <? 1)%Z then Bits else if (p <? 3)%Z then Sums else if (p <? 4)%Z then Products else Unaries.

Lemma above_prec : forall l, above (prec_of l) = tighter l.
Proof. intros []; reflexivity. Qed.

Lemma above_le : forall p l, (p < prec_of l)%Z -> (prec_of (above p) <= prec_of l)%Z.
Proof. intros p l H. unfold above. destruct (Z.ltb_spec p 1), (Z.ltb_spec p 3), (Z.ltb_spec p 4), l; cbn in *; lia. Qed.

Definition sound_at (n : nat) : Prop := forall p ts e rest, (0 <= p)%Z -> List.length ts < n -> P p ts = Ok (e, rest) ->
  exists front, ts = front ++ rest /\ expression (above p) front e /\ (precedence rest <= p)%Z.

Lemma loop_sound : forall n, sound_at n -> forall m p lhs ts e rest front l,
  (0 <= p)%Z -> List.length ts < m -> List.length ts <= n -> L p lhs ts = Ok (e, rest) ->
  expression l front lhs -> (precedence ts <= prec_of l)%Z -> (l = Unaries \/ p < prec_of l)%Z ->
  exists mid, ts = mid ++ rest /\ expression (above p) (front ++ mid) e /\ (precedence rest <= p)%Z.
Proof.
  intros n SA. induction m as [|m IH]; intros p lhs ts e rest front l Hp Hm Hn E X Hl Hpl; [lia|].
  assert (K := precedence_range ts). destruct (Z.le_gt_cases (precedence ts) p) as [D|D].
  - rewrite L_stop in E by assumption. injection E as <- <-. exists []. rewrite app_nil_r.
    split; [reflexivity|]. split; [|assumption]. destruct Hpl as [->|Hpl].
    + apply (weaken Unaries); [|assumption]. unfold above. destruct (p <? 1)%Z, (p <? 3)%Z, (p <? 4)%Z; cbn; lia.
    + apply (weaken l); [|assumption]. now apply above_le.
  - destruct ts as [|t r]; [cbn in D; lia|].
    destruct (prec_operator t r ltac:(lia)) as (lo & mk & I).
    rewrite (L_step _ _ _ _ _ _ I) in E by lia.
    assert (Q := operator_prec _ _ _ r I). rewrite Q in E. cbn [List.length] in *.
    assert (SH := P_shorter (prec_of lo) r ltac:(lia)).
    destruct (P (prec_of lo) r) as [[rhs r2]|er| |] eqn:EP; cbn [bind] in E; try discriminate. cbn in SH.
    destruct (SA (prec_of lo) r rhs r2 ltac:(lia) ltac:(lia) EP) as (front2 & -> & X2 & Hr2).
    rewrite above_prec in X2. rewrite app_length in *.
    assert (N := operator_level _ _ _ I).
    destruct (IH p (mk lhs rhs) r2 e rest (front ++ t :: front2) lo) as (mid & -> & X3 & Hr); auto; try lia.
    { apply (g_binary t lo mk); auto. apply (weaken l); [|assumption]. lia. }
    exists (t :: front2 ++ mid). cbn [app]. rewrite <- !app_assoc in *. split; [reflexivity|]. split; [|assumption].
    cbn [app] in *. exact X3.
Qed.

Lemma grammar_sound : forall n, sound_at n.
Proof.
  induction n as [|n IH]; intros p ts e rest Hp Hn E; [lia|].
  destruct ts as [|t r]; [discriminate|]. rewrite P_cons in E by assumption. cbn [List.length] in Hn.
  unfold expr_tok_type in E. destruct (expr_type t) as [x|] eqn:EX; cbn [bind] in E; [|discriminate].
  destruct (prefix_table x) as [q|] eqn:EQ; [|discriminate].
  destruct (prefix_parse P q t r) as [[lhs r2]|er| |] eqn:EP; cbn [bind] in E; try discriminate.
  assert (A: exists front, t :: r = front ++ r2 /\ expression Unaries front lhs).
  { destruct q; cbn [prefix_parse] in EP.
    - assert (SH := P_shorter 0 r ltac:(lia)). destruct (P 0 r) as [[e1 r1]|er| |] eqn:E1; cbn [bind] in EP; try discriminate.
      destruct (IH 0%Z r e1 r1 ltac:(lia) ltac:(lia) E1) as (front & -> & X & _).
      destruct r1 as [|[] r1]; cbn [consume_right_paren bind] in EP; try discriminate. injection EP as <- <-.
      destruct t; cbn in EX; inversion EX; subst; cbn in EQ; try discriminate.
      exists (TLeftParen :: front ++ [TRightParen]). split; [cbn; now rewrite <- app_assoc|]. now apply g_paren.
    - destruct t; try discriminate. injection EP as <- <-. eexists [_]; split; [reflexivity|apply g_name].
    - destruct t; try discriminate. injection EP as <- <-. eexists [_]; split; [reflexivity|apply g_macro_label].
    - destruct t; try discriminate. injection EP as <- <-. eexists [_]; split; [reflexivity|apply g_macro_arg].
    - destruct t; try discriminate. injection EP as <- <-. eexists [_]; split; [reflexivity|apply g_number].
    - assert (SH := P_shorter Prefix r ltac:(unfold Prefix; lia)). destruct (P Prefix r) as [[e1 r1]|er| |] eqn:E1; cbn [bind] in EP; try discriminate.
      destruct (IH Prefix r e1 r1 ltac:(unfold Prefix; lia) ltac:(lia) E1) as (front & -> & X & _).
      exists (t :: front). destruct t; try discriminate; injection EP as <- <-;
      (split; [reflexivity|]; apply g_unary; [cbn; auto|exact X]). }
  destruct A as (front & F & X).
  assert (LN: List.length r2 <= List.length r).
  { apply (f_equal (@List.length _)) in F. rewrite app_length in F. cbn in F.
    destruct front; [|cbn in F; lia]. inversion X; try discriminate.
    all: try (match goal with H : _ ++ _ :: _ = [] |- _ => now destruct (app_cons_not_nil _ _ _ (eq_sym H)) end); try congruence. }
  rewrite F.
  destruct (loop_sound n IH (S (List.length r2)) p lhs r2 e rest front Unaries) as (mid & -> & X2 & Hr); auto; try lia.
  { assert (K := precedence_range r2). cbn. lia. }
  exists (front ++ mid). rewrite <- app_assoc. auto.
Qed.

Theorem parse_expr_iff : forall ts e rest,
  parse_expr ts = Ok (e, rest) <-> exists front, ts = front ++ rest /\ expression Bits front e /\ ~ continues rest.
Proof.
  intros ts e rest. rewrite P_parse. split.
  - intros H. destruct (grammar_sound (S (List.length ts)) 0%Z ts e rest ltac:(lia) ltac:(lia) H) as (front & -> & X & Hr).
    exists front. split; [reflexivity|]. split; [exact X|]. rewrite continues_iff. lia.
  - intros (front & -> & X & N). rewrite continues_iff in N.
    rewrite (grammar_complete _ _ _ X) by (cbn; lia). apply L_stop. lia.
Qed.

Lemma parse_expr_total : forall ts, (exists e rest, parse_expr ts = Ok (e, rest)) \/ (exists er, parse_expr ts = Err er).
Proof.
  intros ts. assert (H := P_shorter 0 ts ltac:(lia)). rewrite P_parse.
  destruct (P 0 ts) as [[e r]|er| |]; cbn in H; [left; eauto|right; eauto|destruct H|destruct H].
Qed.

Lemma parse_expr_rejects : forall ts, (exists er, parse_expr ts = Err er) <->
  ~ exists front rest e, ts = front ++ rest /\ expression Bits front e /\ ~ continues rest.
Proof.
  intros ts. split.
  - intros [er H] (front & rest & e & X). assert (Q := proj2 (parse_expr_iff ts e rest) (ex_intro _ front X)). congruence.
  - intros N. destruct (parse_expr_total ts) as [(e & rest & H)|H]; [|exact H].
    exfalso. apply N. apply parse_expr_iff in H as (front & X). now exists front, rest, e.
Qed.

Lemma expression_unique : forall ts e1 e2, expression Bits ts e1 -> expression Bits ts e2 -> e1 = e2.
Proof.
  intros ts e1 e2 X1 X2.
  assert (N: ~ continues []) by (intros (? & ? & ? & ? & H & _); discriminate).
  assert (Q1 := proj2 (parse_expr_iff ts e1 []) (ex_intro _ ts (conj (eq_sym (app_nil_r ts)) (conj X1 N)))).
  assert (Q2 := proj2 (parse_expr_iff ts e2 []) (ex_intro _ ts (conj (eq_sym (app_nil_r ts)) (conj X2 N)))).
  congruence.
Qed.
