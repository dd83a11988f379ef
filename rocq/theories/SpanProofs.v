(** Proofs about places in expressions. *)
From Coq Require Import ZArith List String Ascii Bool Arith Lia.
From Verif Require Import Base Expr Instr Ast Macro Lexer Parser SpecParse ParseProofs Span SpecSpan.
Import ListNotations.
Open Scope list_scope.
Local Open Scope nat_scope.

(** * Forgetting places *)

Definition er (x : sexpr * tokens) : expr * stream := (erase (fst x), types (snd x)).

Lemma unplaced_bind : forall A B C D (f : A -> B) (g : C -> D) (x : placed A) (k : A -> placed C) (h : B -> outcome D),
  (forall a, unplaced g (k a) = h (f a)) -> unplaced g (pbind x k) = bind (unplaced f x) h.
Proof. intros A B C D f g [a|e s| |] k h H; cbn; auto. Qed.

Lemma unplaced_at : forall A s (x : outcome A), unplaced (fun a => a) (at_span s x) = x.
Proof. intros A s [a|e| |]; reflexivity. Qed.

Definition same (p : sparser) (q : expr_parser) : Prop := forall k ts, unplaced er (p k ts) = q k (types ts).

Lemma same_prefix : forall p q, same p q -> forall x t ts,
  unplaced er (prefix_parse_s p x t ts) = prefix_parse q x (t_type t) (types ts).
Proof.
  intros p q S x t ts. destruct x; cbn [prefix_parse_s prefix_parse].
  - rewrite <- S. destruct (p 0%Z ts) as [[e r]|e s| |]; cbn; try reflexivity.
    destruct r as [|u r]; cbn; [reflexivity|]. destruct (t_type u); reflexivity.
  - destruct (t_type t); reflexivity.
  - destruct (t_type t); reflexivity.
  - destruct (t_type t); reflexivity.
  - destruct (t_type t); reflexivity.
  - rewrite <- S. destruct (p Prefix ts) as [[e r]|e s| |]; cbn; try reflexivity. destruct (t_type t); reflexivity.
Qed.

Lemma same_infix : forall p q, same p q -> forall k l t ts,
  unplaced er (infix_parse_s p k l t ts) = infix_parse q k (erase l) (t_type t) (types ts).
Proof.
  intros p q S k l t ts. unfold infix_parse_s, infix_parse. rewrite <- S.
  destruct (p k ts) as [[e r]|e s| |]; cbn; try reflexivity. destruct (t_type t); reflexivity.
Qed.

Lemma same_loop : forall p q, same p q -> forall f loc k l ts,
  unplaced er (infix_loop_s p f loc k l ts) = infix_loop q f k (erase l) (types ts).
Proof.
  intros p q S. induction f as [|f IH]; intros loc k l ts; cbn [infix_loop_s infix_loop];
  change (map t_type ts) with (types ts);
  destruct (k <? precedence (types ts))%Z; try reflexivity.
  destruct ts as [|t r]; cbn [next_s pbind types map next bind]; [reflexivity|].
  unfold expr_tok_type_s, expr_tok_type. destruct (expr_type (t_type t)) as [x|]; cbn [pbind bind]; [|reflexivity].
  destruct (infix_table x) as [w|]; [|reflexivity].
  change (map t_type r) with (types r).
  rewrite <- (same_infix p q S). destruct (infix_parse_s p w l t r) as [[e r2]|e s| |]; cbn [pbind unplaced bind er fst snd]; try reflexivity.
  apply IH.
Qed.

Lemma same_pratt : forall f, same (pratt_s f) (pratt f).
Proof.
  induction f as [|f IH]; intros k ts; cbn [pratt_s pratt]; [reflexivity|].
  destruct ts as [|t r]; cbn [next_s pbind types map next bind]; [reflexivity|].
  unfold expr_tok_type_s, expr_tok_type. destruct (expr_type (t_type t)) as [x|]; cbn [pbind bind]; [|reflexivity].
  destruct (prefix_table x) as [w|]; [|reflexivity].
  change (map t_type r) with (types r).
  rewrite <- (same_prefix _ _ IH). destruct (prefix_parse_s (pratt_s f) w t r) as [[e r2]|e s| |]; cbn [pbind unplaced bind er fst snd]; try reflexivity.
  now apply same_loop.
Qed.

Lemma same_parse : forall ts, unplaced er (parse_expr_s ts) = parse_expr (types ts).
Proof. intros ts. unfold parse_expr_s, parse_expr, types. rewrite map_length. apply same_pratt. Qed.

Lemma eval_same : forall pr en e, unplaced (fun v => v) (eval_s pr en e) = eval pr en (erase e).
Proof.
  intros pr en. induction e as [s n|s n r|s n|s n|op s x IH|op s l IHl r IHr]; cbn [eval_s erase].
  - cbn [eval]. destruct (env_get en (lower n)); reflexivity.
  - reflexivity.
  - reflexivity.
  - reflexivity.
  - destruct op; cbn [un_expr eval]; rewrite <- IH; destruct (eval_s pr en x); cbn; try reflexivity. apply unplaced_at.
  - destruct op; cbn [bin_expr eval]; rewrite <- IHl; destruct (eval_s pr en l) as [a| | |]; cbn [pbind unplaced bind]; try reflexivity;
    rewrite <- IHr; destruct (eval_s pr en r) as [b| | |]; cbn [pbind unplaced bind bin_value]; try reflexivity; try apply unplaced_at.
    destruct (b =? 0)%Z; [reflexivity|]. destruct ((a =? -2147483648)%Z && (b =? -1)%Z)%bool; reflexivity.
Qed.

(** * Where the parts of an expression stand *)

Inductive marked : level -> list token -> sexpr -> Prop :=
| k_binary : forall t op l ts1 a ts2 b,
    In (t_type t, l, bin_expr op) operators -> marked l ts1 a -> marked (tighter l) ts2 b ->
    marked l (ts1 ++ t :: ts2) (XBin op (span_from (span_of a) (span_of b)) a b)
| k_tighter : forall l ts e, marked (tighter l) ts e -> l <> Unaries -> marked l ts e
| k_unary : forall t op ts e,
    In (t_type t, un_expr op) unary_operators -> marked Unaries ts e -> marked Unaries (t :: ts) (XUn op (alone (t_span t)) e)
| k_paren : forall t u ts e, t_type t = TLeftParen -> t_type u = TRightParen -> marked Bits ts e ->
    marked Unaries (t :: ts ++ [u]) e
| k_name : forall t n, t_type t = TName n -> marked Unaries [t] (XName_ (alone (t_span t)) n)
| k_number : forall t n r, t_type t = TNumber n r -> marked Unaries [t] (XNumber_ (alone (t_span t)) n r)
| k_macro_label : forall t n, t_type t = TMacroLabel n -> marked Unaries [t] (XMacroLabel_ (alone (t_span t)) n)
| k_macro_arg : forall t n, t_type t = TMacroIdent n -> marked Unaries [t] (XMacroArg_ (alone (t_span t)) n).

Lemma marked_expression : forall l ts e, marked l ts e -> expression l (types ts) (erase e).
Proof.
  intros l ts e M. induction M; unfold types in *; cbn [map erase].
  - rewrite map_app. cbn [map]. now apply (g_binary (t_type t) l (bin_expr op)).
  - now apply g_tighter.
  - now apply g_unary.
  - rewrite map_app. cbn [map]. rewrite H, H0. now apply g_paren.
  - rewrite H. apply g_name.
  - rewrite H. apply g_number.
  - rewrite H. apply g_macro_label.
  - rewrite H. apply g_macro_arg.
Qed.

Lemma marked_weaken : forall l l2 ts e, (prec_of l2 <= prec_of l)%Z -> marked l ts e -> marked l2 ts e.
Proof.
  intros l l2 ts e H X.
  destruct l, l2; cbn in H; try lia; try assumption;
  repeat (first [exact X | apply k_tighter; [cbn [tighter]|discriminate]]).
Qed.

Definition s_sound (parse : sparser) : Prop := forall p ts e rest, (0 <= p)%Z -> parse p ts = POk (e, rest) ->
  exists front, ts = front ++ rest /\ marked (above p) front e /\ (precedence (types rest) <= p)%Z.

Definition tok_op (t : token_type) : option binop :=
  match t with
  | TPlus => Some BPlus | TTimes => Some BTimes | TMinus => Some BMinus | TDivide => Some BDivide
  | TCaret => Some BXor | TAmpersand => Some BAnd | TPipe => Some BOr | _ => None
  end.

Lemma infix_op : forall t x q, expr_type t = Some x -> infix_table x = Some q ->
  exists op l, tok_op t = Some op /\ In (t, l, bin_expr op) operators /\ q = prec_of l.
Proof.
  intros t x q E Q. destruct t; cbn in E; try discriminate; injection E as <-; cbn in Q; try discriminate; injection Q as <-;
  (eexists; eexists; split; [reflexivity|]; split; [cbn; eauto 10|reflexivity]).
Qed.

Lemma infix_step : forall parse p lhs t op ts, tok_op (t_type t) = Some op ->
  infix_parse_s parse p lhs t ts =
  let? (rhs, r) := parse p ts in POk (XBin op (span_from (span_of lhs) (span_of rhs)) lhs rhs, r).
Proof.
  intros parse p lhs t op ts E. unfold infix_parse_s. destruct (parse p ts) as [[rhs r]| | |]; cbn [pbind]; try reflexivity.
  destruct (t_type t); cbn in E; try discriminate; injection E as <-; reflexivity.
Qed.

Lemma s_loop_sound : forall parse, s_sound parse -> forall f loc p lhs ts e rest front l,
  (0 <= p)%Z -> infix_loop_s parse f loc p lhs ts = POk (e, rest) ->
  marked l front lhs -> (precedence (types ts) <= prec_of l)%Z -> (l = Unaries \/ p < prec_of l)%Z ->
  exists mid, ts = mid ++ rest /\ marked (above p) (front ++ mid) e /\ (precedence (types rest) <= p)%Z.
Proof.
  intros parse SA. induction f as [|f IH]; intros loc p lhs ts e rest front l Hp E X Hl Hpl;
  cbn [infix_loop_s] in E; change (map t_type ts) with (types ts) in E;
  destruct (p <? precedence (types ts))%Z eqn:D; try discriminate.
  1, 3: (apply Z.ltb_ge in D; injection E as <- <-; exists []; rewrite app_nil_r; split; [reflexivity|]; split; [|assumption];
    destruct Hpl as [->|Hpl]; [apply (marked_weaken Unaries); [|assumption]; unfold above; destruct (p <? 1)%Z, (p <? 3)%Z, (p <? 4)%Z; cbn; lia
    |apply (marked_weaken l); [now apply above_le|assumption]]).
  apply Z.ltb_lt in D. destruct ts as [|t r]; cbn [next_s pbind] in E; [discriminate|].
  unfold expr_tok_type_s in E. destruct (expr_type (t_type t)) as [x|] eqn:EX; cbn [pbind] in E; [|discriminate].
  destruct (infix_table x) as [q|] eqn:EQ; [|discriminate].
  destruct (infix_op _ _ _ EX EQ) as (op & lo & TO & I & ->). rewrite (infix_step _ _ _ _ _ _ TO) in E.
  assert (Q := operator_prec _ _ _ (types r) I). cbn [types map] in *. change (map t_type r) with (types r) in *. rewrite Q in *.
  destruct (parse (prec_of lo) r) as [[rhs r2]|? ?| |] eqn:EP; cbn [pbind] in E; try discriminate.
  destruct (SA (prec_of lo) r rhs r2 ltac:(destruct lo; cbn; lia) EP) as (front2 & -> & X2 & Hr2). rewrite above_prec in X2.
  assert (N := operator_level _ _ _ I).
  destruct (IH loc p _ r2 e rest (front ++ t :: front2) lo Hp E) as (mid & -> & X3 & Hr); auto.
  { apply (k_binary t op lo); auto. apply (marked_weaken l); [|assumption]. lia. }
  exists (t :: front2 ++ mid). rewrite <- !app_assoc in *. cbn [app] in *. rewrite <- ?app_assoc. auto.
Qed.

Lemma prefix_marked : forall parse t x q r lhs r2, s_sound parse -> expr_type (t_type t) = Some x -> prefix_table x = Some q ->
  prefix_parse_s parse q t r = POk (lhs, r2) -> exists front, t :: r = front ++ r2 /\ marked Unaries front lhs.
Proof.
  intros parse t x q r lhs r2 SA EX EQ EP. destruct q; cbn [prefix_parse_s] in EP.
  - destruct (parse 0%Z r) as [[e1 r1]|? ?| |] eqn:E1; cbn [pbind] in EP; try discriminate.
    destruct (SA 0%Z r e1 r1 ltac:(lia) E1) as (front & -> & X & _).
    destruct r1 as [|u r1]; cbn [consume_right_paren_s pbind] in EP; try discriminate.
    destruct (t_type u) eqn:EU; cbn [pbind] in EP; try discriminate. injection EP as <- <-.
    exists (t :: front ++ [u]). split; [cbn; now rewrite <- app_assoc|]. apply k_paren; auto.
    destruct (t_type t); cbn in EX; inversion EX; subst; cbn in EQ; congruence.
  - destruct (t_type t) eqn:ET; try discriminate. injection EP as <- <-. exists [t]. split; [reflexivity|now apply k_name].
  - destruct (t_type t) eqn:ET; try discriminate. injection EP as <- <-. exists [t]. split; [reflexivity|now apply k_macro_label].
  - destruct (t_type t) eqn:ET; try discriminate. injection EP as <- <-. exists [t]. split; [reflexivity|now apply k_macro_arg].
  - destruct (t_type t) eqn:ET; try discriminate. injection EP as <- <-. exists [t]. split; [reflexivity|now apply k_number].
  - destruct (parse Prefix r) as [[e1 r1]|? ?| |] eqn:E1; cbn [pbind] in EP; try discriminate.
    destruct (SA Prefix r e1 r1 ltac:(unfold Prefix; lia) E1) as (front & -> & X & _).
    exists (t :: front). destruct (t_type t) eqn:ET; try discriminate; injection EP as <- <-;
    (split; [reflexivity|]; apply k_unary; [rewrite ET; cbn; auto|exact X]).
Qed.

Lemma s_grammar : forall f, s_sound (pratt_s f).
Proof.
  induction f as [|f IH]; intros p ts e rest Hp E; cbn [pratt_s] in E; [discriminate|].
  destruct ts as [|t r]; cbn [next_s pbind] in E; [discriminate|].
  unfold expr_tok_type_s in E. destruct (expr_type (t_type t)) as [x|] eqn:EX; cbn [pbind] in E; [|discriminate].
  destruct (prefix_table x) as [q|] eqn:EQ; [|discriminate].
  destruct (prefix_parse_s (pratt_s f) q t r) as [[lhs r2]|? ?| |] eqn:EP; cbn [pbind] in E; try discriminate.
  destruct (prefix_marked _ _ _ _ _ _ _ IH EX EQ EP) as (front & F & X). rewrite F.
  destruct (s_loop_sound _ IH _ _ p lhs r2 e rest front Unaries Hp E X) as (mid & -> & X2 & Hr); auto.
  { assert (K := precedence_range (types r2)). cbn. lia. }
  exists (front ++ mid). rewrite <- app_assoc. auto.
Qed.

Lemma parse_marked : forall ts e rest, parse_expr_s ts = POk (e, rest) ->
  exists front, ts = front ++ rest /\ marked Bits front e.
Proof. intros ts e rest H. destruct (s_grammar _ 0%Z ts e rest ltac:(lia) H) as (front & -> & X & _). now exists front. Qed.

Lemma marked_parents : forall l ts e, marked l ts e -> parents (span_of e) = [].
Proof. intros l ts e M. induction M; cbn; auto. Qed.

Lemma marked_part : forall l ts e, marked l ts e -> forall x, part_of x e ->
  exists before mid after l2, ts = before ++ mid ++ after /\ marked l2 mid x.
Proof.
  intros l ts e M. induction M; intros x P.
  - inversion P; subst.
    + exists [], (ts1 ++ t :: ts2), [], l. rewrite app_nil_r. split; [reflexivity|]. now apply k_binary.
    + destruct (IHM1 _ ltac:(eassumption)) as (b1 & m & a1 & l2 & -> & X). exists b1, m, (a1 ++ t :: ts2), l2. rewrite <- !app_assoc. auto.
    + destruct (IHM2 _ ltac:(eassumption)) as (b1 & m & a1 & l2 & -> & X). exists (ts1 ++ t :: b1), m, a1, l2. rewrite <- !app_assoc. auto.
  - auto.
  - inversion P; subst.
    + exists [], (t :: ts), [], Unaries. rewrite app_nil_r. split; [reflexivity|]. now apply k_unary.
    + destruct (IHM _ ltac:(eassumption)) as (b1 & m & a1 & l2 & -> & X). exists (t :: b1), m, a1, l2. auto.
  - destruct (IHM _ P) as (b1 & m & a1 & l2 & -> & X). exists (t :: b1), m, (a1 ++ [u]), l2. rewrite <- !app_assoc. auto.
  - inversion P; subst. exists [], [t], [], Unaries. split; [reflexivity|now apply k_name].
  - inversion P; subst. exists [], [t], [], Unaries. split; [reflexivity|now apply k_number].
  - inversion P; subst. exists [], [t], [], Unaries. split; [reflexivity|now apply k_macro_label].
  - inversion P; subst. exists [], [t], [], Unaries. split; [reflexivity|now apply k_macro_arg].
Qed.

Lemma unary_token : forall t op, In (t_type t, un_expr op) unary_operators -> t_type t <> TLeftParen.
Proof. intros t op I E. rewrite E in I. cbn in I. repeat (destruct I as [I|I]; [discriminate|]). destruct I. Qed.

Lemma marked_begins : forall l ts e, marked l ts e -> begins ts (span_of e).
Proof.
  intros l ts e M. induction M; cbn [span_of].
  - destruct IHM1 as (ps & u & r & -> & F & N & E). exists ps, u, (r ++ t :: ts2). rewrite <- app_assoc. auto.
  - assumption.
  - exists [], t, ts. split; [reflexivity|]. split; [constructor|]. split; [now apply (unary_token t op)|reflexivity].
  - destruct IHM as (ps & w & r & -> & F & N & E). exists (t :: ps), w, (r ++ [u]). cbn [app]. rewrite <- !app_assoc. auto.
  - exists [], t, []. rewrite H. repeat split; [constructor|discriminate].
  - exists [], t, []. rewrite H. repeat split; [constructor|discriminate].
  - exists [], t, []. rewrite H. repeat split; [constructor|discriminate].
  - exists [], t, []. rewrite H. repeat split; [constructor|discriminate].
Qed.

Lemma marked_ends : forall l ts e, marked l ts e -> unary_free e -> ends ts (span_of e).
Proof.
  intros l ts e M. induction M; cbn [span_of unary_free]; intros U.
  - destruct (IHM2 (proj2 U)) as (r & u & ps & -> & F & N & E). exists (ts1 ++ t :: r), u, ps. rewrite <- app_assoc. auto.
  - auto.
  - destruct U.
  - destruct (IHM U) as (r & w & ps & -> & F & N & E). exists (t :: r), w, (ps ++ [u]). cbn [app]. rewrite <- !app_assoc. cbn [app].
    split; [reflexivity|]. split; [|auto]. apply Forall_app. auto.
  - exists [], t, []. rewrite H. repeat split; [constructor|discriminate].
  - exists [], t, []. rewrite H. repeat split; [constructor|discriminate].
  - exists [], t, []. rewrite H. repeat split; [constructor|discriminate].
  - exists [], t, []. rewrite H. repeat split; [constructor|discriminate].
Qed.
