(** Where the errors of evaluation and parsing of expressions point. *)
From Coq Require Import ZArith List String Ascii Bool Arith Lia.
From Verif Require Import Base Expr Instr Ast Macro Lexer Parser SpecParse ParseProofs Span SpecSpan SpanProofs.
Import ListNotations.
Open Scope list_scope.
Local Open Scope nat_scope.

(** * Evaluation *)

Lemma chk32_no_err : forall pr z e, chk32 pr z <> Err e.
Proof. intros pr z e. unfold chk32. match goal with |- (if ?c then _ else _) <> _ => destruct c; [discriminate|] end. destruct pr; discriminate. Qed.

Lemma un_value_err : forall pr s op a e p, un_value pr s op a = PErr e p -> False.
Proof.
  intros pr s op a e p H. destruct op; cbn [un_value] in H; try discriminate.
  destruct (chk32 pr (-1 * a)) as [v|x| |] eqn:C; cbn in H; try discriminate. now apply chk32_no_err in C.
Qed.

Lemma bin_value_err : forall pr s op a b e p, bin_value pr s op a b = PErr e p ->
  op = BDivide /\ b = 0%Z /\ e = DivideByZero /\ p = [s].
Proof.
  intros pr s op a b e p H. destruct op; cbn [bin_value] in H; try discriminate;
  try (match type of H with at_span _ ?c = _ => destruct c as [v|x| |] eqn:C end; cbn in H; try discriminate; now apply chk32_no_err in C).
  destruct (Z.eqb_spec b 0) as [->|N]; [injection H as <- <-; auto|].
  destruct ((a =? -2147483648)%Z && (b =? -1)%Z)%bool; discriminate.
Qed.

Lemma eval_names : forall pr en l ts e, marked l ts e -> forall v, eval_s pr en e = POk v ->
  forall t n, In t ts -> t_type t = TName n -> known en n.
Proof.
  intros pr en l ts e M. induction M; intros v E t0 m I0 T0; cbn [eval_s] in E.
  - destruct (eval_s pr en a) as [va| | |] eqn:Ea; cbn [pbind] in E; try discriminate.
    destruct (eval_s pr en b) as [vb| | |] eqn:Eb; cbn [pbind] in E; try discriminate.
    apply in_app_or in I0 as [I0|[<-|I0]]; [now apply (IHM1 va eq_refl t0)| |now apply (IHM2 vb eq_refl t0)].
    exfalso. rewrite T0 in H. cbn in H. repeat (destruct H as [H|H]; [discriminate|]). destruct H.
  - now apply (IHM v E t0).
  - destruct (eval_s pr en e) as [va| | |] eqn:Ea; cbn [pbind] in E; try discriminate.
    destruct I0 as [<-|I0]; [|now apply (IHM va eq_refl t0)].
    exfalso. rewrite T0 in H. cbn in H. repeat (destruct H as [H|H]; [discriminate|]). destruct H.
  - destruct I0 as [<-|I0]; [congruence|]. apply in_app_or in I0 as [I0|[<-|[]]]; [now apply (IHM v E t0)|congruence].
  - destruct I0 as [<-|[]]. rewrite T0 in H. injection H as <-. unfold known. destruct (env_get en (lower m)); congruence.
  - destruct I0 as [<-|[]]. congruence.
  - destruct I0 as [<-|[]]. congruence.
  - destruct I0 as [<-|[]]. congruence.
Qed.

Definition names_known (en : env) (ts : list token) : Prop := forall t n, In t ts -> t_type t = TName n -> known en n.

Lemma eval_unknown : forall pr en l ts e, marked l ts e -> forall k n p, eval_s pr en e = PErr (NameNotFound k n) p ->
  k = env_kind en /\ exists before t after, ts = before ++ t :: after /\ t_type t = TName n /\ p = [alone (t_span t)] /\
    ~ known en n /\ names_known en before.
Proof.
  intros pr en l ts e M. induction M; intros k m p E; cbn [eval_s] in E; try discriminate.
  - destruct (eval_s pr en a) as [va|ea pa| |] eqn:Ea; cbn [pbind] in E; try discriminate.
    + destruct (eval_s pr en b) as [vb|eb pb| |] eqn:Eb; cbn [pbind] in E; try discriminate.
      * apply bin_value_err in E as (_ & _ & E & _). discriminate.
      * injection E as -> ->. destruct (IHM2 _ _ _ eq_refl) as (K & b1 & t1 & a1 & -> & T & P & U & N). split; [exact K|].
        exists (ts1 ++ t :: b1), t1, a1. rewrite <- app_assoc. repeat (split; auto).
        intros t2 n2 I2 T2. apply in_app_or in I2 as [I2|[<-|I2]]; [now apply (eval_names pr en l ts1 a M1 va Ea t2)| |now apply (N t2)].
        exfalso. rewrite T2 in H. cbn in H. repeat (destruct H as [H|H]; [discriminate|]). destruct H.
    + injection E as -> ->. destruct (IHM1 _ _ _ eq_refl) as (K & b1 & t1 & a1 & -> & T & P & U & N). split; [exact K|].
      exists b1, t1, (a1 ++ t :: ts2). rewrite <- app_assoc. repeat (split; auto).
  - now apply IHM.
  - destruct (eval_s pr en e) as [va|ea pa| |] eqn:Ea; cbn [pbind] in E; try discriminate.
    + now apply un_value_err in E.
    + injection E as -> ->. destruct (IHM _ _ _ eq_refl) as (K & b1 & t1 & a1 & -> & T & P & U & N). split; [exact K|].
      exists (t :: b1), t1, a1. repeat (split; auto). intros t2 n2 [<-|I2] T2; [|now apply (N t2)].
      exfalso. rewrite T2 in H. cbn in H. repeat (destruct H as [H|H]; [discriminate|]). destruct H.
  - destruct (IHM _ _ _ E) as (K & b1 & t1 & a1 & -> & T & P & U & N). split; [exact K|].
    exists (t :: b1), t1, (a1 ++ [u]). cbn [app]. rewrite <- app_assoc. repeat (split; auto).
    intros t2 n2 [<-|I2] T2; [congruence|now apply (N t2)].
  - destruct (env_get en (lower n)) eqn:G; [discriminate|]. injection E as <- <- <-. split; [reflexivity|].
    exists [], t, []. split; [reflexivity|]. split; [exact H|]. split; [reflexivity|]. split; [|intros t2 n2 []].
    intros U. now apply U.
Qed.

Lemma eval_zero : forall pr en e p, eval_s pr en e = PErr DivideByZero p ->
  exists s l r a, part_of (XBin BDivide s l r) e /\ p = [s] /\ eval_s pr en l = POk a /\ eval_s pr en r = POk 0%Z.
Proof.
  intros pr en. induction e as [s n|s n r|s n|s n|op s x IH|op s l IHl r IHr]; intros p E; cbn [eval_s] in E; try discriminate.
  - destruct (env_get en (lower n)); discriminate.
  - destruct (eval_s pr en x) as [va|ea pa| |] eqn:Ea; cbn [pbind] in E; try discriminate.
    + now apply un_value_err in E.
    + injection E as -> ->. destruct (IH _ eq_refl) as (s1 & l1 & r1 & a1 & P & Q). exists s1, l1, r1, a1. split; [now apply part_under|exact Q].
  - destruct (eval_s pr en l) as [va|ea pa| |] eqn:Ea; cbn [pbind] in E; try discriminate.
    + destruct (eval_s pr en r) as [vb|eb pb| |] eqn:Eb; cbn [pbind] in E; try discriminate.
      * apply bin_value_err in E as (-> & -> & _ & ->). exists s, l, r, va. repeat (split; auto). apply part_self.
      * injection E as -> ->. destruct (IHr _ eq_refl) as (s1 & l1 & r1 & a1 & P & Q). exists s1, l1, r1, a1. split; [now apply part_right|exact Q].
    + injection E as -> ->. destruct (IHl _ eq_refl) as (s1 & l1 & r1 & a1 & P & Q). exists s1, l1, r1, a1. split; [now apply part_left|exact Q].
Qed.

(** * Parsing *)

Definition more_fuel (p q : sparser) : Prop := forall k ts, p k ts <> PDiverge -> q k ts = p k ts.

Lemma more_prefix : forall p q, more_fuel p q -> forall x t ts, prefix_parse_s p x t ts <> PDiverge ->
  prefix_parse_s q x t ts = prefix_parse_s p x t ts.
Proof.
  intros p q M x t ts N. destruct x; cbn [prefix_parse_s] in *; try reflexivity;
  match goal with |- context[q ?k ts] => rewrite (M k ts); [reflexivity|]; intros E; rewrite E in N; now apply N end.
Qed.

Lemma more_infix : forall p q, more_fuel p q -> forall k l t ts, infix_parse_s p k l t ts <> PDiverge ->
  infix_parse_s q k l t ts = infix_parse_s p k l t ts.
Proof.
  intros p q M k l t ts N. unfold infix_parse_s in *. rewrite (M k ts); [reflexivity|]. intros E. rewrite E in N. now apply N.
Qed.

Lemma more_loop : forall p q, more_fuel p q -> forall f g loc k l ts, f <= g -> infix_loop_s p f loc k l ts <> PDiverge ->
  infix_loop_s q g loc k l ts = infix_loop_s p f loc k l ts.
Proof.
  intros p q M. induction f as [|f IH]; intros g loc k l ts L N; destruct g as [|g]; try lia; cbn [infix_loop_s] in *;
  destruct (k <? precedence (map t_type ts))%Z; try reflexivity; try congruence.
  destruct ts as [|t r]; cbn [next_s pbind] in *; [reflexivity|].
  destruct (expr_tok_type_s loc t) as [x| | |]; cbn [pbind] in *; try reflexivity.
  destruct (infix_table x) as [w|]; [|reflexivity].
  rewrite (more_infix p q M). 2: { intros E. rewrite E in N. now apply N. }
  destruct (infix_parse_s p w l t r) as [[e r2]| | |]; cbn [pbind] in *; try reflexivity. apply IH; [lia|assumption].
Qed.

Lemma more_pratt : forall f g, f <= g -> more_fuel (pratt_s f) (pratt_s g).
Proof.
  induction f as [|f IH]; intros g L k ts N; [cbn in N; congruence|]. destruct g as [|g]; [lia|].
  assert (M := IH g ltac:(lia)). cbn [pratt_s] in *.
  destruct ts as [|t r]; cbn [next_s pbind] in *; [reflexivity|].
  destruct (expr_tok_type_s (s_start (t_span t)) t) as [x| | |]; cbn [pbind] in *; try reflexivity.
  destruct (prefix_table x) as [w|]; [|reflexivity].
  rewrite (more_prefix _ _ M). 2: { intros E. rewrite E in N. now apply N. }
  destruct (prefix_parse_s (pratt_s f) w t r) as [[e r2]| | |]; cbn [pbind] in *; try reflexivity. apply more_loop; auto; lia.
Qed.

(** What is read decides: the tokens behind the next one do not matter. *)
Definition local_ok (p : sparser) : Prop := forall k front e t rest rest2,
  (0 <= k)%Z -> p k (front ++ t :: rest) = POk (e, t :: rest) -> p k (front ++ t :: rest2) = POk (e, t :: rest2).

Lemma same_length_app : forall A (a b c d : list A), a ++ c = b ++ d -> List.length c = List.length d -> a = b /\ c = d.
Proof.
  intros A a b c d E L. assert (H := f_equal (@List.length _) E). rewrite !app_length in H.
  revert b E H. induction a as [|x a IH]; intros [|y b] E H; cbn in *; try lia; auto.
  injection E as -> E. destruct (IH b E ltac:(lia)) as [-> ->]. auto.
Qed.

Lemma app_inv_back : forall A (a b c : list A), a ++ c = b ++ c -> a = b.
Proof. intros A a b c E. apply (app_inv_tail c a b E). Qed.

Lemma prefix_local : forall p, s_sound p -> local_ok p -> forall x y t front e u rest rest2,
  expr_type (t_type t) = Some y -> prefix_table y = Some x ->
  prefix_parse_s p x t (front ++ u :: rest) = POk (e, u :: rest) -> prefix_parse_s p x t (front ++ u :: rest2) = POk (e, u :: rest2).
Proof.
  intros p SA LO x y t front e u rest rest2 EY EX H.
  assert (Z0: forall a, a = front ++ u :: rest -> a = u :: rest -> front = []).
  { intros a -> Q. apply (app_inv_back _ front [] (u :: rest) Q). }
  destruct x; cbn [prefix_parse_s] in *.
  - destruct (p 0%Z (front ++ u :: rest)) as [[e1 r1]|? ?| |] eqn:E1; cbn [pbind] in H; try discriminate.
    destruct (SA 0%Z _ e1 r1 ltac:(lia) E1) as (f1 & F & _ & _).
    destruct r1 as [|w r1]; cbn [consume_right_paren_s pbind] in H; try discriminate.
    destruct (t_type w) eqn:EU; cbn [pbind] in H; try discriminate. injection H as <- ->.
    change (f1 ++ w :: u :: rest) with (f1 ++ [w] ++ u :: rest) in F. rewrite app_assoc in F. apply app_inv_back in F. subst front.
    rewrite <- app_assoc in *. cbn [app] in *.
    rewrite (LO 0%Z f1 e1 w (u :: rest) (u :: rest2)) by (auto; lia). cbn [pbind consume_right_paren_s]. rewrite EU. reflexivity.
  - destruct (t_type t); try discriminate. injection H as <- Q. rewrite (Z0 _ eq_refl Q). reflexivity.
  - destruct (t_type t); try discriminate. injection H as <- Q. rewrite (Z0 _ eq_refl Q). reflexivity.
  - destruct (t_type t); try discriminate. injection H as <- Q. rewrite (Z0 _ eq_refl Q). reflexivity.
  - destruct (t_type t); try discriminate. injection H as <- Q. rewrite (Z0 _ eq_refl Q). reflexivity.
  - destruct (p Prefix (front ++ u :: rest)) as [[e1 r1]|? ?| |] eqn:E1; cbn [pbind] in H; try discriminate.
    assert (R: r1 = u :: rest) by (destruct (t_type t); try discriminate; now injection H). subst r1.
    rewrite (LO Prefix front e1 u rest rest2) by (auto; unfold Prefix; lia). cbn [pbind].
    destruct (t_type t); try discriminate; injection H as <-; reflexivity.
Qed.

Lemma precedence_head : forall t r r2, precedence (types (t :: r)) = precedence (types (t :: r2)). Proof. reflexivity. Qed.

Lemma s_loop_inv : forall p, s_sound p -> forall f loc k x r2 e rest, (0 <= k)%Z ->
  infix_loop_s p f loc k x r2 = POk (e, rest) -> exists m, r2 = m ++ rest.
Proof.
  intros p SA. induction f as [|f IH]; intros loc k x r2 e rest K H; cbn [infix_loop_s] in H; destruct (k <? _)%Z; try discriminate.
  - injection H as _ ->. now exists [].
  - destruct r2 as [|t r]; cbn [next_s pbind] in H; [discriminate|]. unfold expr_tok_type_s in H.
    destruct (expr_type (t_type t)) as [y|] eqn:EX; cbn [pbind] in H; [|discriminate].
    destruct (infix_table y) as [w|] eqn:EW; [|discriminate].
    assert (W := infix_pos _ _ EW).
    destruct (infix_op _ _ _ EX EW) as (op2 & lo2 & TO & I & ->). rewrite (infix_step _ _ _ _ _ _ TO) in H.
    destruct (p (prec_of lo2) r) as [[rhs2 r3]|? ?| |] eqn:EP; cbn [pbind] in H; try discriminate.
    destruct (SA (prec_of lo2) r rhs2 r3 ltac:(lia) EP) as (f2 & -> & _ & _).
    destruct (IH _ _ _ _ _ _ K H) as (m & ->). exists (t :: f2 ++ m). cbn [app]. now rewrite <- app_assoc.
  - injection H as _ ->. now exists [].
Qed.

Lemma too_long : forall (t u : token) front rest, t :: front ++ u :: rest = u :: rest -> False.
Proof. intros t u front rest H. apply (f_equal (@List.length _)) in H. cbn in H. rewrite app_length in H. cbn in H. lia. Qed.

Lemma loop_local : forall p, s_sound p -> local_ok p -> forall f loc k l front e u rest rest2, (0 <= k)%Z ->
  infix_loop_s p f loc k l (front ++ u :: rest) = POk (e, u :: rest) ->
  infix_loop_s p f loc k l (front ++ u :: rest2) = POk (e, u :: rest2).
Proof.
  intros p SA LO. induction f as [|f IH]; intros loc k l front e u rest rest2 K H.
  - destruct front as [|t front]; cbn [infix_loop_s app map] in *; rewrite ?(precedence_head) in *.
    + change (precedence (t_type u :: map t_type rest)) with (precedence (t_type u :: map t_type rest2)) in H.
      destruct (k <? _)%Z; [discriminate|]. injection H as <-. reflexivity.
    + change (precedence (t_type t :: map t_type (front ++ u :: rest))) with (precedence (t_type t :: map t_type (front ++ u :: rest2))) in H.
      destruct (k <? _)%Z; [discriminate|]. exfalso. assert (H2: t :: front ++ u :: rest = u :: rest) by congruence. now apply too_long in H2.
  - destruct front as [|t front].
    + cbn [infix_loop_s app map] in *.
      change (precedence (t_type u :: map t_type rest2)) with (precedence (t_type u :: map t_type rest)).
      destruct (k <? _)%Z; [|injection H as <-; reflexivity]. exfalso. cbn [next_s pbind] in H. unfold expr_tok_type_s in H.
      destruct (expr_type (t_type u)) as [x|] eqn:EX; cbn [pbind] in H; [|discriminate].
      destruct (infix_table x) as [w|] eqn:EW; [|discriminate].
      assert (W := infix_pos _ _ EW).
      destruct (infix_op _ _ _ EX EW) as (op & lo & TO & I & ->). rewrite (infix_step _ _ _ _ _ _ TO) in H.
      destruct (p (prec_of lo) rest) as [[rhs r2]|? ?| |] eqn:EP; cbn [pbind] in H; try discriminate.
      destruct (SA (prec_of lo) rest rhs r2 ltac:(lia) EP) as (f2 & F2 & _ & _).
      assert (Q := s_loop_inv p SA _ _ _ _ _ _ _ K H).
      destruct Q as (m & ->). apply (f_equal (@List.length _)) in F2. rewrite !app_length in F2. cbn in F2. lia.
    + cbn [infix_loop_s app map] in *.
      change (precedence (t_type t :: map t_type (front ++ u :: rest2))) with (precedence (t_type t :: map t_type (front ++ u :: rest))).
      destruct (k <? _)%Z.
      2: { exfalso. assert (H2: t :: front ++ u :: rest = u :: rest) by congruence. now apply too_long in H2. }
      cbn [next_s pbind] in *. unfold expr_tok_type_s in *.
      destruct (expr_type (t_type t)) as [x|] eqn:EX; cbn [pbind] in *; [|discriminate].
      destruct (infix_table x) as [w|] eqn:EW; [|discriminate].
      assert (W := infix_pos _ _ EW).
      destruct (infix_op _ _ _ EX EW) as (op & lo & TO & I & ->). rewrite (infix_step _ _ _ _ _ _ TO) in H. rewrite (infix_step _ _ _ _ _ _ TO).
      destruct (p (prec_of lo) (front ++ u :: rest)) as [[rhs r2]|? ?| |] eqn:EP; cbn [pbind] in H; try discriminate.
      destruct (SA (prec_of lo) _ rhs r2 ltac:(lia) EP) as (f2 & F2 & _ & _).
      destruct (s_loop_inv p SA f loc k _ r2 _ _ K H) as (m & ->).
      rewrite app_assoc in F2. apply app_inv_back in F2. subst front. rewrite <- app_assoc in *.
      destruct m as [|t2 m].
      * cbn [app] in *. rewrite (LO _ f2 rhs u rest rest2) by (auto; lia). cbn [pbind]. apply (IH loc k _ [] e u rest rest2); auto.
      * cbn [app] in *. rewrite (LO _ f2 rhs t2 (m ++ u :: rest) (m ++ u :: rest2)) by (auto; lia). cbn [pbind].
        apply (IH loc k _ (t2 :: m) e u rest rest2); auto.
Qed.

Lemma marked_nonempty : forall l ts e, marked l ts e -> ts <> [].
Proof. intros l ts e M. induction M; try discriminate; auto. destruct ts1; discriminate. Qed.

Lemma local_further : forall p, local_ok p -> forall k front e mid t rest rest2, (0 <= k)%Z ->
  p k (front ++ mid ++ t :: rest) = POk (e, mid ++ t :: rest) -> p k (front ++ mid ++ t :: rest2) = POk (e, mid ++ t :: rest2).
Proof.
  intros p LO k front e [|u mid] t rest rest2 K H; cbn [app] in *; [now apply (LO k front e t rest)|].
  now apply (LO k front e u (mid ++ t :: rest)).
Qed.

Lemma prefix_further : forall p, s_sound p -> local_ok p -> forall x y t front e mid u rest rest2,
  expr_type (t_type t) = Some y -> prefix_table y = Some x ->
  prefix_parse_s p x t (front ++ mid ++ u :: rest) = POk (e, mid ++ u :: rest) ->
  prefix_parse_s p x t (front ++ mid ++ u :: rest2) = POk (e, mid ++ u :: rest2).
Proof.
  intros p SA LO x y t front e [|w mid] u rest rest2 EY EX H; cbn [app] in *.
  - now apply (prefix_local p SA LO x y t front e u rest).
  - now apply (prefix_local p SA LO x y t front e w (mid ++ u :: rest)).
Qed.

Lemma prefix_front : forall parse t x q r lhs r2, s_sound parse -> expr_type (t_type t) = Some x -> prefix_table x = Some q ->
  prefix_parse_s parse q t r = POk (lhs, r2) -> exists front, r = front ++ r2 /\ marked Unaries (t :: front) lhs.
Proof.
  intros parse t x q r lhs r2 SA EX EQ EP. destruct (prefix_marked _ _ _ _ _ _ _ SA EX EQ EP) as (front & F & M).
  assert (N := marked_nonempty _ _ _ M). destruct front as [|u front]; [congruence|]. injection F as <- ->. now exists front.
Qed.

Lemma pratt_local : forall f, local_ok (pratt_s f).
Proof.
  induction f as [|f IH]; intros k front e u rest rest2 K H; cbn [pratt_s] in H; [discriminate|].
  destruct front as [|t front].
  - destruct (s_grammar (S f) k (u :: rest) e (u :: rest) K H) as (f2 & F & M & _).
    apply (app_inv_back _ [] f2 (u :: rest)) in F. subst f2. now apply marked_nonempty in M.
  - cbn [app next_s pbind pratt_s] in *. unfold expr_tok_type_s in *.
    destruct (expr_type (t_type t)) as [x|] eqn:EX; cbn [pbind] in *; [|discriminate].
    destruct (prefix_table x) as [q|] eqn:EQ; [|discriminate].
    destruct (prefix_parse_s (pratt_s f) q t (front ++ u :: rest)) as [[lhs r2]|? ?| |] eqn:EP; cbn [pbind] in H; try discriminate.
    destruct (prefix_front _ _ _ _ _ _ _ (s_grammar f) EX EQ EP) as (fp & F & M).
    destruct (s_loop_inv _ (s_grammar f) _ _ _ _ _ _ _ K H) as (m & ->).
    rewrite app_assoc in F. apply app_inv_back in F. subst front. rewrite <- app_assoc in *.
    rewrite (prefix_further _ (s_grammar f) IH q x t fp lhs m u rest rest2 EX EQ EP). cbn [pbind].
    apply (loop_local _ (s_grammar f) IH f _ k lhs m e u rest rest2 K H).
Qed.

Definition blamed (t : token) (e : error) (at_ : list pspan) : Prop :=
  (e = InvalidExpression /\ at_ = [to_span (s_start (t_span t))]) \/
  (e = ExpectedTokenNotFound "')'" /\ at_ = [alone (t_span t)]).

Definition completes (l : level) (ts : list token_type) : Prop := exists more x, expression l (ts ++ more) x.

Definition err_spec (p : sparser) : Prop := forall k ts e at_, (0 <= k)%Z -> p k ts = PErr e at_ ->
  (e = UnexpectedEof /\ at_ = [] /\ completes (above k) (types ts)) \/
  exists front t rest, ts = front ++ t :: rest /\ blamed t e at_ /\ completes (above k) (types front) /\
    forall rest2, p k (front ++ t :: rest2) = PErr e at_.

Lemma completes_weaken : forall l l2 ts, (prec_of l2 <= prec_of l)%Z -> completes l ts -> completes l2 ts.
Proof. intros l l2 ts H (more & x & X). exists more, x. now apply (weaken l). Qed.

Lemma above_unaries : forall p, (prec_of (above p) <= prec_of Unaries)%Z.
Proof. intros p. unfold above. destruct (p <? 1)%Z, (p <? 3)%Z, (p <? 4)%Z; cbn; lia. Qed.

Lemma paren_token : forall t x, expr_type t = Some x -> prefix_table x = Some ParenParselet -> t = TLeftParen.
Proof. intros t x E Q. destruct t; cbn in E; try discriminate; injection E as <-; cbn in Q; try discriminate; reflexivity. Qed.

Lemma completes_paren : forall ts, completes Bits ts -> completes Unaries (TLeftParen :: ts).
Proof.
  intros ts (more & x & X). exists (more ++ [TRightParen]), x. cbn [app]. rewrite app_assoc. now apply g_paren.
Qed.

Lemma prefix_unary : forall t x, expr_type t = Some x -> prefix_table x = Some PrefixOperatorParselet ->
  exists op, In (t, un_expr op) unary_operators.
Proof.
  intros t x E Q. destruct t; cbn in E; try discriminate; injection E as <-; cbn in Q; try discriminate;
  [exists UMinus|exists UUpper|exists ULower]; cbn; auto.
Qed.

Lemma types_app : forall a b, types (a ++ b) = types a ++ types b. Proof. intros. apply map_app. Qed.

Lemma prefix_err : forall p, s_sound p -> local_ok p -> err_spec p -> forall q x t r e at_,
  expr_type (t_type t) = Some x -> prefix_table x = Some q -> prefix_parse_s p q t r = PErr e at_ ->
  (e = UnexpectedEof /\ at_ = [] /\ completes Unaries (t_type t :: types r)) \/
  exists front u rest, r = front ++ u :: rest /\ blamed u e at_ /\ completes Unaries (t_type t :: types front) /\
    forall rest2, prefix_parse_s p q t (front ++ u :: rest2) = PErr e at_.
Proof.
  intros p SA LO ES q x t r e at_ EX EQ H. destruct q; cbn [prefix_parse_s] in H.
  - rewrite (paren_token _ _ EX EQ). destruct (p 0%Z r) as [[e1 r1]|e1 s1| |] eqn:E1; cbn [pbind] in H; try discriminate.
    + destruct (SA 0%Z r e1 r1 ltac:(lia) E1) as (front & -> & X & _). apply marked_expression in X.
      assert (C: completes Unaries (TLeftParen :: types front)).
      { exists [TRightParen], (erase e1). cbn [app]. now apply g_paren. }
      destruct r1 as [|u r1]; cbn [consume_right_paren_s pbind] in H.
      * injection H as <- <-. left. rewrite app_nil_r. auto.
      * right. exists front, u, r1. split; [reflexivity|].
        assert (LOC: forall rest2, p 0%Z (front ++ u :: rest2) = POk (e1, u :: rest2)).
        { intros rest2. apply (LO 0%Z front e1 u r1 rest2); auto. lia. }
        destruct (t_type u) eqn:TU; cbn [pbind] in H; try discriminate; injection H as <- <-;
        (split; [right; auto|]; split; [exact C|]; intros rest2; cbn [prefix_parse_s]; rewrite LOC; cbn [pbind consume_right_paren_s];
         rewrite TU; reflexivity).
    + injection H as -> ->. destruct (ES 0%Z r e at_ ltac:(lia) E1) as [(-> & -> & C)|(front & u & rest & -> & B & C & LOC)].
      * left. split; [reflexivity|]. split; [reflexivity|]. now apply completes_paren.
      * right. exists front, u, rest. split; [reflexivity|]. split; [exact B|]. split; [now apply completes_paren|].
        intros rest2. cbn [prefix_parse_s]. rewrite LOC. reflexivity.
  - exfalso. destruct (t_type t); cbn in EX; try discriminate; injection EX as <-; cbn in EQ; discriminate.
  - exfalso. destruct (t_type t); cbn in EX; try discriminate; injection EX as <-; cbn in EQ; discriminate.
  - exfalso. destruct (t_type t); cbn in EX; try discriminate; injection EX as <-; cbn in EQ; discriminate.
  - exfalso. destruct (t_type t); cbn in EX; try discriminate; injection EX as <-; cbn in EQ; discriminate.
  - destruct (prefix_unary _ _ EX EQ) as (op & I).
    destruct (p Prefix r) as [[e1 r1]|e1 s1| |] eqn:E1; cbn [pbind] in H; try discriminate.
    + exfalso. cbn in I. repeat (destruct I as [I|I]; [injection I as I _; rewrite <- I in H; discriminate|]). destruct I.
    + injection H as -> ->.
      assert (CC: forall a, completes (above Prefix) a -> completes Unaries (t_type t :: a)).
      { intros a (more & y & Y). exists more, (un_expr op y). cbn [app]. now apply g_unary. }
      destruct (ES Prefix r e at_ ltac:(unfold Prefix; lia) E1) as [(-> & -> & C)|(front & u & rest & -> & B & C & LOC)].
      * left. auto.
      * right. exists front, u, rest. split; [reflexivity|]. split; [exact B|]. split; [auto|].
        intros rest2. cbn [prefix_parse_s]. rewrite LOC. reflexivity.
Qed.

Lemma loop_err : forall p, s_sound p -> local_ok p -> err_spec p -> forall f loc k lhs ts e at_ fr l,
  (0 <= k)%Z -> marked l fr lhs -> (precedence (types ts) <= prec_of l)%Z ->
  infix_loop_s p f loc k lhs ts = PErr e at_ ->
  (e = UnexpectedEof /\ at_ = [] /\ completes (above k) (types fr ++ types ts)) \/
  exists front t rest, ts = front ++ t :: rest /\ blamed t e at_ /\ completes (above k) (types fr ++ types front) /\
    forall rest2, infix_loop_s p f loc k lhs (front ++ t :: rest2) = PErr e at_.
Proof.
  intros p SA LO ES. induction f as [|f IH]; intros loc k lhs ts e at_ fr l K M PL H; cbn [infix_loop_s] in H;
  change (map t_type ts) with (types ts) in H; destruct (k <? precedence (types ts))%Z eqn:D; try discriminate.
  assert (D2 := proj1 (Z.ltb_lt _ _) D).
  destruct ts as [|t r]; cbn [next_s pbind] in H; [cbn in D2; lia|].
  unfold expr_tok_type_s in H.
  cbn [types map precedence] in D2.
  destruct (expr_type (t_type t)) as [x|] eqn:EX; cbn [pbind] in H; [|lia].
  destruct (infix_table x) as [w|] eqn:EW; [|lia].
  assert (W := infix_pos _ _ EW).
  destruct (infix_op _ _ _ EX EW) as (op & lo & TO & I & ->). rewrite (infix_step _ _ _ _ _ _ TO) in H.
  assert (N := operator_level _ _ _ I).
  assert (Q := operator_prec _ _ _ (types r) I). cbn [types map] in PL. change (map t_type r) with (types r) in PL. rewrite Q in PL.
  assert (ML: marked lo fr lhs) by (apply (marked_weaken l); [lia|assumption]).
  assert (CC: forall a, completes (tighter lo) a -> completes (above k) (types fr ++ t_type t :: a)).
  { intros a (more & y & Y). exists more, (bin_expr op (erase lhs) y). rewrite <- app_assoc. cbn [app].
    apply (weaken lo); [now apply above_le|]. apply (g_binary _ lo (bin_expr op)); auto. now apply marked_expression. }
  assert (ST: forall rest2, infix_loop_s p (S f) loc k lhs (t :: rest2) =
    let? (rhs, r2) := p (prec_of lo) rest2 in infix_loop_s p f loc k (XBin op (span_from (span_of lhs) (span_of rhs)) lhs rhs) r2).
  { intros rest2. cbn [infix_loop_s map precedence]. rewrite EX, EW. rewrite (proj2 (Z.ltb_lt _ _) D2). cbn [next_s pbind].
    unfold expr_tok_type_s. rewrite EX. cbn [pbind]. rewrite EW, (infix_step _ _ _ _ _ _ TO).
    destruct (p (prec_of lo) rest2) as [[a b]| | |]; reflexivity. }
  destruct (p (prec_of lo) r) as [[rhs r2]|e1 s1| |] eqn:EP; cbn [pbind] in H; try discriminate.
  - destruct (SA (prec_of lo) r rhs r2 ltac:(lia) EP) as (f2 & -> & X2 & Hr2). rewrite above_prec in X2.
    destruct (IH loc k _ r2 e at_ (fr ++ t :: f2) lo K (k_binary t op lo fr lhs f2 rhs I ML X2) Hr2 H)
      as [(-> & -> & C)|(front & u & rest & -> & B & C & LOC)].
    + left. split; [reflexivity|]. split; [reflexivity|]. rewrite types_app in C. rewrite <- app_assoc in C. cbn [types map] in *.
      rewrite map_app. exact C.
    + right. exists (t :: f2 ++ front), u, rest. cbn [app]. rewrite <- app_assoc. split; [reflexivity|]. split; [exact B|]. split.
      * rewrite types_app in C. rewrite <- app_assoc in C. cbn [types map] in *. rewrite map_app. exact C.
      * intros rest2. rewrite ST. rewrite <- app_assoc.
        rewrite (local_further _ LO (prec_of lo) f2 rhs front u rest rest2) by (auto; lia). cbn [pbind]. apply LOC.
  - injection H as -> ->. destruct (ES (prec_of lo) r e at_ ltac:(lia) EP) as [(-> & -> & C)|(front & u & rest & -> & B & C & LOC)];
    rewrite above_prec in C.
    + left. split; [reflexivity|]. split; [reflexivity|]. now apply CC.
    + right. exists (t :: front), u, rest. split; [reflexivity|]. split; [exact B|]. split; [now apply CC|].
      intros rest2. cbn [app]. rewrite ST, LOC. reflexivity.
Qed.

Lemma pratt_err : forall f, err_spec (pratt_s f).
Proof.
  induction f as [|f IH]; intros k ts e at_ K H; cbn [pratt_s] in H; [discriminate|].
  destruct ts as [|t r]; cbn [next_s pbind] in H.
  - injection H as <- <-. left. split; [reflexivity|]. split; [reflexivity|].
    apply (completes_weaken Unaries); [apply above_unaries|]. exists [TNumber 0 Decimal], (ENumber 0 Decimal). apply g_number.
  - unfold expr_tok_type_s in H. destruct (expr_type (t_type t)) as [x|] eqn:EX; cbn [pbind] in H.
    2: { injection H as <- <-. right. exists [], t, r. split; [reflexivity|]. split; [now left|]. split.
         - apply (completes_weaken Unaries); [apply above_unaries|]. exists [TNumber 0 Decimal], (ENumber 0 Decimal). apply g_number.
         - intros rest2. cbn [app pratt_s next_s pbind]. unfold expr_tok_type_s. rewrite EX. reflexivity. }
    destruct (prefix_table x) as [q|] eqn:EQ.
    2: { injection H as <- <-. right. exists [], t, r. split; [reflexivity|]. split; [now left|]. split.
         - apply (completes_weaken Unaries); [apply above_unaries|]. exists [TNumber 0 Decimal], (ENumber 0 Decimal). apply g_number.
         - intros rest2. cbn [app pratt_s next_s pbind]. unfold expr_tok_type_s. rewrite EX. cbn [pbind]. rewrite EQ. reflexivity. }
    assert (ST: forall rest2, pratt_s (S f) k (t :: rest2) =
      let? (lhs, r2) := prefix_parse_s (pratt_s f) q t rest2 in infix_loop_s (pratt_s f) f (s_start (t_span t)) k lhs r2).
    { intros rest2. cbn [pratt_s next_s pbind]. unfold expr_tok_type_s. rewrite EX. cbn [pbind]. now rewrite EQ. }
    destruct (prefix_parse_s (pratt_s f) q t r) as [[lhs r2]|e1 s1| |] eqn:EP; cbn [pbind] in H; try discriminate.
    + destruct (prefix_front _ _ _ _ _ _ _ (s_grammar f) EX EQ EP) as (fp & -> & M).
      assert (KR := precedence_range (types r2)).
      destruct (loop_err _ (s_grammar f) (pratt_local f) IH _ _ k lhs r2 e at_ (t :: fp) Unaries K M ltac:(cbn; lia) H)
        as [(-> & -> & C)|(front & u & rest & -> & B & C & LOC)].
      * left. split; [reflexivity|]. split; [reflexivity|]. cbn [types map] in *. now rewrite map_app.
      * right. exists (t :: fp ++ front), u, rest. cbn [app]. rewrite <- app_assoc. split; [reflexivity|]. split; [exact B|]. split.
        -- cbn [types map] in *. now rewrite map_app.
        -- intros rest2. rewrite ST. rewrite <- app_assoc.
           rewrite (prefix_further _ (s_grammar f) (pratt_local f) q x t fp lhs front u rest rest2 EX EQ EP). cbn [pbind]. apply LOC.
    + injection H as -> ->. destruct (prefix_err _ (s_grammar f) (pratt_local f) IH q x t r e at_ EX EQ EP)
        as [(-> & -> & C)|(front & u & rest & -> & B & C & LOC)].
      * left. split; [reflexivity|]. split; [reflexivity|]. now apply (completes_weaken Unaries); [apply above_unaries|].
      * right. exists (t :: front), u, rest. split; [reflexivity|]. split; [exact B|]. split.
        -- now apply (completes_weaken Unaries); [apply above_unaries|].
        -- intros rest2. cbn [app]. rewrite ST, LOC. reflexivity.
Qed.

(** Tokens with given types. *)
Definition untraced (t : token_type) : token := mkToken t (mkSpan (mkLoc 0 0 0 0) (mkLoc 0 0 0 0)).

Lemma types_untraced : forall l, types (map untraced l) = l.
Proof. intros l. unfold types. rewrite map_map. cbn. apply map_id. Qed.

Lemma parse_error : forall ts e at_, parse_expr_s ts = PErr e at_ ->
  (e = UnexpectedEof /\ at_ = [] /\ viable (types ts)) \/
  exists front t rest, ts = front ++ t :: rest /\ blamed t e at_ /\ viable (types front) /\ ~ viable (types (front ++ [t])).
Proof.
  intros ts e at_ H. destruct (pratt_err _ 0%Z ts e at_ ltac:(lia) H) as [C|(front & t & rest & -> & B & C & LOC)]; [now left|].
  right. exists front, t, rest. split; [reflexivity|]. split; [exact B|]. split; [exact C|].
  intros (more & x & X).
  assert (P1: parse_expr (types (front ++ t :: map untraced more)) = Ok (x, [])).
  { apply parse_expr_iff. exists (types (front ++ [t]) ++ more). rewrite app_nil_r. split; [|split; [exact X|]].
    - rewrite !types_app. cbn [types map]. rewrite <- app_assoc. cbn [app]. f_equal. f_equal. apply types_untraced.
    - intros (? & ? & ? & ? & E & _). discriminate. }
  rewrite <- same_parse in P1. unfold parse_expr_s in *.
  set (n := S (List.length (front ++ t :: rest))) in *. set (m := S (List.length (front ++ t :: map untraced more))) in *.
  assert (Q: pratt_s m 0%Z (front ++ t :: map untraced more) <> PDiverge).
  { intros Q. rewrite Q in P1. discriminate. }
  assert (E1 := more_pratt m (n + m) ltac:(lia) 0%Z _ Q).
  assert (E2 := more_pratt n (n + m) ltac:(lia) 0%Z (front ++ t :: map untraced more)).
  rewrite (LOC (map untraced more)) in E2. specialize (E2 ltac:(discriminate)).
  rewrite E1 in E2. rewrite E2 in P1. discriminate.
Qed.
