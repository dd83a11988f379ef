(** What is wrong with a line that is refused: labels, instructions, constants. *)
From Coq Require Import ZArith List String Ascii Bool Arith Lia.
From Verif Require Import Base Expr Instr Ast Macro Lexer Parser SpecParse ParseProofs Span SpanParser SpecSpan SpanProofs SpanProofs2 SpanProofs3 SpanParseProofs SpanValid.
From Verif Require Import SpecIsa SpecMacro MacroProofs SpecLine LineProofs LineProofs2 SpecSyntax SyntaxProofs SyntaxProofs2 SyntaxProofs3 SyntaxProofs4 SyntaxProofs5 SyntaxProofs6 SyntaxProofs7.
Import ListNotations.
Open Scope string_scope.
Open Scope list_scope.
Local Open Scope nat_scope.

Local Arguments parse_expr_s : simpl never.
Local Arguments instr_exists : simpl never.
Local Arguments make_instr_s : simpl never.

(** * Instructions *)

Definition wrong_operands (t : token) (n : string) (r : list token) (e : error) (at_ : list pspan) : Prop :=
  exists ops rest args, r = ops ++ rest /\ at_end rest /\ maybe operand_of (types ops) args /\ known n /\ ~ listed n args /\
    e = WrongInstructionArgs n /\ spans (t :: ops) at_ /\ begins_with t at_.

Lemma gen_cases : forall t n r, t_type t = TName n ->
  match parse_gen_instr_s (t :: r) with
  | POk ((sp, name, args), r2) => name = n /\ exists ops, r = ops ++ r2 /\ at_end r2 /\ maybe operand_of (types ops) (map erase_arg args) /\
      covers (t :: ops) sp /\ s_start (here sp) = s_start (t_span t)
  | PErr e at_ => stuck False operandsL r e at_
  | _ => True
  end.
Proof.
  intros t n r T. unfold parse_gen_instr_s. cbn [read_name_s]. rewrite T. cbn [pbind]. assert (F := finishes_operands r).
  destruct (parse_args_s r) as [[args r2]|e at_| |] eqn:A; cbn [pbind]; auto.
  apply args_gives in A as (ops & -> & L). destruct F as (front & E & _ & F).
  destruct (through_covers t ops args L) as [C S]. destruct args as [|a args].
  - split; auto. exists ops. split; auto. split; auto. split; [now apply args_operands|]. split; [|reflexivity]. apply covers_token. now left.
  - split; auto. exists ops. split; auto. split; auto. split; [now apply args_operands|]. auto.
Qed.

Lemma instr_cases : forall t n r, t_type t = TName n ->
  (dotted n /\ parse_instr_s (t :: r) = POk (None, t :: r)) \/
  (~ dotted n /\ match parse_instr_s (t :: r) with
    | POk (Some s, r2) => is_label_s s = false /\ at_end r2
    | POk (None, _) => False
    | PErr e at_ => stuck False operandsL r e at_ \/ wrong_operands t n r e at_
    | _ => True
    end).
Proof.
  intros t n r T. unfold parse_instr_s. rewrite T. destruct (instr_exists n) eqn:X; cbn [negb].
  - right. split; [now apply known_not_dotted, instr_exists_known|]. assert (G := gen_cases t n r T).
    destruct (parse_gen_instr_s (t :: r)) as [[[[sp name] args] r2]|e at_| |]; cbn [pbind]; auto.
    destruct G as (-> & ops & -> & F & M & C & S). assert (Q := make_same sp n args). assert (W := make_from sp n args).
    destruct (make_instr_s sp n args) as [i|e at_| |]; cbn [pbind]; auto. right. cbn in W, Q. subst at_.
    assert (K: known n) by now apply instr_exists_known.
    assert (NL: ~ listed n (map erase_arg args)). { intros L. destruct (form_has_instr _ _ L) as (i & I). congruence. }
    rewrite (make_instr_wrong _ _ K NL) in Q. injection Q as ->.
    exists ops, r2, (map erase_arg args). repeat (split; auto); [now apply covers_spans|]. exists sp. auto.
  - destruct (is_local n) eqn:D; cbn [negb]; [left; split; [now apply dotted_local|reflexivity]|]. right.
    split; [rewrite dotted_local; congruence|]. assert (G := gen_cases t n r T).
    destruct (parse_gen_instr_s (t :: r)) as [[[[sp name] args] r2]|e at_| |]; cbn [pbind]; auto.
    destruct G as (_ & ops & _ & F & _). auto.
Qed.

Lemma operands_some : exists w, operandsL w. Proof. exists []. now right. Qed.

(** * Labels *)

Lemma label_errors : forall t c r n e at_, t_type t = TName n -> t_type c = TColon ->
  parse_line_s (t :: c :: r) = PErr e at_ -> wrong_line (t :: c :: r) e at_.
Proof.
  intros t c r n e at_ T C H. unfold parse_line_s in H. cbn [is_empty_s] in H. rewrite T in H. cbn [negb] in H.
  unfold parse_statement_s in H. cbn [colon_label] in H. rewrite T, C in H. cbn [pbind is_label_s andb] in H.
  assert (LF: forall w, line_form ([TName n; TColon] ++ w) <-> w = [] \/ command_form w).
  { intros w. rewrite line_cases. split.
    - intros [E|[(m & v & E & X)|[(m & E & _)|[[K _]|[(m & v & E & X)|[(m & v & E & _)|(m & v & E & _)]]]]]]; try discriminate.
      + injection E as _ <-. exact X.
      + apply command_after in K as (m & v & E & _ & O). injection E as _ <-. apply operands_head in O. discriminate.
      + injection E as _ <-. apply after_head in X. discriminate.
    - intros X. right; left. exists n, w. auto. }
  assert (PRE: types [t; c] = [TName n; TColon]) by (cbn; now rewrite T, C).
  destruct (is_empty_s r) eqn:E; cbn [negb] in H; [cbn [pbind] in H; rewrite E in H; discriminate|].
  destruct r as [|u r]; [discriminate|].
  assert (HERE: (forall x, ~ command_form (t_type u :: x)) -> @PErr (list sstatement) InvalidInstruction [tspan u] = PErr e at_ -> wrong_line (t :: c :: u :: r) e at_).
  { intros NC X. injection X as <- <-. apply wl_syntax. right. exists [t; c], u, r. split; auto. rewrite PRE. split; [|split; [|split]].
    - exists []. apply LF. auto.
    - intros (m & X). rewrite <- app_assoc in X. apply LF in X as [X|X]; [discriminate|]. now apply (NC m).
    - split; [constructor|now left].
    - intros Y. cbn in E. rewrite Y in E. discriminate. }
  destruct (t_type u) eqn:U; try (unfold parse_instr_s in H; rewrite U in H; apply HERE; [intros x K; inversion K|exact H]).
  destruct (instr_cases u name r U) as [[D P]|[D P]].
  - rewrite P in H. apply HERE; [|exact H]. intros x K. inversion K; subst. contradiction.
  - destruct (parse_instr_s (u :: r)) as [[[s|] r2]|e2 at2| |]; try contradiction; cbn [pbind] in H; try discriminate.
    + destruct P as [_ F]. rewrite (fin_empty _ F) in H. discriminate.
    + injection H as -> ->. destruct P as [P|(ops & rest & args & -> & F & M & K & L & -> & S & B)].
      * apply wl_syntax. apply (lift line_form operandsL [t; c; u] r); auto.
        -- exists []. rewrite app_nil_r. cbn. rewrite T, C, U. apply (LF [TName name]). right. apply command_after. exists name, []. split; auto. split; auto. now right.
        -- intros w _ O. cbn. rewrite T, C, U. apply (LF (TName name :: w)). right. apply command_after. eauto.
        -- intros w _ O. cbn in O. rewrite T, C, U in O. apply (LF (TName name :: w)) in O as [O|O]; [discriminate|]. apply command_after in O as (m & v & E2 & _ & O). now injection E2 as _ ->.
      * apply (wl_operands _ [t; c] u ops rest name args); auto; [right; exists n; exact PRE|now apply fin_ends].
Qed.

(** * Constants *)

Lemma directive_none : forall t n r, t_type t = TName n -> ~ In n directive_names -> parse_directive_s (t :: r) = POk (None, t :: r).
Proof.
  intros t n r T N. unfold parse_directive_s. rewrite T. unfold has_name.
  repeat match goal with |- context[String.eqb ?a n] => destruct (String.eqb_spec a n) as [E|]; [exfalso; apply N; rewrite <- E; cbn; auto 10|] end. reflexivity.
Qed.

Lemma constant_errors : forall t n u r e at_, t_type t = TName n -> ~ In n directive_names -> t_type u = TName "equ" \/ t_type u = TEquals ->
  parse_line_s (t :: u :: r) = PErr e at_ -> wrong_line (t :: u :: r) e at_.
Proof.
  intros t n u r e at_ T N U H.
  assert (ST: exists g, (forall x, is_label_s (g x) = false) /\ parse_statement_s (t :: u :: r) = pbind (parse_expr_s r) (fun '(x, r2) => POk (g x, r2))).
  { exists (fun x => if has_name "equ" (t_type u) then SSAlias (span_from (tspan t) (span_of x)) n x else SSVariable (span_from (tspan t) (span_of x)) n x).
    split; [intros x; now destruct (has_name _ _)|]. unfold parse_statement_s. rewrite colon_none.
    2: { intros c q E. injection E as <- _. destruct U as [-> | ->]; discriminate. }
    replace (check_s is_name (t :: u :: r) && _)%bool with false.
    2: { unfold check_s, check_at_s. cbn [nth_error]. destruct U as [-> | ->]; cbn; now rewrite andb_false_r. }
    unfold parse_directive_or_other_s. rewrite (directive_none t n _ T N). cbn [pbind]. unfold parse_other_s. cbn [next_s pbind]. rewrite T.
    replace (is_empty_s (u :: r)) with false; [|cbn; destruct U as [-> | ->]; reflexivity]. cbn [is_name andb]. unfold check_s, check_at_s. cbn [nth_error].
    destruct U as [U|U]; rewrite U; cbn [has_name is_equ]; cbn; destruct (parse_expr_s r) as [[x r2]|? ?| |]; reflexivity. }
  destruct ST as (g & G & ST). rewrite line_close in H.
  - rewrite ST in H. unfold close_line in H. rewrite bind_same in H.
    assert (W: whole parse_expr_s r = PErr e at_).
    { apply (whole_error parse_expr_s (fun x => [g x])). rewrite <- H. destruct (parse_expr_s r) as [[x r2]|? ?| |]; reflexivity. }
    assert (F := whole_reads _ _ reads_expr r). rewrite W in F. apply wl_syntax. apply (lift line_form exprL [t; u] r); auto.
    + exists [TName "x"]. cbn. rewrite T. apply line_cases. right; right; right; right; right. destruct U as [-> | ->]; [left|right]; exists n, [TName "x"]; split; auto; split; auto; apply exprL_some.
    + intros w _ X. cbn. rewrite T. apply line_cases. right; right; right; right; right. destruct U as [-> | ->]; [left|right]; eauto.
    + intros w _ L. cbn in L. rewrite T in L.
      apply line_cases in L as [E|[(m & v & E & _)|[(m & E & D & M)|[[K Q]|[(m & v & E & X)|[(m & v & E & X & M)|(m & v & E & X & M)]]]]]]; try discriminate.
      * injection E as _ E _. destruct U as [U|U]; rewrite U in E; discriminate.
      * destruct U as [U|U]; [exfalso; now apply (Q (TName n) w); rewrite U|]. apply command_after in K as (m & v & E & _ & O). injection E as _ <-.
        rewrite U in O. apply operands_head in O. discriminate.
      * injection E as -> _. apply afterL_names in X. contradiction.
      * injection E as _ _ <-. exact X.
      * injection E as _ _ <-. exact X.
  - cbn. now rewrite T.
  - intros s q P. rewrite ST in P. destruct (parse_expr_s r) as [[x r2]|? ?| |]; cbn in P; try discriminate. injection P as <- _. apply G.
Qed.

(** * Lines *)

Lemma names_dec : forall n, In n directive_names \/ ~ In n directive_names.
Proof. intros n. destruct (in_dec string_dec n directive_names); auto. Qed.

Lemma line_errors : forall ts e at_, parse_line_s ts = PErr e at_ -> wrong_line ts e at_.
Proof.
  intros [|t r] e at_ H; [discriminate|].
  destruct (is_empty_s (t :: r)) eqn:E; [unfold parse_line_s in H; rewrite E in H; discriminate|].
  destruct (is_name (t_type t)) eqn:NAME.
  2: { assert (TO: parse_line_s (t :: r) = PErr UnexpectedToken [mkP (t_span t) []]).
    { unfold parse_line_s. rewrite E. cbn [negb]. unfold parse_statement_s.
      replace (colon_label (t :: r)) with (@None (string * pspan * list token)); [|destruct r; cbn [colon_label]; destruct (t_type t); auto; discriminate].
      unfold check_s, check_at_s. cbn [nth_error]. rewrite NAME. cbn [andb]. unfold parse_directive_or_other_s.
      replace (parse_directive_s (t :: r)) with (@POk (option sstatement * list token) (None, t :: r)); [|unfold parse_directive_s; destruct (t_type t); auto; discriminate].
      cbn [pbind]. unfold parse_other_s. cbn [next_s pbind]. rewrite NAME. reflexivity. }
    rewrite TO in H. injection H as <- <-. apply wl_syntax. right. exists [], t, r. split; auto. split; [exists []; apply line_cases; now left|].
    split; [|split; [split; [constructor|now left]|intros Y; cbn in E; rewrite Y in E; discriminate]].
    intros (m & X). cbn in X. apply line_cases in X as [X|[(n & w & X & _)|[(n & X & _)|[[X _]|[(n & w & X & _)|[(n & w & X & _)|(n & w & X & _)]]]]]]; try discriminate;
    [..|apply command_after in X as (n & w & X & _)|idtac|idtac|idtac]; try (injection X as X; rewrite X in NAME; discriminate). }
  destruct (t_type t) eqn:T; try discriminate. clear NAME.
  destruct (names_dec name) as [N|N].
  - destruct r as [|c q].
    + apply (directive_errors t name); auto. intros c q X. discriminate.
    + destruct (t_type c) eqn:C; try (apply (directive_errors t name); auto; intros c2 q2 X; injection X as <- _; rewrite C; discriminate).
      now apply (label_errors t c q name).
  - assert (COLON: (exists c q, r = c :: q /\ t_type c = TColon) \/ no_colon r).
    { destruct r as [|c q]; [right; intros c q X; discriminate|]. destruct (t_type c) eqn:C; try (right; intros c2 q2 X; injection X as <- _; rewrite C; discriminate).
      left. eauto. }
    destruct COLON as [(c & q & -> & C)|C]; [now apply (label_errors t c q name)|].
    assert (CONST: (exists u q, r = u :: q /\ (t_type u = TName "equ" \/ t_type u = TEquals)) \/
      (check_s (has_name "equ") r = false /\ check_s is_equ r = false)).
    { destruct r as [|u q]; [right; split; reflexivity|]. unfold check_s, check_at_s. cbn [nth_error].
      destruct (t_type u) eqn:U; try (right; split; reflexivity); [|left; exists u, q; auto].
      destruct (String.eqb_spec "equ" name0) as [<-|M]; [left; exists u, q; auto|]. right. split; [|reflexivity]. unfold has_name. now apply String.eqb_neq. }
    destruct CONST as [(u & q & -> & U)|[Q1 Q2]]; [now apply (constant_errors t name u q)|].
    assert (AT: check_at_s 1 (has_name "equ") (t :: r) = false /\ check_at_s 1 is_equ (t :: r) = false) by (split; [exact Q1|exact Q2]). destruct AT as [Q3 Q4].
    destruct (is_local name) eqn:D.
    + assert (ST: parse_statement_s (t :: r) = if is_empty_s r then POk (SSLabel (tspan t) name, r) else PErr UnknownDirective [tspan t]).
      { unfold parse_statement_s. rewrite (colon_none t r C). rewrite Q3, Q4. unfold check_s at 1 2, check_at_s. cbn [nth_error]. rewrite T. cbn [is_name is_local_name]. rewrite D. cbn [orb negb andb].
        unfold parse_directive_or_other_s. rewrite (directive_none t name r T N). cbn [pbind]. unfold parse_other_s. cbn [next_s pbind]. rewrite T. cbn [is_name is_local_name andb]. rewrite D.
        destruct (is_empty_s r); cbn [andb]; [reflexivity|]. rewrite Q1, Q2. reflexivity. }
      unfold parse_line_s in H. rewrite E, ST in H. cbn [negb] in H. destruct (is_empty_s r) eqn:R; cbn [pbind is_label_s andb negb] in H; rewrite ?R in H; cbn in H; rewrite ?R in H; cbn in H; [discriminate|].
      injection H as <- <-. destruct r as [|u q]; [discriminate|]. apply (wl_directive _ t u q name); auto; [now apply dotted_local|].
      cbn. intros [X|[X|[X|[X|[]]]]].
      * cbn in R. rewrite <- X in R. discriminate.
      * now apply (C u q).
      * unfold check_s, check_at_s in Q2. cbn in Q2. rewrite <- X in Q2. discriminate.
      * unfold check_s, check_at_s in Q1. cbn in Q1. rewrite <- X in Q1. discriminate.
    + destruct (instr_cases t name r T) as [[DD P]|[ND P]]; [apply dotted_local in DD; congruence|].
      assert (ST: parse_statement_s (t :: r) = pbind (parse_instr_s (t :: r)) (fun '(i, r2) => match i with Some s => POk (s, r2) | None => parse_directive_or_other_s (t :: r) end)).
      { unfold parse_statement_s. rewrite (colon_none t r C). rewrite Q3, Q4. unfold check_s, check_at_s. cbn [nth_error]. rewrite T. cbn [is_name is_local_name]. rewrite D. reflexivity. }
      unfold parse_line_s in H. rewrite E, ST in H. cbn [negb] in H.
      destruct (parse_instr_s (t :: r)) as [[[s|] r2]|e2 at2| |]; try contradiction; cbn [pbind] in H; try discriminate.
      * destruct P as [L F]. rewrite L in H. cbn [andb pbind] in H. rewrite (fin_empty _ F) in H. discriminate.
      * injection H as <- <-. destruct P as [P|(ops & rest & args & -> & F & M & K & L & -> & S & B)].
        -- apply wl_syntax. apply (lift line_form operandsL [t] r); auto.
           ++ exists []. cbn. rewrite T. apply line_cases. right; right; right; left. split; [apply command_after; exists name, []; split; auto; split; auto; now right|intros a q X; discriminate].
           ++ intros w A O. cbn. rewrite T. apply line_cases. right; right; right; left. split; [apply command_after; eauto|]. intros a q X. injection X as _ ->.
              destruct r as [|u q2]; [discriminate|]. destruct A as [(w2 & A)|[A _]]; [|discriminate]. injection A as A _. unfold check_s, check_at_s in Q1. cbn in Q1. rewrite <- A in Q1. discriminate.
           ++ intros w A L. cbn in L. rewrite T in L.
              apply line_cases in L as [X|[(m & v & X & _)|[(m & X & DD & M)|[[K Q]|[(m & v & X & Y)|[(m & v & X & Y & M)|(m & v & X & Y & M)]]]]]].
              ** discriminate.
              ** injection X as _ ->. destruct r as [|u q2]; [discriminate|]. destruct A as [(w2 & A)|[A _]]; [|discriminate]. injection A as A _. exfalso. now apply (C u q2).
              ** injection X as -> _. contradiction.
              ** apply command_after in K as (m & v & X & _ & O). now injection X as _ ->.
              ** injection X as <- _. apply afterL_names in Y. contradiction.
              ** injection X as _ ->. destruct r as [|u q2]; [discriminate|]. destruct A as [(w2 & A)|[A _]]; [|discriminate]. injection A as A _. unfold check_s, check_at_s in Q1. cbn in Q1. rewrite <- A in Q1. discriminate.
              ** injection X as _ ->. destruct r as [|u q2]; [discriminate|]. destruct A as [(w2 & A)|[A _]]; [|discriminate]. injection A as A _. unfold check_s, check_at_s in Q2. cbn in Q2. rewrite <- A in Q2. discriminate.
        -- apply (wl_operands _ [] t ops rest name args); auto; now apply fin_ends.
Qed.
