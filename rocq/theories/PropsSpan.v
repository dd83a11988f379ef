(** Properties C60 and C61: where errors in expressions and in macro expansions point, and what the message shows. *)
From Coq Require Import ZArith List String Ascii Bool Arith Lia.
From Verif Require Import Base Expr Instr Ast Macro Lexer Parser Files Report Printer Span Message.
From Verif Require Import SpecLex SpecReport SpecParse SpecSpan SpecMessage LexProofs LexProofs2 LexProofs5 ReportProofs PropsLex.
From Verif Require Import ParseProofs SpanProofs SpanProofs2 SpanProofs3.
Import ListNotations.
Open Scope string_scope.
Open Scope list_scope.
Local Open Scope nat_scope.

(** ** C60: expressions *)

(** Places change nothing else: the parser and the evaluation are those of the other properties. *)
Theorem C60_parse_same : forall ts,
  unplaced (fun x => (erase (fst x), types (snd x))) (parse_expr_s ts) = parse_expr (types ts).
Proof. exact same_parse. Qed.
Print Assumptions C60_parse_same.

Theorem C60_eval_same : forall pr en e, unplaced (fun v => v) (eval_s pr en e) = eval pr en (erase e).
Proof. exact eval_same. Qed.
Print Assumptions C60_eval_same.

(** Every subexpression stands where its place says: its tokens follow each other in the source, form an expression by
    themselves, and the place begins with the first of them and, without unary operators, ends with the last,
    parentheses aside. *)
Theorem C60_places : forall ts e rest, parse_expr_s ts = POk (e, rest) -> forall x, part_of x e ->
  exists before mid after l, ts = before ++ mid ++ after ++ rest /\ expression l (types mid) (erase x) /\
    parents (span_of x) = [] /\ begins mid (span_of x) /\ (unary_free x -> ends mid (span_of x)).
Proof.
  intros ts e rest H x P. destruct (parse_marked _ _ _ H) as (front & -> & M).
  destruct (marked_part _ _ _ M x P) as (before & mid & after & l & -> & MX).
  exists before, mid, after, l. rewrite <- !app_assoc. split; [reflexivity|]. split; [now apply marked_expression|].
  split; [now apply (marked_parents l mid)|]. split; [now apply (marked_begins l)|]. now apply (marked_ends l).
Qed.
Print Assumptions C60_places.

Definition tok (ty : token_type) (a b : nat) : token := mkToken ty (mkSpan (mkLoc 0 a 1 a) (mkLoc 0 b 1 b)).

(** [(a + 1) * b ,] *)
Definition sum_times : list token :=
  [tok TLeftParen 0 1; tok (TName "a") 1 2; tok TPlus 3 4; tok (TNumber 1 Decimal) 5 6; tok TRightParen 6 7;
   tok TTimes 8 9; tok (TName "b") 10 11; tok TComma 12 13].

Example C60_places_case : exists e, parse_expr_s sum_times = POk (e, [tok TComma 12 13]) /\ unary_free e /\
  here (span_of e) = mkSpan (mkLoc 0 1 1 1) (mkLoc 0 11 1 11) /\
  exists s l r, part_of (XBin BPlus s l r) e /\ here s = mkSpan (mkLoc 0 1 1 1) (mkLoc 0 6 1 6).
Proof.
  eexists. split; [vm_compute; reflexivity|]. split; [repeat split|]. split; [reflexivity|].
  eexists _, _, _. split; [apply part_left, part_self|reflexivity].
Qed.

(** With a unary operator the place may end too early: that of [a / - b] ends with the minus sign. *)
Theorem C60_ends_refuted : exists ts e, parse_expr_s ts = POk (e, []) /\ ~ ends ts (span_of e) /\
  here (span_of e) = mkSpan (mkLoc 0 0 1 0) (mkLoc 0 5 1 5).
Proof.
  exists [tok (TName "a") 0 1; tok TDivide 2 3; tok TMinus 4 5; tok (TName "b") 6 7]. eexists. split; [vm_compute; reflexivity|].
  split; [|reflexivity]. intros (r & t & ps & E & F & N & S). destruct ps as [|p ps].
  - change [tok (TName "a") 0 1; tok TDivide 2 3; tok TMinus 4 5; tok (TName "b") 6 7] with
      ([tok (TName "a") 0 1; tok TDivide 2 3; tok TMinus 4 5] ++ [tok (TName "b") 6 7]) in E.
    apply app_inj_tail in E as [_ <-]. cbn in S. discriminate.
  - assert (L: exists q p', p :: ps = q ++ [p']) by (exists (removelast (p :: ps)), (last (p :: ps) p); now apply app_removelast_last).
    destruct L as (q & p' & L). rewrite L in F, E. apply Forall_app in F as [_ F]. inversion F; subst.
    rewrite app_comm_cons, app_assoc in E.
    change [tok (TName "a") 0 1; tok TDivide 2 3; tok TMinus 4 5; tok (TName "b") 6 7] with
      ([tok (TName "a") 0 1; tok TDivide 2 3; tok TMinus 4 5] ++ [tok (TName "b") 6 7]) in E.
    apply app_inj_tail in E as [_ <-]. discriminate.
Qed.
Print Assumptions C60_ends_refuted.

(** A name without a value is reported at the first such name: the names to the left of it all have one. *)
Theorem C60_unknown_name : forall pr en ts e rest k n at_,
  parse_expr_s ts = POk (e, rest) -> eval_s pr en e = PErr (NameNotFound k n) at_ ->
  k = env_kind en /\ exists before t after, ts = before ++ t :: after ++ rest /\ t_type t = TName n /\
    at_ = [mkP (t_span t) []] /\ ~ known en n /\ (forall u m, In u before -> t_type u = TName m -> known en m).
Proof.
  intros pr en ts e rest k n at_ H E. destruct (parse_marked _ _ _ H) as (front & -> & M).
  destruct (eval_unknown _ _ _ _ _ M _ _ _ E) as (K & before & t & after & -> & T & P & U & N). split; [exact K|].
  exists before, t, after. rewrite <- app_assoc. repeat split; auto.
Qed.
Print Assumptions C60_unknown_name.

(** An expression with a name without a value has no value. *)
Theorem C60_names_needed : forall pr en ts e rest front v, parse_expr_s ts = POk (e, rest) -> ts = front ++ rest ->
  eval_s pr en e = POk v -> forall t n, In t front -> t_type t = TName n -> known en n.
Proof.
  intros pr en ts e rest front v H F E t n I T. destruct (parse_marked _ _ _ H) as (front2 & -> & M).
  apply app_inv_tail in F. subst front2. exact (eval_names _ _ _ _ _ M v E t n I T).
Qed.
Print Assumptions C60_names_needed.

(** A division by zero is reported at a division whose right side is zero. *)
Theorem C60_division : forall pr en ts e rest at_,
  parse_expr_s ts = POk (e, rest) -> eval_s pr en e = PErr DivideByZero at_ ->
  exists s l r a, part_of (XBin BDivide s l r) e /\ at_ = [s] /\
    eval pr en (erase l) = Ok a /\ eval pr en (erase r) = Ok 0%Z.
Proof.
  intros pr en ts e rest at_ _ E. destruct (eval_zero _ _ _ _ E) as (s & l & r & a & P & A & L & R).
  exists s, l, r, a. split; [exact P|]. split; [exact A|]. rewrite <- !eval_same, L, R. split; reflexivity.
Qed.
Print Assumptions C60_division.

Definition ab : env := mkEnv "Variable" (fun n => if String.eqb n "a" then Some 4%Z else None).

Example C60_eval_case :
  match parse_expr_s sum_times with
  | POk (e, _) => eval_s Debug ab e = PErr (NameNotFound "Variable" "b") [mkP (mkSpan (mkLoc 0 10 1 10) (mkLoc 0 11 1 11)) []]
  | _ => False
  end.
Proof. vm_compute. reflexivity. Qed.

(** [1 + a / ( 4 - a )] *)
Example C60_division_case :
  match parse_expr_s [tok (TNumber 1 Decimal) 0 1; tok TPlus 2 3; tok (TName "a") 4 5; tok TDivide 6 7; tok TLeftParen 8 9;
    tok (TNumber 4 Decimal) 10 11; tok TMinus 12 13; tok (TName "a") 14 15; tok TRightParen 16 17] with
  | POk (e, []) => eval_s Debug ab e = PErr DivideByZero [mkP (mkSpan (mkLoc 0 4 1 4) (mkLoc 0 15 1 15)) []]
  | _ => False
  end.
Proof. vm_compute. reflexivity. Qed.

(** A syntax error in an expression is reported at the first token that cannot be right: what stands before it can be
    completed to an expression, with it that is impossible.  If the tokens end too soon no place is given. *)
Theorem C60_syntax : forall ts e at_, parse_expr_s ts = PErr e at_ ->
  (e = UnexpectedEof /\ at_ = [] /\ viable (types ts)) \/
  exists before t after, ts = before ++ t :: after /\ viable (types before) /\ ~ viable (types (before ++ [t])) /\
    exists s, at_ = [mkP s []] /\ s_start s = s_start (t_span t).
Proof.
  intros ts e at_ H. destruct (parse_error _ _ _ H) as [X|(front & t & rest & -> & B & V & N)]; [now left|].
  right. exists front, t, rest. split; [reflexivity|]. split; [exact V|]. split; [exact N|].
  destruct B as [[_ ->]|[_ ->]]; eexists; split; reflexivity.
Qed.
Print Assumptions C60_syntax.

Example C60_syntax_case :
  parse_expr_s [tok TLeftParen 0 1; tok (TName "a") 1 2; tok TPlus 3 4; tok TTimes 5 6; tok (TName "b") 7 8; tok TRightParen 8 9]
    = PErr InvalidExpression [mkP (mkSpan (mkLoc 0 5 1 5) (mkLoc 0 5 1 5)) []] /\
  parse_expr_s [tok TLeftParen 0 1; tok (TName "a") 1 2; tok TComma 3 4]
    = PErr (ExpectedTokenNotFound "')'") [mkP (mkSpan (mkLoc 0 3 1 3) (mkLoc 0 4 1 4)) []] /\
  parse_expr_s [tok TLeftParen 0 1; tok (TName "a") 1 2; tok TPlus 3 4] = PErr UnexpectedEof [].
Proof. split; [|split]; vm_compute; reflexivity. Qed.

(** ** C61: macros *)

(** Places change nothing else. *)
Theorem C61_expand_same : forall uuid f ms n call name args,
  unplaced (fun x => (map erase_statement (fst x), snd x)) (expand_s uuid f ms n call name args) =
  expand uuid f (erase_macros ms) n name (map erase_arg args).
Proof. exact expand_same. Qed.
Print Assumptions C61_expand_same.

(** Every instruction that comes out of a macro has the place of the instruction in the body of the macro, and behind
    it the whole chain of calls that led there, from the innermost to the call in the program. *)
Theorem C61_instructions : forall uuid f ms n call name args out n2 d,
  expand_s uuid f ms n call name args = POk (out, n2) -> defined_as ms name (List.length args) d ->
  forall s i, In (SSInstr s i) out ->
  exists d2 s2 name2 args2, reached ms (here call :: parents call) d d2 (parents s) /\
    In (SMInstr s2 name2 args2) (sm_body d2) /\ no_macro ms name2 (List.length args2) /\ here s = here s2.
Proof.
  intros uuid f ms n call name args out n2 d H D s i I. assert (F := expand_from uuid f ms n call name args out n2 d H D).
  rewrite Forall_forall in F. destruct (F _ I) as (d2 & calls & R & s2 & name2 & args2 & J & N & E & P). subst calls.
  exists d2, s2, name2, args2. auto.
Qed.
Print Assumptions C61_instructions.

(** A label has the place of the label in the body of the macro, and nothing behind it. *)
Theorem C61_labels : forall uuid f ms n call name args out n2 d,
  expand_s uuid f ms n call name args = POk (out, n2) -> defined_as ms name (List.length args) d ->
  forall s l, In (SSLabel s l) out ->
  exists d2 calls m, reached ms (here call :: parents call) d d2 calls /\
    (In (SMLabel s m) (sm_body d2) \/ In (SMMacroLabel s m) (sm_body d2)).
Proof.
  intros uuid f ms n call name args out n2 d H D s l I. assert (F := expand_from uuid f ms n call name args out n2 d H D).
  rewrite Forall_forall in F. destruct (F _ I) as (d2 & calls & R & m & J). exists d2, calls, m. auto.
Qed.
Print Assumptions C61_labels.

(** A name in an instruction that comes out of a macro has the place where it is written, be it in the arguments of the
    call or in the body of a macro; so has the name made from a label of a macro. *)
Theorem C61_names : forall uuid f ms n call name args out n2 d,
  expand_s uuid f ms n call name args = POk (out, n2) -> defined_as ms name (List.length args) d ->
  without_parameters args ->
  forall s i p m, In (SSInstr s i) out -> in_instr i (XName_ p m) ->
  exists y, as_written ms (here call :: parents call) d args y /\ here (span_of y) = here p /\
    ((exists q, y = XName_ q m) \/ (exists q l, y = XMacroLabel_ q l)).
Proof.
  intros uuid f ms n call name args out n2 d H D W s i p m I X.
  destruct (expand_names uuid f ms n call name args d out n2 D W H s i _ I X) as (y & A & E & HN & _).
  exists y. split; [exact A|]. split; [exact E|]. now apply (HN p m).
Qed.
Print Assumptions C61_names.

(** An instruction that a macro gets wrong is reported with the whole chain of calls. *)
Theorem C61_refused : forall uuid f ms n call name args e at_ d,
  expand_s uuid f ms n call name args = PErr e at_ -> defined_as ms name (List.length args) d ->
  e = UnknownInstruction \/ (exists m, e = WrongInstructionArgs m) ->
  exists d2 s2 name2 args2 calls, reached ms (here call :: parents call) d d2 calls /\
    In (SMInstr s2 name2 args2) (sm_body d2) /\ no_macro ms name2 (List.length args2) /\ at_ = [mkP (here s2) calls].
Proof.
  intros uuid f ms n call name args e at_ d H D B.
  destruct (expand_refused uuid f ms (of_call call) d n call name args e at_ d H B D (reached_call _ _ _))
    as (d2 & calls & s2 & name2 & args2 & X). exists d2, s2, name2, args2, calls. exact X.
Qed.
Print Assumptions C61_refused.

(** Every error in an expansion has a place, and each of its places is that of something that takes part in it. *)
Theorem C61_errors_placed : forall uuid f ms n call name args e at_ d,
  expand_s uuid f ms n call name args = PErr e at_ -> defined_as ms name (List.length args) d -> without_parameters args ->
  at_ <> [] /\ Forall (fun s => stands ms call d args (here s)) at_.
Proof. intros uuid f ms n call name args e at_ d H D W. now apply (expand_stands uuid f ms n call name args d e at_ D W). Qed.
Print Assumptions C61_errors_placed.

Definition at_ (a b : nat) : pspan := mkP (mkSpan (mkLoc 0 a 1 a) (mkLoc 0 b 1 b)) [].
Definition seven (n : nat) : string := "7".

(** [%macro inner %x / here: / ld %x + 1 / %end] and [%macro outer %y / inner %y / %end]. *)
Definition inner : smacro_def := mkSMacro (at_ 0 9) "inner" ["%x"]
  [SMLabel (at_ 20 24) "here";
   SMInstr (at_ 30 39) "ld" [SAEx (XBin BPlus (at_ 33 39) (XMacroArg_ (at_ 33 35) "%x") (XNumber_ (at_ 38 39) 1 Decimal))]].
Definition outer : smacro_def := mkSMacro (at_ 50 59) "outer" ["%y"]
  [SMInstr (at_ 60 68) "inner" [SAMacroArg (at_ 66 68) "%y"]].
Definition both : smacros := [(("inner", 1), inner); (("outer", 1), outer)].
Definition call_args : list sarg := [SAEx (XName_ (at_ 96 99) "foo")].

Example C61_case : exists out, expand_s seven 5 both 0 (at_ 90 99) "outer" call_args = POk (out, 0) /\
  defined_as both "outer" 1 outer /\ without_parameters call_args /\
  match out with
  | [SSLabel l _; SSInstr s (Ld_d9 (XBin _ _ (XName_ p m) _))] =>
      l = at_ 20 24 /\ here s = here (at_ 30 39) /\ parents s = [here (at_ 60 68); here (at_ 90 99)] /\
      m = "foo" /\ here p = here (at_ 96 99) /\ parents p = [here (at_ 60 68); here (at_ 90 99)]
  | _ => False
  end.
Proof.
  eexists. split; [vm_compute; reflexivity|]. split.
  { exists [(("inner", 1), inner)], []. split; [reflexivity|]. intros d2 [E|[]]. discriminate. }
  split; [|repeat split].
  split; [intros s n [E|[]]; discriminate|].
  intros s n X. inversion X as [? e ? I P|? e ? I P]; subst; destruct I as [I|[]]; try discriminate. injection I as <-. inversion P.
Qed.

(** The same macro called with a wrong kind of argument. *)
Example C61_refused_case : expand_s seven 5 [(("m", 1), mkSMacro (at_ 0 9) "m" ["%x"] [SMInstr (at_ 10 20) "ld" [SAMacroArg (at_ 13 15) "%x"]])]
  0 (at_ 90 99) "m" [SAImm (XNumber_ (at_ 96 98) 5 Decimal)] =
  PErr (WrongInstructionArgs "ld") [mkP (here (at_ 10 20)) [here (at_ 90 99)]].
Proof. vm_compute. reflexivity. Qed.

(** Two calls of a macro with a plain label define the label twice, at the same place; neither place tells the call. *)
Theorem C61_label_calls_refuted : exists ms a b out1 out2 s l, here a <> here b /\
  expand_s seven 5 ms 0 a "inner" call_args = POk (out1, 0) /\ expand_s seven 5 ms 0 b "inner" call_args = POk (out2, 0) /\
  In (SSLabel s l) out1 /\ In (SSLabel s l) out2 /\ parents s = [].
Proof.
  exists both, (at_ 90 99), (at_ 100 109). eexists _, _, _, _. split; [discriminate|].
  split; [vm_compute; reflexivity|]. split; [vm_compute; reflexivity|]. split; [left; reflexivity|]. split; [left; reflexivity|]. reflexivity.
Qed.
Print Assumptions C61_label_calls_refuted.

(** Nor does the place of an error about a parameter that does not exist. *)
Theorem C61_error_calls_refuted : exists ms a args e s, expand_s seven 5 ms 0 a "m" args = PErr e [s] /\ parents s = [].
Proof.
  exists [(("m", 0), mkSMacro (at_ 0 9) "m" [] [SMInstr (at_ 10 20) "ld" [SAMacroArg (at_ 13 15) "%z"]])], (at_ 90 99), [].
  eexists _, _. split; [vm_compute; reflexivity|reflexivity].
Qed.
Print Assumptions C61_error_calls_refuted.

(** ** The message *)

Lemma prefix_split : forall a b, prefix a b = true <-> exists c, b = (a ++ c)%string.
Proof.
  induction a as [|x a IH]; intros b; [split; [intros _; now exists b|intros _; now destruct b]|].
  destruct b as [|y b]; cbn; [split; [discriminate|intros (c & E); discriminate]|].
  destruct (ascii_dec x y) as [->|N].
  - rewrite IH. split; intros (c & E); exists c; [now rewrite E|now injection E].
  - split; [discriminate|intros (c & E); injection E as E _; congruence].
Qed.

Lemma shown_called : forall fs f, called fs f (shown_path fs f).
Proof.
  intros fs f. unfold called, shown_path. destruct (prefix (working_dir fs ++ "/") (sf_name f)) eqn:E.
  - left. apply prefix_split in E as (c & E). rewrite E. rewrite app_assoc_s. f_equal.
    assert (K: forall a c, substring (String.length a) (String.length (a ++ c) - String.length a) (a ++ c) = c).
    { clear. induction a as [|x a IH]; intros c; cbn [String.length append substring].
      - rewrite Nat.sub_0_r. induction c as [|y c IHc]; [reflexivity|]. cbn. now rewrite IHc.
      - apply IH. }
    now rewrite <- app_assoc_s, K.
  - right. split; [|reflexivity]. intros p Q. assert (X: prefix (working_dir fs ++ "/") (sf_name f) = true).
    { apply prefix_split. exists p. now rewrite app_assoc_s. } congruence.
Qed.

Lemma called_shown : forall fs f p, called fs f p -> p = shown_path fs f.
Proof.
  intros fs f p C. destruct (shown_called fs f) as [E|[N E]], C as [E2|[N2 E2]]; try congruence.
  rewrite E in E2. clear -E2. induction (working_dir fs) as [|c w IH]; cbn in E2; injection E2; auto.
Qed.

(** Under the message stand the lines about the place and then, each after [...expanded from], those about the calls,
    the innermost first. *)
Theorem C61_message : forall pr fs s msg text,
  highlight_line pr fs s msg = Ok text <->
  exists first calls, about pr fs "" (here s) msg first /\ Forall2 (fun c b => about pr fs "  | " c "" b) (parents s) calls /\
    text = (first ++ String.concat "" (map (fun b => expanded_from ++ b)%string calls))%string.
Proof.
  assert (STEP: forall pr fs indent s ps msg text, highlight pr fs indent s ps msg = Ok text <->
    exists first, about pr fs indent s msg first /\
    match ps with
    | [] => text = first
    | p :: rest => exists more, highlight pr fs (new_indent indent) p rest "" = Ok more /\
        text = (first ++ new_indent indent ++ nl ++ new_indent indent ++ "...expanded from" ++ nl ++ new_indent indent ++ nl ++ more)%string
    end).
  { intros pr fs indent s ps msg text.
    assert (AB: forall file line, for_id fs (l_file (s_start s)) = Some file -> line_for_pos pr (l_pos (s_start s)) (sf_contents file) = Ok line ->
      about pr fs indent s msg (indent ++ shown_path fs file ++ ":" ++ show_dec (Z.of_nat (l_line (s_start s))) ++ ":" ++
        show_dec (Z.of_nat (l_col (s_start s))) ++
        (if (l_col (s_start s) =? l_col (s_end s))%nat then "" else "-" ++ show_dec (Z.of_nat (l_col (s_end s)))) ++ nl ++
        indent ++ "  " ++ line ++ nl ++
        indent ++ "  " ++ caret (l_col (s_start s)) (l_col (s_end s)) line msg ++ nl)).
    { intros file line F L. exists file, (shown_path fs file), line. split; [exact F|]. split; [apply shown_called|]. split; [exact L|].
      unfold three_lines, columns. change nl with line_feed. do 5 f_equal.
      destruct (Nat.eq_dec (l_col (s_start s)) (l_col (s_end s))) as [E|N].
      - rewrite (proj2 (Nat.eqb_eq _ _) E). reflexivity.
      - rewrite (proj2 (Nat.eqb_neq _ _) N). now rewrite !app_assoc_s. }
    assert (UN: forall a b, about pr fs indent s msg a -> about pr fs indent s msg b -> a = b).
    { intros a b (f1 & p1 & l1 & F1 & C1 & L1 & ->) (f2 & p2 & l2 & F2 & C2 & L2 & ->).
      rewrite F1 in F2. injection F2 as <-. rewrite L1 in L2. injection L2 as <-.
      now rewrite (called_shown _ _ _ C1), (called_shown _ _ _ C2). }
    destruct ps as [|p rest]; cbn [highlight].
    - destruct (for_id fs (l_file (s_start s))) as [file|] eqn:F.
      2: { split; [discriminate|]. intros (first & (f1 & p1 & l1 & F1 & _) & _). congruence. }
      destruct (line_for_pos pr (l_pos (s_start s)) (sf_contents file)) as [line|? | |] eqn:L; cbn [bind].
      2, 3, 4: split; [discriminate|]; intros (first & (f1 & p1 & l1 & F1 & _ & L1 & _) & _); congruence.
      specialize (AB file line eq_refl L). split.
      + intros E. injection E as <-. eexists. split; [exact AB|reflexivity].
      + intros (first & A & ->). f_equal. exact (UN _ _ AB A).
    - destruct (for_id fs (l_file (s_start s))) as [file|] eqn:F.
      2: { split; [discriminate|]. intros (first & (f1 & p1 & l1 & F1 & _) & _). congruence. }
      destruct (line_for_pos pr (l_pos (s_start s)) (sf_contents file)) as [line|? | |] eqn:L; cbn [bind].
      2, 3, 4: split; [discriminate|]; intros (first & (f1 & p1 & l1 & F1 & _ & L1 & _) & _); congruence.
      specialize (AB file line eq_refl L).
      destruct (highlight pr fs (new_indent indent) p rest "") as [more| | |]; cbn [bind].
      2, 3, 4: split; [discriminate|]; intros (first & _ & more & E & _); discriminate.
      split.
      + intros E. injection E as <-. eexists. split; [exact AB|]. exists more. split; [reflexivity|reflexivity].
      + intros (first & A & more2 & E & ->). injection E as <-. f_equal. rewrite (UN _ _ A AB). reflexivity. }
  assert (DEEP: forall pr fs ps p text, highlight pr fs "  | " p ps "" = Ok text <->
    exists first calls, about pr fs "  | " p "" first /\ Forall2 (fun c b => about pr fs "  | " c "" b) ps calls /\
      text = (first ++ String.concat "" (map (fun b => expanded_from ++ b)%string calls))%string).
  { assert (CC: forall b l, String.concat "" (b :: l) = (b ++ String.concat "" l)%string).
    { intros b [|x l]; cbn; [now rewrite app_nil_r_s|reflexivity]. }
    intros pr fs. induction ps as [|q ps IH]; intros p text; rewrite STEP.
    - split.
      + intros (first & A & ->). exists first, []. split; [exact A|]. split; [constructor|]. cbn. now rewrite app_nil_r_s.
      + intros (first & calls & A & F & ->). inversion F; subst. exists first. split; [exact A|]. cbn. now rewrite app_nil_r_s.
    - change (new_indent "  | ") with "  | ". split.
      + intros (first & A & more & H & ->). apply IH in H as (f2 & calls & A2 & F & ->).
        exists first, (f2 :: calls). split; [exact A|]. split; [now constructor|]. cbn [map]. rewrite CC. unfold expanded_from.
        change nl with line_feed. rewrite !app_assoc_s. reflexivity.
      + intros (first & calls & A & F & ->). inversion F as [|? b ? calls2 A2 F2]; subst. exists first. split; [exact A|].
        exists (b ++ String.concat "" (map (fun b => expanded_from ++ b)%string calls2))%string. split.
        * apply IH. exists b, calls2. auto.
        * cbn [map]. rewrite CC. unfold expanded_from. change nl with line_feed. rewrite !app_assoc_s. reflexivity. }
  intros pr fs s msg text. unfold highlight_line. rewrite STEP. destruct (parents s) as [|p ps].
  - split.
    + intros (first & A & ->). exists first, []. split; [exact A|]. split; [constructor|]. cbn. now rewrite app_nil_r_s.
    + intros (first & calls & A & F & ->). inversion F; subst. exists first. split; [exact A|]. cbn. now rewrite app_nil_r_s.
  - change (new_indent "") with "  | ". assert (CC: forall b l, String.concat "" (b :: l) = (b ++ String.concat "" l)%string).
    { intros b [|x l]; cbn; [now rewrite app_nil_r_s|reflexivity]. } split.
    + intros (first & A & more & H & ->). apply DEEP in H as (f2 & calls & A2 & F & ->).
      exists first, (f2 :: calls). split; [exact A|]. split; [now constructor|]. cbn [map]. rewrite CC. unfold expanded_from.
      change nl with line_feed. rewrite !app_assoc_s. reflexivity.
    + intros (first & calls & A & F & ->). inversion F as [|? b ? calls2 A2 F2]; subst. exists first. split; [exact A|].
      exists (b ++ String.concat "" (map (fun b => expanded_from ++ b)%string calls2))%string. split.
      * apply DEEP. exists b, calls2. auto.
      * cbn [map]. rewrite CC. unfold expanded_from. change nl with line_feed. rewrite !app_assoc_s. reflexivity.
Qed.
Print Assumptions C61_message.

Lemma name_no_lf : forall w, identifier w -> all_chars (fun c => c <> LF) w.
Proof.
  assert (K: forall c, name_char c -> c <> LF).
  { intros c [I|I] ->; cbn in I; repeat (destruct I as [I|I]; [discriminate|]); exact I. }
  intros [|c t]; [intros []|]. intros [S A]. split.
  - intros ->. destruct S as [I|I]; cbn in I; repeat (destruct I as [I|I]; [discriminate|]); exact I.
  - clear S. induction t as [|d t IH]; [exact Logic.I|]. destruct A as [D A]. split; [now apply K|now apply IH].
Qed.

Lemma no_lf_count : forall s, all_chars (fun c => c <> LF) s -> count "010" s = 0.
Proof.
  induction s as [|c s IH]; intros A; [reflexivity|]. destruct A as [N A]. cbn [count].
  destruct (ascii_dec "010" c) as [E|_]; [exfalso; now apply N|]. exact (IH A).
Qed.

(** An expression taken from the tokens of a file, and a name in it without a value: the message has the path of the
    file, the number of the line the name stands on and its columns, then this line, and the carets are under the name. *)
Theorem C60_unknown_name_message : forall pr en fs f file path toks skipped ts e rest k n place msg,
  for_id fs f = Some file -> called fs file path -> 2 <= String.length (sf_contents file) ->
  lex_input (new_input f (sf_contents file)) = Ok toks -> toks = skipped ++ ts ->
  parse_expr_s ts = POk (e, rest) -> eval_s pr en e = PErr (NameNotFound k n) place ->
  exists s pre left name right post quoted, place = [s] /\
    sf_contents file = (pre ++ (left ++ name ++ right) ++ post)%string /\ one_line pre (left ++ name ++ right) post /\
    identifier name /\ lower name = n /\
    (quoted = (left ++ name ++ right)%string \/ (only_break post /\ quoted = ((left ++ name ++ right) ++ post)%string)) /\
    highlight_line pr fs s msg = Ok
     (path ++ ":" ++ show_dec (Z.of_nat (1 + count "010" pre)) ++ ":" ++ show_dec (Z.of_nat (String.length left)) ++ "-" ++
      show_dec (Z.of_nat (String.length (left ++ name))) ++ line_feed ++
      "  " ++ quoted ++ line_feed ++
      "  " ++ (margin left ++ carets (String.length name) ++ remark msg) ++ line_feed)%string.
Proof.
  intros pr en fs f file path toks skipped ts e rest k n place msg F C L H -> P E.
  destruct (C60_unknown_name _ _ _ _ _ _ _ _ P E) as (_ & before & t & after & -> & T & -> & _).
  assert (I: In t (skipped ++ before ++ t :: after ++ rest)) by (apply in_or_app; right; apply in_or_app; right; now left).
  destruct (C23_token_text _ _ _ _ H I) as (bef & lit & aft & X & W & S); [now rewrite T|]. clear H I.
  assert (ID: identifier lit /\ lower lit = n).
  { rewrite T in W. inversion W as [? ? J| | | | |]; subst; [|split; [assumption|reflexivity]].
    exfalso. cbn in J. repeat (destruct J as [J|J]; [discriminate|]). exact J. }
  destruct ID as [ID LOW]. assert (NL := name_no_lf _ ID).
  destruct (token_quoted pr bef lit aft msg) as (pre & left & right & post & more & quoted & E1 & E2 & O & R & Q & LP & CA); auto.
  { destruct lit; [destruct ID|discriminate]. } { exact (writes_cut _ _ aft W). } { now rewrite <- X. }
  eexists. exists pre, left, lit, right, post, quoted. split; [reflexivity|].
  assert (NLL: all_chars (fun c => c <> LF) left).
  { destruct O as [_ O]. apply line_no_lf in O. now apply all_chars_prefix in O. }
  split; [rewrite X, E1, E2, !app_assoc_s; reflexivity|]. split; [exact O|]. split; [exact ID|]. split; [exact LOW|]. split.
  { destruct R as [->|[-> B]]; [left|right; split; auto]; rewrite Q; rewrite ?app_nil_r_s, ?app_assoc_s; reflexivity. }
  apply C61_message. eexists _, []. split; [|split; [constructor|]].
  - exists file, path, quoted. cbn [here]. rewrite S. cbn [s_start s_end l_file l_pos SpecLex.place]. split; [exact F|]. split; [exact C|].
    split; [rewrite X; exact LP|]. reflexivity.
  - cbn [here map String.concat]. rewrite app_nil_r_s. unfold three_lines. rewrite ?S.
    cbn [s_start s_end l_col l_line SpecLex.place]. rewrite CA. destruct O as [LS _].
    rewrite E1, count_app, (no_lf_count left NLL), Nat.add_0_r. rewrite (app_assoc_s pre left lit), !column_of; auto; [|now apply all_chars_app].
    unfold columns. rewrite app_length_s. destruct (Nat.eq_dec _ _) as [Z|_].
    { exfalso. destruct lit; [destruct ID|cbn in Z; lia]. }
    rewrite !app_assoc_s. reflexivity.
Qed.
Print Assumptions C60_unknown_name_message.

Definition lf1 : string := String "010" "".
Definition src : string := "  ld bar" ++ lf1 ++ "  add 1 + Foo ; sum" ++ lf1 ++ "  nop" ++ lf1.
Definition sources : source_files := mkFiles "/home" [mkFile 0 "/home/x.s" src].

(** The tokens from the seventh character of the second line on. *)
Example C60_message_case : exists toks ts e rest s,
  lex_input (new_input 0 src) = Ok toks /\ toks = firstn 3 toks ++ ts /\
  parse_expr_s ts = POk (e, rest) /\ eval_s Debug ab e = PErr (NameNotFound "Variable" "foo") [s] /\
  called sources (mkFile 0 "/home/x.s" src) "x.s" /\
  highlight_line Debug sources s "not found" =
    Ok ("x.s:2:10-13" ++ lf1 ++ "    add 1 + Foo ; sum" ++ lf1 ++ "            ^^^ not found" ++ lf1)%string.
Proof.
  eexists. exists (match lex_input (new_input 0 src) with Ok l => skipn 3 l | _ => [] end).
  exists (XBin BPlus (mkP (mkSpan (mkLoc 0 15 2 6) (mkLoc 0 22 2 13)) []) (XNumber_ (mkP (mkSpan (mkLoc 0 15 2 6) (mkLoc 0 16 2 7)) []) 1 Decimal)
    (XName_ (mkP (mkSpan (mkLoc 0 19 2 10) (mkLoc 0 22 2 13)) []) "foo")).
  exists (match lex_input (new_input 0 src) with Ok l => skipn 6 l | _ => [] end).
  exists (mkP (mkSpan (mkLoc 0 19 2 10) (mkLoc 0 22 2 13)) []).
  split; [vm_compute; reflexivity|]. split; [vm_compute; reflexivity|]. split; [vm_compute; reflexivity|].
  split; [vm_compute; reflexivity|]. split; [left; reflexivity|vm_compute; reflexivity].
Qed.

(** With calls. *)
Example C61_message_case :
  highlight_line Debug sources (mkP (mkSpan (mkLoc 0 2 1 2) (mkLoc 0 4 1 4)) [mkSpan (mkLoc 0 30 3 1) (mkLoc 0 33 3 4)]) "bad" =
    Ok ("x.s:1:2-4" ++ lf1 ++ "    ld bar" ++ lf1 ++ "    ^^ bad" ++ lf1 ++
        "  | " ++ lf1 ++ "  | ...expanded from" ++ lf1 ++ "  | " ++ lf1 ++
        "  | x.s:3:1-4" ++ lf1 ++ "  |     nop" ++ lf1 ++ lf1 ++ "  |    ^^^" ++ lf1)%string.
Proof. vm_compute. reflexivity. Qed.
