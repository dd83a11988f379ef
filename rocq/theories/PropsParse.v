(** Properties of the parser (C24). *)
From Coq Require Import ZArith List String Ascii Bool Arith Lia.
From Verif Require Import Base Expr Lexer Parser SpecParse ParseProofs.
Import ListNotations.
Open Scope string_scope.
Open Scope list_scope.

(** ** C24: operator precedence and associativity *)

(** The parser returns a tree exactly when some front part of the tokens is an expression of the grammar
    with that tree and the tokens after it do not go on with an operator; what is left is what follows. *)
Theorem C24_parses_iff : forall ts e rest,
  parse_expr ts = Ok (e, rest) <->
  exists front, ts = front ++ rest /\ expression Bits front e /\ ~ continues rest.
Proof. exact parse_expr_iff. Qed.
Print Assumptions C24_parses_iff.

Local Ltac operator := cbn; tauto.
Local Ltac up := apply g_tighter; [|discriminate]; cbn.
Local Ltac bin op l mk t1 e1 t2 e2 := apply (g_binary op l mk t1 e1 t2 e2); [operator| |].

(** [a - b * -c & (d + $10) - %x ,]: left-associative, unary tightest, [&] loosest. *)
Example C24_case :
  let a := TName "a" in let b := TName "b" in let c := TName "c" in let d := TName "d" in
  let ts := [a; TMinus; b; TTimes; TMinus; c; TMinus; d; TAmpersand; TLeftParen; d; TPlus; TNumber 16 Hex; TRightParen;
             TMinus; TMacroIdent "%x"] in
  let tree :=
    EAnd (EMinus (EMinus (EName "a") (ETimes (EName "b") (EUnaryMinus (EName "c")))) (EName "d"))
         (EMinus (EPlus (EName "d") (ENumber 16 Hex)) (EMacroArg "%x")) in
  expression Bits ts tree /\ ~ continues [TComma; a] /\ parse_expr (ts ++ [TComma; a]) = Ok (tree, [TComma; a]).
Proof.
  cbv zeta. split; [|split].
  - bin TAmpersand Bits EAnd
      [TName "a"; TMinus; TName "b"; TTimes; TMinus; TName "c"; TMinus; TName "d"]
      (EMinus (EMinus (EName "a") (ETimes (EName "b") (EUnaryMinus (EName "c")))) (EName "d"))
      [TLeftParen; TName "d"; TPlus; TNumber 16 Hex; TRightParen; TMinus; TMacroIdent "%x"]
      (EMinus (EPlus (EName "d") (ENumber 16 Hex)) (EMacroArg "%x")).
    + up. bin TMinus Sums EMinus [TName "a"; TMinus; TName "b"; TTimes; TMinus; TName "c"]
        (EMinus (EName "a") (ETimes (EName "b") (EUnaryMinus (EName "c")))) [TName "d"] (EName "d").
      * bin TMinus Sums EMinus [TName "a"] (EName "a") [TName "b"; TTimes; TMinus; TName "c"]
          (ETimes (EName "b") (EUnaryMinus (EName "c"))).
        -- up. up. apply g_name.
        -- bin TTimes Products ETimes [TName "b"] (EName "b") [TMinus; TName "c"] (EUnaryMinus (EName "c")).
           ++ up. apply g_name.
           ++ apply g_unary; [operator|apply g_name].
      * up. apply g_name.
    + bin TMinus Sums EMinus [TLeftParen; TName "d"; TPlus; TNumber 16 Hex; TRightParen] (EPlus (EName "d") (ENumber 16 Hex))
        [TMacroIdent "%x"] (EMacroArg "%x").
      * up. up. apply (g_paren [TName "d"; TPlus; TNumber 16 Hex]). up.
        bin TPlus Sums EPlus [TName "d"] (EName "d") [TNumber 16 Hex] (ENumber 16 Hex).
        -- up. up. apply g_name.
        -- up. apply g_number.
      * up. apply g_macro_arg.
  - intros (op & l & mk & r & E & I). injection E as <- _. cbn in I. repeat destruct I as [I|I]; try discriminate; destruct I.
  - vm_compute. reflexivity.
Qed.

(** The grammar gives each token sequence at most one tree, so the tree is the one it determines. *)
Theorem C24_unambiguous : forall ts e1 e2, expression Bits ts e1 -> expression Bits ts e2 -> e1 = e2.
Proof. exact expression_unique. Qed.
Print Assumptions C24_unambiguous.

Example C24_unambiguous_case : forall e,
  expression Bits [TName "a"; TMinus; TName "b"; TMinus; TName "c"] e -> e = EMinus (EMinus (EName "a") (EName "b")) (EName "c").
Proof.
  intros e H. apply (expression_unique _ _ _ H). up.
  bin TMinus Sums EMinus [TName "a"; TMinus; TName "b"] (EMinus (EName "a") (EName "b")) [TName "c"] (EName "c").
  - bin TMinus Sums EMinus [TName "a"] (EName "a") [TName "b"] (EName "b"); [up; up; apply g_name|up; apply g_name].
  - up. apply g_name.
Qed.

(** It reports an error exactly when no front part will do ... *)
Theorem C24_rejects_iff : forall ts,
  (exists er, parse_expr ts = Err er) <->
  ~ exists front rest e, ts = front ++ rest /\ expression Bits front e /\ ~ continues rest.
Proof. exact parse_expr_rejects. Qed.
Print Assumptions C24_rejects_iff.

Example C24_rejects_case : exists er, parse_expr [TName "a"; TPlus; TTimes; TName "b"] = Err er.
Proof. eexists. vm_compute. reflexivity. Qed.

(** ... and always does one or the other: it neither panics nor runs on for ever. *)
Theorem C24_total : forall ts, (exists e rest, parse_expr ts = Ok (e, rest)) \/ (exists er, parse_expr ts = Err er).
Proof. exact parse_expr_total. Qed.
Print Assumptions C24_total.
