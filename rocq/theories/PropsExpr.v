(** Property theorems C05-C09: operand checks, branch targets, expressions. *)
From Coq Require Import ZArith List String Bool Lia.
From Verif Require Import Base Expr Bits Instr SpecIsa SpecExpr ExprProofs CodecProofs2.
Import ListNotations.
Open Scope string_scope.
Open Scope list_scope.
Open Scope Z_scope.

(** C05: the operands are evaluated and checked exactly as the reference describes; the first fault from
    left to right is reported; accepted values are stored unchanged. *)
Theorem C05_operands_exact : forall pr next label ns lo i,
  mget (locals ns) label = Some lo -> 0 <= next < 2147483648 ->
  get_ok (names_get (globals ns) lo) ->
  Forall (op_ok (names_get (globals ns) lo)) (op_list i) ->
  match operands_sem (names_get (globals ns) lo) next (snd (key i)) (op_list i) with
  | inl vs => exists j, eval_instr pr next label ns i = Ok j /\ key j = key i /\ values j = vs
  | inr e => eval_instr pr next label ns i = Err e
  end.
Proof. exact eval_instr_sem. Qed.
Print Assumptions C05_operands_exact.

(** In any build profile, whatever is accepted fits its fields. *)
Theorem C05_accepted_in_range : forall pr next label ns lo i j,
  mget (locals ns) label = Some lo -> 0 <= next < 2147483648 ->
  eval_instr pr next label ns i = Ok j -> in_range j.
Proof. exact eval_instr_in_range. Qed.
Print Assumptions C05_accepted_in_range.

Definition ns0 : names := mkNames [("x", 511); ("big", 512)] [("main", [(".l", 40000)])].

Example C05_case_ok :
  eval_instr Debug 3 "main" ns0 (Mov_d9 (ENumber 255 Decimal) (EName "X")) = Ok (Mov_d9 255 511).
Proof. reflexivity. Qed.
Example C05_case_err :
  eval_instr Debug 3 "main" ns0 (Mov_d9 (ENumber 255 Decimal) (EName "big")) = Err (NumOutOfRange 9 512).
Proof. reflexivity. Qed.

(** C06 and C07: a branch, jump or call that is accepted goes where the source says. *)
Theorem C06_branch_target : forall pr next label ns lo i j n k e,
  mget (locals ns) label = Some lo -> 0 <= next < 2147483648 ->
  eval_instr pr next label ns i = Ok j ->
  nth_error (snd (key i)) n = Some k -> k = R8 \/ k = R16 \/ k = A12 \/ k = A16 ->
  nth_error (op_list i) n = Some (inl e) ->
  exists v o, eval pr (mkEnv "Label" (names_get (globals ns) lo)) e = Ok v /\ 0 <= v < 65536 /\
    nth_error (values j) n = Some o /\ cpu_target k next o = Some v.
Proof. exact branch_target. Qed.
Print Assumptions C06_branch_target.

(** The emitted bytes decode to that very instruction. *)
Theorem C06_branch_bytes : forall pr next label ns lo i j rest,
  mget (locals ns) label = Some lo -> 0 <= next < 2147483648 ->
  eval_instr pr next label ns i = Ok j -> Forall is_byte rest ->
  decode (encode j ++ rest) = Ok (Some j).
Proof.
  intros. apply decode_encode; [|assumption]. eapply eval_instr_in_range; eassumption.
Qed.
Print Assumptions C06_branch_bytes.

Example C06_case :
  eval_instr Debug 40100 "main" ns0 (Be_Rj R2 (ENumber 1 Decimal) (EPlus (EName ".l") (ENumber 1 Decimal)))
  = Ok (Be_Rj 2 1 (-99)) /\ cpu_target R8 40100 (-99) = Some 40001.
Proof. split; reflexivity. Qed.

Example C06_case_reject :
  eval_instr Debug 39000 "main" ns0 (Br (EName ".l")) = Err (SignedNumOutOfRange 8 1000).
Proof. reflexivity. Qed.

(** The reference defines the 16-bit relative sum modulo 65536, so every target is reachable by [brf];
    the assembler rejects some. *)
Theorem C06_brf_wraps_refuted : exists pr next label ns v o,
  0 <= next < 65536 /\ 0 <= v < 65536 /\ in_field R16 o /\ cpu_target R16 next o = Some v /\
  exists err, eval_instr pr next label ns (Brf (ENumber v Decimal)) = Err err.
Proof.
  exists Debug, 3, "main", ns0, 36864, (-28674).
  split; [lia|]. split; [lia|]. split; [unfold in_field; simpl; lia|]. split; [reflexivity|].
  eexists. reflexivity.
Qed.
Print Assumptions C06_brf_wraps_refuted.

Example C07_case :
  eval_instr Debug 8194 "main" ns0 (Jmp (ENumber 12287 Hex)) = Ok (Jmp 4095) /\
  cpu_target A12 8194 4095 = Some 12287 /\
  eval_instr Debug 8190 "main" ns0 (Jmp (ENumber 12287 Hex)) = Err (AddrBitsDontMatch 8190 12287 1 2).
Proof. repeat split; reflexivity. Qed.

(** C08: expressions whose intermediate results fit have their arithmetic value, in both profiles. *)
Theorem C08_expression_value : forall pr en e, get_ok (env_get en) -> lits_ok e -> fits (env_get en) e ->
  eval pr en e = of_sum (sem (env_kind en) (env_get en) e).
Proof. exact eval_sem. Qed.
Print Assumptions C08_expression_value.

(** C08/C09: a debug build returns the arithmetic value (or the first fault) or crashes, and it crashes
    exactly when an intermediate result does not fit. *)
Theorem C09_debug_exact : forall en e, get_ok (env_get en) -> lits_ok e ->
  (fits (env_get en) e /\ eval Debug en e = of_sum (sem (env_kind en) (env_get en) e)) \/
  (~ fits (env_get en) e /\ eval Debug en e = Panic).
Proof. exact eval_debug. Qed.
Print Assumptions C09_debug_exact.

(** A release build wraps sums, differences and products. *)
Theorem C09_release_wraps : forall en e, get_ok (env_get en) -> lits_ok e -> ring_expr e = true ->
  eval Release en e =
  match sem (env_kind en) (env_get en) e with inl v => Ok (wrap32 v) | inr er => Err er end.
Proof. exact eval_release. Qed.
Print Assumptions C09_release_wraps.

Example C08_case :
  eval Release (map_env "Name" [("a", -7)]) (EMinus (EDivide (EName "A") (ENumber 2 Decimal)) (EUpperByte (ENumber 4660 Hex)))
  = Ok (-21).
Proof. reflexivity. Qed.

(** Evaluation can crash, in both profiles. *)
Theorem C09_no_crash_refuted : exists e, lits_ok e /\ forall pr en, eval pr en e = Panic.
Proof.
  exists (EDivide (ENumber (-2147483648) Decimal) (ENumber (-1) Decimal)).
  split; [simpl; unfold in32; lia|]. intros. reflexivity.
Qed.
Print Assumptions C09_no_crash_refuted.

(** In a debug build even with operands the lexer can produce. *)
Theorem C09_no_crash_debug_refuted : exists a b, 0 <= a <= 2147483647 /\ 0 <= b <= 2147483647 /\
  forall en, eval Debug en (ETimes (ENumber a Decimal) (ENumber b Decimal)) = Panic /\
             eval Release en (ETimes (ENumber a Decimal) (ENumber b Decimal)) = Ok 0.
Proof. exists 65536, 65536. split; [lia|]. split; [lia|]. intros. split; reflexivity. Qed.
Print Assumptions C09_no_crash_debug_refuted.
