(** Operands, byte values, properties and includes. *)
From Coq Require Import ZArith List String Ascii Bool Arith Lia.
From Verif Require Import Base Expr Instr Ast Macro Lexer Parser SpecParse ParseProofs Span SpanParser SpecSpan SpanProofs SpanProofs2.
From Verif Require Import SpecIsa SpecMacro SpecLine LineProofs SpecSyntax SyntaxProofs SyntaxProofs2.
Import ListNotations.
Open Scope string_scope.
Open Scope list_scope.
Local Open Scope nat_scope.

Local Arguments parse_expr_s : simpl never.

Definition is_number (t : token_type) : bool := match t with TNumber _ _ => true | _ => false end.

Lemma reads_string : reads read_string_s (one is_string).
Proof.
  apply (reads_one _ _ (ExpectedTokenNotFound "String")); [constructor|now exists (TString "")|reflexivity|].
  intros t r. cbn [read_string_s]. destruct (t_type t); cbn; eauto.
Qed.
Lemma reads_number : reads read_number_s (one is_number).
Proof.
  apply (reads_one _ _ (ExpectedTokenNotFound "Number")); [constructor|now exists (TNumber 0 Decimal)|reflexivity|].
  intros t r. cbn [read_number_s]. destruct (t_type t); cbn; eauto.
Qed.
Lemma reads_name : reads read_name_s (one is_name).
Proof.
  apply (reads_one _ _ (ExpectedTokenNotFound "Name")); [constructor|now exists (TName "")|reflexivity|].
  intros t r. cbn [read_name_s]. destruct (t_type t); cbn; eauto.
Qed.
Lemma reads_hash : reads (fun ts => pbind (consume_hash_s ts) (fun r => POk (tt, r))) (one is_hash).
Proof.
  apply (reads_one _ _ (ExpectedTokenNotFound "'#'")); [constructor|now exists THash|reflexivity|].
  intros t r. cbn [consume_hash_s]. destruct (t_type t); cbn; eauto.
Qed.
Lemma reads_im : reads parse_im_s (one is_indirection_mode).
Proof.
  apply (reads_one _ _ (ExpectedTokenNotFound "Indirection Mode (@R[0-3])")); [constructor|now exists TR0|reflexivity|].
  intros t r. unfold parse_im_s. cbn [next_s pbind]. destruct (t_type t); cbn; eauto.
Qed.

(** * Operands *)

Lemma reads_i8 : reads parse_i8_s (joined (one is_hash) exprL).
Proof.
  apply (reads_eq _ (fun ts => pbind (pbind (consume_hash_s ts) (fun r => POk (tt, r))) (fun '(_, r) => parse_expr_s r))).
  { intros ts. unfold parse_i8_s. destruct (consume_hash_s ts); reflexivity. }
  apply reads_then with (k := fun _ r => parse_expr_s r); [apply reads_hash|intros _; apply reads_expr|apply one_apart|exists [TName "x"]; apply exprL_some].
Qed.

Definition operandL : language := fun ts => exists a, operand_of ts a.

Lemma operandL_same : same (either (one is_indirection_mode) (either (joined (one is_hash) exprL) exprL)) operandL.
Proof.
  intros ts. split.
  - intros [(t & -> & F)|[(a & b & -> & (t & -> & F) & (e & X))|(e & X)]].
    + assert (M: exists m, In (t, m) modes) by (destruct t; try discriminate; cbn; eauto 8). destruct M as (m & M). exists (AIM m). now constructor.
    + destruct t; try discriminate. exists (AImm e). now constructor.
    + assert (Z: (exists n, e = EMacroArg n) \/ forall n, e <> EMacroArg n) by (destruct e; try (right; discriminate); left; eauto).
      destruct Z as [(n & ->)|N]; [exists (AMacroArg n)|exists (AEx e)]; now constructor.
  - intros (a & O). destruct O as [t m M|ts e X|ts n X|ts e X N].
    + left. exists t. split; auto. cbn in M. repeat destruct M as [M|M]; try (injection M as <- <-; reflexivity); destruct M.
    + right; left. exists [THash], ts. split; auto. split; [now exists THash|now exists e].
    + right; right. now exists (EMacroArg n).
    + right; right. now exists e.
Qed.

Lemma head_excludes : forall (f : token_type -> bool), (forall t, expr_head t = true -> f t = false) -> not_starting exprL f.
Proof. intros f F t r X. destruct (exprL_head _ X) as (t2 & r2 & E & H). injection E as <- _. now apply F. Qed.

Lemma starting_one : forall f, starting (one f) f.
Proof. intros f ts (t & -> & F). eauto. Qed.
Lemma starting_joined : forall G H f, starting G f -> starting (joined G H) f.
Proof. intros G H f S ts (a & b & -> & A & _). destruct (S _ A) as (t & r & -> & F). cbn. eauto. Qed.
Lemma starting_nonempty : forall G f, starting G f -> ~ G [].
Proof. intros G f S X. destruct (S _ X) as (t & r & E & _). discriminate. Qed.
Lemma starting_not : forall G f g, starting G f -> (forall t, f t = true -> g t = false) -> not_starting G g.
Proof. intros G f g S D t r X. destruct (S _ X) as (t2 & r2 & E & F). injection E as <- _. auto. Qed.

Lemma reads_operand : reads parse_arg_s operandL.
Proof.
  apply (reads_same _ _ _ operandL_same).
  apply (reads_eq _ (fun ts => if check_s is_indirection_mode ts then pbind (parse_im_s ts) (fun '((s, m), r) => POk (SAIM s m, r))
    else if check_s is_hash ts then pbind (parse_i8_s ts) (fun '(e, r) => POk (SAImm e, r))
    else pbind (parse_expr_s ts) (fun '(e, r) => POk (match e with XMacroArg_ s n => SAMacroArg s n | _ => SAEx e end, r)))).
  { intros ts. unfold parse_arg_s. destruct (check_s _ ts); auto. destruct (check_s _ ts); auto.
    destruct (parse_expr_s ts) as [[e r]|e at_| |]; cbn [pbind]; auto. destruct e; reflexivity. }
  apply (reads_choice (fun ts => pbind (parse_im_s ts) (fun '((s, m), r) => POk (SAIM s m, r)))
    (fun ts => if check_s is_hash ts then pbind (parse_i8_s ts) (fun '(e, r) => POk (SAImm e, r))
    else pbind (parse_expr_s ts) (fun '(e, r) => POk (match e with XMacroArg_ s n => SAMacroArg s n | _ => SAEx e end, r)))).
  - apply (reads_eq _ (fun ts => pbind (parse_im_s ts) (fun '(v, r) => POk ((fun v => SAIM (fst v) (snd v)) v, r)))).
    + intros ts. destruct (parse_im_s ts) as [[[s m] r]|e at_| |]; reflexivity.
    + apply reads_map, reads_im.
  - apply (reads_choice (fun ts => pbind (parse_i8_s ts) (fun '(e, r) => POk (SAImm e, r)))
      (fun ts => pbind (parse_expr_s ts) (fun '(e, r) => POk (match e with XMacroArg_ s n => SAMacroArg s n | _ => SAEx e end, r)))).
    + apply (reads_map _ _ SAImm), reads_i8.
    + apply (reads_map _ _ (fun e => match e with XMacroArg_ s n => SAMacroArg s n | _ => SAEx e end)), reads_expr.
    + apply starting_joined, starting_one.
    + apply head_excludes. intros []; cbn; congruence.
    + apply exprL_nonempty.
  - apply starting_one.
  - intros t r [X|X].
    + revert X. apply (starting_not _ is_hash); [apply starting_joined, starting_one|]. intros []; cbn; congruence.
    + revert X. apply head_excludes. intros []; cbn; congruence.
  - intros [X|X]; [|now apply exprL_nonempty]. revert X. apply (starting_nonempty _ is_hash). apply starting_joined, starting_one.
Qed.

Lemma expr_no_comma : apart exprL (fun ts => exists r, ts = TComma :: r).
Proof.
  apply (expr_apart comma).
  - intros t l mk O. cbn in O. repeat destruct O as [O|O]; try (injection O as <- <- <-; reflexivity); destruct O.
  - intros ts (r & ->). eauto.
Qed.

Lemma operand_no_comma : apart operandL (fun ts => exists r, ts = TComma :: r).
Proof.
  intros u y X (m & C) (m2 & r & E). cbn in E. injection E as -> _. apply operandL_same in X. apply operandL_same in C.
  rewrite <- app_assoc in C. cbn in C.
  assert (K: forall v, exprL v -> exprL (v ++ TComma :: m) -> False).
  { intros v V W. apply (expr_no_comma v TComma V); [exists m; rewrite <- app_assoc; exact W|]. exists [], []. reflexivity. }
  destruct X as [(t & -> & F)|[(a & b & -> & (t & -> & F) & X)|X]]; destruct C as [(t2 & E & F2)|[(a2 & b2 & E & (t2 & -> & F2) & Y)|Y]]; try (cbn in E).
  - discriminate.
  - injection E as <- _. destruct t; discriminate.
  - destruct (exprL_head _ Y) as (t2 & r2 & E & H). injection E as <- _. destruct t; discriminate.
  - destruct b; [now apply exprL_nonempty in X|discriminate].
  - injection E as <- <-. now apply (K b).
  - destruct (exprL_head _ Y) as (t2 & r2 & E & H). injection E as <- _. destruct t; discriminate.
  - destruct u as [|u0 u]; [now apply exprL_nonempty in X|]. destruct u; discriminate.
  - destruct u as [|u0 u]; [now apply exprL_nonempty in X|]. injection E as <- E. destruct (exprL_head _ X) as (t3 & r3 & E3 & H).
    injection E3 as <- _. destruct u0; discriminate.
  - now apply (K u).
Qed.

Lemma operand_heads : forall ts, operandL ts -> exists t r, ts = t :: r /\ t <> TEOF.
Proof.
  intros ts X. apply operandL_same in X as [(t & -> & F)|[(a & b & -> & (t & -> & F) & X)|X]].
  - exists t, []. split; auto. destruct t; discriminate.
  - exists t, b. split; auto. destruct t; discriminate.
  - destruct (exprL_head _ X) as (t & r & -> & H). exists t, r. split; auto. destruct t; discriminate.
Qed.

Lemma operand_some : exists ts, operandL ts.
Proof. exists [TR0]. exists (AIM R0). constructor. cbn. auto. Qed.

Definition operandsL : language := either (listL operandL) nothing.
Lemma finishes_operands : finishes parse_args_s operandsL.
Proof. apply finishes_list; [apply reads_operand|apply operand_some|apply operand_no_comma]. Qed.

(** The lists of the grammar. *)
Lemma separated_list : forall {T : Type} (item : list token_type -> T -> Prop) ts,
  listL (fun ts => exists x, item ts x) ts <-> exists xs, separated item ts xs.
Proof.
  intros T item ts. split.
  - intros (a & b & -> & A & B). revert a A. induction B as [|c d C D IH]; intros a (x & A).
    + rewrite app_nil_r. exists [x]. now constructor.
    + destruct (IH c C) as (xs & S). exists (x :: xs). now constructor.
  - intros (xs & S). induction S as [ts x X|ts x ts2 xs X S IH].
    + exists ts, []. rewrite app_nil_r. split; auto. split; [now exists x|constructor].
    + destruct IH as (a & b & -> & A & B). exists ts, (TComma :: a ++ b). split; auto. split; [now exists x|]. now constructor.
Qed.

Lemma maybe_list : forall {T : Type} (item : list token_type -> T -> Prop) ts,
  either (listL (fun ts => exists x, item ts x)) nothing ts <-> exists xs, maybe item ts xs.
Proof.
  intros T item ts. unfold either, nothing, maybe. rewrite separated_list. split.
  - intros [(xs & S)| ->]; [exists xs; auto|exists []; auto].
  - intros (xs & [[-> ->]|S]); [auto|left; eauto].
Qed.

(** * Byte values *)

Definition byteL : language := fun ts => exists b, byte_item ts b.

Lemma byteL_same : same (either (one is_string) exprL) byteL.
Proof.
  intros ts. split.
  - intros [(t & -> & F)|(e & X)]; [destruct t; try discriminate; eexists; constructor|exists (BVExpr e); now constructor].
  - intros (b & B). destruct B as [s|ts e X]; [left; now exists (TString s)|right; now exists e].
Qed.

Lemma reads_byte : reads parse_byte_value_s byteL.
Proof.
  apply (reads_same _ _ _ byteL_same).
  apply (reads_eq _ (fun ts => if check_s is_string ts then pbind (read_string_s ts) (fun '(v, r) => POk ((fun v => SBString (fst v) (string_bytes (snd v))) v, r))
    else pbind (parse_expr_s ts) (fun '(e, r) => POk (SBExpr e, r)))).
  { intros ts. unfold parse_byte_value_s. destruct (check_s _ ts); auto. destruct (read_string_s ts) as [[[s m] r]|e at_| |]; reflexivity. }
  apply (reads_choice (fun ts => pbind (read_string_s ts) (fun '(v, r) => POk ((fun v => SBString (fst v) (string_bytes (snd v))) v, r)))
    (fun ts => pbind (parse_expr_s ts) (fun '(e, r) => POk (SBExpr e, r)))).
  - apply reads_map, reads_string.
  - apply (reads_map _ _ SBExpr), reads_expr.
  - apply starting_one.
  - apply head_excludes. intros []; cbn; congruence.
  - apply exprL_nonempty.
Qed.

Lemma byte_no_comma : apart byteL (fun ts => exists r, ts = TComma :: r).
Proof.
  intros u y X (m & C) (m2 & r & E). cbn in E. injection E as -> _. apply byteL_same in X. apply byteL_same in C.
  rewrite <- app_assoc in C. cbn in C.
  destruct X as [(t & -> & F)|X]; destruct C as [(t2 & E & F2)|Y]; cbn in *.
  - discriminate.
  - destruct (exprL_head _ Y) as (t2 & r2 & E & H). injection E as <- _. destruct t; discriminate.
  - destruct u as [|u0 u]; [now apply exprL_nonempty in X|]. destruct u; discriminate.
  - apply (expr_no_comma u TComma X); [exists m; rewrite <- app_assoc; exact Y|]. exists [], []. reflexivity.
Qed.

Lemma byte_heads : forall ts, byteL ts -> exists t r, ts = t :: r /\ t <> TEOF.
Proof.
  intros ts X. apply byteL_same in X as [(t & -> & F)|X].
  - exists t, []. split; auto. destruct t; discriminate.
  - destruct (exprL_head _ X) as (t & r & -> & H). exists t, r. split; auto. destruct t; discriminate.
Qed.

Lemma byte_some : exists ts, byteL ts. Proof. exists [TString ""]. eexists. constructor. Qed.
Lemma expr_some : exists ts, exprL ts. Proof. eexists. apply exprL_some. Qed.
Lemma expr_heads : forall ts, exprL ts -> exists t r, ts = t :: r /\ t <> TEOF.
Proof. intros ts X. destruct (exprL_head _ X) as (t & r & -> & H). exists t, r. split; auto. destruct t; discriminate. Qed.

(** * Properties *)

(** A token of a kind, for [check] and [next] together. *)
Definition take (f : token_type -> bool) (e : error) (ts : list token) : placed (token * list token) :=
  match ts with
  | [] => PErr UnexpectedEof []
  | t :: r => if f (t_type t) then POk (t, r) else PErr e [mkP (t_span t) []]
  end.

Lemma reads_take : forall f e, unexpected e -> (exists t, f t = true) -> reads (take f e) (one f).
Proof. intros f e UN W. apply (reads_one _ _ e); [exact UN|exact W|reflexivity|]. intros t r. cbn. destruct (f (t_type t)); eauto. Qed.

Definition propL : language := fun ts => exists x, property ts x.

Lemma propL_same : same (joined (one is_name) (joined (one is_equ) byteL)) propL.
Proof.
  intros ts. split.
  - intros (a & b & -> & (t & -> & F) & (c & d & -> & (t2 & -> & F2) & (v & B))). destruct t; try discriminate. destruct t2; try discriminate.
    exists (name, v). now constructor.
  - intros (x & [n ts2 v B]). exists [TName n], (TEquals :: ts2). split; auto. split; [now exists (TName n)|].
    exists [TEquals], ts2. split; auto. split; [now exists TEquals|now exists v].
Qed.

Lemma reads_property : reads parse_keyval_pair_s propL.
Proof.
  apply (reads_same _ _ _ propL_same).
  apply (reads_eq _ (fun ts => pbind (take is_name (ExpectedTokenNotFound "Name") ts) (fun '(t, r) =>
    pbind (take is_equ (ExpectedTokenNotFound "=") r) (fun '(_, r2) =>
    pbind (parse_byte_value_s r2) (fun '(v, r3) => POk ((match t_type t with TName n => n | _ => "" end, v), r3)))))).
  { intros [|t ts]; [reflexivity|]. unfold parse_keyval_pair_s, check_s, check_at_s. cbn [nth_error take]. destruct (is_name (t_type t)) eqn:N; [|reflexivity].
    cbn [pbind read_name_s]. destruct (t_type t); try discriminate. cbn [pbind]. destruct ts as [|u ts]; [reflexivity|]. cbn [nth_error take].
    destruct (is_equ (t_type u)); [|reflexivity]. cbn [pbind next_s]. destruct (parse_byte_value_s ts) as [[v r]|e at_| |]; reflexivity. }
  apply reads_then with (k := fun t r => pbind (take is_equ (ExpectedTokenNotFound "=") r) (fun '(_, r2) =>
    pbind (parse_byte_value_s r2) (fun '(v, r3) => POk ((match t_type t with TName n => n | _ => "" end, v), r3)))).
  - apply reads_take; [constructor|]. now exists (TName "").
  - intros t. apply reads_then with (k := fun _ r2 => pbind (parse_byte_value_s r2) (fun '(v, r3) => POk ((match t_type t with TName n => n | _ => "" end, v), r3))).
    + apply reads_take; [constructor|]. now exists TEquals.
    + intros _. apply (reads_map _ _ (fun v => (match t_type t with TName n => n | _ => "" end, v))), reads_byte.
    + apply one_apart.
    + apply byte_some.
  - apply one_apart.
  - destruct byte_some as (b & B). exists (TEquals :: b), [TEquals], b. split; auto. split; auto. now exists TEquals.
Qed.

Lemma property_heads : forall ts, propL ts -> exists t r, ts = t :: r /\ t <> TEOF.
Proof. intros ts (x & [n ts2 v B]). exists (TName n), (TEquals :: ts2). split; auto. discriminate. Qed.

Lemma property_some : exists ts, propL ts.
Proof. exists [TName "a"; TEquals; TString ""]. eexists. constructor. constructor. Qed.

Lemma property_no_comma : apart propL (fun ts => exists r, ts = TComma :: r).
Proof.
  intros u y (x & [n ts2 v B]) (m & x2 & C) E. cbn in C. inversion C as [n2 ts3 v2 B2 E2]; subst. apply (byte_no_comma ts2 y); auto.
  - now exists v.
  - exists m. now exists v2.
Qed.

Definition propertiesL : language := either (listL propL) nothing.
Lemma finishes_properties : finishes parse_keyval_pairs_s propertiesL.
Proof.
  unfold parse_keyval_pairs_s.
  apply (finishes_map (parse_list_s parse_keyval_pair_s) propertiesL (fun pairs => fold_left (fun m p => minsert m (fst p) (snd p)) pairs [])).
  apply finishes_list; [apply reads_property|apply property_some|apply property_no_comma].
Qed.
