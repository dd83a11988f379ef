(** Where the statements of a program stand. *)
From Coq Require Import ZArith List String Ascii Bool Arith Lia.
From Verif Require Import Base Expr Instr Ast Macro Lexer Parser SpecParse ParseProofs Span SpanParser SpecSpan SpanProofs SpanProofs2 SpanProofs3 SpanParseProofs SpanValid.
From Verif Require Import SpecIsa SpecMacro MacroProofs SpecLine LineProofs LineProofs2 LineProofs3 SpecSyntax SyntaxProofs SyntaxProofs2 SyntaxProofs4 SyntaxProofs5 SyntaxProofs6 SyntaxProofs7 SyntaxProofs8 SyntaxProofs9 SpecWritten.
Import ListNotations.
Open Scope string_scope.
Open Scope list_scope.
Local Open Scope nat_scope.

Local Arguments parse_expr_s : simpl never.
Local Arguments instr_exists : simpl never.
Local Arguments make_instr_s : simpl never.

(** * Operands and values *)

Lemma marked_written : forall ts e, marked Bits ts e -> written ts e.
Proof.
  intros ts e M. split; [now apply marked_expression|]. intros x P. destruct (marked_part _ _ _ M x P) as (before & mid & after & l & -> & MX).
  exists before, mid, after, l. split; [reflexivity|]. split; [now apply marked_expression|].
  split; [now apply (marked_parents l mid)|]. split; [now apply (marked_begins l)|]. now apply (marked_ends l).
Qed.

Lemma expr_written : gives parse_expr_s written.
Proof. intros ts e r H. apply expr_gives in H as (front & -> & M). exists front. split; auto. now apply marked_written. Qed.

Lemma parameter_written : forall l ts e s n, marked l ts e -> e = XMacroArg_ s n -> exists opening t closing, ts = opening ++ t :: closing /\
  t_type t = TMacroIdent n /\ s = at_token t /\ Forall (fun u => t_type u = TLeftParen) opening /\ Forall (fun u => t_type u = TRightParen) closing.
Proof.
  intros l ts e s n M. induction M; intros E; try discriminate.
  - auto.
  - destruct (IHM E) as (o & x & c & -> & T & S & O & C). exists (t :: o), x, (c ++ [u]). split; [cbn; now rewrite <- app_assoc|]. split; auto. split; auto.
    split; [now constructor|]. apply Forall_app. split; auto.
  - injection E as <- <-. exists [], t, []. auto.
Qed.

Lemma arg_written : gives parse_arg_s (fun ts a => operand_written ts a (arg_span a)).
Proof.
  intros ts a r H. unfold parse_arg_s in H. destruct ts as [|t ts].
  - cbn in H. discriminate.
  - unfold check_s, check_at_s in H. cbn [nth_error] in H.
    destruct (is_indirection_mode (t_type t)) eqn:M; [|destruct (is_hash (t_type t)) eqn:K].
    + unfold parse_im_s in H. cbn [next_s pbind] in H. exists [t].
      destruct (t_type t) eqn:T; try discriminate; cbn [pbind] in H; injection H as <- <-; (split; [reflexivity|]);
      apply (ow_mode t); rewrite T; cbn; auto.
    + unfold parse_i8_s in H. cbn [consume_hash_s] in H. destruct (t_type t) eqn:T; try discriminate. cbn [pbind] in H.
      destruct (parse_expr_s ts) as [[e r1]|? ?| |] eqn:E; cbn [pbind] in H; try discriminate. injection H as <- <-.
      apply expr_written in E as (front & -> & E). exists (t :: front). split; auto. now apply ow_immediate.
    + destruct (parse_expr_s (t :: ts)) as [[e r1]|? ?| |] eqn:E; cbn [pbind] in H; try discriminate. apply expr_gives in E as (front & E1 & E).
      assert (W := marked_written _ _ E).
      destruct e; injection H as <- <-; exists front; (split; [exact E1|]); try (apply ow_direct; [exact W|cbn; try destruct op; discriminate]).
      destruct (parameter_written _ _ _ _ _ E eq_refl) as (o & x & c & -> & T & -> & O & C). now apply ow_parameter.
Qed.

Lemma byte_written : gives parse_byte_value_s (fun ts b => value_written ts b (byte_span b)).
Proof.
  intros ts b r H. unfold parse_byte_value_s in H. destruct (check_s is_string ts) eqn:C.
  - destruct ts as [|t ts]; [discriminate|]. cbn [read_string_s] in H. destruct (t_type t) eqn:T; try discriminate. cbn [pbind] in H. injection H as <- <-.
    exists [t]. split; auto. now apply (vw_string t).
  - destruct (parse_expr_s ts) as [[e r1]|? ?| |] eqn:E; cbn [pbind] in H; try discriminate. injection H as <- <-.
    apply expr_written in E as (front & -> & E). exists front. split; auto. now apply vw_expression.
Qed.

Lemma word_gives : gives parse_expr_s (fun ts e => word_written ts e (span_of e)).
Proof. intros ts e r H. apply expr_written in H as (front & -> & W). exists front. split; auto. now constructor. Qed.

Lemma seps_commas : forall {T : Type} (R : list token -> T -> pspan -> Prop) f ts vs, seps (fun ts v => R ts v (f v)) ts vs ->
  forall d, commas R ts vs (last (map f vs) d).
Proof.
  intros T R f ts vs S. induction S as [a v A|a v c b vs A C S IH]; intros d.
  - now constructor.
  - replace (last (map f (v :: vs)) d) with (last (map f vs) d) by (destruct S; reflexivity). now apply (co_more _ _ _ (f v)).
Qed.

(** * Commands *)

Lemma gen_written : forall ts sp n args r, parse_gen_instr_s ts = POk ((sp, n, args), r) -> exists front, ts = front ++ r /\ call_written front n args sp.
Proof.
  intros ts sp n args r H. unfold parse_gen_instr_s in H. destruct ts as [|t ts]; [discriminate|]. cbn [read_name_s] in H.
  destruct (t_type t) eqn:T; try discriminate. cbn [pbind] in H.
  destruct (parse_args_s ts) as [[vs r2]|? ?| |] eqn:P; cbn [pbind] in H; try discriminate.
  apply (list_laid _ _ arg_written) in P as (front & -> & L). destruct L as [[-> ->]|S].
  - injection H as <- <- <- <-. exists [t]. split; auto. now apply (cw_alone t).
  - destruct vs as [|v vs]; [inversion S|]. injection H as <- <- <- <-. exists (t :: front). split; auto. apply (cw_operands t); auto. now apply (seps_commas operand_written arg_span).
Qed.

Lemma make_order : forall s name args i, make_instr_s s name args = POk i -> operand_exprs i = expressions args.
Proof.
  intros s name args i. unfold make_instr_s.
  repeat match goal with |- context[String.eqb name ?c] => destruct (String.eqb name c);
    [destruct args as [|[] [|[] [|[] [|]]]]; intros H; try discriminate; injection H as <-; reflexivity|] end.
  discriminate.
Qed.

Lemma instr_written : forall ts s r, parse_instr_s ts = POk (Some s, r) -> exists front, ts = front ++ r /\ command_written front s.
Proof.
  intros ts s r H. unfold parse_instr_s in H. destruct ts as [|t ts]; [discriminate|]. destruct (t_type t) eqn:T; try discriminate.
  destruct (negb (instr_exists name)).
  - destruct (negb (is_local name)); [|discriminate]. destruct (parse_gen_instr_s (t :: ts)) as [[[[sp n] args] r2]|? ?| |] eqn:G; cbn [pbind] in H; try discriminate.
    injection H as <- <-. apply gen_written in G as (front & E & C). exists front. split; auto. now constructor.
  - destruct (parse_gen_instr_s (t :: ts)) as [[[[sp n] args] r2]|? ?| |] eqn:G; cbn [pbind] in H; try discriminate.
    destruct (make_instr_s sp n args) as [i|? ?| |] eqn:M; cbn [pbind] in H; try discriminate. injection H as <- <-.
    apply gen_written in G as (front & E & C). exists front. split; auto. apply (mw_instr _ n args); auto. now apply make_order in M.
Qed.

(** * Directives *)

Definition pair_of (ts : list token) (x : string * sbyte) : Prop :=
  exists k q value, ts = k :: q :: value /\ t_type k = TName (fst x) /\ t_type q = TEquals /\ value_written value (snd x) (byte_span (snd x)).

Lemma pair_written : gives parse_keyval_pair_s pair_of.
Proof.
  intros ts x r H. unfold parse_keyval_pair_s in H. destruct ts as [|k [|q ts]].
  - discriminate.
  - unfold check_s, check_at_s in H. cbn [nth_error] in H. destruct (is_name (t_type k)); [|discriminate]. cbn [read_name_s] in H. destruct (t_type k); discriminate.
  - unfold check_s, check_at_s in H. cbn [nth_error] in H. destruct (is_name (t_type k)); [|discriminate]. cbn [read_name_s] in H.
    destruct (t_type k) eqn:K; try discriminate. cbn [pbind nth_error] in H. destruct (is_equ (t_type q)) eqn:Q; [|discriminate]. cbn [next_s pbind] in H.
    destruct (parse_byte_value_s ts) as [[b r1]|? ?| |] eqn:B; cbn [pbind] in H; try discriminate. injection H as <- <-.
    apply byte_written in B as (front & -> & B). exists (k :: q :: front). split; auto. exists k, q, front. cbn. destruct (t_type q); try discriminate. auto.
Qed.

Lemma value_item : forall ts b p, value_written ts b p -> byte_item (types ts) (erase_byte b).
Proof. intros ts b p [t s T|ts2 e [E _]]; cbn; [rewrite T; constructor|now constructor]. Qed.

Lemma pair_item : forall a v, pair_of a v -> property (types a) (erase_pair v).
Proof. intros a [n v] (k & q & value & -> & K & Q & B). cbn in *. rewrite K, Q. constructor. now apply value_item in B. Qed.

Lemma names_pairs : forall (vs : list (string * sbyte)), map fst (map erase_pair vs) = map fst vs.
Proof. intros vs. rewrite map_map. apply map_ext. now intros []. Qed.

Lemma pairs_last : forall ts vs, seps pair_of ts vs -> forall name m,
  match mget (fold_left (fun m p => minsert m (fst p) (snd p)) vs m) name with
  | Some b => (exists value p, last_value name ts value (erase_byte b) /\ value_written value b p) \/ (~ In name (map fst vs) /\ mget m name = Some b)
  | None => ~ In name (map fst vs) /\ mget m name = None
  end.
Proof.
  intros ts vs S. induction S as [a v A|a v c rest vs A C S IH]; intros name m; cbn [fold_left].
  - destruct A as (k & q & value & -> & K & Q & B). unfold minsert. cbn [mget]. destruct (String.eqb_spec name (fst v)) as [-> |N].
    + left. exists value, (byte_span (snd v)). split; auto. exists [], k, q, []. rewrite app_nil_r. split; auto. split; auto. split; auto. split; [now apply value_item in B|auto].
    + destruct (mget m name); [right|]; (split; auto); cbn; intros [E|[]]; now apply N.
  - specialize (IH name (minsert m (fst v) (snd v))). destruct (mget (fold_left _ vs (minsert m (fst v) (snd v))) name) as [b|].
    + destruct IH as [(value & p & (before & k & q & after & -> & K & Q & B & Z) & X)|[N G]].
      * left. exists value, p. split; auto. exists (a ++ c :: before), k, q, after. rewrite <- app_assoc. cbn. auto.
      * destruct A as (k & q & value & -> & K & Q & B). unfold minsert in G. cbn [mget] in G. destruct (String.eqb_spec name (fst v)) as [-> |D].
        -- injection G as <-. left. exists value, (byte_span (snd v)). split; auto. exists [], k, q, (c :: rest). split; [reflexivity|]. split; auto. split; auto. split; [now apply value_item in B|].
           right. exists c, rest, (map erase_pair vs). split; auto. split; auto. split; [now apply (seps_map _ _ _ pair_item)|]. now rewrite names_pairs.
        -- right. split; auto. cbn. intros [E|I]; auto.
    + destruct IH as [N G]. unfold minsert in G. cbn [mget] in G. destruct (String.eqb_spec name (fst v)) as [-> |D]; [discriminate|].
      split; auto. cbn. intros [E|I]; auto.
Qed.

Lemma property_result : forall props vs, laid pair_of props vs -> forall name,
  property_written name props (mget (fold_left (fun m p => minsert m (fst p) (snd p)) vs []) name).
Proof.
  intros props vs [[-> ->]|S] name; unfold property_written.
  - cbn. exists []. split; auto. now left.
  - assert (H := pairs_last _ _ S name []). destruct (mget _ name) as [b|].
    + destruct H as [H|[_ H]]; [exact H|discriminate].
    + exists (map erase_pair vs). split; [right; now apply (seps_map _ _ _ pair_item)|]. rewrite names_pairs. apply H.
Qed.

Lemma include_written : forall t ts d r, t_type t = TName ".include" -> parse_include_s (tspan t) ts = POk (d, r) ->
  exists front, ts = front ++ r /\ directive_written (t :: front) d.
Proof.
  intros t ts d r T H. unfold parse_include_s in H. destruct (check_s is_string ts) eqn:C1.
  { destruct ts as [|f ts]; [discriminate|]. cbn [read_string_s] in H. destruct (t_type f) eqn:F; try discriminate. cbn [pbind] in H. injection H as <- <-.
    exists [f]. split; auto. now apply (dw_include t f). }
  assert (PROPS: forall kind, check_s (has_name kind) ts = true -> forall (g : pspan -> string -> smap sbyte -> list token -> placed (sdirective * list token)),
    pbind (read_name_s ts) (fun '(_, r) => pbind (read_string_s r) (fun '((sp, s), r2) => pbind (parse_keyval_pairs_s r2) (fun '(m, r3) => g sp s m r3))) = POk (d, r) ->
    exists k f s props vs r3, ts = k :: f :: props ++ r3 /\ t_type k = TName kind /\ t_type f = TString s /\ laid pair_of props vs /\
      g (at_token f) s (fold_left (fun m p => minsert m (fst p) (snd p)) vs []) r3 = POk (d, r)).
  { intros kind C g G. destruct ts as [|k ts]; [discriminate|]. unfold check_s, check_at_s in C. cbn [nth_error] in C. cbn [read_name_s] in G.
    destruct (t_type k) eqn:K; try discriminate. cbn [pbind] in G. unfold has_name in C. apply String.eqb_eq in C. subst name.
    destruct ts as [|f ts]; [discriminate|]. cbn [read_string_s] in G. destruct (t_type f) eqn:F; try discriminate. cbn [pbind] in G.
    unfold parse_keyval_pairs_s in G. destruct (parse_list_s parse_keyval_pair_s ts) as [[vs r3]|? ?| |] eqn:P; cbn [pbind] in G; try discriminate.
    apply (list_laid _ _ pair_written) in P as (props & -> & L). exists k, f, text, props, vs, r3. auto. }
  destruct (check_s (has_name "icon") ts) eqn:C2; [|destruct (check_s (has_name "sprite") ts) eqn:C3].
  - destruct (PROPS "icon" C2 _ H) as (k & f & s & props & vs & r3 & -> & K & F & L & G). unfold icon_speed_of_s in G.
    exists (k :: f :: props). split; [cbn; f_equal; f_equal|].
    { destruct (mget _ "speed") as [[e|? ?]|]; cbn [pbind] in G; try discriminate; injection G as _ <-; reflexivity. }
    assert (SP := property_result _ _ L "speed"). assert (EY := property_result _ _ L "eyecatch").
    destruct (mget _ "speed") as [[e|? ?]|]; cbn [pbind] in G; try discriminate; injection G as <- _; now apply (dw_icon t k f).
  - destruct (PROPS "sprite" C3 _ H) as (k & f & s & props & vs & r3 & -> & K & F & L & G).
    destruct (sprite_type_of_s _) as [typ|? ?| |]; cbn [pbind] in G; try discriminate. destruct (sprite_header_of_s _) as [h|? ?| |]; cbn [pbind] in G; try discriminate.
    injection G as <- <-. exists (k :: f :: props). split; auto. now apply (dw_sprite t k f).
  - clear PROPS. unfold read_include_type_s in H.
    assert (KIND: forall kind typ, check_s (has_name kind) ts = true -> In (kind, typ) [("asm", SIAsm); ("bytes", SIBytes); ("cpp", SICHeader)] ->
      pbind (pbind (next_s ts) (fun '(_, r) => POk (typ, r))) (fun '(typ, r) => pbind (read_string_s r) (fun '((sp, s), r2) => POk (SDInclude (span_from (tspan t) sp) typ s, r2))) = POk (d, r) ->
      exists front, ts = front ++ r /\ directive_written (t :: front) d).
    { intros kind typ C I G. destruct ts as [|k ts]; [discriminate|]. unfold check_s, check_at_s in C. cbn [nth_error] in C. cbn [next_s pbind] in G.
      destruct (t_type k) eqn:K; try discriminate. unfold has_name in C. apply String.eqb_eq in C. subst name.
      destruct ts as [|f ts]; [discriminate|]. cbn [read_string_s] in G. destruct (t_type f) eqn:F; try discriminate. cbn [pbind] in G. injection G as <- <-.
      exists [k; f]. split; auto. now apply (dw_kind t k f text kind). }
    destruct (check_s (has_name "asm") ts) eqn:D1; [now apply (KIND "asm" SIAsm D1 (or_introl eq_refl))|].
    destruct (check_s (has_name "bytes") ts) eqn:D2; [now apply (KIND "bytes" SIBytes D2 (or_intror (or_introl eq_refl)))|].
    destruct (check_s (has_name "cpp") ts) eqn:D3; [now apply (KIND "cpp" SICHeader D3 (or_intror (or_intror (or_introl eq_refl))))|].
    destruct ts; discriminate.
Qed.

Lemma has_name_is : forall n t, has_name n t = true -> t = TName n.
Proof. intros n t H. destruct t; try discriminate. unfold has_name in H. apply String.eqb_eq in H. now subst. Qed.

Lemma read_number_inv : forall ts sp n r, read_number_s ts = POk ((sp, n), r) -> exists u x, ts = u :: r /\ t_type u = TNumber n x /\ sp = at_token u.
Proof. intros [|u ts] sp n r H; [discriminate|]. cbn [read_number_s] in H. destruct (t_type u) eqn:U; try discriminate. injection H as <- <- <-. eauto. Qed.
Lemma read_string_inv : forall ts sp s r, read_string_s ts = POk ((sp, s), r) -> exists u, ts = u :: r /\ t_type u = TString s /\ sp = at_token u.
Proof. intros [|u ts] sp s r H; [discriminate|]. cbn [read_string_s] in H. destruct (t_type u) eqn:U; try discriminate. injection H as <- <- <-. eauto. Qed.

Lemma directive_is_written : forall ts s r, parse_directive_s ts = POk (Some s, r) -> exists front d, ts = front ++ r /\ directive_written front d /\ s = SSDirective d.
Proof.
  intros ts s r H. unfold parse_directive_s in H. destruct ts as [|t ts]; [discriminate|].
  assert (D: forall front d, directive_written (t :: front) d -> ts = front ++ r -> s = SSDirective d -> exists front d, t :: ts = front ++ r /\ directive_written front d /\ s = SSDirective d).
  { intros front d W -> ->. exists (t :: front), d. auto. }
  destruct (has_name ".byte" (t_type t)) eqn:N1.
  { apply has_name_is in N1. destruct (parse_byte_vals_s ts) as [[vs r2]|? ?| |] eqn:P; cbn [pbind] in H; try discriminate.
    apply (list_laid _ _ byte_written) in P as (front & E & L). destruct vs as [|v vs]; [discriminate|]. injection H as <- <-.
    destruct L as [[_ L]|S]; [discriminate|]. eapply (D front); [|exact E|reflexivity]. apply dw_byte; auto. now apply (seps_commas value_written byte_span). }
  destruct (has_name ".org" (t_type t)) eqn:N2.
  { apply has_name_is in N2. destruct (read_number_s ts) as [[[sp n] r2]|? ?| |] eqn:P; cbn [pbind] in H; try discriminate. injection H as <- <-.
    apply read_number_inv in P as (u & x & E & U & ->). apply (D [u] (SDOrg (from_to t (at_token u)) n)); auto. now apply (dw_org t u n x). }
  destruct (has_name ".word" (t_type t)) eqn:N3.
  { apply has_name_is in N3. destruct (parse_exprs_s ts) as [[vs r2]|? ?| |] eqn:P; cbn [pbind] in H; try discriminate.
    apply (list_laid _ _ word_gives) in P as (front & E & L). destruct vs as [|v vs]; [discriminate|]. injection H as <- <-.
    destruct L as [[_ L]|S]; [discriminate|]. eapply (D front); [|exact E|reflexivity]. apply dw_word; auto. now apply (seps_commas word_written span_of). }
  destruct (has_name ".text" (t_type t)) eqn:N4.
  { apply has_name_is in N4. destruct (read_number_s ts) as [[[sp n] r2]|? ?| |] eqn:P; cbn [pbind] in H; try discriminate.
    apply read_number_inv in P as (u & x & -> & U & _). destruct (read_string_s r2) as [[[sp2 w] r3]|? ?| |] eqn:P; cbn [pbind] in H; try discriminate.
    injection H as <- <-. apply read_string_inv in P as (v & -> & V & ->). apply (D [u; v] (SDText (from_to t (at_token v)) n (codes w))); auto. now apply (dw_text t u n x v w). }
  destruct (has_name ".string" (t_type t)) eqn:N5.
  { apply has_name_is in N5. destruct (read_number_s ts) as [[[sp n] r2]|? ?| |] eqn:P; cbn [pbind] in H; try discriminate.
    apply read_number_inv in P as (u & x & -> & U & _). destruct (read_string_s r2) as [[[sp2 w] r3]|? ?| |] eqn:P; cbn [pbind] in H; try discriminate.
    injection H as <- <-. apply read_string_inv in P as (v & -> & V & ->). apply (D [u; v] (SDString (from_to t (at_token v)) n (codes w))); auto. now apply (dw_string t u n x v w). }
  destruct (has_name ".include" (t_type t)) eqn:N6.
  { apply has_name_is in N6. destruct (parse_include_s (tspan t) ts) as [[d r2]|? ?| |] eqn:P; cbn [pbind] in H; try discriminate. injection H as <- <-.
    apply include_written in P as (front & E & W); auto. now apply (D front d). }
  destruct (has_name ".cnop" (t_type t)) eqn:N7; [|discriminate].
  apply has_name_is in N7. destruct (parse_expr_s ts) as [[a r2]|? ?| |] eqn:P; cbn [pbind] in H; try discriminate. apply expr_written in P as (f1 & -> & A).
  destruct r2 as [|c r2]; [discriminate|]. cbn [consume_comma_s] in H. destruct (t_type c) eqn:C; try discriminate. cbn [pbind] in H.
  destruct (parse_expr_s r2) as [[b r3]|? ?| |] eqn:P; cbn [pbind] in H; try discriminate. apply expr_written in P as (f2 & -> & B). injection H as <- <-.
  apply (D (f1 ++ c :: f2) (SDCnop (from_to t (span_of b)) a b)); auto; [|now rewrite <- app_assoc]. now apply (dw_cnop t).
Qed.

Lemma other_written : forall ts s r, parse_other_s ts = POk (s, r) -> exists front, ts = front ++ r /\ statement_written front s /\ (is_label_s s = true -> is_empty_s r = true).
Proof.
  intros ts s r H. unfold parse_other_s in H. destruct ts as [|t ts]; [discriminate|]. cbn [next_s pbind] in H.
  destruct (is_name (t_type t)) eqn:N; cbn [andb] in H; [|discriminate]. destruct (t_type t) eqn:T; try discriminate. clear N.
  destruct (is_empty_s ts && is_local_name (TName name))%bool eqn:E1.
  { apply andb_true_iff in E1 as [Z L]. injection H as <- <-. exists [t]. split; auto. split; auto. apply (sw_local t); auto. now apply dotted_local. }
  destruct (check_s (has_name "equ") ts) eqn:E2.
  { destruct ts as [|u ts]; [discriminate|]. unfold check_s, check_at_s in E2. cbn [nth_error] in E2. apply has_name_is in E2. cbn [next_s pbind] in H.
    destruct (parse_expr_s ts) as [[e r3]|? ?| |] eqn:P; cbn [pbind] in H; try discriminate. injection H as <- <-. apply expr_written in P as (front & -> & W).
    exists (t :: u :: front). split; auto. split; [|discriminate]. now apply (sw_alias t). }
  destruct (check_s is_equ ts) eqn:E3; [|destruct (is_local_name (TName name)); discriminate].
  destruct ts as [|u ts]; [discriminate|]. unfold check_s, check_at_s in E3. cbn [nth_error] in E3. cbn [next_s pbind] in H.
  destruct (parse_expr_s ts) as [[e r3]|? ?| |] eqn:P; cbn [pbind] in H; try discriminate. injection H as <- <-. apply expr_written in P as (front & -> & W).
  exists (t :: u :: front). split; auto. split; [|discriminate]. apply (sw_variable t); auto. destruct (t_type u); try discriminate. reflexivity.
Qed.

Lemma statement_is_written : forall ts s r, parse_statement_s ts = POk (s, r) ->
  (exists t c n, ts = t :: c :: r /\ t_type t = TName n /\ t_type c = TColon /\ s = SSLabel (from_to t (at_token c)) n) \/
  exists front, ts = front ++ r /\ statement_written front s /\ (is_label_s s = true -> is_empty_s r = true).
Proof.
  intros ts s r H. unfold parse_statement_s in H. destruct (colon_label ts) as [[[n sp] r2]|] eqn:CL.
  { injection H as <- <-. destruct ts as [|t [|c ts]]; [discriminate|discriminate|]. cbn [colon_label] in CL. destruct (t_type t) eqn:T; try discriminate. destruct (t_type c) eqn:C; try discriminate.
    injection CL as <- <- <-. left. exists t, c, name. auto. }
  right.
  assert (D: forall s0 r0, parse_directive_or_other_s ts = POk (s0, r0) -> exists front, ts = front ++ r0 /\ statement_written front s0 /\ (is_label_s s0 = true -> is_empty_s r0 = true)).
  { intros s0 r0 G. unfold parse_directive_or_other_s in G. destruct (parse_directive_s ts) as [[[d|] r1]|? ?| |] eqn:PD; cbn [pbind] in G; try discriminate.
    - injection G as <- <-. apply directive_is_written in PD as (front & d2 & E & W & ->). exists front. split; auto. split; [now constructor|discriminate].
    - now apply other_written. }
  destruct (_ && _)%bool; [|auto]. destruct (parse_instr_s ts) as [[[i|] r1]|? ?| |] eqn:PI; cbn [pbind] in H; try discriminate; auto.
  injection H as <- <-. apply instr_written in PI as (front & E & W). exists front. split; auto. split; [now constructor|]. destruct W; discriminate.
Qed.

Lemma empty_ends : forall r, is_empty_s r = true -> ends (types r) [].
Proof. intros [|t r] H; cbn in *; [now constructor|]. destruct (t_type t); try discriminate. apply (ends_eof [] (types r)). auto. Qed.

Lemma line_is_written : forall ts ss, parse_line_s ts = POk ss -> line_written ts ss.
Proof.
  intros ts ss H. unfold parse_line_s in H. destruct (is_empty_s ts) eqn:E; cbn [negb] in H.
  { injection H as <-. constructor. now apply empty_ends. }
  destruct (parse_statement_s ts) as [[s r]|? ?| |] eqn:P; cbn [pbind] in H; try discriminate.
  apply statement_is_written in P as [(t & c & n & -> & T & C & ->)|(front & -> & W & L)].
  - cbn [is_label_s andb] in H. destruct (is_empty_s r) eqn:R; cbn [negb pbind] in H.
    + rewrite R in H. cbn [negb] in H. injection H as <-. apply (lw_one _ [t; c] r); auto. now apply empty_ends. now apply sw_label.
    + destruct (parse_instr_s r) as [[[i|] r1]|? ?| |] eqn:PI; cbn [pbind] in H; try discriminate; [|destruct r1; discriminate].
      destruct (is_empty_s r1) eqn:R1; cbn [negb] in H; [|destruct r1; discriminate]. injection H as <-. apply instr_written in PI as (front & -> & W).
      apply (lw_two _ t c front r1); auto. now apply empty_ends.
  - destruct (is_label_s s && negb (is_empty_s r))%bool eqn:B.
    { apply andb_true_iff in B as [B1 B2]. rewrite (L B1) in B2. discriminate. }
    cbn [pbind] in H. destruct (is_empty_s r) eqn:R; cbn [negb] in H; [|destruct r; discriminate]. injection H as <-. apply (lw_one _ front r); auto. now apply empty_ends.
Qed.

(** * Macros *)

Lemma body_is_written : forall ts ss, parse_macro_statement_s ts = POk ss -> body_written ts ss.
Proof.
  intros ts ss H. rewrite body_split in H.
  assert (REST: forall r more r2, body_rest_s r = POk (more, r2) -> is_empty_s r2 = true -> (more = [] /\ is_empty_s r = true) \/
    exists front n args p, r = front ++ r2 /\ call_written front n args p /\ more = [SMInstr p n args]).
  { intros [|t r] more r2 B E; cbn [body_rest_s] in B; [injection B as <- <-; now left|]. destruct (t_type t) eqn:T; try (injection B as <- <-; now left).
    destruct (is_local name); cbn [negb] in B; [discriminate|]. destruct (parse_gen_instr_s (t :: r)) as [[[[sp n] args] r3]|? ?| |] eqn:G; cbn [pbind] in B; try discriminate.
    injection B as <- <-. apply gen_written in G as (front & Q & C). right. exists front, n, args, sp. auto. }
  destruct (body_rest_s _) as [[more r2]|? ?| |] eqn:B; cbn [pbind] in H; try discriminate. destruct (is_empty_s r2) eqn:R2; cbn [negb] in H; [|destruct r2; discriminate].
  injection H as <-. specialize (REST _ _ _ B R2). clear B.
  assert (PLAIN: parse_macro_label_s ts = ([], ts) -> body_written ts (fst (parse_macro_label_s ts) ++ more)).
  { intros E. rewrite E in *. cbn [fst snd app] in *. destruct REST as [[-> Z]|(front & n & args & p & -> & C & ->)].
    - constructor. now apply empty_ends.
    - apply (bw_instr _ front r2); auto. now apply empty_ends. }
  destruct ts as [|t [|c ts]].
  - now apply PLAIN.
  - cbn [parse_macro_label_s] in *. destruct (t_type t) eqn:T; try now apply PLAIN.
    + destruct (is_local name) eqn:L; [|now apply PLAIN]. cbn [fst snd] in *. destruct REST as [[-> _]|(front & n & args & p & E & C & _)].
      * cbn [app]. apply (bw_local _ t); auto. now apply dotted_local.
      * destruct front; [inversion C|discriminate].
    + destruct (is_local name) eqn:L; [|now apply PLAIN]. cbn [fst snd] in *. destruct REST as [[-> _]|(front & n & args & p & E & C & _)].
      * cbn [app]. apply (bw_macro_local _ t); auto. now apply dotted_local.
      * destruct front; [inversion C|discriminate].
  - cbn [parse_macro_label_s] in *. destruct (t_type t) eqn:T; try now apply PLAIN.
    + destruct (t_type c) eqn:C; try now apply PLAIN. cbn [fst snd app] in *. destruct REST as [[-> Z]|(front & n & args & p & -> & CW & ->)].
      * apply (bw_label _ t c ts name); auto. now apply empty_ends.
      * apply (bw_label_instr _ t c front r2 name); auto. now apply empty_ends.
    + destruct (t_type c) eqn:C; try now apply PLAIN. cbn [fst snd app] in *. destruct REST as [[-> Z]|(front & n & args & p & -> & CW & ->)].
      * apply (bw_label _ t c ts name); auto. now apply empty_ends.
      * apply (bw_label_instr _ t c front r2 name); auto. now apply empty_ends.
Qed.

Lemma header_alone : forall ms ts x, parse_macro_header_s ms ts = POk x -> parse_macro_header_s [] ts = POk x.
Proof.
  intros ms ts x H. unfold parse_macro_header_s in *. destruct (read_macro_name_s ts) as [[? r]|? ?| |]; cbn [pbind] in *; try discriminate.
  destruct (read_name_s r) as [[[sp name] r2]|? ?| |]; cbn [pbind] in *; try discriminate. destruct (instr_exists name); [discriminate|].
  destruct (parse_args_s r2) as [[args r3]|? ?| |]; cbn [pbind] in *; try discriminate. destruct (find_macro_s ms name _); [discriminate|]. exact H.
Qed.

Lemma header_is_written : forall ms ts sp name params, check_s (has_macro_name "%macro") ts = true -> parse_macro_header_s ms ts = POk (sp, name, params) ->
  (exists m t r, ts = m :: t :: r /\ t_type m = TMacroIdent "%macro" /\ t_type t = TName name /\ sp = at_token t) /\ header (types ts) name params.
Proof.
  intros ms ts sp name params C H. apply header_alone in H. split.
  - destruct ts as [|m ts]; [discriminate|]. unfold check_s, check_at_s in C. cbn [nth_error] in C. destruct (t_type m) eqn:M; try discriminate. unfold has_macro_name in C. apply String.eqb_eq in C. subst.
    unfold parse_macro_header_s in H. cbn [read_macro_name_s] in H. rewrite M in H. cbn [pbind] in H. destruct ts as [|t r]; [discriminate|]. cbn [read_name_s] in H.
    destruct (t_type t) eqn:T; try discriminate. cbn [pbind] in H. destruct (instr_exists _); [discriminate|]. destruct (parse_args_s r) as [[args r3]|? ?| |]; cbn [pbind] in H; try discriminate.
    cbn [find_macro_s] in H. destruct (macro_params_s [] args); cbn [pbind] in H; try discriminate. destruct (is_empty_s r3); cbn [negb] in H; [|destruct r3; discriminate].
    injection H as <- <- <-. exists m, t, r. auto.
  - assert (S := header_same [] ts). rewrite H in S. cbn [unplaced erase_head] in S. symmetry in S. rewrite check_same in C. apply (header_iff [] (types ts) name params C) in S. apply S.
Qed.

Lemma lines_snoc : forall {T : Type} (one : list token -> list T -> Prop) ls xs l ys, lines_written one ls xs -> one l ys -> lines_written one (ls ++ [l]) (xs ++ ys).
Proof.
  intros T one ls xs l ys L O. induction L as [|ts x ls rest H L IH]; cbn.
  - rewrite <- (app_nil_r ys). constructor; auto. constructor.
  - rewrite <- app_assoc. now constructor.
Qed.

Lemma scan_written : forall ls,
  (forall ms kept ms2, scan_macros_s ms None ls = POk (kept, ms2) -> exists defs, program_written ls kept defs /\ map snd ms2 = rev defs ++ map snd ms) /\
  (forall ms sp name params done hd pre kept ms2, scan_macros_s ms (Some (sp, name, params, done)) ls = POk (kept, ms2) ->
    (exists m t r, hd = m :: t :: r /\ t_type m = TMacroIdent "%macro" /\ t_type t = TName name /\ sp = at_token t) -> header (types hd) name params ->
    lines_written body_written pre done -> Forall (fun l => ~ first_is (TMacroIdent "%end") (types l)) pre ->
    exists defs, program_written (hd :: pre ++ ls) kept defs /\ map snd ms2 = rev defs ++ map snd ms).
Proof.
  induction ls as [|l ls [IH1 IH2]]; (split; [intros ms kept ms2 H|intros ms sp name params done hd pre kept ms2 H M HD L F]).
  - injection H as <- <-. exists []. split; [constructor|reflexivity].
  - injection H as <- <-. exists [mkSMacro sp name params done]. split; [|reflexivity]. rewrite app_nil_r. apply pw_unclosed; auto. split; auto.
  - cbn [scan_macros_s] in H. destruct (check_s (has_macro_name "%macro") l) eqn:C.
    + destruct (parse_macro_header_s ms l) as [[[sp name] params]|? ?| |] eqn:P; cbn [pbind] in H; try discriminate. apply header_is_written in P as [M HD]; auto.
      apply (IH2 ms sp name params [] l []) in H; auto. constructor.
    + destruct (scan_macros_s ms None ls) as [[k2 m2]|? ?| |] eqn:P; cbn [pbind] in H; try discriminate. injection H as <- <-.
      apply IH1 in P as (defs & P & E). exists defs. split; auto. apply pw_line; auto. rewrite check_same in C. now apply check_first_not in C.
  - cbn [scan_macros_s] in H. destruct (check_s (has_macro_name "%end") l) eqn:C; rewrite check_same in C.
    + apply check_first in C. destruct (end_result l (scan_macros_s (add_macro_s ms sp name params done) None ls) C) as [[E N]|(e & at_ & E & _)]; rewrite E in H; [|discriminate].
      apply IH1 in H as (defs & P & Q). exists (mkSMacro sp name params done :: defs). split.
      * apply pw_macro; auto. split; auto.
      * rewrite Q. cbn. rewrite <- app_assoc. reflexivity.
    + apply check_first_not in C. destruct (parse_macro_statement_s l) as [stmts|? ?| |] eqn:P; cbn [pbind] in H; try discriminate. apply body_is_written in P.
      replace (hd :: pre ++ l :: ls) with (hd :: (pre ++ [l]) ++ ls) by (now rewrite <- app_assoc).
      apply (IH2 ms sp name params (done ++ stmts) hd (pre ++ [l])) in H; auto.
      * now apply lines_snoc.
      * apply Forall_app. auto.
Qed.

Lemma lines_are_written : forall ls ss, parse_lines_s ls = POk ss -> lines_written line_written ls ss.
Proof.
  induction ls as [|l ls IH]; intros ss H; cbn [parse_lines_s] in H; [injection H as <-; constructor|].
  destruct (parse_line_s l) as [x|? ?| |] eqn:P; cbn [pbind] in H; try discriminate. destruct (parse_lines_s ls) as [y|? ?| |]; cbn [pbind] in H; try discriminate.
  injection H as <-. constructor; auto. now apply line_is_written.
Qed.

Theorem program_is_written : forall toks st, parse_s toks = POk st -> exists ls kept defs, grouped toks ls /\ program_written ls kept defs /\
  lines_written line_written kept (ss_list st) /\ map snd (ss_macros st) = rev defs.
Proof.
  intros toks st H. unfold parse_s in H. destruct (scan_macros_s [] None (lines toks)) as [[kept ms]|? ?| |] eqn:S; cbn [pbind] in H; try discriminate.
  destruct (parse_lines_s kept) as [ss|? ?| |] eqn:P; cbn [pbind] in H; try discriminate. injection H as <-.
  apply (proj1 (scan_written _)) in S as (defs & W & E). exists (lines toks), kept, defs. split; [now apply lines_iff|]. split; auto. split; [now apply lines_are_written|].
  cbn. rewrite E. apply app_nil_r.
Qed.
