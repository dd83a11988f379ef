(** Places stay what they are: whatever holds of the locations of the tokens holds of the locations in the program and in errors. *)
From Coq Require Import ZArith List String Ascii Bool Arith Lia.
From Verif Require Import Base Expr Instr Ast Macro Lexer Parser CHeader Asm Span SpanParser SpanAsm SpecSpan SpecPlaces.
From Verif Require Import SpanProofs2 SpanProofs3.
From Verif Require MacroProofs.
Import ListNotations.
Open Scope string_scope.
Open Scope list_scope.
Local Open Scope nat_scope.

Local Arguments parse_expr_s : simpl never.
Local Arguments make_instr_s : simpl never.
Local Arguments instr_exists : simpl never.

(** One more than the number of places of an error that can come up, and 0 for others: an error about the operands of an instruction is only about instructions there are. *)
Definition count (e : error) : nat :=
  match e with WrongInstructionArgs n => if MacroProofs.knownb n then 2 else 0 | _ => S (place_count e) end.

Lemma count_places : forall e, count e = S (place_count e) /\ (forall n, e = WrongInstructionArgs n -> MacroProofs.knownb n = true) \/ count e = 0.
Proof.
  intros e. destruct e; try (left; split; [reflexivity|discriminate]). unfold count. destruct (MacroProofs.knownb _) eqn:K; [left|now right].
  split; [reflexivity|]. intros n E. now injection E as <-.
Qed.

Lemma placeless_count : forall e, place_count e = 0 -> count e = 1.
Proof. intros e. destruct e; cbn; auto; discriminate. Qed.

Section Ok.
Variable P : location -> Prop.

Definition oks (s : span) : Prop := P (s_start s) /\ P (s_end s).
Definition okp (p : pspan) : Prop := oks (here p) /\ Forall oks (parents p).
Definition okt (ts : list token) : Prop := Forall (fun t => oks (t_span t)) ts.

Fixpoint ok_expr (e : sexpr) : Prop :=
  match e with
  | XName_ s _ | XNumber_ s _ _ | XMacroLabel_ s _ | XMacroArg_ s _ => okp s
  | XUn _ s x => okp s /\ ok_expr x
  | XBin _ s l r => okp s /\ ok_expr l /\ ok_expr r
  end.

Definition ok_arg (a : sarg) : Prop :=
  match a with SAImm e | SAEx e => ok_expr e | SAIM s _ | SAMacroArg s _ => okp s end.

Definition ok_byte (b : sbyte) : Prop := match b with SBExpr e => ok_expr e | SBString s _ => okp s end.

Definition ok_opt {A : Type} (R : A -> Prop) (x : option A) : Prop := match x with Some a => R a | None => True end.

Definition ok_include (t : sinclude) : Prop :=
  match t with SIIcon a b => ok_opt ok_expr a /\ ok_opt ok_byte b | _ => True end.

Definition ok_directive (d : sdirective) : Prop :=
  match d with
  | SDByte s items => okp s /\ Forall ok_byte items
  | SDOrg s _ => okp s
  | SDWord s words => okp s /\ Forall ok_expr words
  | SDText s _ _ | SDString s _ _ => okp s
  | SDInclude s t _ => okp s /\ ok_include t
  | SDCnop s a m => okp s /\ ok_expr a /\ ok_expr m
  end.

Definition ok_instr (i : instr sexpr imode) : Prop := Forall ok_expr (operand_exprs i).

Definition ok_statement (s : sstatement) : Prop :=
  match s with
  | SSDirective d => ok_directive d
  | SSLabel s _ => okp s
  | SSInstr s i => okp s /\ ok_instr i
  | SSVariable s _ e | SSAlias s _ e => okp s /\ ok_expr e
  | SSComment _ => True
  | SSMacroCall s _ args => okp s /\ Forall ok_arg args
  end.

Definition ok_body (s : smacro_statement) : Prop :=
  match s with SMInstr s _ args => okp s /\ Forall ok_arg args | SMLabel s _ | SMMacroLabel s _ => okp s end.

Definition ok_def (d : smacro_def) : Prop := okp (sm_span d) /\ Forall ok_body (sm_body d).
Definition ok_macros (m : smacros) : Prop := Forall (fun x => ok_def (snd x)) m.
Definition ok_program (s : sstatements) : Prop := ok_macros (ss_macros s) /\ Forall ok_statement (ss_list s).

Definition holds {A : Type} (R : A -> Prop) (x : placed A) : Prop :=
  match x with
  | POk a => R a
  | PErr e at_ => Forall okp at_ /\ S (List.length at_) = count e
  | _ => True
  end.

Lemma hbind : forall {A B : Type} (Q : A -> Prop) (R : B -> Prop) x k,
  holds Q x -> (forall a, Q a -> holds R (k a)) -> holds R (pbind x k).
Proof. intros A B Q R [a|e at_| |] k H K; cbn in *; auto. Qed.

Lemma hweaken : forall {A : Type} (Q R : A -> Prop) x, holds Q x -> (forall a, Q a -> R a) -> holds R x.
Proof. intros A Q R [a|e at_| |] H K; cbn in *; auto. Qed.

Lemma okp_alone : forall s, oks s -> okp (alone s). Proof. split; cbn; auto. Qed.
Lemma okp_from : forall a b, okp a -> okp b -> okp (span_from a b).
Proof. intros a b [[A _] _] [[_ B] _]. apply okp_alone. split; auto. Qed.
Lemma okp_parent : forall a b, okp a -> okp b -> okp (with_parent a b).
Proof. intros a b [A _] [B C]. split; cbn; auto. Qed.
Lemma okp_to : forall l, P l -> okp (to_span l). Proof. intros l H. apply okp_alone. split; auto. Qed.
Lemma ok_span_of : forall e, ok_expr e -> okp (span_of e).
Proof. intros [s n|s n r|s n|s n|op s x|op s l r]; cbn; tauto. Qed.
Lemma ok_with_span : forall e s, ok_expr e -> okp s -> ok_expr (with_span e s).
Proof. intros [p n|p n r|p n|p n|op p x|op p l r]; cbn; tauto. Qed.
Lemma ok_arg_span : forall a, ok_arg a -> okp (arg_span a). Proof. intros [e|e|s m|s n]; cbn; auto using ok_span_of. Qed.
Lemma ok_byte_span : forall a, ok_byte a -> okp (byte_span a). Proof. intros [e|s b]; cbn; auto using ok_span_of. Qed.
Lemma ok_tspan : forall t, oks (t_span t) -> okp (tspan t). Proof. intros. now apply okp_alone. Qed.
Lemma ok_start : forall t, oks (t_span t) -> okp (to_span (s_start (t_span t))). Proof. intros t [H _]. now apply okp_to. Qed.

Hint Resolve okp_alone okp_from okp_parent okp_to ok_span_of ok_with_span ok_arg_span ok_byte_span ok_tspan ok_start : okh.

(** A parser whose result is fine and that leaves fine tokens. *)
Definition fine {A : Type} (R : A -> Prop) (x : A * tokens) : Prop := R (fst x) /\ okt (snd x).

Lemma one_place : forall {A : Type} (R : A -> Prop) e p, okp p -> count e = 2 -> holds R (PErr e [p]).
Proof. intros. cbn. split; auto. Qed.
Hint Resolve one_place : okh.

Ltac one := first [split; [constructor; [auto with okh|constructor]|reflexivity]].

Lemma next_ok : forall ts, okt ts -> holds (fine (fun t => oks (t_span t))) (next_s ts).
Proof. intros [|t r] H; cbn; auto. inversion H; subst. split; auto. Qed.

Lemma comma_ok : forall ts, okt ts -> holds okt (consume_comma_s ts).
Proof. intros [|t r] H; cbn; auto. inversion H; subst. destruct (t_type t); cbn [holds]; auto; one. Qed.
Lemma hash_ok : forall ts, okt ts -> holds okt (consume_hash_s ts).
Proof. intros [|t r] H; cbn; auto. inversion H; subst. destruct (t_type t); cbn [holds]; auto; one. Qed.
Lemma right_paren_ok : forall ts, okt ts -> holds okt (consume_right_paren_s ts).
Proof. intros [|t r] H; cbn; auto. inversion H; subst. destruct (t_type t); cbn [holds]; auto; one. Qed.

Definition named {A : Type} (x : pspan * A) : Prop := okp (fst x).

Lemma string_ok : forall ts, okt ts -> holds (fine named) (read_string_s ts).
Proof. intros [|t r] H; cbn; auto. inversion H; subst. destruct (t_type t); cbn [holds]; try one. split; cbn; auto with okh. apply ok_tspan; auto. Qed.
Lemma number_ok : forall ts, okt ts -> holds (fine named) (read_number_s ts).
Proof. intros [|t r] H; cbn; auto. inversion H; subst. destruct (t_type t); cbn [holds]; try one. split; cbn; auto with okh. apply ok_tspan; auto. Qed.
Lemma name_ok : forall ts, okt ts -> holds (fine named) (read_name_s ts).
Proof. intros [|t r] H; cbn; auto. inversion H; subst. destruct (t_type t); cbn [holds]; try one. split; cbn; auto with okh. apply ok_tspan; auto. Qed.
Lemma macro_name_ok : forall ts, okt ts -> holds (fine named) (read_macro_name_s ts).
Proof. intros [|t r] H; cbn; auto. inversion H; subst. destruct (t_type t); cbn [holds]; try one. split; cbn; auto with okh. apply ok_tspan; auto. Qed.

Lemma include_type_ok : forall ts, okt ts -> holds (fine ok_include) (read_include_type_s ts).
Proof.
  intros ts H. unfold read_include_type_s.
  repeat match goal with |- context[if ?c then _ else _] => destruct c end;
    (eapply hbind; [now apply next_ok|]; intros [t r] [T R]; cbn [fst snd] in *; first [one | split; cbn; auto]).
Qed.

Lemma err_next_ok : forall {A : Type} (R : A -> Prop) e ts, count e = 2 -> okt ts -> holds R (err_next e ts).
Proof.
  intros A R e ts E H. unfold err_next. eapply hbind; [now apply next_ok|]. intros [t r] [T _]. apply one_place; auto.
  now apply ok_tspan.
Qed.

(** * Expressions *)

Definition fine_parser (p : sparser) : Prop := forall k ts, okt ts -> holds (fine ok_expr) (p k ts).

Lemma tok_type_ok : forall l t, P l -> holds (fun _ => True) (expr_tok_type_s l t).
Proof. intros l t H. unfold expr_tok_type_s. destruct (expr_type (t_type t)); cbn [holds]; auto; one. Qed.

Lemma prefix_ok : forall p, fine_parser p -> forall x t ts, oks (t_span t) -> okt ts -> holds (fine ok_expr) (prefix_parse_s p x t ts).
Proof.
  intros p F x t ts T H. assert (O: okp (alone (t_span t))) by auto with okh. destruct x; cbn [prefix_parse_s].
  - eapply hbind; [now apply F|]. intros [e r] [E R]. eapply hbind; [now apply right_paren_ok|]. intros r2 R2. split; auto.
  - destruct (t_type t); cbn [holds]; first [one|split; auto].
  - destruct (t_type t); cbn [holds]; first [one|split; auto].
  - destruct (t_type t); cbn [holds]; first [one|split; auto].
  - destruct (t_type t); cbn [holds]; first [one|split; auto].
  - eapply hbind; [now apply F|]. intros [e r] [E R]. cbn [fst snd] in *. destruct (t_type t); cbn [holds]; first [one|split; cbn; auto].
Qed.

Lemma infix_ok : forall p, fine_parser p -> forall k l t ts, ok_expr l -> oks (t_span t) -> okt ts -> holds (fine ok_expr) (infix_parse_s p k l t ts).
Proof.
  intros p F k l t ts L T H. unfold infix_parse_s. eapply hbind; [now apply F|]. intros [e r] [E R]. cbn [fst snd] in *.
  assert (O: okp (span_from (span_of l) (span_of e))) by auto with okh.
  destruct (t_type t); cbn [holds]; first [one|split; cbn; auto].
Qed.

Lemma infix_loop_ok : forall p, fine_parser p -> forall f loc k l ts, P loc -> ok_expr l -> okt ts ->
  holds (fine ok_expr) (infix_loop_s p f loc k l ts).
Proof.
  intros p F. induction f as [|f IH]; intros loc k l ts LO L H; cbn [infix_loop_s]; destruct (k <? _)%Z; cbn [holds]; try (split; auto; fail); auto.
  eapply hbind; [now apply next_ok|]. intros [t r] [T R]. eapply hbind; [now apply tok_type_ok|]. intros ty _.
  destruct (infix_table ty); [|apply one_place; auto with okh].
  eapply hbind; [now apply infix_ok|]. intros [e r2] [E R2]. now apply IH.
Qed.

Lemma pratt_ok : forall f, fine_parser (pratt_s f).
Proof.
  induction f as [|f IH]; intros k ts H; cbn [pratt_s]; [exact Logic.I|].
  eapply hbind; [now apply next_ok|]. intros [t r] [T R]. cbn [fst snd] in *. assert (L := proj1 T).
  eapply hbind; [now apply tok_type_ok|]. intros ty _. destruct (prefix_table ty); [|apply one_place; auto with okh].
  eapply hbind; [now apply prefix_ok|]. intros [e r2] [E R2]. now apply infix_loop_ok.
Qed.

Lemma expr_ok : forall ts, okt ts -> holds (fine ok_expr) (parse_expr_s ts).
Proof. intros. now apply pratt_ok. Qed.

(** * Lists and operands *)

Lemma list_loop_ok : forall {A : Type} (R : A -> Prop) p, (forall ts, okt ts -> holds (fine R) (p ts)) ->
  forall f ts, okt ts -> holds (fine (Forall R)) (list_loop_s p f ts).
Proof.
  intros A R p F. induction f as [|f IH]; intros ts H; cbn [list_loop_s]; destruct (is_empty_s ts); cbn [holds]; auto; try (split; cbn; auto).
  eapply hbind; [now apply comma_ok|]. intros r R1. eapply hbind; [now apply F|]. intros [v r2] [V R2].
  eapply hbind; [now apply IH|]. intros [vs r3] [VS R3]. split; cbn in *; auto.
Qed.

Lemma list_ok : forall {A : Type} (R : A -> Prop) p, (forall ts, okt ts -> holds (fine R) (p ts)) ->
  forall ts, okt ts -> holds (fine (Forall R)) (parse_list_s p ts).
Proof.
  intros A R p F ts H. unfold parse_list_s. destruct (is_empty_s ts); [split; cbn; auto|].
  eapply hbind; [now apply F|]. intros [v r2] [V R2]. eapply hbind; [now apply (list_loop_ok R)|]. intros [vs r3] [VS R3]. split; cbn in *; auto.
Qed.

Lemma im_ok : forall ts, okt ts -> holds (fine named) (parse_im_s ts).
Proof.
  intros ts H. unfold parse_im_s. eapply hbind; [now apply next_ok|]. intros [t r] [T R]. cbn [fst snd] in *.
  destruct (t_type t); cbn [holds]; first [one|split; cbn; auto with okh; now apply ok_tspan].
Qed.

Lemma i8_ok : forall ts, okt ts -> holds (fine ok_expr) (parse_i8_s ts).
Proof. intros ts H. unfold parse_i8_s. eapply hbind; [now apply hash_ok|]. intros. now apply expr_ok. Qed.

Lemma arg_ok : forall ts, okt ts -> holds (fine ok_arg) (parse_arg_s ts).
Proof.
  intros ts H. unfold parse_arg_s. destruct (check_s _ ts); [|destruct (check_s _ ts)].
  - eapply hbind; [now apply im_ok|]. intros [[s m] r] [T R]. split; auto.
  - eapply hbind; [now apply i8_ok|]. intros [e r] [T R]. split; auto.
  - eapply hbind; [now apply expr_ok|]. intros [e r] [T R]. cbn [fst snd] in *. destruct e; split; auto.
Qed.

Lemma byte_value_ok : forall ts, okt ts -> holds (fine ok_byte) (parse_byte_value_s ts).
Proof.
  intros ts H. unfold parse_byte_value_s. destruct (check_s _ ts).
  - eapply hbind; [now apply string_ok|]. intros [[s m] r] [T R]. split; auto.
  - eapply hbind; [now apply expr_ok|]. intros [e r] [T R]. split; auto.
Qed.

Lemma last_ok : forall {A : Type} (R : A -> Prop) f s (l : list A), (forall a, R a -> okp (f a)) -> okp s -> Forall R l -> okp (last (map f l) s).
Proof.
  intros A R f s l F S H. induction H as [|a l Ra Rl IH]; cbn; auto. destruct l as [|b l]; cbn in *; auto.
Qed.

Lemma through_ok : forall {A : Type} (R : A -> Prop) f s (l : list A), (forall a, R a -> okp (f a)) -> okp s -> Forall R l -> okp (through s f l).
Proof. intros A R f s l F S H. apply okp_from; auto. now apply (last_ok R). Qed.

(** * Directives *)

Lemma keyval_ok : forall ts, okt ts -> holds (fine (fun x => ok_byte (snd x))) (parse_keyval_pair_s ts).
Proof.
  intros ts H. unfold parse_keyval_pair_s. destruct (check_s _ ts); [|now apply err_next_ok].
  eapply hbind; [now apply name_ok|]. intros [[s n] r] [N R]. cbn [fst snd] in *. destruct (check_s _ r); [|now apply err_next_ok].
  eapply hbind; [now apply next_ok|]. intros [t r2] [T R2]. eapply hbind; [now apply byte_value_ok|].
  intros [b r3] [B R3]. split; auto.
Qed.

Definition ok_values {A : Type} (R : A -> Prop) (m : smap A) : Prop := Forall (fun x => R (snd x)) m.

Lemma ok_get : forall {A : Type} (R : A -> Prop) m k, ok_values R m -> ok_opt R (mget m k).
Proof.
  intros A R m k H. induction H as [|[k2 v] m V M IH]; cbn; auto. destruct (String.eqb k k2); cbn; auto.
Qed.

Lemma fold_ok : forall {A : Type} (R : A -> Prop) (l : list (string * A)) m, ok_values R l -> ok_values R m ->
  ok_values R (fold_left (fun m p => minsert m (fst p) (snd p)) l m).
Proof.
  intros A R l. induction l as [|[k v] l IH]; intros m L M; cbn; auto. inversion L; subst. apply IH; auto. now constructor.
Qed.

Lemma keyvals_ok : forall ts, okt ts -> holds (fine (ok_values ok_byte)) (parse_keyval_pairs_s ts).
Proof.
  intros ts H. unfold parse_keyval_pairs_s. eapply hbind; [apply (list_ok (fun x => ok_byte (snd x))); auto; apply keyval_ok|].
  intros [ps r] [A B]. split; auto. cbn in *. apply fold_ok; auto. constructor.
Qed.

Lemma sprite_type_ok : forall m, ok_values ok_byte m -> holds (fun _ => True) (sprite_type_of_s m).
Proof.
  intros m H. apply (ok_get _ _ "type") in H. unfold sprite_type_of_s. destruct (mget m "type") as [[e|s v]|]; cbn [ok_opt ok_byte] in H.
  - apply one_place; auto with okh.
  - destruct (String.eqb _ _); [exact Logic.I|]. destruct (String.eqb _ _); [exact Logic.I|]. apply one_place; auto.
  - exact Logic.I.
Qed.

Lemma sprite_header_ok : forall m, ok_values ok_byte m -> holds (fun _ => True) (sprite_header_of_s m).
Proof.
  intros m H. apply (ok_get _ _ "header") in H. unfold sprite_header_of_s. destruct (mget m "header") as [[e|s v]|]; cbn [ok_opt ok_byte] in H.
  - apply one_place; auto with okh.
  - destruct (String.eqb _ _); [exact Logic.I|]. destruct (String.eqb _ _); [exact Logic.I|]. apply one_place; auto.
  - exact Logic.I.
Qed.

Lemma icon_speed_ok : forall m, ok_values ok_byte m -> holds (ok_opt ok_expr) (icon_speed_of_s m).
Proof.
  intros m H. apply (ok_get _ _ "speed") in H. unfold icon_speed_of_s. destruct (mget m "speed") as [[e|s v]|]; cbn [ok_opt ok_byte] in H.
  - exact H.
  - apply one_place; auto. destruct H as [[H _] _]. now apply okp_to.
  - exact Logic.I.
Qed.

Lemma parse_include_ok : forall s ts, okp s -> okt ts -> holds (fine ok_directive) (parse_include_s s ts).
Proof.
  intros s ts S H. unfold parse_include_s. destruct (check_s _ ts); [|destruct (check_s _ ts); [|destruct (check_s _ ts)]].
  - eapply hbind; [now apply string_ok|]. intros [[p n] r] [N R]. split; cbn; auto. split; auto. now apply okp_from.
  - eapply hbind; [now apply name_ok|]. intros [[p0 n0] r0] [N0 R0]. eapply hbind; [now apply string_ok|]. intros [[p n] r] [N R].
    eapply hbind; [now apply keyvals_ok|]. intros [m r2] [M R2]. eapply hbind; [now apply icon_speed_ok|]. intros sp SP.
    split; cbn; auto. split; auto. split; auto. now apply ok_get.
  - eapply hbind; [now apply name_ok|]. intros [[p0 n0] r0] [N0 R0]. eapply hbind; [now apply string_ok|]. intros [[p n] r] [N R].
    eapply hbind; [now apply keyvals_ok|]. intros [m r2] [M R2]. eapply hbind; [now apply sprite_type_ok|]. intros ty _.
    eapply hbind; [now apply sprite_header_ok|]. intros h _. split; cbn; auto.
  - eapply hbind; [now apply include_type_ok|]. intros [ty r] [T R]. eapply hbind; [now apply string_ok|]. intros [[p n] r2] [N R2].
    split; cbn; auto. split; auto. now apply okp_from.
Qed.

Lemma directive_ok : forall ts, okt ts -> holds (fine (ok_opt ok_statement)) (parse_directive_s ts).
Proof.
  intros [|t r] H; [split; cbn; auto|]. unfold parse_directive_s. assert (H0 := H). inversion H as [|? ? T R]; subst.
  assert (O: okp (tspan t)) by now apply ok_tspan.
  repeat match goal with |- context[if ?c then _ else _] => destruct c end.
  - eapply hbind; [apply (list_ok ok_byte); auto; apply byte_value_ok|]. intros [vs r2] [V R2]. cbn [fst snd] in *.
    destruct vs as [|v vs]; [now apply one_place|]. split; auto. cbn [fst ok_opt ok_statement ok_directive]. split; auto.
    apply (through_ok ok_byte); auto with okh.
  - eapply hbind; [now apply number_ok|]. intros [[p n] r2] [N R2]. split; cbn; auto. now apply okp_from.
  - eapply hbind; [apply (list_ok ok_expr); auto; apply expr_ok|]. intros [vs r2] [V R2]. cbn [fst snd] in *.
    destruct vs as [|v vs]; [now apply one_place|]. split; auto. cbn [fst ok_opt ok_statement ok_directive]. split; auto.
    apply (through_ok ok_expr); auto with okh.
  - eapply hbind; [now apply number_ok|]. intros [[p n] r2] [N R2]. eapply hbind; [now apply string_ok|]. intros [[p2 n2] r3] [N2 R3].
    split; cbn; auto. now apply okp_from.
  - eapply hbind; [now apply number_ok|]. intros [[p n] r2] [N R2]. eapply hbind; [now apply string_ok|]. intros [[p2 n2] r3] [N2 R3].
    split; cbn; auto. now apply okp_from.
  - eapply hbind; [now apply parse_include_ok|]. intros [d r2] [D R2]. split; auto.
  - eapply hbind; [now apply expr_ok|]. intros [a r2] [A R2]. eapply hbind; [now apply comma_ok|]. intros r3 R3.
    eapply hbind; [now apply expr_ok|]. intros [b r4] [B R4]. split; cbn in *; auto. split; auto. apply okp_from; auto with okh.
  - split; cbn; auto.
Qed.

(** * Statements *)

Lemma gen_instr_ok : forall ts, okt ts -> holds (fine (fun x => okp (fst (fst x)) /\ Forall ok_arg (snd x))) (parse_gen_instr_s ts).
Proof.
  intros ts H. unfold parse_gen_instr_s. eapply hbind; [now apply name_ok|]. intros [[p n] r] [N R].
  eapply hbind; [apply (list_ok ok_arg); auto; apply arg_ok|]. intros [args r2] [A R2]. cbn [fst snd] in *.
  destruct args as [|a args]; split; auto. split; auto. apply (through_ok ok_arg); auto with okh.
Qed.

Lemma args_part : forall args e, Forall ok_arg args -> (In (SAImm e) args \/ In (SAEx e) args) -> ok_expr e.
Proof. intros args e F [H|H]; rewrite Forall_forall in F; apply (F _ H). Qed.

Lemma make_count : forall s n args e at_, make_instr_s s n args = PErr e at_ -> count e = 2.
Proof.
  intros s name args e at_. unfold make_instr_s.
  repeat match goal with |- context[String.eqb name ?c] => destruct (String.eqb_spec name c) as [->|_];
    [destruct args as [|[] [|[] [|[] [|]]]]; intros H; try discriminate; injection H as <- <-; reflexivity|] end.
  intros H. injection H as <- <-. reflexivity.
Qed.

Lemma make_ok : forall s n args, okp s -> Forall ok_arg args -> holds ok_instr (make_instr_s s n args).
Proof.
  intros s n args S A. assert (M := make_from s n args). assert (C := make_count s n args).
  destruct (make_instr_s s n args) as [i|e at_| |]; cbn [holds from_args] in *; auto.
  - apply Forall_forall. intros x H. apply M in H. now apply (args_part args).
  - subst at_. split; [constructor; auto|]. symmetry. apply (C _ _ eq_refl).
Qed.

Lemma instr_ok : forall ts, okt ts -> holds (fine (ok_opt ok_statement)) (parse_instr_s ts).
Proof.
  intros ts H. unfold parse_instr_s. destruct ts as [|t r]; [split; cbn; auto|].
  destruct (t_type t) eqn:T; try (split; cbn; auto; fail).
  destruct (negb (instr_exists name)); [destruct (negb (is_local name)); [|split; cbn; auto]|].
  - eapply hbind; [now apply gen_instr_ok|]. intros [[[p n] args] r2] [[N A] R]. split; cbn; auto.
  - eapply hbind; [now apply gen_instr_ok|]. intros [[[p n] args] r2] [[N A] R]. cbn [fst snd] in *.
    eapply hbind; [now apply make_ok|]. intros i I0. split; cbn; auto.
Qed.

Lemma other_ok : forall ts, okt ts -> holds (fine ok_statement) (parse_other_s ts).
Proof.
  intros ts H. unfold parse_other_s. eapply hbind; [now apply next_ok|]. intros [t r] [T R]. cbn [fst snd] in *.
  assert (O: okp (tspan t)) by now apply ok_tspan.
  repeat match goal with |- context[if ?c then _ else _] => destruct c end; try (now apply one_place).
  - destruct (t_type t); try (now apply one_place). split; cbn; auto.
  - eapply hbind; [now apply next_ok|]. intros [t2 r2] [T2 R2]. eapply hbind; [now apply expr_ok|]. intros [e r3] [E R3]. cbn [fst snd] in *.
    destruct (t_type t); cbn [holds]; auto. split; cbn; auto. split; auto. apply okp_from; auto with okh.
  - eapply hbind; [now apply next_ok|]. intros [t2 r2] [T2 R2]. eapply hbind; [now apply expr_ok|]. intros [e r3] [E R3]. cbn [fst snd] in *.
    destruct (t_type t); cbn [holds]; auto. split; cbn; auto. split; auto. apply okp_from; auto with okh.
Qed.

Lemma directive_or_other_ok : forall ts, okt ts -> holds (fine ok_statement) (parse_directive_or_other_s ts).
Proof.
  intros ts H. unfold parse_directive_or_other_s. eapply hbind; [now apply directive_ok|]. intros [d r] [D R]. cbn [fst snd] in *.
  destruct d as [s|]; [split; auto|]. now apply other_ok.
Qed.

Lemma statement_ok : forall ts, okt ts -> holds (fine ok_statement) (parse_statement_s ts).
Proof.
  intros ts H. unfold parse_statement_s. destruct (colon_label ts) as [[[n s] r]|] eqn:C.
  - unfold colon_label in C. destruct ts as [|t [|c r2]]; try discriminate. inversion H as [|? ? T R]; subst. inversion R; subst.
    destruct (t_type t); try discriminate. destruct (t_type c); try discriminate. injection C as <- <- <-. split; cbn; auto.
    apply okp_from; auto with okh; apply ok_tspan; auto.
  - destruct (check_s is_name ts && _)%bool; [|now apply directive_or_other_ok].
    eapply hbind; [now apply instr_ok|]. intros [d r] [D R]. cbn [fst snd] in *. destruct d as [s|]; [split; auto|]. now apply directive_or_other_ok.
Qed.

Lemma line_ok : forall ts, okt ts -> holds (Forall ok_statement) (parse_line_s ts).
Proof.
  intros ts H. unfold parse_line_s. destruct (negb (is_empty_s ts)); [|constructor].
  eapply hbind; [now apply statement_ok|]. intros [s r] [S R]. cbn [fst snd] in *.
  eapply (hbind (fine (Forall ok_statement))).
  - destruct (is_label_s s && negb (is_empty_s r))%bool; [|split; cbn; auto].
    eapply hbind; [now apply instr_ok|]. intros [d r2] [D R2]. cbn [fst snd] in *. destruct d as [s2|]; [split; cbn; auto|now apply err_next_ok].
  - intros [m r2] [M R2]. cbn [fst snd] in *. destruct (negb (is_empty_s r2)); [now apply err_next_ok|]. now constructor.
Qed.

(** * Macros *)

Lemma macro_label_ok : forall ts, okt ts -> Forall ok_body (fst (parse_macro_label_s ts)) /\ okt (snd (parse_macro_label_s ts)).
Proof.
  intros [|t [|c r]] H; cbn [parse_macro_label_s]; [split; constructor| |]; inversion H as [|? ? T R]; subst.
  - destruct (t_type t); try (split; cbn; auto; fail); destruct (is_local name); split; cbn; auto; constructor; auto; cbn; now apply ok_tspan.
  - inversion R; subst. assert (O: okp (span_from (tspan t) (tspan c))) by (apply okp_from; now apply ok_tspan).
    destruct (t_type t); try (split; cbn; auto; fail); destruct (t_type c); split; cbn; auto; constructor; auto.
Qed.

Lemma macro_statement_ok : forall ts, okt ts -> holds (Forall ok_body) (parse_macro_statement_s ts).
Proof.
  intros ts H. unfold parse_macro_statement_s. destruct (parse_macro_label_s ts) as [l r] eqn:E.
  destruct (macro_label_ok ts H) as [L R]. rewrite E in L, R. cbn [fst snd] in *.
  eapply (hbind (fine (Forall ok_body))).
  - destruct r as [|t r0]; [split; cbn; auto|]. inversion R as [|? ? T R0]; subst. destruct (t_type t); try (split; cbn; auto; fail).
    destruct (negb (is_local name)); [|apply one_place; auto; now apply ok_tspan].
    eapply hbind; [now apply gen_instr_ok|]. intros [[[p n] args] r2] [[N A] R2]. cbn [fst snd] in *. split; auto. constructor; [split; auto|constructor].
  - intros [m r2] [M R2]. cbn [fst snd] in *. destruct (negb (is_empty_s r2)); [now apply err_next_ok|]. now apply Forall_app.
Qed.

Lemma params_ok : forall args seen, Forall ok_arg args -> holds (fun _ => True) (macro_params_s seen args).
Proof.
  induction args as [|a args IH]; intros seen H; cbn [macro_params_s]; [exact Logic.I|]. inversion H; subst.
  destruct a; try (apply one_place; auto; cbn; auto with okh; fail).
  destruct (existsb _ seen); [apply one_place; auto|]. eapply hbind; [now apply IH|]. intros; exact Logic.I.
Qed.

Lemma ok_find : forall ms n k d, ok_macros ms -> find_macro_s ms n k = Some d -> ok_def d.
Proof.
  intros ms n k d H. induction H as [|[[n2 k2] d2] ms D M IH]; cbn; [discriminate|].
  destruct (_ && _)%bool; auto. intros E. injection E as <-. exact D.
Qed.

Lemma header_ok : forall ms ts, ok_macros ms -> okt ts -> holds (fun x => okp (fst (fst x))) (parse_macro_header_s ms ts).
Proof.
  intros ms ts M H. unfold parse_macro_header_s. eapply hbind; [now apply macro_name_ok|]. intros [[p0 n0] r0] [N0 R0].
  eapply hbind; [now apply name_ok|]. intros [[p n] r] [N R]. cbn [fst snd] in *.
  destruct (instr_exists n); [now apply one_place|].
  eapply hbind; [apply (list_ok ok_arg); auto; apply arg_ok|]. intros [args r2] [A R2]. cbn [fst snd] in *.
  destruct (find_macro_s ms n _) as [d|] eqn:F.
  - apply ok_find in F; auto. cbn. split; auto. constructor; auto. constructor; auto. apply F.
  - eapply hbind; [now apply params_ok|]. intros ps _. destruct (negb (is_empty_s r2)); [now apply err_next_ok|]. exact N.
Qed.

Lemma scan_ok : forall ls ms inside, ok_macros ms -> Forall okt ls ->
  match inside with Some (sp, _, _, body) => okp sp /\ Forall ok_body body | None => True end ->
  holds (fun x => Forall okt (fst x) /\ ok_macros (snd x)) (scan_macros_s ms inside ls).
Proof.
  induction ls as [|line ls IH]; intros ms inside M L O; cbn [scan_macros_s].
  - destruct inside as [[[[sp n] ps] body]|]; split; cbn; auto. constructor; auto.
  - inversion L; subst. destruct inside as [[[[sp n] ps] body]|].
    + destruct (check_s _ line).
      * eapply hbind; [now apply next_ok|]. intros [t r] [T R]. cbn [fst snd] in *. destruct (negb (is_empty_s r)); [now apply err_next_ok|].
        apply IH; auto. constructor; auto.
      * eapply hbind; [now apply macro_statement_ok|]. intros b B. apply IH; auto. destruct O. split; auto. now apply Forall_app.
    + destruct (check_s _ line).
      * eapply hbind; [now apply header_ok|]. intros [[sp n] ps] S. apply IH; auto.
      * eapply hbind; [now apply (IH ms None)|]. intros [k m2] [K M2]. split; cbn in *; auto.
Qed.

Lemma lines_statements_ok : forall ls, Forall okt ls -> holds (Forall ok_statement) (parse_lines_s ls).
Proof.
  induction ls as [|l ls IH]; intros H; cbn [parse_lines_s]; [constructor|]. inversion H; subst.
  eapply hbind; [now apply line_ok|]. intros a A. eapply hbind; [now apply IH|]. intros b B. now apply Forall_app.
Qed.

Lemma lines_from_ok : forall ts line file cur, okt cur -> okt ts -> Forall okt (lines_from line file cur ts).
Proof.
  induction ts as [|t ts IH]; intros line file cur C T; cbn [lines_from].
  - constructor; auto. now apply Forall_rev.
  - inversion T; subst. destruct (_ && _)%bool; [apply IH; auto; now constructor|]. constructor; [now apply Forall_rev|]. apply IH; auto. constructor; [auto|constructor].
Qed.

Lemma lines_ok : forall ts, okt ts -> Forall okt (lines ts).
Proof. intros [|t ts] H; cbn; [constructor|]. inversion H; subst. apply lines_from_ok; auto. constructor; [auto|constructor]. Qed.

Lemma program_ok : forall ts, okt ts -> holds ok_program (parse_s ts).
Proof.
  intros ts H. unfold parse_s. eapply hbind; [apply scan_ok; auto; [constructor|now apply lines_ok]|]. intros [ls ms] [L M].
  eapply hbind; [now apply lines_statements_ok|]. intros l S. split; auto.
Qed.

(** * Headers *)

Lemma header_line_ok : forall line, okt line -> holds okt (header_line_s line).
Proof.
  intros line H. unfold header_line_s. destruct (_ && _)%bool; [|exact H].
  eapply hbind; [now apply next_ok|]. intros [t r] [T R]. eapply hbind; [now apply next_ok|]. intros [t2 r2] [T2 R2].
  eapply hbind; [now apply name_ok|]. intros [n r3] [N R3]. eapply hbind; [now apply expr_ok|]. intros _ _.
  destruct line as [|h [|d [|n2 rest]]]; cbn [holds]; auto. inversion H as [|? ? A B]; subst. inversion B as [|? ? C D]; subst. inversion D; subst.
  constructor; auto. constructor; auto. split; cbn; [apply A|apply C].
Qed.

Lemma header_lines_ok : forall ls, Forall okt ls -> holds okt (header_lines_s ls).
Proof.
  induction ls as [|l ls IH]; intros H; cbn [header_lines_s]; [constructor|]. inversion H; subst.
  eapply hbind; [now apply header_line_ok|]. intros a A. eapply hbind; [now apply IH|]. intros b B. now apply Forall_app.
Qed.

(** * Expansion *)

Definition ok_argmap (m : smap sarg) : Prop := ok_values ok_arg m.

Lemma replace_ok : forall fuel inv labels args, okp inv -> ok_argmap args ->
  forall e, ok_expr e -> holds ok_expr (replace_expr_s fuel inv labels args e).
Proof.
  induction fuel as [|fuel IH]; intros inv labels args V A e.
  - induction e as [s n|s n r|s n|s n|op s x IHx|op s l IHl r IHr]; cbn [replace_expr_s ok_expr]; intros E.
    + cbn. auto with okh.
    + cbn. auto with okh.
    + destruct (mget labels n); [cbn; auto with okh|apply one_place; auto].
    + assert (G := ok_get _ _ n A). destruct (mget args n) as [[x|x|s2 m|s2 m]|]; cbn [ok_opt ok_arg] in G; try exact Logic.I; apply one_place; auto with okh.
    + destruct E. eapply hbind; [now apply IHx|]. intros a Ha. cbn. auto with okh.
    + destruct E as (E & E1 & E2). eapply hbind; [now apply IHl|]. intros a Ha. eapply hbind; [now apply IHr|]. intros b Hb. cbn. auto with okh.
  - induction e as [s n|s n r|s n|s n|op s x IHx|op s l IHl r IHr]; cbn [replace_expr_s ok_expr]; intros E.
    + cbn. auto with okh.
    + cbn. auto with okh.
    + destruct (mget labels n); [cbn; auto with okh|apply one_place; auto].
    + assert (G := ok_get _ _ n A). destruct (mget args n) as [[x|x|s2 m|s2 m]|]; cbn [ok_opt ok_arg] in G; try (apply one_place; auto with okh; fail).
      eapply hbind; [now apply IH|]. intros y Y. cbn. auto with okh.
    + destruct E. eapply hbind; [now apply IHx|]. intros a Ha. cbn. auto with okh.
    + destruct E as (E & E1 & E2). eapply hbind; [now apply IHl|]. intros a Ha. eapply hbind; [now apply IHr|]. intros b Hb. cbn. auto with okh.
Qed.

Lemma replace_args_ok : forall fuel inv labels m, okp inv -> ok_argmap m -> forall args, Forall ok_arg args ->
  holds (Forall ok_arg) (replace_args_s fuel inv labels m args).
Proof.
  intros fuel inv labels m V M. induction args as [|a args IH]; intros H; cbn [replace_args_s]; [constructor|]. inversion H; subst.
  eapply (hbind ok_arg).
  - destruct a as [e|e|s i|s n]; cbn [ok_arg] in *.
    + eapply hbind; [now apply replace_ok|]. auto.
    + eapply hbind; [now apply replace_ok|]. auto.
    + auto.
    + assert (G := ok_get _ _ n M). destruct (mget m n); [exact G|now apply one_place].
  - intros a2 A2. eapply hbind; [now apply IH|]. intros t T. now constructor.
Qed.

Lemma argmap_ok : forall ps args m, ok_argmap m -> Forall ok_arg args -> ok_argmap (make_argmap_s m ps args).
Proof.
  induction ps as [|p ps IH]; intros args m M A; cbn; auto. destruct A as [|a args Ha A]; auto. apply IH; auto. now constructor.
Qed.

Section Expand.
Variable uuid : nat -> string.

Lemma gen_labels_ok : forall body m n, Forall ok_body body -> holds (fun _ => True) (gen_labels_s uuid m n body).
Proof.
  induction body as [|s body IH]; intros m n H; cbn [gen_labels_s]; [exact Logic.I|]. inversion H; subst.
  destruct s; auto. destruct (mcontains m name); auto. apply one_place; auto.
Qed.

Definition ok_made (x : list sstatement * nat) : Prop := Forall ok_statement (fst x).

Lemma body_ok : forall call fuel ms inv labels m, okp inv -> ok_argmap m ->
  (forall n s name args, okp s -> Forall ok_arg args -> holds ok_made (call n s name args)) ->
  forall body n, Forall ok_body body -> holds ok_made (expand_body_s call fuel ms inv labels m n body).
Proof.
  intros call fuel ms inv labels m V M C. induction body as [|s body IH]; intros n H; cbn [expand_body_s]; [constructor|]. inversion H; subst.
  eapply (hbind ok_made).
  - destruct s as [sp name args|sp name|sp name]; cbn [ok_body] in *.
    + destruct H2 as [S A]. destruct (find_macro_s ms name _); (eapply hbind; [now apply (replace_args_ok fuel inv labels m)|]; intros na NA).
      * apply C; auto with okh.
      * eapply hbind; [apply make_ok; auto with okh|]. intros i I0. constructor; [|constructor]. cbn. auto with okh.
    + constructor; [exact H2|constructor].
    + destruct (mget labels name); [constructor; [exact H2|constructor]|exact Logic.I].
  - intros [a n1] A. eapply hbind; [now apply IH|]. intros [b n2] B. unfold ok_made in *. cbn in *. now apply Forall_app.
Qed.

Lemma expand_ok : forall fuel ms n inv name args, ok_macros ms -> okp inv -> Forall ok_arg args ->
  holds ok_made (expand_s uuid fuel ms n inv name args).
Proof.
  induction fuel as [|fuel IH]; intros ms n inv name args M V A; cbn [expand_s]; [exact Logic.I|].
  destruct (find_macro_s ms name _) as [d|] eqn:F; [|now apply one_place]. apply ok_find in F as [D B]; auto.
  destruct (Nat.eqb _ _).
  - eapply hbind; [now apply gen_labels_ok|]. intros [labels n1] _. apply body_ok; auto. apply argmap_ok; auto. constructor.
  - cbn. split; auto.
Qed.
End Expand.

(** * The assembler *)

Definition quiet {A : Type} (x : outcome A) : Prop := forall e, x = Err e -> count e = 1.

Lemma quiet_ok : forall {A : Type} (x : outcome A), quiet x -> holds (fun _ => True) (no_place x).
Proof. intros A [a|e| |] H; cbn; auto. split; auto. symmetry. now apply H. Qed.

Lemma quiet_bind : forall {A B : Type} (x : outcome A) (k : A -> outcome B), quiet x -> (forall a, quiet (k a)) -> quiet (bind x k).
Proof. intros A B [a|e| |] k X K e2 H; cbn in H; try discriminate; [now apply (K a)|]. injection H as <-. now apply X. Qed.

Lemma quiet_chk32 : forall pr z, quiet (chk32 pr z).
Proof. intros pr z e H. now apply chk32_no_err in H. Qed.
Lemma quiet_usize : forall pr z, quiet (chk_usize pr z).
Proof. intros pr z e H. unfold chk_usize in H. destruct (fits_usize z); [discriminate|]. destruct pr; discriminate. Qed.
Hint Resolve quiet_chk32 quiet_usize quiet_ok : okh.
End Ok.
