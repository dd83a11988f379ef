(** Where operands and properties stand. *)
From Coq Require Import ZArith List String Ascii Bool Arith Lia.
From Verif Require Import Base Expr Instr Ast Macro Lexer Parser SpecParse ParseProofs Span SpanParser SpecSpan SpanProofs SpanProofs2 SpanProofs3 SpanParseProofs SpanValid.
From Verif Require Import SpecIsa SpecMacro MacroProofs SpecLine LineProofs LineProofs2 SpecSyntax SyntaxProofs SyntaxProofs2 SyntaxProofs3 SyntaxProofs4 SyntaxProofs5.
Import ListNotations.
Open Scope string_scope.
Open Scope list_scope.
Local Open Scope nat_scope.

Local Arguments parse_expr_s : simpl never.
Local Arguments instr_exists : simpl never.
Local Arguments make_instr_s : simpl never.

(** The place is exactly from one token to another. *)
Definition covers (ts : list token) (p : pspan) : Prop :=
  parents p = [] /\ exists a b, In a ts /\ In b ts /\ s_start (here p) = s_start (t_span a) /\ s_end (here p) = s_end (t_span b).

Lemma covers_more : forall ts us p, (forall t, In t ts -> In t us) -> covers ts p -> covers us p.
Proof. intros ts us p I (P & a & b & A & B & C & D). split; auto. exists a, b. auto. Qed.

Lemma covers_spans : forall ts p, covers ts p -> spans ts [p].
Proof. intros ts [s ps] (P & a & b & A & B & C & D). cbn in *. subst ps. exists s, a, b. repeat (split; auto). Qed.

Lemma covers_token : forall t ts, In t ts -> covers ts (alone (t_span t)).
Proof. intros t ts I. split; auto. exists t, t. auto. Qed.

Lemma marked_covers : forall l ts e, marked l ts e -> covers ts (span_of e).
Proof.
  intros l ts e M. induction M; cbn [span_of].
  - destruct IHM1 as (_ & a1 & b1 & A1 & B1 & C1 & D1). destruct IHM2 as (_ & a2 & b2 & A2 & B2 & C2 & D2).
    split; auto. exists a1, b2. split; [apply in_or_app; auto|]. split; [apply in_or_app; right; now right|]. cbn. auto.
  - exact IHM.
  - apply covers_token. now left.
  - revert IHM. apply covers_more. intros x I. right. apply in_or_app. auto.
  - apply covers_token. now left.
  - apply covers_token. now left.
  - apply covers_token. now left.
  - apply covers_token. now left.
Qed.

Lemma covers_whole : forall ts t, covers [t] (alone (t_span t)) -> In t ts -> covers ts (alone (t_span t)).
Proof. intros. now apply covers_token. Qed.

(** A parameter is one token, perhaps in parentheses. *)
Lemma marked_parameter : forall l ts e s n, marked l ts e -> e = XMacroArg_ s n -> exists u, In u ts /\ t_type u = TMacroIdent n /\ s = alone (t_span u).
Proof.
  intros l ts e s n M. induction M; intros E; try discriminate.
  - auto.
  - destruct (IHM E) as (x & I & T & S). exists x. split; auto. right. apply in_or_app. auto.
  - injection E as <- <-. exists t. split; auto. now left.
Qed.

(** * Lists *)

Inductive seps {T : Type} (R : list token -> T -> Prop) : list token -> list T -> Prop :=
| seps_one : forall a v, R a v -> seps R a [v]
| seps_more : forall a v c b vs, R a v -> t_type c = TComma -> seps R b vs -> seps R (a ++ c :: b) (v :: vs).

Definition laid {T : Type} (R : list token -> T -> Prop) (ts : list token) (vs : list T) : Prop := (ts = [] /\ vs = []) \/ seps R ts vs.

Definition gives {T : Type} (p : list token -> placed (T * list token)) (R : list token -> T -> Prop) : Prop :=
  forall ts v r, p ts = POk (v, r) -> exists front, ts = front ++ r /\ R front v.

Lemma loop_laid : forall {T : Type} (p : list token -> placed (T * list token)) R, gives p R -> forall f ts vs r, list_loop_s p f ts = POk (vs, r) ->
  (vs = [] /\ ts = r) \/ exists c b, ts = c :: b ++ r /\ t_type c = TComma /\ seps R b vs.
Proof.
  intros T p R G. induction f as [|f IH]; intros ts vs r; cbn [list_loop_s]; destruct (is_empty_s ts); intros H; try (injection H as <- <-; now left); try discriminate.
  destruct ts as [|c ts]; [discriminate|]. cbn [consume_comma_s] in H. destruct (t_type c) eqn:C; try discriminate. cbn [pbind] in H.
  destruct (p ts) as [[v r1]|? ?| |] eqn:P; cbn [pbind] in H; try discriminate. destruct (list_loop_s p f r1) as [[vs2 r2]|? ?| |] eqn:L; cbn [pbind] in H; try discriminate.
  injection H as <- <-. destruct (G _ _ _ P) as (a & -> & A). right. destruct (IH _ _ _ L) as [[-> ->]|(c2 & b & -> & C2 & S)].
  - exists c, a. split; auto. split; auto. now constructor.
  - exists c, (a ++ c2 :: b). rewrite <- app_assoc. split; auto. split; auto. now constructor.
Qed.

Lemma list_laid : forall {T : Type} (p : list token -> placed (T * list token)) R, gives p R -> gives (parse_list_s p) (laid R).
Proof.
  intros T p R G ts vs r H. unfold parse_list_s in H. destruct (is_empty_s ts).
  - injection H as <- <-. exists []. split; auto. now left.
  - destruct (p ts) as [[v r1]|? ?| |] eqn:P; cbn [pbind] in H; try discriminate.
    destruct (list_loop_s p _ r1) as [[vs2 r2]|? ?| |] eqn:L; cbn [pbind] in H; try discriminate. injection H as <- <-.
    destruct (G _ _ _ P) as (a & -> & A). destruct (loop_laid p R G _ _ _ _ L) as [[-> ->]|(c2 & b & -> & C2 & S)].
    + exists a. split; auto. right. now constructor.
    + exists (a ++ c2 :: b). rewrite <- app_assoc. split; auto. right. now constructor.
Qed.

Lemma seps_map : forall {T U : Type} (R : list token -> T -> Prop) (item : list token_type -> U -> Prop) (f : T -> U),
  (forall a v, R a v -> item (types a) (f v)) -> forall ts vs, seps R ts vs -> separated item (types ts) (map f vs).
Proof.
  intros T U R item f H ts vs S. induction S as [a v A|a v c b vs A C S IH]; cbn [map].
  - constructor. auto.
  - rewrite types_app. cbn [types map]. rewrite C. constructor; auto.
Qed.
Lemma laid_map : forall {T U : Type} (R : list token -> T -> Prop) (item : list token_type -> U -> Prop) (f : T -> U),
  (forall a v, R a v -> item (types a) (f v)) -> forall ts vs, laid R ts vs -> maybe item (types ts) (map f vs).
Proof. intros T U R item f H ts vs [[-> ->]|S]; [now left|right]. now apply (seps_map R). Qed.

Lemma seps_in : forall {T : Type} (R : list token -> T -> Prop) ts vs, seps R ts vs -> forall v, In v vs -> exists before a after, ts = before ++ a ++ after /\ R a v.
Proof.
  intros T R ts vs S. induction S as [a v A|a v c b vs A C S IH]; intros w I.
  - destruct I as [<-|[]]. exists [], a, []. rewrite app_nil_r. auto.
  - destruct I as [<-|I]; [exists [], a, (c :: b); auto|]. destruct (IH _ I) as (x & y & z & -> & Y). exists (a ++ c :: x), y, z. rewrite <- app_assoc. auto.
Qed.

(** * Operands *)

Definition stands_arg (ts : list token) (a : sarg) : Prop :=
  operand_of (types ts) (erase_arg a) /\ covers ts (arg_span a) /\
  forall s n, a = SAMacroArg s n -> exists u, In u ts /\ t_type u = TMacroIdent n /\ s = alone (t_span u).

Lemma expr_gives : gives parse_expr_s (fun ts e => marked Bits ts e).
Proof. intros ts e r H. apply parse_marked in H as (front & -> & M). eauto. Qed.

Lemma arg_gives : gives parse_arg_s stands_arg.
Proof.
  intros ts a r H. unfold parse_arg_s in H. destruct ts as [|t ts].
  - cbn in H. discriminate.
  - unfold check_s, check_at_s in H. cbn [nth_error] in H.
    destruct (is_indirection_mode (t_type t)) eqn:M; [|destruct (is_hash (t_type t)) eqn:K].
    + unfold parse_im_s in H. cbn [next_s pbind] in H. exists [t].
      destruct (t_type t) eqn:T; try discriminate; cbn [pbind] in H; injection H as <- <-; (split; [reflexivity|]); split; try (split; [apply covers_token; now left|discriminate]);
      cbn; rewrite T; constructor; cbn; auto.
    + unfold parse_i8_s in H. cbn [consume_hash_s] in H. destruct (t_type t) eqn:T; try discriminate. cbn [pbind] in H.
      destruct (parse_expr_s ts) as [[e r1]|? ?| |] eqn:E; cbn [pbind] in H; try discriminate. injection H as <- <-.
      apply expr_gives in E as (front & -> & E). exists (t :: front). split; auto. split; [|split; [|discriminate]].
      * cbn [types map erase_arg]. rewrite T. constructor. now apply marked_expression in E.
      * cbn [arg_span]. apply marked_covers in E. revert E. apply covers_more. now right.
    + destruct (parse_expr_s (t :: ts)) as [[e r1]|? ?| |] eqn:E; cbn [pbind] in H; try discriminate. apply expr_gives in E as (front & E1 & E).
      assert (X: operand_of (types front) (erase_arg (match e with XMacroArg_ s n => SAMacroArg s n | _ => SAEx e end))).
      { apply marked_expression in E. destruct e; cbn [erase_arg] in *; try (apply o_direct; [exact E|cbn; try destruct op; discriminate]). apply o_parameter. exact E. }
      assert (Y := marked_covers _ _ _ E).
      destruct e; injection H as <- <-; exists front; (split; [exact E1|]); (split; [exact X|]); (split; [exact Y|]); try discriminate.
      intros s0 n0 Q. injection Q as -> ->. now apply (marked_parameter Bits _ _ _ _ E).
Qed.

Lemma args_gives : gives parse_args_s (laid stands_arg).
Proof. apply list_laid, arg_gives. Qed.

Lemma args_operands : forall ts vs, laid stands_arg ts vs -> maybe operand_of (types ts) (map erase_arg vs).
Proof. apply laid_map. intros a v (O & _). exact O. Qed.

Lemma seps_last : forall {T : Type} (R : list token -> T -> Prop) ts vs, seps R ts vs -> forall d, exists before a, ts = before ++ a /\ R a (last vs d).
Proof.
  intros T R ts vs S. induction S as [a v A|a v c b vs A C S IH]; intros d.
  - exists [], a. auto.
  - destruct (IH d) as (x & y & -> & Y). exists (a ++ c :: x), y. rewrite <- app_assoc. split; auto. inversion S; subst; exact Y.
Qed.

Lemma last_map : forall {A B : Type} (f : A -> B) l d, last (map f l) (f d) = f (last l d).
Proof. intros A B f l d. induction l as [|x l IH]; auto. destruct l; auto. Qed.
Lemma last_any : forall {A : Type} (l : list A) d e, l <> [] -> last l d = last l e.
Proof. intros A l d e N. induction l as [|x l IH]; [congruence|]. destruct l as [|y l]; auto. apply IH. discriminate. Qed.

(** The place of an instruction. *)
Lemma through_covers : forall t ts vs, laid stands_arg ts vs -> covers (t :: ts) (through (alone (t_span t)) arg_span vs) /\
  s_start (here (through (alone (t_span t)) arg_span vs)) = s_start (t_span t).
Proof.
  intros t ts vs L. split; [|reflexivity]. split; [reflexivity|]. destruct L as [[-> ->]|S].
  - exists t, t. cbn. auto.
  - destruct vs as [|v vs]; [inversion S|]. destruct (seps_last _ _ _ S v) as (before & a & -> & _ & (_ & x & y & X & Y & _ & E) & _).
    exists t, y. split; [now left|]. split; [right; apply in_or_app; auto|]. split; auto. cbn [through span_from here alone].
    unfold through. cbn [span_from here alone s_end]. rewrite <- E. rewrite (last_any _ _ (arg_span v)); [|discriminate]. now rewrite last_map.
Qed.

(** * Properties *)

Definition stands_byte (ts : list token) (b : sbyte) : Prop :=
  byte_item (types ts) (erase_byte b) /\ covers ts (byte_span b).

Lemma codes_string : forall s, string_bytes s = codes s. Proof. reflexivity. Qed.

Lemma byte_gives : gives parse_byte_value_s stands_byte.
Proof.
  intros ts b r H. unfold parse_byte_value_s in H. destruct (check_s is_string ts) eqn:C.
  - destruct ts as [|t ts]; [discriminate|]. cbn [read_string_s] in H. destruct (t_type t) eqn:T; try discriminate. cbn [pbind] in H. injection H as <- <-.
    exists [t]. split; auto. split; [cbn; rewrite T; constructor|]. apply covers_token. now left.
  - destruct (parse_expr_s ts) as [[e r1]|? ?| |] eqn:E; cbn [pbind] in H; try discriminate. injection H as <- <-.
    apply expr_gives in E as (front & -> & E). exists front. split; auto. split; [|now apply marked_covers in E].
    constructor. now apply marked_expression in E.
Qed.

Definition stands_property (ts : list token) (x : string * sbyte) : Prop :=
  exists k q value, ts = k :: q :: value /\ t_type k = TName (fst x) /\ t_type q = TEquals /\ stands_byte value (snd x).

Lemma pair_gives : gives parse_keyval_pair_s stands_property.
Proof.
  intros ts x r H. unfold parse_keyval_pair_s in H. destruct ts as [|k [|q ts]].
  - discriminate.
  - unfold check_s, check_at_s in H. cbn [nth_error] in H. destruct (is_name (t_type k)); [|discriminate]. cbn [read_name_s] in H. destruct (t_type k); discriminate.
  - unfold check_s, check_at_s in H. cbn [nth_error] in H. destruct (is_name (t_type k)); [|discriminate]. cbn [read_name_s] in H.
    destruct (t_type k) eqn:K; try discriminate. cbn [pbind nth_error] in H. destruct (is_equ (t_type q)) eqn:Q; [|discriminate]. cbn [next_s pbind] in H.
    destruct (parse_byte_value_s ts) as [[b r1]|? ?| |] eqn:B; cbn [pbind] in H; try discriminate. injection H as <- <-.
    apply byte_gives in B as (front & -> & B). exists (k :: q :: front). split; auto. exists k, q, front. cbn. destruct (t_type q); try discriminate. auto.
Qed.

Lemma property_item : forall a v, stands_property a v -> property (types a) (erase_pair v).
Proof. intros a [n v] (k & q & value & -> & K & Q & (B & _)). cbn in *. rewrite K, Q. now constructor. Qed.

Lemma laid_properties : forall ts vs, laid stands_property ts vs -> maybe property (types ts) (map erase_pair vs).
Proof. apply laid_map, property_item. Qed.

Lemma last_inserted : forall ts vs, seps stands_property ts vs -> forall name m b,
  mget (fold_left (fun m p => minsert m (fst p) (snd p)) vs m) name = Some b ->
  (exists value, last_value name ts value (erase_byte b) /\ stands_byte value b) \/ (~ In name (map fst vs) /\ mget m name = Some b).
Proof.
  intros ts vs S. induction S as [a v A|a v c rest vs A C S IH]; intros name m b H; cbn [fold_left] in H.
  - destruct A as (k & q & value & -> & K & Q & B). unfold minsert in H. cbn [mget] in H. destruct (String.eqb_spec name (fst v)) as [-> |N].
    + injection H as <-. left. exists value. split; auto. exists [], k, q, []. rewrite app_nil_r. split; auto. split; auto. split; auto. split; [apply B|auto].
    + right. split; auto. cbn. intros [E|[]]. now apply N.
  - destruct (IH _ _ _ H) as [(value & (before & k & q & after & -> & K & Q & B & Z) & X)|[N G]].
    + left. exists value. split; auto. exists (a ++ c :: before), k, q, after. rewrite <- app_assoc. cbn. auto.
    + destruct A as (k & q & value & -> & K & Q & B). unfold minsert in G. cbn [mget] in G. destruct (String.eqb_spec name (fst v)) as [-> |D].
      * injection G as <-. left. exists value. split; auto. exists [], k, q, (c :: rest). split; [reflexivity|]. split; auto. split; auto. split; [apply B|].
        right. exists c, rest, (map erase_pair vs). split; auto. split; auto. split; [now apply (seps_map _ _ _ property_item)|].
        intros I. apply N. rewrite map_map in I. rewrite (map_ext fst (fun x => fst (erase_pair x))); [exact I|]. now intros [].
      * right. split; auto. cbn. intros [E|I]; auto.
Qed.
