(** Directives stop at the first token that cannot be right. *)
From Coq Require Import ZArith List String Ascii Bool Arith Lia.
From Verif Require Import Base Expr Instr Ast Macro Lexer Parser SpecParse ParseProofs Span SpanParser SpecSpan SpanProofs SpanProofs2.
From Verif Require Import SpecIsa SpecMacro SpecLine LineProofs SpecSyntax SyntaxProofs SyntaxProofs2 SyntaxProofs3.
Import ListNotations.
Open Scope string_scope.
Open Scope list_scope.
Local Open Scope nat_scope.

Local Arguments parse_expr_s : simpl never.
Local Arguments instr_exists : simpl never.
Local Arguments make_instr_s : simpl never.

(** * To the end of the line *)

Definition whole {T : Type} (p : list token -> placed (T * list token)) (ts : list token) : placed (T * list token) :=
  pbind (p ts) (fun '(v, r) => if negb (is_empty_s r) then err_next UnexpectedToken r else POk (v, r)).

Lemma not_end : forall t r, is_empty_s (t :: r) = true -> t_type t = TEOF.
Proof. intros t r E. cbn in E. destruct (t_type t); try discriminate. reflexivity. Qed.

Lemma whole_reads : forall {T : Type} (p : list token -> placed (T * list token)) G, reads p G -> finishes (whole p) G.
Proof.
  intros T p G R ts. specialize (R ts). unfold whole. destruct (p ts) as [[v r]|e at_| |]; cbn [pbind]; auto.
  - destruct R as (front & -> & X & C). destruct (is_empty_s r) eqn:E; cbn [negb].
    + exists front. split; auto. split; auto. now apply empty_end.
    + destruct r as [|t r]; [discriminate|]. cbn. right. exists front, t, r. split; auto. split; [now apply completable_self|].
      split; [now apply (C t r)|]. split; [split; [constructor|now left]|]. intros [[]|Y]. cbn in E. rewrite Y in E. discriminate.
  - destruct R as [R|(b & t & a & E & X & Y & Z & K)]; [now left|]. right. exists b, t, a. repeat (split; auto).
Qed.

Lemma whole_finishes : forall {T : Type} (p : list token -> placed (T * list token)) G, finishes p G -> finishes (whole p) G.
Proof.
  intros T p G R ts. specialize (R ts). unfold whole. destruct (p ts) as [[v r]|e at_| |]; cbn [pbind]; auto.
  destruct R as (front & -> & X & C). destruct (is_empty_s r) eqn:E; cbn [negb].
  - exists front. auto.
  - destruct r as [|t r]; [discriminate|]. cbn in E. destruct C as [C|(q & C)]; [discriminate|]. cbn in C. injection C as C _. rewrite C in E. discriminate.
Qed.

Lemma whole_error : forall {T U : Type} (p : list token -> placed (T * list token)) (g : T -> U) ts e at_,
  pbind (p ts) (fun '(v, r) => if negb (is_empty_s r) then err_next UnexpectedToken r else POk (g v)) = PErr e at_ -> whole p ts = PErr e at_.
Proof.
  intros T U p g ts e at_. unfold whole. destruct (p ts) as [[v r]|e2 at2| |]; cbn [pbind]; intros H; try discriminate; [|congruence].
  destruct (negb (is_empty_s r)); [|discriminate]. unfold err_next in *. destruct r; cbn in *; congruence.
Qed.

(** * Includes *)

Definition typed (t : token_type) : bool := has_name "asm" t || has_name "bytes" t || has_name "cpp" t.
Definition withL (kind : string) : language := joined (one (has_name kind)) (joined (one is_string) propertiesL).
Definition includeL : language :=
  either (one is_string) (either (withL "icon") (either (withL "sprite") (joined (one typed) (one is_string)))).

(** An include with properties, before these are looked at. *)
Definition with_properties (kind : string) (ts : list token) : placed ((pspan * string * smap sbyte) * list token) :=
  pbind (take (has_name kind) (ExpectedTokenNotFound "Name") ts) (fun '(_, r) =>
  pbind (read_string_s r) (fun '(s, r2) =>
  pbind (parse_keyval_pairs_s r2) (fun '(m, r3) => POk ((s, m), r3)))).

Lemma properties_some : exists b, propertiesL b. Proof. exists []. now right. Qed.

Lemma finishes_with : forall kind, finishes (with_properties kind) (withL kind).
Proof.
  intros kind. unfold with_properties.
  apply reads_finish with (k := fun _ r => pbind (read_string_s r) (fun '(s, r2) => pbind (parse_keyval_pairs_s r2) (fun '(m, r3) => POk ((s, m), r3)))).
  - apply reads_take; [constructor|]. exists (TName kind). cbn. apply String.eqb_refl.
  - intros _. apply reads_finish with (k := fun s r2 => pbind (parse_keyval_pairs_s r2) (fun '(m, r3) => POk ((s, m), r3))).
    + apply reads_string.
    + intros s. apply (finishes_map _ _ (fun m => (s, m))), finishes_properties.
    + apply one_apart.
    + apply properties_some.
  - apply one_apart.
  - destruct properties_some as (b & B). exists (TString "" :: b), [TString ""], b. split; auto. split; auto. now exists (TString "").
Qed.

Definition typed_include (ts : list token) : placed ((pspan * string) * list token) :=
  pbind (take typed (ExpectedTokenNotFound "Include Type") ts) (fun '(_, r) => read_string_s r).

Lemma reads_typed : reads typed_include (joined (one typed) (one is_string)).
Proof.
  unfold typed_include. apply reads_then with (k := fun _ r => read_string_s r).
  - apply reads_take; [constructor|]. now exists (TName "asm").
  - intros _. apply reads_string.
  - apply one_apart.
  - exists [TString ""]. now exists (TString "").
Qed.

(** The include line, before properties are looked at. *)
Definition form_include (ts : list token) : placed (unit * list token) :=
  if check_s is_string ts then pbind (whole read_string_s ts) (fun '(_, r) => POk (tt, r))
  else if check_s (has_name "icon") ts then pbind (whole (with_properties "icon") ts) (fun '(_, r) => POk (tt, r))
  else if check_s (has_name "sprite") ts then pbind (whole (with_properties "sprite") ts) (fun '(_, r) => POk (tt, r))
  else pbind (whole typed_include ts) (fun '(_, r) => POk (tt, r)).

Lemma one_not : forall f g G, (forall t, f t = true -> g t = false) -> not_starting (joined (one f) G) g.
Proof. intros f g G D t r (a & b & E & (t2 & -> & F) & _). cbn in E. injection E as <- _. auto. Qed.
Lemma joined_nonempty : forall f G, ~ joined (one f) G [].
Proof. intros f G (a & b & E & (t2 & -> & F) & _). discriminate. Qed.
Lemma not_either : forall G H g, not_starting G g -> not_starting H g -> not_starting (either G H) g.
Proof. intros G H g A B t r [X|X]; [apply (A _ _ X)|apply (B _ _ X)]. Qed.
Lemma either_nonempty : forall G H, ~ G [] -> ~ H [] -> ~ either G H [].
Proof. intros G H A B [X|X]; auto. Qed.

Lemma name_not : forall a b, String.eqb b a = false -> forall t, has_name a t = true -> has_name b t = false.
Proof. intros a b N t A. destruct t; try discriminate. unfold has_name in *. apply String.eqb_eq in A. subst. exact N. Qed.
Lemma name_no_string : forall a t, has_name a t = true -> is_string t = false. Proof. intros a []; cbn; congruence. Qed.
Lemma typed_names : forall t, typed t = true -> exists n, t = TName n /\ In n ["asm"; "bytes"; "cpp"].
Proof.
  intros t H. unfold typed in H. apply orb_prop in H as [H|H]; [apply orb_prop in H as [H|H]|]; destruct t; try discriminate; unfold has_name in H;
  apply String.eqb_eq in H; subst; eexists; split; try reflexivity; cbn; auto.
Qed.
Lemma typed_not : forall a, ~ In a ["asm"; "bytes"; "cpp"] -> forall t, typed t = true -> has_name a t = false.
Proof.
  intros a N t H. destruct (typed_names t H) as (n & -> & I). unfold has_name. apply String.eqb_neq. intros ->. auto.
Qed.

Lemma finishes_include : finishes form_include includeL.
Proof.
  assert (N1: ~ withL "icon" []) by apply joined_nonempty. assert (N2: ~ withL "sprite" []) by apply joined_nonempty.
  assert (N3: ~ joined (one typed) (one is_string) []) by apply joined_nonempty.
  unfold form_include, includeL.
  apply (finishes_choice (fun ts => pbind (whole read_string_s ts) (fun '(_, r) => POk (tt, r)))
    (fun ts => if check_s (has_name "icon") ts then pbind (whole (with_properties "icon") ts) (fun '(_, r) => POk (tt, r))
       else if check_s (has_name "sprite") ts then pbind (whole (with_properties "sprite") ts) (fun '(_, r) => POk (tt, r))
       else pbind (whole typed_include ts) (fun '(_, r) => POk (tt, r)))).
  - apply (finishes_map _ _ (fun _ => tt)), whole_reads, reads_string.
  - apply (finishes_choice (fun ts => pbind (whole (with_properties "icon") ts) (fun '(_, r) => POk (tt, r)))
      (fun ts => if check_s (has_name "sprite") ts then pbind (whole (with_properties "sprite") ts) (fun '(_, r) => POk (tt, r))
       else pbind (whole typed_include ts) (fun '(_, r) => POk (tt, r)))).
    + apply (finishes_map _ _ (fun _ => tt)), whole_finishes, finishes_with.
    + apply (finishes_choice (fun ts => pbind (whole (with_properties "sprite") ts) (fun '(_, r) => POk (tt, r)))
        (fun ts => pbind (whole typed_include ts) (fun '(_, r) => POk (tt, r)))).
      * apply (finishes_map _ _ (fun _ => tt)), whole_finishes, finishes_with.
      * apply (finishes_map _ _ (fun _ => tt)), whole_reads, reads_typed.
      * apply starting_joined, starting_one.
      * apply one_not, typed_not. cbn. intuition discriminate.
      * exact N3.
    + apply starting_joined, starting_one.
    + apply not_either; apply one_not; [now apply name_not|apply typed_not; cbn; intuition discriminate].
    + now apply either_nonempty.
  - apply starting_one.
  - repeat apply not_either; apply one_not; try apply name_no_string. intros t H. now destruct (typed_names t H) as (n & -> & _).
  - repeat apply either_nonempty; auto.
Qed.

(** What can be wrong with properties. *)
Inductive wrong_property (kind : string) (m : smap sbyte) : error -> list pspan -> Prop :=
| wp_speed : forall s v, kind = "icon" -> mget m "speed" = Some (SBString s v) -> wrong_property kind m InvalidExpression [to_span (s_start (here s))]
| wp_type_expr : forall e, kind = "sprite" -> mget m "type" = Some (SBExpr e) -> wrong_property kind m InvalidSpriteType [span_of e]
| wp_type : forall s v, kind = "sprite" -> mget m "type" = Some (SBString s v) -> bytes_string v <> "simple" -> bytes_string v <> "masked" ->
    wrong_property kind m InvalidSpriteType [s]
| wp_header_expr : forall e, kind = "sprite" -> mget m "header" = Some (SBExpr e) -> wrong_property kind m InvalidSpriteHeader [span_of e]
| wp_header : forall s v, kind = "sprite" -> mget m "header" = Some (SBString s v) -> bytes_string v <> "yes" -> bytes_string v <> "no" ->
    wrong_property kind m InvalidSpriteHeader [s].

(** The include line as a whole. *)
Lemma include_error : forall {U : Type} (g : sdirective -> U) ident ts e at_,
  pbind (parse_include_s ident ts) (fun '(d, r) => if negb (is_empty_s r) then err_next UnexpectedToken r else POk (g d)) = PErr e at_ ->
  form_include ts = PErr e at_ \/
  exists kind s m r, (kind = "icon" \/ kind = "sprite") /\ with_properties kind ts = POk ((s, m), r) /\ wrong_property kind m e at_.
Proof.
  intros U g ident ts e at_ H. unfold parse_include_s, form_include in *.
  assert (TAKE: forall kind, check_s (has_name kind) ts = true -> pbind (read_name_s ts) (fun '(_, r) =>
     pbind (read_string_s r) (fun '((sp, s), r2) => pbind (parse_keyval_pairs_s r2) (fun '(m, r3) => POk ((sp, s, m), r3)))) = with_properties kind ts).
  { intros kind C. unfold with_properties. destruct ts as [|t r]; [discriminate|]. unfold check_s, check_at_s in C. cbn [nth_error] in C.
    cbn [take]. rewrite C. cbn [read_name_s]. destruct (t_type t); try discriminate. cbn [pbind].
    destruct (read_string_s r) as [[[sp s] r2]|? ?| |]; cbn [pbind]; auto. }
  destruct (check_s is_string ts) eqn:C1; [|destruct (check_s (has_name "icon") ts) eqn:C2; [|destruct (check_s (has_name "sprite") ts) eqn:C3]].
  - left. rewrite (whole_error read_string_s (fun v => g (SDInclude (span_from ident (fst v)) SIAsm (snd v))) ts e at_); [reflexivity|].
    rewrite <- H. destruct (read_string_s ts) as [[[sp s] r]|? ?| |]; reflexivity.
  - specialize (TAKE _ C2). destruct (with_properties "icon" ts) as [[[[s0 s1] m] r]|e2 at2| |] eqn:W.
    + assert (K: pbind (icon_speed_of_s m) (fun speed => if negb (is_empty_s r) then err_next UnexpectedToken r
         else POk (g (SDInclude s0 (SIIcon speed (mget m "eyecatch")) s1))) = PErr e at_).
      { rewrite <- H. clear H. destruct (read_name_s ts) as [[v r1]|? ?| |]; cbn [pbind] in TAKE |- *; try discriminate.
        destruct (read_string_s r1) as [[[sp s] r2]|? ?| |]; cbn [pbind] in TAKE |- *; try discriminate.
        destruct (parse_keyval_pairs_s r2) as [[m2 r3]|? ?| |]; cbn [pbind] in TAKE |- *; try discriminate. injection TAKE as <- <- <- <-.
        destruct (icon_speed_of_s m2) as [speed|? ?| |]; reflexivity. }
      destruct (icon_speed_of_s m) as [speed|e2 at2| |] eqn:SP; cbn [pbind] in K; try discriminate.
      * left. unfold whole. rewrite W. cbn [pbind]. destruct (negb (is_empty_s r)); [|discriminate]. unfold err_next in *. destruct r; cbn in *; congruence.
      * right. injection K as <- <-. exists "icon", (s0, s1), m, r. split; auto. split; auto. unfold icon_speed_of_s in SP.
        destruct (mget m "speed") as [[x|s v]|] eqn:G; try discriminate. injection SP as <- <-. now apply (wp_speed _ _ s v).
    + left. unfold whole. rewrite W. cbn [pbind].
      destruct (read_name_s ts) as [[v r1]|? ?| |]; cbn [pbind] in *; try congruence.
      destruct (read_string_s r1) as [[[sp s] r2]|? ?| |]; cbn [pbind] in *; try congruence.
      destruct (parse_keyval_pairs_s r2) as [[m2 r3]|? ?| |]; cbn [pbind] in *; congruence.
    + exfalso. destruct (read_name_s ts) as [[v r1]|? ?| |]; cbn [pbind] in *; try congruence.
      destruct (read_string_s r1) as [[[sp s] r2]|? ?| |]; cbn [pbind] in *; try congruence.
      destruct (parse_keyval_pairs_s r2) as [[m2 r3]|? ?| |]; cbn [pbind] in *; congruence.
    + exfalso. destruct (read_name_s ts) as [[v r1]|? ?| |]; cbn [pbind] in *; try congruence.
      destruct (read_string_s r1) as [[[sp s] r2]|? ?| |]; cbn [pbind] in *; try congruence.
      destruct (parse_keyval_pairs_s r2) as [[m2 r3]|? ?| |]; cbn [pbind] in *; congruence.
  - specialize (TAKE _ C3). destruct (with_properties "sprite" ts) as [[[[s0 s1] m] r]|e2 at2| |] eqn:W.
    + assert (K: pbind (sprite_type_of_s m) (fun typ => pbind (sprite_header_of_s m) (fun h => if negb (is_empty_s r) then err_next UnexpectedToken r
         else POk (g (SDInclude s0 (SISprite typ h) s1)))) = PErr e at_).
      { rewrite <- H. clear H. destruct (read_name_s ts) as [[v r1]|? ?| |]; cbn [pbind] in TAKE |- *; try discriminate.
        destruct (read_string_s r1) as [[[sp s] r2]|? ?| |]; cbn [pbind] in TAKE |- *; try discriminate.
        destruct (parse_keyval_pairs_s r2) as [[m2 r3]|? ?| |]; cbn [pbind] in TAKE |- *; try discriminate. injection TAKE as <- <- <- <-.
        destruct (sprite_type_of_s m2) as [typ|? ?| |]; cbn [pbind]; auto. destruct (sprite_header_of_s m2) as [h|? ?| |]; reflexivity. }
      destruct (sprite_type_of_s m) as [typ|e2 at2| |] eqn:SP; cbn [pbind] in K; try discriminate.
      2: { right. injection K as <- <-. exists "sprite", (s0, s1), m, r. split; auto. split; auto. unfold sprite_type_of_s in SP.
        destruct (mget m "type") as [[x|s v]|] eqn:G; try discriminate.
        - injection SP as <- <-. now apply wp_type_expr.
        - destruct (String.eqb_spec (bytes_string v) "simple"); [discriminate|]. destruct (String.eqb_spec (bytes_string v) "masked"); [discriminate|].
          injection SP as <- <-. now apply (wp_type _ _ s v). }
      destruct (sprite_header_of_s m) as [h|e2 at2| |] eqn:SH; cbn [pbind] in K; try discriminate.
      * left. unfold whole. rewrite W. cbn [pbind]. destruct (negb (is_empty_s r)); [|discriminate]. unfold err_next in *. destruct r; cbn in *; congruence.
      * right. injection K as <- <-. exists "sprite", (s0, s1), m, r. split; auto. split; auto. unfold sprite_header_of_s in SH.
        destruct (mget m "header") as [[x|s v]|] eqn:G; try discriminate.
        -- injection SH as <- <-. now apply wp_header_expr.
        -- destruct (String.eqb_spec (bytes_string v) "yes"); [discriminate|]. destruct (String.eqb_spec (bytes_string v) "no"); [discriminate|].
           injection SH as <- <-. now apply (wp_header _ _ s v).
    + left. unfold whole. rewrite W. cbn [pbind].
      destruct (read_name_s ts) as [[v r1]|? ?| |]; cbn [pbind] in *; try congruence.
      destruct (read_string_s r1) as [[[sp s] r2]|? ?| |]; cbn [pbind] in *; try congruence.
      destruct (parse_keyval_pairs_s r2) as [[m2 r3]|? ?| |]; cbn [pbind] in *; congruence.
    + exfalso. destruct (read_name_s ts) as [[v r1]|? ?| |]; cbn [pbind] in *; try congruence.
      destruct (read_string_s r1) as [[[sp s] r2]|? ?| |]; cbn [pbind] in *; try congruence.
      destruct (parse_keyval_pairs_s r2) as [[m2 r3]|? ?| |]; cbn [pbind] in *; congruence.
    + exfalso. destruct (read_name_s ts) as [[v r1]|? ?| |]; cbn [pbind] in *; try congruence.
      destruct (read_string_s r1) as [[[sp s] r2]|? ?| |]; cbn [pbind] in *; try congruence.
      destruct (parse_keyval_pairs_s r2) as [[m2 r3]|? ?| |]; cbn [pbind] in *; congruence.
  - left.
    assert (Q: forall ident, exists f, parse_include_s ident ts = pbind (typed_include ts) (fun '(v, r) => POk (f v, r))).
    { intros id. unfold parse_include_s. rewrite C1, C2, C3. unfold typed_include, read_include_type_s, typed. destruct ts as [|t r]; [now exists (fun v => SDInclude id SIAsm "")|].
      unfold check_s, check_at_s. cbn [nth_error take next_s pbind].
      destruct (has_name "asm" (t_type t)); [exists (fun v => SDInclude (span_from id (fst v)) SIAsm (snd v))|
      destruct (has_name "bytes" (t_type t)); [exists (fun v => SDInclude (span_from id (fst v)) SIBytes (snd v))|
      destruct (has_name "cpp" (t_type t)); [exists (fun v => SDInclude (span_from id (fst v)) SICHeader (snd v))|
        exists (fun v => SDInclude id SIAsm "")]]]; cbn [orb pbind]; try reflexivity; destruct (read_string_s r) as [[[sp s] r2]|? ?| |]; reflexivity. }
    destruct (Q ident) as (f & Q1). unfold parse_include_s in Q1. rewrite C1, C2, C3 in Q1. rewrite Q1 in H.
    rewrite (whole_error typed_include (fun v => g (f v)) ts e at_); [reflexivity|]. rewrite <- H.
    destruct (typed_include ts) as [[v r]|? ?| |]; reflexivity.
Qed.
