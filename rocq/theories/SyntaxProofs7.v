(** What is wrong with a line that is refused. *)
From Coq Require Import ZArith List String Ascii Bool Arith Lia.
From Verif Require Import Base Expr Instr Ast Macro Lexer Parser SpecParse ParseProofs Span SpanParser SpecSpan SpanProofs SpanProofs2 SpanProofs3 SpanParseProofs SpanValid.
From Verif Require Import SpecIsa SpecMacro MacroProofs SpecLine LineProofs LineProofs2 SpecSyntax SyntaxProofs SyntaxProofs2 SyntaxProofs3 SyntaxProofs4 SyntaxProofs5 SyntaxProofs6.
Import ListNotations.
Open Scope string_scope.
Open Scope list_scope.
Local Open Scope nat_scope.

Local Arguments parse_expr_s : simpl never.
Local Arguments instr_exists : simpl never.
Local Arguments make_instr_s : simpl never.

Definition no_colon (r : list token) : Prop := forall c q, r = c :: q -> t_type c <> TColon.

Lemma colon_none : forall t r, no_colon r -> colon_label (t :: r) = None.
Proof.
  intros t [|c q] N; cbn [colon_label]; auto. specialize (N c q eq_refl). destruct (t_type t); auto. destruct (t_type c); auto. congruence.
Qed.

(** The end of [parse_line_s] for a statement that is no label. *)
Definition close_line (x : placed (sstatement * list token)) : placed (list sstatement) :=
  pbind x (fun '(s, r) => if negb (is_empty_s r) then err_next UnexpectedToken r else POk [s]).

Lemma line_close : forall t r, is_empty_s (t :: r) = false -> (forall s q, parse_statement_s (t :: r) = POk (s, q) -> is_label_s s = false) ->
  parse_line_s (t :: r) = close_line (parse_statement_s (t :: r)).
Proof.
  intros t r E L. unfold parse_line_s, close_line. rewrite E. cbn [negb]. destruct (parse_statement_s (t :: r)) as [[s q]|? ?| |]; cbn [pbind]; auto.
  rewrite (L s q eq_refl). reflexivity.
Qed.

Lemma err_next_error : forall {A B : Type} e0 r e at_, @err_next A e0 r = PErr e at_ -> @err_next B e0 r = PErr e at_.
Proof. intros A B e0 [|t r] e at_ H; cbn in *; congruence. Qed.

Lemma close_error : forall x e at_, close_line x = PErr e at_ ->
  x = PErr e at_ \/ exists s r, x = POk (s, r) /\ is_empty_s r = false /\ @err_next (list sstatement) UnexpectedToken r = PErr e at_.
Proof.
  intros [[s r]|e2 at2| |] e at_ H; cbn in H; try discriminate.
  - right. exists s, r. split; auto. destruct (is_empty_s r); [discriminate|]. auto.
  - left. congruence.
Qed.

(** * Directives *)

Lemma directive_statement : forall t n r, t_type t = TName n -> In n directive_names -> no_colon r ->
  parse_statement_s (t :: r) = parse_directive_or_other_s (t :: r).
Proof.
  intros t n r T N C. unfold parse_statement_s. rewrite (colon_none t r C).
  replace (check_s is_local_name (t :: r)) with true; [rewrite !orb_true_r, andb_false_r; reflexivity|].
  unfold check_s, check_at_s. cbn [nth_error]. rewrite T. symmetry. now apply dotted_local, names_dotted.
Qed.

Lemma directive_line : forall {T : Type} t n r (p : list token -> placed (T * list token)) (g : T -> sdirective),
  t_type t = TName n -> In n directive_names -> no_colon r ->
  parse_directive_s (t :: r) = pbind (p r) (fun '(v, r2) => POk (Some (SSDirective (g v)), r2)) ->
  parse_line_s (t :: r) = pbind (p r) (fun '(v, r2) => if negb (is_empty_s r2) then err_next UnexpectedToken r2 else POk [SSDirective (g v)]).
Proof.
  intros U t n r p g T N C D. assert (P := directive_statement t n r T N C). unfold parse_directive_or_other_s in P. rewrite D in P.
  rewrite line_close.
  - rewrite P. destruct (p r) as [[v r2]|? ?| |]; reflexivity.
  - cbn. now rewrite T.
  - intros s q H. rewrite P in H. destruct (p r) as [[v r2]|? ?| |]; cbn in H; try discriminate. now injection H as <- _.
Qed.

Lemma directive_error : forall {T : Type} t n r (p : list token -> placed (T * list token)) (g : T -> sdirective) G e at_,
  t_type t = TName n -> In n directive_names -> no_colon r ->
  parse_directive_s (t :: r) = pbind (p r) (fun '(v, r2) => POk (Some (SSDirective (g v)), r2)) ->
  finishes (whole p) G -> parse_line_s (t :: r) = PErr e at_ -> stuck False G r e at_.
Proof.
  intros U t n r p g G e at_ T N C D F H. rewrite (directive_line t n r p g T N C D) in H. apply whole_error in H.
  specialize (F r). rewrite H in F. exact F.
Qed.

(** A directive among lines. *)
Lemma directive_lift : forall t n r e at_, t_type t = TName n -> In n directive_names -> no_colon r -> (exists w, afterL n w) ->
  stuck False (afterL n) r e at_ -> first_wrong line_form (t :: r) e at_.
Proof.
  intros t n r e at_ T N C (w0 & W0) S. apply (lift line_form (afterL n) [t] r e at_); auto.
  - exists w0. cbn. rewrite T. apply line_cases. right; right; right; right; left. eauto.
  - intros w _ A. cbn. rewrite T. apply line_cases. right; right; right; right; left. eauto.
  - intros w A L. cbn in L. rewrite T in L.
    apply line_cases in L as [E|[(m & v & E & _)|[(m & E & D & M)|[[K _]|[(m & v & E & X)|[(m & v & E & _ & M)|(m & v & E & _ & M)]]]]]].
    + discriminate.
    + injection E as <- ->. destruct r as [|c q]; [discriminate|]. destruct A as [(w2 & A)|[A _]]; [|discriminate]. injection A as A _. exfalso. now apply (C c q).
    + injection E as -> _. contradiction.
    + apply command_after in K as (m & v & E & D & _). injection E as -> _. exfalso. now apply D, names_dotted.
    + injection E as <- ->. exact X.
    + injection E as -> _. contradiction.
    + injection E as -> _. contradiction.
Qed.

Lemma whole_end : forall ts, is_empty_s ts = true -> ends (types ts) [].
Proof.
  intros [|t r] E; [now constructor|]. cbn in E. cbn [types map]. destruct (t_type t); try discriminate. apply (ends_eof [] (types r)). auto.
Qed.

Lemma fin_empty : forall ts, at_end ts -> is_empty_s ts = true.
Proof. intros [|t r] [E|(q & E)]; try discriminate; auto. cbn in E. injection E as E _. cbn. now rewrite E. Qed.

Lemma fin_ends : forall ts, at_end ts -> ends (types ts) [].
Proof. intros ts F. now apply whole_end, fin_empty. Qed.

Lemma finishes_text : finishes (whole (fun ts => pbind (read_number_s ts) (fun '((_, n), r2) => pbind (read_string_s r2) (fun '(x, r3) => POk ((n, x), r3))))) textL.
Proof.
  apply whole_reads. apply (reads_eq _ (fun ts => pbind (read_number_s ts) (fun '(v, r2) => pbind (read_string_s r2) (fun '(x, r3) => POk ((snd v, x), r3))))).
  { intros ts. destruct (read_number_s ts) as [[[s n] r]|? ?| |]; reflexivity. }
  apply reads_then with (k := fun v r2 => pbind (read_string_s r2) (fun '(x, r3) => POk ((snd v, x), r3))).
  - apply reads_number.
  - intros v. apply (reads_map _ _ (fun x => (snd v, x))), reads_string.
  - apply one_apart.
  - exists [TString ""]. now exists (TString "").
Qed.

Lemma finishes_cnop : finishes (whole (fun ts => pbind (parse_expr_s ts) (fun '(a, r2) => pbind (consume_comma_s r2) (fun r3 => pbind (parse_expr_s r3) (fun '(b, r4) => POk ((a, b), r4)))))) cnopL.
Proof.
  apply whole_reads. apply (reads_eq _ (fun ts => pbind (parse_expr_s ts) (fun '(a, r2) => pbind (pbind (consume_comma_s r2) (fun r => POk (tt, r))) (fun '(_, r3) => pbind (parse_expr_s r3) (fun '(b, r4) => POk ((a, b), r4)))))).
  { intros ts. destruct (parse_expr_s ts) as [[a r2]|? ?| |]; cbn [pbind]; auto. destruct (consume_comma_s r2); reflexivity. }
  apply reads_then with (k := fun a r2 => pbind (pbind (consume_comma_s r2) (fun r => POk (tt, r))) (fun '(_, r3) => pbind (parse_expr_s r3) (fun '(b, r4) => POk ((a, b), r4)))).
  - apply reads_expr.
  - intros a. apply reads_then with (k := fun _ r3 => pbind (parse_expr_s r3) (fun '(b, r4) => POk ((a, b), r4))).
    + apply reads_comma.
    + intros _. apply (reads_map _ _ (fun b => (a, b))), reads_expr.
    + apply one_apart.
    + apply expr_some.
  - apply (expr_apart comma); [|apply starting_joined, starting_one].
    intros t l mk O. cbn in O. repeat destruct O as [O|O]; try (injection O as <- <- <-; reflexivity); destruct O.
  - destruct expr_some as (x & X). exists (TComma :: x), [TComma], x. split; auto. split; auto. now exists TComma.
Qed.

Lemma with_gives : forall kind ts s m r, with_properties kind ts = POk ((s, m), r) ->
  exists k f props vs, ts = k :: f :: props ++ r /\ t_type k = TName kind /\ (exists file, t_type f = TString file) /\ laid stands_property props vs /\
    at_end r /\ m = fold_left (fun m p => minsert m (fst p) (snd p)) vs [].
Proof.
  intros kind ts s m r H. unfold with_properties in H. destruct ts as [|k [|f ts]]; [discriminate| |].
  { cbn [take] in H. destruct (has_name kind (t_type k)); discriminate. }
  cbn [take] in H. destruct (has_name kind (t_type k)) eqn:K; [|discriminate]. cbn [pbind read_string_s] in H.
  destruct (t_type f) eqn:F; try discriminate. cbn [pbind] in H. assert (FP := finishes_properties ts).
  unfold parse_keyval_pairs_s in *. destruct (parse_list_s parse_keyval_pair_s ts) as [[vs r2]|? ?| |] eqn:P; cbn [pbind] in H; try discriminate. cbn [pbind] in FP.
  injection H as _ <- <-. destruct (list_laid _ _ pair_gives _ _ _ P) as (front & E & L). exists k, f, front, vs. rewrite E. split; auto.
  split; [|split; [eauto|split; auto; split; auto]].
  - destruct (t_type k); try discriminate. unfold has_name in K. apply String.eqb_eq in K. now subst.
  - destruct FP as (front2 & E2 & _ & A). rewrite E in E2. exact A.
Qed.

Lemma refused_wrong : forall kind m e at_ ts k f props vs r file, wrong_property kind m e at_ -> ts = k :: f :: props ++ r ->
  t_type k = TName kind -> t_type f = TString file -> laid stands_property props vs -> at_end r ->
  m = fold_left (fun m p => minsert m (fst p) (snd p)) vs [] -> forall t, t_type t = TName ".include" -> wrong_line (t :: ts) e at_.
Proof.
  intros kind m e at_ ts k f props vs r file W -> K F L A -> t T.
  assert (GET: forall name b, mget (fold_left (fun m p => minsert m (fst p) (snd p)) vs []) name = Some b ->
    exists value, last_value name props value (erase_byte b) /\ stands_byte value b).
  { intros name b H. destruct L as [[-> ->]|S]; [discriminate|]. destruct (last_inserted _ _ S _ _ _ H) as [X|[_ X]]; [exact X|discriminate]. }
  assert (ALL: forall name value v e at_, last_value name props value v -> refused kind name v e -> spans value at_ -> wrong_line (t :: k :: f :: props ++ r) e at_).
  { intros name value v e0 at0 LV R S. apply (wl_property _ [t; k; f] props r kind file (map erase_pair vs) name value v); auto.
    - cbn. now rewrite T, K, F.
    - now apply laid_properties.
    - now apply fin_ends. }
  assert (STR: forall a b, string_bytes a = string_bytes b -> a = b).
  { intros a b E. rewrite <- (bytes_codes a), <- (bytes_codes b). unfold codes, string_bytes in *. now rewrite E. }
  assert (OTHER: forall v a, bytes_string v <> a -> BVString v <> BVString (codes a)).
  { intros v a N E. injection E as ->. apply N. apply bytes_codes. }
  destruct W as [s v -> G|x -> G|s v -> G N1 N2|x -> G|s v -> G N1 N2]; apply GET in G as (value & LV & B & C).
  - apply (ALL "speed" value _ _ _ LV); [constructor|]. destruct C as (_ & a & b & A1 & B1 & S1 & _). cbn [byte_span] in *.
    exists (mkSpan (s_start (here s)) (s_start (here s))), a, b. cbn. auto 10.
  - apply (ALL "type" value _ _ _ LV); [constructor; discriminate|]. now apply covers_spans.
  - apply (ALL "type" value _ _ _ LV); [|now apply covers_spans]. constructor; now apply OTHER.
  - apply (ALL "header" value _ _ _ LV); [constructor; discriminate|]. now apply covers_spans.
  - apply (ALL "header" value _ _ _ LV); [|now apply covers_spans]. constructor; now apply OTHER.
Qed.

Lemma bind_same : forall {A B C : Type} (x : placed A) (k : A -> placed B) (h : B -> placed C),
  pbind (pbind x k) h = pbind x (fun a => pbind (k a) h).
Proof. intros A B C [a|e at_| |] k h; reflexivity. Qed.

Lemma directive_errors : forall t n r e at_, t_type t = TName n -> In n directive_names -> no_colon r ->
  parse_line_s (t :: r) = PErr e at_ -> wrong_line (t :: r) e at_.
Proof.
  intros t n r e at_ T N C H.
  assert (SYN: (exists w, afterL n w) -> stuck False (afterL n) r e at_ -> wrong_line (t :: r) e at_).
  { intros W S. apply wl_syntax. now apply (directive_lift t n). }
  assert (LINE := line_close t r). assert (P := directive_statement t n r T N C).
  cbn in N. destruct N as [<-|[<-|[<-|[<-|[<-|[<-|[<-|[]]]]]]]].
  - destruct (parse_list_cases parse_byte_value_s byteL reads_byte byte_some byte_no_comma r) as [[E L]|[E L]].
    + assert (H2: parse_line_s (t :: r) = PErr MissingBytes [mkP (t_span t) []]).
      { unfold parse_line_s. cbn [is_empty_s]. rewrite T. cbn [negb]. rewrite P. unfold parse_directive_or_other_s, parse_directive_s, parse_byte_vals_s. rewrite T, L. reflexivity. }
      rewrite H in H2. injection H2 as -> ->. apply (wl_bytes _ t r); auto. now apply whole_end.
    + apply SYN; [destruct byte_some as (b & B); exists b; apply after_byte; exists b, []; rewrite app_nil_r; repeat split; auto; constructor|].
      apply (stuck_same _ (listL byteL)); [intros ts; symmetry; apply after_byte|].
      assert (Q: parse_directive_s (t :: r) = pbind (parse_list_s parse_byte_value_s r) (fun '(v, r2) => POk (Some (SSDirective (SDByte (through (tspan t) byte_span v) v)), r2))).
      { unfold parse_directive_s, parse_byte_vals_s. rewrite T. cbn [has_name String.eqb]. cbn.
        destruct (parse_list_s parse_byte_value_s r) as [[v r2]|? ?| |]; cbn [pbind]; auto. destruct v; [now destruct L|reflexivity]. }
      rewrite (directive_line t ".byte" r (parse_list_s parse_byte_value_s) (fun v => SDByte (through (tspan t) byte_span v) v) T) in H; auto; [|cbn; auto].
      destruct (parse_list_s parse_byte_value_s r) as [[v r2]|e2 at2| |]; cbn [pbind] in H; try discriminate.
      * destruct L as (_ & front & _ & _ & F). rewrite (fin_empty _ F) in H. discriminate.
      * injection H as <- <-. exact L.
  - apply SYN; [exists [TNumber 0 Decimal]; apply after_org; now exists (TNumber 0 Decimal)|]. apply (stuck_same _ (one is_number)); [intros ts; symmetry; apply after_org|].
    apply (directive_error t ".org" r read_number_s (fun v => SDOrg (span_from (tspan t) (fst v)) (snd v))); auto; [cbn; auto| |apply whole_reads, reads_number].
    unfold parse_directive_s. rewrite T. cbn. destruct (read_number_s r) as [[[sp x] r2]|? ?| |]; reflexivity.
  - destruct (parse_list_cases parse_expr_s exprL reads_expr expr_some expr_no_comma r) as [[E L]|[E L]].
    + assert (H2: parse_line_s (t :: r) = PErr MissingWords [mkP (t_span t) []]).
      { unfold parse_line_s. cbn [is_empty_s]. rewrite T. cbn [negb]. rewrite P. unfold parse_directive_or_other_s, parse_directive_s, parse_exprs_s. rewrite T, L. reflexivity. }
      rewrite H in H2. injection H2 as -> ->. apply (wl_words _ t r); auto. now apply whole_end.
    + apply SYN; [destruct expr_some as (b & B); exists b; apply after_word; exists b, []; rewrite app_nil_r; repeat split; auto; constructor|].
      apply (stuck_same _ (listL exprL)); [intros ts; symmetry; apply after_word|].
      assert (Q: parse_directive_s (t :: r) = pbind (parse_list_s parse_expr_s r) (fun '(v, r2) => POk (Some (SSDirective (SDWord (through (tspan t) span_of v) v)), r2))).
      { unfold parse_directive_s, parse_exprs_s. rewrite T. cbn.
        destruct (parse_list_s parse_expr_s r) as [[v r2]|? ?| |]; cbn [pbind]; auto. destruct v; [now destruct L|reflexivity]. }
      rewrite (directive_line t ".word" r (parse_list_s parse_expr_s) (fun v => SDWord (through (tspan t) span_of v) v) T) in H; auto; [|cbn; auto].
      destruct (parse_list_s parse_expr_s r) as [[v r2]|e2 at2| |]; cbn [pbind] in H; try discriminate.
      * destruct L as (_ & front & _ & _ & F). rewrite (fin_empty _ F) in H. discriminate.
      * injection H as <- <-. exact L.
  - apply SYN; [exists [TNumber 0 Decimal; TString ""]; apply after_text; exists [TNumber 0 Decimal], [TString ""]; split; auto; split; eexists; split; reflexivity|].
    apply (stuck_same _ textL); [intros ts; symmetry; apply after_text|].
    eapply (directive_error t ".text" r (fun ts => pbind (read_number_s ts) (fun '((_, n), r2) => pbind (read_string_s r2) (fun '(x, r3) => POk ((n, x), r3)))) (fun v => SDText (span_from (tspan t) (fst (snd v))) (fst v) (string_bytes (snd (snd v))))); [exact T|cbn; auto 10|exact C| |apply finishes_text|exact H].
    unfold parse_directive_s. rewrite T. cbn. destruct (read_number_s r) as [[[sp x] r2]|? ?| |]; cbn [pbind]; auto. destruct (read_string_s r2) as [[[sp2 y] r3]|? ?| |]; reflexivity.
  - apply SYN; [exists [TNumber 0 Decimal; TString ""]; apply after_string; exists [TNumber 0 Decimal], [TString ""]; split; auto; split; eexists; split; reflexivity|].
    apply (stuck_same _ textL); [intros ts; symmetry; apply after_string|].
    eapply (directive_error t ".string" r (fun ts => pbind (read_number_s ts) (fun '((_, n), r2) => pbind (read_string_s r2) (fun '(x, r3) => POk ((n, x), r3)))) (fun v => SDString (span_from (tspan t) (fst (snd v))) (fst v) (string_bytes (snd (snd v))))); [exact T|cbn; auto 10|exact C| |apply finishes_text|exact H].
    unfold parse_directive_s. rewrite T. cbn. destruct (read_number_s r) as [[[sp x] r2]|? ?| |]; cbn [pbind]; auto. destruct (read_string_s r2) as [[[sp2 y] r3]|? ?| |]; reflexivity.
  - rewrite (directive_line t ".include" r (parse_include_s (tspan t)) (fun d => d) T) in H; auto; [|cbn; auto 10|].
    2: { unfold parse_directive_s. rewrite T. reflexivity. }
    apply (include_error (fun d => [SSDirective d])) in H as [H|(kind & s & m & r2 & KK & W & X)].
    + apply SYN; [exists [TString ""]; apply after_include; left; now exists (TString "")|]. apply (stuck_same _ includeL); [intros ts; symmetry; apply after_include|].
      assert (F := finishes_include r). rewrite H in F. exact F.
    + destruct (with_gives _ _ _ _ _ W) as (k & f & props & vs & -> & K & (file & F) & L & A & ->).
      now apply (refused_wrong kind _ e at_ _ k f props vs r2 file X).
  - apply SYN; [exists [TName "x"; TComma; TName "x"]; apply after_cnop; exists [TName "x"], [TComma; TName "x"]; split; auto; split; [apply exprL_some|]; exists [TComma], [TName "x"]; split; auto; split; [now exists TComma|apply exprL_some]|].
    apply (stuck_same _ cnopL); [intros ts; symmetry; apply after_cnop|].
    eapply (directive_error t ".cnop" r (fun ts => pbind (parse_expr_s ts) (fun '(a, r2) => pbind (consume_comma_s r2) (fun r3 => pbind (parse_expr_s r3) (fun '(b, r4) => POk ((a, b), r4))))) (fun v => SDCnop (span_from (tspan t) (span_of (snd v))) (fst v) (snd v))); [exact T|cbn; auto 10|exact C| |apply finishes_cnop|exact H].
    unfold parse_directive_s. rewrite T. cbn. destruct (parse_expr_s r) as [[a r2]|? ?| |]; cbn [pbind]; auto. destruct (consume_comma_s r2) as [r3|? ?| |]; cbn [pbind]; auto.
    destruct (parse_expr_s r3) as [[b r4]|? ?| |]; reflexivity.
Qed.
