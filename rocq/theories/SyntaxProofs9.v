(** What is wrong with a macro definition that is refused. *)
From Coq Require Import ZArith List String Ascii Bool Arith Lia.
From Verif Require Import Base Expr Instr Ast Macro Lexer Parser SpecParse ParseProofs Span SpanParser SpecSpan SpanProofs SpanProofs2 SpanProofs3 SpanParseProofs SpanValid.
From Verif Require Import SpecIsa SpecMacro MacroProofs SpecLine LineProofs LineProofs2 LineProofs3 SpecSyntax SyntaxProofs SyntaxProofs2 SyntaxProofs3 SyntaxProofs4 SyntaxProofs5 SyntaxProofs6 SyntaxProofs7 SyntaxProofs8.
Import ListNotations.
Open Scope string_scope.
Open Scope list_scope.
Local Open Scope nat_scope.

Local Arguments parse_expr_s : simpl never.
Local Arguments instr_exists : simpl never.
Local Arguments make_instr_s : simpl never.

(** * Bodies *)

Lemma ends_self : forall ts front, ends ts front -> ~ In TEOF ts -> ts = front.
Proof. intros ts front [ts2 N|ts2 rest N] M; auto. exfalso. apply M. apply in_or_app. right. now left. Qed.

Lemma command_eof : forall ts, command_form ts -> ~ In TEOF ts.
Proof. intros ts [n w args M D] [I|I]; [discriminate|]. now apply (maybe_operand_no_eof _ _ M). Qed.

Lemma body_cases : forall ts, body_form ts <->
  ts = [] \/ (exists n, ts = [TName n] /\ dotted n) \/ (exists n, ts = [TMacroLabel n] /\ dotted n) \/ command_form ts \/
  (exists t w, ts = t :: TColon :: w /\ (exists n, t = TName n \/ t = TMacroLabel n) /\ (w = [] \/ command_form w)).
Proof.
  intros ts. split.
  - intros [N (ss & B)]. destruct B as [ts E|ts n E|ts n E|n D|n D|ts n ops args E D M|ts l n ops args E D M|ts l n ops args E D M]; try apply (ends_self _ _ E) in N; subst.
    + now left.
    + right; right; right; right. exists (TName n), []. eauto 10.
    + right; right; right; right. exists (TMacroLabel n), []. eauto 10.
    + right; left. eauto.
    + right; right; left. eauto.
    + right; right; right; left. now apply (cf_intro _ _ args).
    + right; right; right; right. exists (TName l), (TName n :: ops). split; auto. split; eauto. right. now apply (cf_intro _ _ args).
    + right; right; right; right. exists (TMacroLabel l), (TName n :: ops). split; auto. split; eauto. right. now apply (cf_intro _ _ args).
  - intros [-> |[(n & -> & D)|[(n & -> & D)|[C|(t & w & -> & (n & T) & W)]]]].
    + split; auto. exists []. constructor. now constructor.
    + split; [cbn; intuition discriminate|]. eexists. now apply bl_local.
    + split; [cbn; intuition discriminate|]. eexists. now apply bl_macro_local.
    + assert (N := command_eof _ C). split; auto. destruct C as [n w args M D]. eexists. apply (bl_instr _ n w args); auto. now constructor.
    + assert (N: ~ In TEOF (t :: TColon :: w)).
      { intros [I|[I|I]]; [destruct T; subst; discriminate|discriminate|]. destruct W as [-> |C]; [destruct I|]. now apply (command_eof _ C). }
      split; auto. destruct T as [-> | ->]; (destruct W as [-> |C]; [|destruct C as [m v args M D]]).
      * eexists. apply bl_label. now constructor.
      * eexists. apply (bl_label_instr _ n m v args); auto. now constructor.
      * eexists. apply bl_macro_label. now constructor.
      * eexists. apply (bl_macro_label_instr _ n m v args); auto. now constructor.
Qed.

(** The part of a body line after the labels. *)
Definition body_rest_s (r : list token) : placed (list smacro_statement * list token) :=
  match r with
  | [] => POk ([], r)
  | t :: _ =>
      match t_type t with
      | TName name =>
          if negb (is_local name) then
            pbind (parse_gen_instr_s r) (fun '((sp, name, args), r2) => POk ([SMInstr sp name args], r2))
          else PErr UnknownInstruction [tspan t]
      | _ => POk ([], r)
      end
  end.

Lemma body_split : forall ts, parse_macro_statement_s ts = pbind (body_rest_s (snd (parse_macro_label_s ts)))
  (fun '(more, r2) => if negb (is_empty_s r2) then err_next UnexpectedToken r2 else POk (fst (parse_macro_label_s ts) ++ more)).
Proof. intros ts. unfold parse_macro_statement_s, body_rest_s. destruct (parse_macro_label_s ts) as [stmts r]. reflexivity. Qed.

(** What the part after the labels says. *)
Lemma rest_error : forall {A : Type} (g : list smacro_statement -> A) r e at_,
  pbind (body_rest_s r) (fun '(more, r2) => if negb (is_empty_s r2) then err_next UnexpectedToken r2 else POk (g more)) = PErr e at_ ->
  exists t q, r = t :: q /\ t_type t <> TEOF /\
    ((exists n, t_type t = TName n /\ ~ dotted n /\ stuck False operandsL q e at_) \/
     (exists n, t_type t = TName n /\ dotted n /\ e = UnknownInstruction /\ at_ = [mkP (t_span t) []]) \/
     (is_name (t_type t) = false /\ e = UnexpectedToken /\ at_ = [mkP (t_span t) []])).
Proof.
  intros A g [|t q] e at_ H; [discriminate|]. exists t, q. split; auto. unfold body_rest_s in H. destruct (is_name (t_type t)) eqn:N.
  - destruct (t_type t) eqn:T; try discriminate. split; [discriminate|]. destruct (is_local name) eqn:D; cbn [negb] in H.
    + right; left. exists name. split; auto. split; [now apply dotted_local|]. cbn [pbind] in H. now injection H as <- <-.
    + left. exists name. split; auto. split; [rewrite dotted_local; congruence|]. assert (G := gen_cases t name q T).
      destruct (parse_gen_instr_s (t :: q)) as [[[[sp nm] args] r2]|e2 at2| |]; cbn [pbind] in H; try discriminate.
      * destruct G as (_ & ops & _ & F & _). rewrite (fin_empty _ F) in H. discriminate.
      * injection H as <- <-. exact G.
  - assert (K: t_type t <> TEOF /\ PErr e at_ = @PErr A UnexpectedToken [mkP (t_span t) []]).
    { destruct (t_type t) eqn:T; try discriminate N; cbn [pbind is_empty_s] in H; rewrite T in H; cbn in H; try discriminate; split; try discriminate; now rewrite <- H. }
    destruct K as [K1 K2]. split; auto. right; right. injection K2 as -> ->. auto.
Qed.

Lemma macro_label_colon : forall t c r, t_type c = TColon -> (exists n, t_type t = TName n \/ t_type t = TMacroLabel n) -> snd (parse_macro_label_s (t :: c :: r)) = r.
Proof. intros t c r C (n & [T|T]); cbn [parse_macro_label_s]; rewrite T, C; reflexivity. Qed.

Lemma macro_label_none : forall t r, (forall c q, r = c :: q -> t_type c <> TColon) ->
  (exists n, (t_type t = TName n \/ t_type t = TMacroLabel n) /\ dotted n /\ r = []) \/ snd (parse_macro_label_s (t :: r)) = t :: r.
Proof.
  intros t [|c q] N; cbn [parse_macro_label_s].
  - destruct (t_type t); auto; destruct (is_local name) eqn:L; auto; left; exists name; rewrite dotted_local; auto.
  - right. specialize (N c q eq_refl). destruct (t_type t); auto; destruct (t_type c); auto; congruence.
Qed.

Lemma colon_dec : forall (r : list token), (exists c q, r = c :: q /\ t_type c = TColon) \/ forall c q, r = c :: q -> t_type c <> TColon.
Proof.
  intros [|c q]; [right; intros ? ? E; discriminate|]. destruct (t_type c) eqn:C; try (right; intros c2 q2 E; injection E as <- _; rewrite C; discriminate). left. eauto.
Qed.

Lemma body_errors : forall ts e at_, parse_macro_statement_s ts = PErr e at_ -> wrong_body ts e at_.
Proof.
  intros [|t r] e at_ H; [discriminate|]. rewrite body_split in H.
  assert (NAMED: (exists n, t_type t = TName n \/ t_type t = TMacroLabel n) \/ (is_name (t_type t) = false /\ forall n, t_type t <> TMacroLabel n)).
  { destruct (t_type t); eauto; right; split; auto; discriminate. }
  destruct (colon_dec r) as [(c & q & -> & C)|C].
  - destruct NAMED as [L|[NN NL]].
    + rewrite (macro_label_colon t c q C L) in H. apply (rest_error (fun m => _ ++ m)) in H as (u & w & -> & NE & K).
      assert (PRE: types [t; c] = [t_type t; TColon]) by (cbn; now rewrite C).
      assert (BF: forall x, body_form ([t_type t; TColon] ++ x) <-> x = [] \/ command_form x).
      { intros x. rewrite body_cases. destruct L as (n & L). split.
        - intros [E|[(m & E & _)|[(m & E & _)|[K2|(t2 & x2 & E & _ & X)]]]]; try discriminate.
          + apply command_after in K2 as (m & v & E & _ & O). injection E as _ <-. apply operands_head in O. discriminate.
          + injection E as _ <-. exact X.
        - intros X. right; right; right; right. exists (t_type t), x. split; auto. split; eauto. }
      assert (WRONG: (forall x, ~ command_form (t_type u :: x)) -> unexpected e -> at_ = [mkP (t_span u) []] -> wrong_body (t :: c :: u :: w) e at_).
      { intros NC UE ->. apply wb_syntax. right. exists [t; c], u, w. split; auto. rewrite PRE. split; [exists []; apply BF; auto|]. split; [|split; [split; auto|contradiction]].
        intros (m & X). rewrite <- app_assoc in X. apply BF in X as [X|X]; [discriminate|]. now apply (NC m). }
      destruct K as [(n & U & D & S)|[(n & U & D & -> & ->)|(U & -> & ->)]].
      * apply wb_syntax. apply (lift body_form operandsL [t; c; u] w); auto.
        -- exists []. rewrite app_nil_r. cbn. rewrite C, U. apply (BF [TName n]). right. apply command_after. exists n, []. split; auto. split; auto. now right.
        -- intros x _ O. cbn. rewrite C, U. apply (BF (TName n :: x)). right. apply command_after. eauto.
        -- intros x _ O. cbn in O. rewrite C, U in O. apply (BF (TName n :: x)) in O as [O|O]; [discriminate|]. apply command_after in O as (m & v & E2 & _ & O). now injection E2 as _ ->.
      * apply WRONG; auto; [|constructor]. intros x K. rewrite U in K. inversion K; subst. contradiction.
      * apply WRONG; auto; [|constructor]. intros x K. inversion K as [n ? ? ? ? E]. rewrite <- E in U. discriminate.
    + replace (snd (parse_macro_label_s (t :: c :: q))) with (t :: c :: q) in H; [|cbn [parse_macro_label_s]; destruct (t_type t); auto; exfalso; [discriminate|now apply (NL name)]].
      apply (rest_error (fun m => _ ++ m)) in H as (u & w & E & NE & K). injection E as <- <-.
      destruct K as [(n & U & _)|[(n & U & _)|(U & -> & ->)]]; try (rewrite U in NN; discriminate).
      apply wb_syntax. right. exists [], t, (c :: q). split; auto. split; [exists []; apply body_cases; now left|]. split; [|split; [split; [constructor|now left]|contradiction]].
      intros (m & X). cbn in X. apply body_cases in X as [E|[(n & E & _)|[(n & E & _)|[K|(t2 & x2 & E & (n & [X|X]) & _)]]]]; try discriminate.
      * injection E as E _. rewrite E in NN. discriminate.
      * injection E as E _. now apply (NL n).
      * inversion K as [n ? ? ? ? E]. rewrite <- E in NN. discriminate.
      * injection E as E _. rewrite E, X in NN. discriminate.
      * injection E as E _. apply (NL n). congruence.
  - destruct (macro_label_none t r C) as [(n & T & D & ->)|E0].
    { exfalso. assert (Z: snd (parse_macro_label_s [t]) = []) by (apply dotted_local in D; cbn [parse_macro_label_s]; destruct T as [-> | ->]; rewrite D; reflexivity).
      rewrite Z in H. discriminate. }
    rewrite E0 in H. assert (LAB := E0). apply (rest_error (fun m => _ ++ m)) in H as (u & w & E & NE & K). injection E as <- <-.
    destruct K as [(n & U & D & S)|[(n & U & D & -> & ->)|(U & -> & ->)]].
    + apply wb_syntax. apply (lift body_form operandsL [t] r); auto.
      * exists []. cbn. rewrite U. apply body_cases. right; right; right; left. apply command_after. exists n, []. split; auto. split; auto. now right.
      * intros w _ O. cbn. rewrite U. apply body_cases. right; right; right; left. apply command_after. eauto.
      * intros w A O. cbn in O. rewrite U in O. apply body_cases in O as [E|[(m & E & DD)|[(m & E & _)|[K|(t2 & x2 & E & _ & X)]]]]; try discriminate.
        -- injection E as -> _. contradiction.
        -- apply command_after in K as (m & v & E & _ & O). now injection E as _ ->.
        -- injection E as _ ->. destruct r as [|c q]; [discriminate|]. destruct A as [(w2 & A)|[A _]]; [|discriminate]. injection A as A _. exfalso. now apply (C c q).
    + destruct r as [|c q].
      * exfalso. cbn [parse_macro_label_s] in LAB. rewrite U in LAB. apply dotted_local in D. rewrite D in LAB. discriminate.
      * apply (wb_dotted _ t c q n); auto. now apply (C c q).
    + destruct NAMED as [(n & [T|T])|[NN NL]]; [rewrite T in U; discriminate| |].
      * apply (wb_label _ t r n); auto. intros [D ->]. cbn [parse_macro_label_s] in LAB. rewrite T in LAB. apply dotted_local in D. rewrite D in LAB. discriminate.
      * apply wb_syntax. right. exists [], t, r. split; auto. split; [exists []; apply body_cases; now left|]. split; [|split; [split; [constructor|now left]|contradiction]].
        intros (m & X). cbn in X. apply body_cases in X as [E|[(n & E & _)|[(n & E & _)|[K|(t2 & x2 & E & (n & [X|X]) & _)]]]]; try discriminate.
        -- injection E as E _. rewrite E in NN. discriminate.
        -- injection E as E _. now apply (NL n).
        -- inversion K as [n ? ? ? ? E]. rewrite <- E in NN. discriminate.
        -- injection E as E _. rewrite E, X in NN. discriminate.
        -- injection E as E _. apply (NL n). congruence.
Qed.

(** * Headers *)

(** The definitions that the parser knows. *)
Definition tracks (ms : smacros) (defs : list definition) : Prop :=
  Forall2 (fun x d => fst x = (d_name d, d_count d) /\ sm_span (snd x) = mkP (t_span (d_token d)) []) ms defs.

Lemma tracks_find : forall ms defs, tracks ms defs -> forall n k, match find_macro_s ms n k with
  | Some sd => exists d, In d defs /\ d_name d = n /\ d_count d = k /\ sm_span sd = mkP (t_span (d_token d)) []
  | None => forall x, In x defs -> ~ (d_name x = n /\ d_count x = k)
  end.
Proof.
  intros ms defs T. induction T as [|[[n0 k0] sd] d ms defs [E S] T IH]; intros n k; cbn [find_macro_s]; [intros x []|].
  cbn in E, S. injection E as -> ->. destruct (String.eqb_spec (d_name d) n) as [E|N]; cbn [andb].
  - destruct (Nat.eqb_spec (d_count d) k) as [F|M].
    + exists d. split; [now left|]. auto.
    + specialize (IH n k). destruct (find_macro_s ms n k).
      * destruct IH as (x & I & X). exists x. split; [now right|exact X].
      * intros x [<-|I]; [intros [_ X]; auto|now apply IH].
  - specialize (IH n k). destruct (find_macro_s ms n k).
    + destruct IH as (x & I & X). exists x. split; [now right|exact X].
    + intros x [<-|I]; [intros [X _]; auto|now apply IH].
Qed.

Lemma params_errors : forall ts args, seps stands_arg ts args -> forall seen before rest e at_ m t defs,
  (forall n, In n seen -> In (TMacroIdent n) (types before)) -> macro_params_s seen args = PErr e at_ -> wrong_header defs (m :: t :: before ++ ts ++ rest) e at_.
Proof.
  intros ts args S.
  assert (STEP: forall a v b vs seen before rest e at_ m t defs, stands_arg a v -> (forall n, In n seen -> In (TMacroIdent n) (types before)) ->
    macro_params_s seen (v :: vs) = PErr e at_ ->
    wrong_header defs (m :: t :: before ++ (a ++ b) ++ rest) e at_ \/ exists n, In (TMacroIdent n) (types a) /\ macro_params_s (n :: seen) vs = PErr e at_).
  { intros a v b vs seen before rest e at_ m t defs (O & C & P) K H. cbn [macro_params_s] in H.
    assert (BAD: (forall n, erase_arg v <> AMacroArg n) -> PErr e at_ = @PErr (list string) InvalidMacroArg [arg_span v] -> wrong_header defs (m :: t :: before ++ (a ++ b) ++ rest) e at_).
    { intros N E. injection E as -> ->. apply (wh_argument _ _ m t before a (b ++ rest) (erase_arg v)); auto; [now rewrite <- app_assoc|now apply covers_spans]. }
    destruct v as [x0|x0|p0 x0|p0 n]; try (left; apply BAD; [discriminate|now symmetry]).
    destruct (P _ _ eq_refl) as (u & I & U & ->). destruct (existsb (String.eqb n) seen) eqn:X.
    - left. injection H as <- <-. apply existsb_exists in X as (n2 & X & E). apply String.eqb_eq in E. subst n2.
      apply in_split in I as (a1 & a2 & ->). apply (wh_duplicate _ _ m t (before ++ a1) u (a2 ++ b ++ rest) n); auto.
      + rewrite <- !app_assoc. reflexivity.
      + rewrite types_app. apply in_or_app. auto.
    - right. exists n. split; [rewrite <- U; unfold types; now apply in_map|]. destruct (macro_params_s (n :: seen) vs); cbn [pbind] in H; try discriminate. exact H. }
  induction S as [a v A|a v c b vs A C S IH]; intros seen before rest e at_ m t defs K H.
  - destruct (STEP a v [] [] seen before rest e at_ m t defs A K H) as [X|(n & _ & X)]; [now rewrite app_nil_r in X|discriminate].
  - destruct (STEP a v (c :: b) vs seen before rest e at_ m t defs A K H) as [X|(n & I & X)]; [exact X|].
    specialize (IH (n :: seen) (before ++ a ++ [c]) rest e at_ m t defs). replace (before ++ (a ++ c :: b) ++ rest) with ((before ++ a ++ [c]) ++ b ++ rest).
    + apply IH; auto. intros n2 [<-|J]; rewrite !types_app; apply in_or_app; [right; apply in_or_app; now left|left; auto].
    + rewrite <- !app_assoc. cbn. reflexivity.
Qed.

Lemma finishes_header : finishes (fun ts => pbind (read_name_s ts) (fun '(v, r2) => pbind (parse_args_s r2) (fun '(args, r3) => POk ((v, args), r3)))) (joined (one is_name) operandsL).
Proof.
  apply reads_finish with (k := fun v r2 => pbind (parse_args_s r2) (fun '(args, r3) => POk ((v, args), r3))).
  - apply reads_name.
  - intros v. apply (finishes_map _ _ (fun args => (v, args))), finishes_operands.
  - apply one_apart.
  - apply operands_some.
Qed.

Lemma header_cases : forall w, header_form (TMacroIdent "%macro" :: w) <-> joined (one is_name) operandsL w.
Proof.
  intros w. split.
  - intros (n & ops & args & E & M). injection E as ->. exists [TName n], ops. split; auto. split; [now exists (TName n)|]. apply maybe_list. eauto.
  - intros (a & b & -> & (t & -> & F) & O). destruct t; try discriminate. apply (maybe_list operand_of) in O as (args & M). exists name, b, args. auto.
Qed.

Lemma params_length : forall args seen params, macro_params_s seen args = POk params -> List.length params = List.length args.
Proof.
  induction args as [|a args IH]; intros seen params H; cbn [macro_params_s] in H; [now injection H as <-|].
  destruct a; try discriminate. destruct (existsb _ seen); [discriminate|]. destruct (macro_params_s (_ :: seen) args) as [ps| | |] eqn:E; try discriminate.
  injection H as <-. cbn. now rewrite (IH _ _ E).
Qed.

Lemma header_result : forall ms defs ts, tracks ms defs -> check_s (has_macro_name "%macro") ts = true ->
  match parse_macro_header_s ms ts with
  | POk (sp, name, params) => exists d, good_header defs ts d /\ name = d_name d /\ List.length params = d_count d /\ sp = mkP (t_span (d_token d)) []
  | PErr e at_ => wrong_header defs ts e at_
  | _ => True
  end.
Proof.
  intros ms defs ts T C. assert (SAME := header_same [] ts). assert (IFF := header_iff [] (types ts)).
  unfold parse_macro_header_s in *. destruct ts as [|m r]; [discriminate|]. assert (C2 := C). rewrite check_same in C2.
  unfold check_s, check_at_s in C. cbn [nth_error] in C. destruct (t_type m) eqn:M; try discriminate. unfold has_macro_name in C. apply String.eqb_eq in C. subst name.
  cbn [read_macro_name_s] in *. rewrite M in *. cbn [pbind] in *.
  assert (F := finishes_header r). cbv beta in F.
  assert (LIFT: forall e at_, stuck False (joined (one is_name) operandsL) r e at_ -> wrong_header defs (m :: r) e at_).
  { intros e at_ S. apply wh_syntax. apply (lift header_form (joined (one is_name) operandsL) [m] r); auto.
    - exists [TName "x"]. cbn. rewrite M. apply header_cases. exists [TName "x"], []. split; auto. split; [now exists (TName "x")|now right].
    - intros w _ X. cbn. rewrite M. now apply header_cases.
    - intros w _ X. cbn in X. rewrite M in X. now apply header_cases. }
  destruct (read_name_s r) as [[[sp name] r2]|e at_| |] eqn:RN; cbn [pbind] in *; auto.
  destruct r as [|t q]; [discriminate|]. cbn [read_name_s] in RN. destruct (t_type t) eqn:TT; try discriminate. injection RN as <- <- <-.
  destruct (instr_exists name0) eqn:K; cbn [pbind] in *; [apply (wh_instruction _ _ m t q name0); auto; now apply instr_exists_known|].
  destruct (parse_args_s q) as [[args r3]|e at_| |] eqn:PA; cbn [pbind] in *; auto.
  apply args_gives in PA as (ops & -> & L). destruct F as (front & _ & _ & F).
  assert (FIND := tracks_find _ _ T name0 (List.length args)). destruct (find_macro_s ms name0 (List.length args)) as [sd|].
  - destruct FIND as (d & I & <- & E & ->). rewrite <- (map_length erase_arg args). apply (wh_defined _ _ m t ops r3 (map erase_arg args) d); auto.
    + now apply args_operands.
    + now apply fin_ends.
    + now rewrite map_length.
  - cbn [find_macro_s] in SAME. destruct (macro_params_s [] args) as [params|e at_| |] eqn:PP; cbn [pbind] in *; auto.
    + rewrite (fin_empty _ F) in *. cbn [negb] in *. cbn [unplaced] in SAME. symmetry in SAME. apply IFF in SAME as [H _]; auto.
      exists (mkDefinition t name0 (List.length params)). cbn. split; [|auto]. split; [exists params; auto|]. cbn. split.
      * rewrite (params_length _ _ _ PP). exact FIND.
      * exists m, (ops ++ r3). reflexivity.
    + destruct L as [[-> ->]|S]; [discriminate|]. apply (params_errors ops args S [] [] r3 e at_ m t defs); auto.
Qed.

(** * Programs *)

Lemma end_result : forall {A : Type} close (k : placed A), first_is (TMacroIdent "%end") (types close) ->
  pbind (next_s close) (fun '(_, r) => if negb (is_empty_s r) then err_next UnexpectedToken r else k) = k /\ ends (types close) [TMacroIdent "%end"] \/
  exists e at_, pbind (next_s close) (fun '(_, r) => if negb (is_empty_s r) then err_next UnexpectedToken r else k) = PErr e at_ /\ first_wrong end_form close e at_.
Proof.
  intros A close k (r & E). destruct close as [|m q]; [discriminate|]. cbn in E. injection E as M _. cbn [next_s pbind].
  destruct (is_empty_s q) eqn:Q; cbn [negb].
  - left. split; auto. rewrite empty_same in Q. apply is_empty_fin in Q. apply ends_split. exists (types q). cbn. rewrite M. split; auto. split; auto. intros [I|[]]. discriminate.
  - right. destruct q as [|u q]; [discriminate|]. exists UnexpectedToken, [mkP (t_span u) []]. split; [reflexivity|].
    right. exists [m], u, q. split; auto. cbn. rewrite M. split; [exists []; reflexivity|]. split; [|split; [split; [constructor|now left]|intros Y; cbn in Q; rewrite Y in Q; discriminate]].
    intros (w & X). unfold end_form in X. discriminate.
Qed.

Lemma body_snoc : forall ls body l ss, body_lines ls body -> ~ first_is (TMacroIdent "%end") l -> body_line l ss -> body_lines (ls ++ [l]) (body ++ ss).
Proof.
  intros ls body l ss B N L. induction B as [|l2 ss2 rest more N2 L2 B IH].
  - cbn. rewrite <- (app_nil_r ss). apply bls_cons; auto. constructor.
  - cbn. rewrite <- app_assoc. now apply bls_cons.
Qed.

Lemma body_inside : forall ls body, body_lines (map types ls) body -> Forall (fun l : list token => ~ first_is (TMacroIdent "%end") (types l)) ls.
Proof. induction ls as [|l ls IH]; intros body B; constructor; inversion B; subst; eauto. Qed.

Lemma good_first : forall defs ts d, good_header defs ts d -> first_is (TMacroIdent "%macro") (types ts).
Proof. intros defs ts d [(params & H & _) _]. now apply (header_first _ _ _ H). Qed.

Lemma tracks_add : forall ms defs sp name params body d, tracks ms defs -> name = d_name d -> List.length params = d_count d -> sp = mkP (t_span (d_token d)) [] ->
  tracks (add_macro_s ms sp name params body) (d :: defs).
Proof. intros. unfold add_macro_s, tracks. constructor; auto. cbn. split; auto. congruence. Qed.

Lemma scan_result : forall ls,
  (forall ms defs, tracks ms defs ->
    match scan_macros_s ms None ls with POk (kept, _) => outside ls kept | PErr e at_ => wrong_macro defs ls e at_ | _ => True end) /\
  (forall ms defs sp name params done d hd pre body, tracks ms defs -> name = d_name d -> List.length params = d_count d -> sp = mkP (t_span (d_token d)) [] ->
    good_header defs hd d -> body_lines (map types pre) body ->
    match scan_macros_s ms (Some (sp, name, params, done)) ls with
    | POk (kept, _) => outside (hd :: pre ++ ls) kept
    | PErr e at_ => wrong_macro defs (hd :: pre ++ ls) e at_
    | _ => True
    end).
Proof.
  induction ls as [|l ls [IH1 IH2]]; (split; [intros ms defs T|intros ms defs sp name params done d hd pre body T N P S G B]).
  - constructor.
  - cbn. rewrite app_nil_r. apply os_unclosed; [eapply good_first; eauto|eapply body_inside; eauto].
  - cbn [scan_macros_s]. destruct (check_s (has_macro_name "%macro") l) eqn:C.
    + assert (H := header_result ms defs l T C). rewrite check_same in C. apply check_first in C.
      destruct (parse_macro_header_s ms l) as [[[sp name] params]|e at_| |]; cbn [pbind]; auto; [|now apply wm_header].
      destruct H as (d & G & N & P & S). apply (IH2 ms defs sp name params [] d l [] []); auto. constructor.
    + rewrite check_same in C. apply check_first_not in C. specialize (IH1 ms defs T).
      destruct (scan_macros_s ms None ls) as [[kept ms2]|e at_| |]; cbn [pbind]; auto; [now apply os_line|now apply wm_line].
  - cbn [scan_macros_s]. destruct (check_s (has_macro_name "%end") l) eqn:C; rewrite check_same in C.
    + apply check_first in C. destruct (end_result l (scan_macros_s (add_macro_s ms sp name params done) None ls) C) as [[-> E]|(e & at_ & -> & W)]; [|now apply (wm_end _ _ d _ body)].
      specialize (IH1 _ _ (tracks_add ms defs sp name params done d T N P S)).
      destruct (scan_macros_s (add_macro_s ms sp name params done) None ls) as [[kept ms2]|e at_| |]; auto.
      * apply os_macro; auto; [eapply good_first; eauto|eapply body_inside; eauto].
      * now apply (wm_macro _ _ d _ body).
    + apply check_first_not in C. assert (SAME := macro_statement_same l).
      destruct (parse_macro_statement_s l) as [stmts|e at_| |] eqn:PM; cbn [pbind]; auto; [|apply (wm_body _ _ d _ body); auto; now apply body_errors].
      cbn [unplaced] in SAME. symmetry in SAME. apply macro_statement_iff in SAME.
      specialize (IH2 ms defs sp name params (done ++ stmts) d hd (pre ++ [l]) (body ++ map erase_body stmts) T N P S G).
      replace (hd :: pre ++ l :: ls) with (hd :: (pre ++ [l]) ++ ls) by (now rewrite <- app_assoc). apply IH2. rewrite map_app. now apply body_snoc.
Qed.

Lemma lines_result : forall ls e at_, parse_lines_s ls = PErr e at_ -> exists before bad after,
  ls = before ++ bad :: after /\ Forall (fun l => exists front ss, ends (types l) front /\ line front ss) before /\ wrong_line bad e at_.
Proof.
  induction ls as [|l ls IH]; intros e at_ H; [discriminate|]. cbn [parse_lines_s] in H. assert (SAME := line_same l).
  destruct (parse_line_s l) as [here|e2 at2| |] eqn:PL; cbn [pbind] in H; try discriminate.
  - cbn [unplaced] in SAME. symmetry in SAME. apply parse_line_iff in SAME as (front & F).
    destruct (parse_lines_s ls) as [others|e2 at2| |]; cbn [pbind] in H; try discriminate. injection H as <- <-.
    destruct (IH _ _ eq_refl) as (before & bad & after & -> & B & W). exists (l :: before), bad, after. split; auto. split; auto. constructor; eauto.
  - injection H as <- <-. exists [], l, ls. split; auto. split; auto. now apply line_errors.
Qed.

Theorem program_errors : forall toks e at_, parse_s toks = PErr e at_ -> wrong_program (lines toks) e at_.
Proof.
  intros toks e at_ H. unfold parse_s in H. assert (S := proj1 (scan_result (lines toks)) [] [] (Forall2_nil _)).
  destruct (scan_macros_s [] None (lines toks)) as [[kept ms]|e2 at2| |]; cbn [pbind] in H; try discriminate.
  - destruct (parse_lines_s kept) as [stmts|e2 at2| |] eqn:PL; cbn [pbind] in H; try discriminate. injection H as <- <-.
    apply lines_result in PL as (before & bad & after & -> & B & W). now apply (wp_line _ before bad after).
  - injection H as <- <-. now apply wp_macro.
Qed.
