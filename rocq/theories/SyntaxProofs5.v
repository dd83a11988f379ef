(** Lines stop at the first token that cannot be right. *)
From Coq Require Import ZArith List String Ascii Bool Arith Lia.
From Verif Require Import Base Expr Instr Ast Macro Lexer Parser SpecParse ParseProofs Span SpanParser SpecSpan SpanProofs SpanProofs2 SpanProofs3 SpanParseProofs SpanValid.
From Verif Require Import SpecIsa SpecMacro MacroProofs SpecLine LineProofs LineProofs2 SpecSyntax SyntaxProofs SyntaxProofs2 SyntaxProofs3 SyntaxProofs4.
Import ListNotations.
Open Scope string_scope.
Open Scope list_scope.
Local Open Scope nat_scope.

Local Arguments parse_expr_s : simpl never.
Local Arguments instr_exists : simpl never.
Local Arguments make_instr_s : simpl never.

(** * What may follow the name of a directive *)

Definition textL : language := joined (one is_number) (one is_string).
Definition cnopL : language := joined exprL (joined (one comma) exprL).

Definition afterL (n : string) : language := fun ts =>
  (n = ".byte" /\ listL byteL ts) \/ (n = ".org" /\ one is_number ts) \/ (n = ".word" /\ listL exprL ts) \/
  (n = ".text" /\ textL ts) \/ (n = ".string" /\ textL ts) \/ (n = ".include" /\ includeL ts) \/ (n = ".cnop" /\ cnopL ts).

Lemma afterL_names : forall n ts, afterL n ts -> In n directive_names.
Proof. intros n ts [[-> _]|[[-> _]|[[-> _]|[[-> _]|[[-> _]|[[-> _]|[-> _]]]]]]]; cbn; auto 10. Qed.

Ltac only_one H := destruct H as [[? H]|[[? H]|[[? H]|[[? H]|[[? H]|[[? H]|[? H]]]]]]]; try discriminate.

Lemma after_byte : same (afterL ".byte") (listL byteL). Proof. intros ts. split; intros H; [now only_one H|left; auto]. Qed.
Lemma after_org : same (afterL ".org") (one is_number). Proof. intros ts. split; intros H; [now only_one H|right; left; auto]. Qed.
Lemma after_word : same (afterL ".word") (listL exprL). Proof. intros ts. split; intros H; [now only_one H|right; right; left; auto]. Qed.
Lemma after_text : same (afterL ".text") textL. Proof. intros ts. split; intros H; [now only_one H|right; right; right; left; auto]. Qed.
Lemma after_string : same (afterL ".string") textL. Proof. intros ts. split; intros H; [now only_one H|right; right; right; right; left; auto]. Qed.
Lemma after_include : same (afterL ".include") includeL. Proof. intros ts. split; intros H; [now only_one H|right; right; right; right; right; left; auto]. Qed.
Lemma after_cnop : same (afterL ".cnop") cnopL. Proof. intros ts. split; intros H; [now only_one H|repeat right; auto]. Qed.

Lemma directive_after : forall ts, directive_form ts <-> exists n w, ts = TName n :: w /\ afterL n w.
Proof.
  intros ts. split.
  - intros D. destruct D as [ts d D|s ts ps M|s ts ps M].
    + destruct D as [ts items S|n r|ts es S|n r s|n r s|ts1 a ts2 m X1 X2|s|w t s I|s ts ps speed eye M SP G|s ts ps k h M SK SH].
      * exists ".byte", ts. split; auto. apply after_byte, separated_list. eauto.
      * exists ".org", [TNumber n r]. split; auto. apply after_org. now exists (TNumber n r).
      * exists ".word", ts. split; auto. apply after_word, separated_list. eauto.
      * exists ".text", [TNumber n r; TString s]. split; auto. apply after_text. exists [TNumber n r], [TString s]. split; auto. split; eexists; split; reflexivity.
      * exists ".string", [TNumber n r; TString s]. split; auto. apply after_string. exists [TNumber n r], [TString s]. split; auto. split; eexists; split; reflexivity.
      * exists ".cnop", (ts1 ++ TComma :: ts2). split; auto. apply after_cnop. exists ts1, (TComma :: ts2). split; auto. split; [now exists a|].
        exists [TComma], ts2. split; auto. split; [now exists TComma|now exists m].
      * exists ".include", [TString s]. split; auto. apply after_include. left. now exists (TString s).
      * exists ".include", [TName w; TString s]. split; auto. apply after_include. right; right; right. exists [TName w], [TString s]. split; auto.
        split; [|now exists (TString s)]. exists (TName w). split; auto. cbn in I. destruct I as [I|[I|[I|[]]]]; injection I as <- <-; reflexivity.
      * exists ".include", (TName "icon" :: TString s :: ts). split; auto. apply after_include. right; left. exists [TName "icon"], (TString s :: ts). split; auto.
        split; [now exists (TName "icon")|]. exists [TString s], ts. split; auto. split; [now exists (TString s)|]. apply maybe_list. eauto.
      * exists ".include", (TName "sprite" :: TString s :: ts). split; auto. apply after_include. right; right; left. exists [TName "sprite"], (TString s :: ts). split; auto.
        split; [now exists (TName "sprite")|]. exists [TString s], ts. split; auto. split; [now exists (TString s)|]. apply maybe_list. eauto.
    + exists ".include", (TName "icon" :: TString s :: ts). split; auto. apply after_include. right; left. exists [TName "icon"], (TString s :: ts). split; auto.
      split; [now exists (TName "icon")|]. exists [TString s], ts. split; auto. split; [now exists (TString s)|]. apply maybe_list. eauto.
    + exists ".include", (TName "sprite" :: TString s :: ts). split; auto. apply after_include. right; right; left. exists [TName "sprite"], (TString s :: ts). split; auto.
      split; [now exists (TName "sprite")|]. exists [TString s], ts. split; auto. split; [now exists (TString s)|]. apply maybe_list. eauto.
  - assert (NAME: forall kind t, has_name kind t = true -> t = TName kind).
    { intros kind [] H; try discriminate. unfold has_name in H. apply String.eqb_eq in H. now subst. }
    assert (TEXT: forall w, textL w -> exists n r s, w = [TNumber n r; TString s]).
    { intros w (a & b & -> & (t & -> & F) & (t2 & -> & F2)). destruct t; try discriminate. destruct t2; try discriminate. cbn. eauto. }
    intros (n & w & -> & [[-> H]|[[-> H]|[[-> H]|[[-> H]|[[-> H]|[[-> H]|[-> H]]]]]]]).
    + apply separated_list in H as (xs & S). eapply df_directive. constructor. eassumption.
    + destruct H as (t & -> & F). destruct t; try discriminate. eapply df_directive. constructor.
    + apply (separated_list expression_of) in H as (xs & S). eapply df_directive. constructor. eassumption.
    + destruct (TEXT _ H) as (x & r & s & ->). eapply df_directive. constructor.
    + destruct (TEXT _ H) as (x & r & s & ->). eapply df_directive. constructor.
    + destruct H as [(t & -> & F)|[(a & b & -> & (t & -> & F) & (c & d & -> & (t2 & -> & F2) & P))|[(a & b & -> & (t & -> & F) & (c & d & -> & (t2 & -> & F2) & P))|(a & b & -> & (t & -> & F) & (t2 & -> & F2))]]].
      * destruct t; try discriminate. eapply df_directive. constructor.
      * rewrite (NAME _ _ F). destruct t2; try discriminate. apply maybe_list in P as (ps & P). now apply (df_icon _ _ ps).
      * rewrite (NAME _ _ F). destruct t2; try discriminate. apply maybe_list in P as (ps & P). now apply (df_sprite _ _ ps).
      * destruct t2; try discriminate. destruct (typed_names _ F) as (k & -> & K). cbn in K.
        destruct K as [<-|[<-|[<-|[]]]]; eapply df_directive; [eapply (d_include_typed "asm")|eapply (d_include_typed "bytes")|eapply (d_include_typed "cpp")]; cbn; auto.
    + destruct H as (a & b & -> & (x & X) & (c & d & -> & (t & -> & F) & (y & Y))). destruct t; try discriminate. apply (df_directive _ (DCnop x y)). now apply d_cnop.
Qed.

(** * All lines *)

Lemma dotted_local : forall n, dotted n <-> is_local n = true.
Proof.
  intros [|c n]; split; intros H; try discriminate; [destruct H as (t & H); discriminate| |].
  - destruct H as (t & H). injection H as -> ->. reflexivity.
  - exists n. cbn in H. destruct (Ascii.eqb_spec c "."); [now subst|]. destruct c as [[][][][][][][][]]; try discriminate; reflexivity.
Qed.

Lemma names_dotted : forall n, In n directive_names -> dotted n.
Proof. intros n H. cbn in H. repeat destruct H as [<-|H]; try (eexists; reflexivity). destruct H. Qed.

Lemma known_not_dotted : forall n, known n -> ~ dotted n.
Proof.
  intros n (f & I & <-) (t & E).
  assert (H: forallb (fun f => match f_name f with String "." _ => false | _ => true end) isa = true) by (vm_compute; reflexivity).
  rewrite forallb_forall in H. apply H in I. rewrite E in I. discriminate.
Qed.

Lemma command_is_form : forall ts s, command ts s -> command_form ts.
Proof.
  intros ts s [ts2 args f i M I K S|n ts2 args M K D].
  - apply (cf_intro _ _ args M). apply known_not_dotted. now exists f.
  - now apply (cf_intro _ _ args).
Qed.

Lemma command_after : forall ts, command_form ts <-> exists n w, ts = TName n :: w /\ ~ dotted n /\ operandsL w.
Proof.
  intros ts. split.
  - intros [n w args M D]. exists n, w. split; auto. split; auto. apply maybe_list. eauto.
  - intros (n & w & -> & D & O). apply (maybe_list operand_of) in O as (args & M). now apply (cf_intro _ _ args).
Qed.

Lemma line_cases : forall ts, line_form ts <->
  ts = [] \/ (exists n w, ts = TName n :: TColon :: w /\ (w = [] \/ command_form w)) \/
  (exists n, ts = [TName n] /\ dotted n /\ ~ In n directive_names) \/
  (command_form ts /\ forall a r, ts <> a :: TName "equ" :: r) \/
  (exists n w, ts = TName n :: w /\ afterL n w) \/
  (exists n w, ts = TName n :: TName "equ" :: w /\ exprL w /\ ~ In n directive_names) \/
  (exists n w, ts = TName n :: TEquals :: w /\ exprL w /\ ~ In n directive_names).
Proof.
  intros ts. split.
  - intros [ts2 ss L|n ts2 C|ts2 C E|ts2 D].
    + destruct L as [|n|n ts2 s C|n D N|ts2 s C E|ts2 d D|n ts2 e X N|n ts2 e X N].
      * now left.
      * right; left. exists n, []. auto.
      * right; left. exists n, ts2. split; auto. right. now apply (command_is_form _ s).
      * right; right; left. eauto.
      * right; right; right; left. split; auto. now apply (command_is_form _ s).
      * right; right; right; right; left. apply directive_after. now apply (df_directive _ d).
      * right; right; right; right; right; left. exists n, ts2. split; auto. split; auto. now exists e.
      * right; right; right; right; right; right. exists n, ts2. split; auto. split; auto. now exists e.
    + right; left. exists n, ts2. auto.
    + right; right; right; left. auto.
    + right; right; right; right; left. now apply directive_after.
  - intros [-> |[(n & w & -> & [-> |C])|[(n & -> & D & N)|[[C E]|[(n & w & -> & A)|[(n & w & -> & (e & X) & N)|(n & w & -> & (e & X) & N)]]]]]].
    + apply (lf_line _ []). constructor.
    + apply (lf_line _ [SLabel n]). constructor.
    + now apply lf_label_command.
    + apply (lf_line _ [SLabel n]). now constructor.
    + now apply lf_command.
    + apply lf_directive, directive_after. eauto.
    + apply (lf_line _ [SAlias n e]). now constructor.
    + apply (lf_line _ [SVariable n e]). now constructor.
Qed.

(** First tokens of what follows. *)
Definition head_in (f : token_type -> bool) (G : language) : Prop := forall t r, G (t :: r) -> f t = true.

Lemma expr_head_in : head_in expr_head exprL.
Proof. intros t r X. destruct (exprL_head _ X) as (t2 & r2 & E & H). injection E as -> _. exact H. Qed.

Definition item_head (t : token_type) : bool := expr_head t || is_string t || is_number t || is_hash t || is_indirection_mode t.

Lemma list_head : forall (G : language) f, ~ G [] -> head_in f G -> head_in f (listL G).
Proof. intros G f N H t r (a & b & E & A & _). destruct a as [|a0 a]; [contradiction|]. cbn in E. injection E as -> _. now apply (H _ a). Qed.

Lemma byte_nonempty : ~ byteL []. Proof. intros X. destruct (byte_heads _ X) as (t & r & E & _). discriminate. Qed.
Lemma operand_nonempty : ~ operandL []. Proof. intros X. destruct (operand_heads _ X) as (t & r & E & _). discriminate. Qed.

Lemma byte_head_in : head_in item_head byteL.
Proof.
  intros t r X. apply byteL_same in X as [(t2 & E & F)|X]; unfold item_head.
  - injection E as -> _. rewrite F. now rewrite orb_true_r.
  - now rewrite (expr_head_in _ _ X).
Qed.
Lemma operand_head_in : head_in item_head operandL.
Proof.
  intros t r X. apply operandL_same in X as [(t2 & E & F)|[(a & b & E & (t2 & -> & F) & _)|X]]; unfold item_head.
  - injection E as -> _. rewrite F. now rewrite !orb_true_r.
  - injection E as -> _. rewrite F. now rewrite !orb_true_r.
  - now rewrite (expr_head_in _ _ X).
Qed.
Lemma operands_head : head_in item_head operandsL.
Proof. intros t r [X|X]; [|discriminate]. revert X. apply list_head; [apply operand_nonempty|apply operand_head_in]. Qed.

Lemma after_head : forall n, head_in item_head (afterL n).
Proof.
  intros n t r [[-> H]|[[-> H]|[[-> H]|[[-> H]|[[-> H]|[[-> H]|[-> H]]]]]]].
  - revert H. apply list_head; [apply byte_nonempty|apply byte_head_in].
  - destruct H as (t2 & E & F). injection E as -> _. unfold item_head. rewrite F. now rewrite !orb_true_r.
  - unfold item_head. rewrite (list_head exprL expr_head exprL_nonempty expr_head_in t r H). reflexivity.
  - destruct H as (a & b & E & (t2 & -> & F) & _). injection E as -> _. unfold item_head. rewrite F. now rewrite !orb_true_r.
  - destruct H as (a & b & E & (t2 & -> & F) & _). injection E as -> _. unfold item_head. rewrite F. now rewrite !orb_true_r.
  - destruct H as [(t2 & E & F)|[(a & b & E & (t2 & -> & F) & _)|[(a & b & E & (t2 & -> & F) & _)|(a & b & E & (t2 & -> & F) & _)]]]; injection E as -> _; unfold item_head.
    + rewrite F. now rewrite !orb_true_r.
    + destruct t2; try discriminate. reflexivity.
    + destruct t2; try discriminate. reflexivity.
    + destruct (typed_names _ F) as (k & -> & _). reflexivity.
  - destruct H as (a & b & E & X & _). destruct a as [|a0 a]; [now apply exprL_nonempty in X|]. injection E as -> _.
    unfold item_head. rewrite (expr_head_in _ _ X). reflexivity.
Qed.

(** * From what follows to the line *)

(** [w] starts with the next token of the line. *)
Definition agree (w : list token_type) (rest : list token) : Prop :=
  match rest with [] => w = [] | t :: _ => (exists w2, w = t_type t :: w2) \/ w = [] /\ t_type t = TEOF end.

Lemma agree_prefix : forall a t b m, agree ((types a ++ [t_type t]) ++ m) (a ++ t :: b).
Proof. intros [|x a] t b m; cbn; eauto. Qed.

Lemma lift : forall (G L : language) pre rest e at_,
  (exists w, G (types pre ++ w)) ->
  (forall w, agree w rest -> L w -> G (types pre ++ w)) ->
  (forall w, agree w rest -> G (types pre ++ w) -> L w) ->
  stuck False L rest e at_ -> first_wrong G (pre ++ rest) e at_.
Proof.
  intros G L pre rest e at_ (w0 & W0) S O [(-> & -> & (m & C) & N)|(b & t & a & -> & (m & C) & N & M & K)].
  - left. split; auto. split; auto. rewrite types_app. split.
    + destruct rest as [|t r]; [exists w0; now rewrite app_nil_r|]. exists m. rewrite <- app_assoc. apply S; auto. cbn. eauto.
    + intros X. apply N. apply O; auto. destruct rest; cbn; eauto.
  - right. exists (pre ++ b), t, a. rewrite <- app_assoc. split; auto. rewrite types_app. split; [|split; [|split; auto]].
    + destruct b as [|x b]; [exists w0; now rewrite app_nil_r|]. exists m. rewrite <- app_assoc. apply S; auto. cbn. eauto.
    + intros (m2 & X). apply N. exists m2. apply O; [apply agree_prefix|]. rewrite <- !app_assoc in X. now rewrite <- !app_assoc.
    + intros Y X. apply K; auto. apply O; auto. destruct b as [|x b]; cbn; eauto.
Qed.
