(** Printed text is read back: whole documents. *)
From Coq Require Import ZArith List String Ascii Bool Arith Lia.
From Verif Require Import Base Expr Instr Ast Lexer Parser Printer SpecIsa SpecMacro SpecLex LexProofs LexProofs3 LexProofs4 LexProofs5
  SpecParse ParseProofs SpecLine LineProofs LineProofs2 LineProofs3 SpecPrint PrintProofs PrintProofs2 PrintProofs3.
Import ListNotations.
Open Scope string_scope.
Open Scope list_scope.
Local Open Scope nat_scope.

(** * From spelling to pieces *)

Definition gap_ok (before g : string) : Prop := forall r, gap (bol_after true before) g r.

Fixpoint labs (before : string) (ps : list piece) : list (nat * token_type) :=
  match ps with
  | [] => []
  | p :: t => (count "010" (before ++ p_gap p), p_type p) :: labs (before ++ p_gap p ++ p_text p) t
  end.

Definition no_lf (ps : list piece) : Prop := Forall (fun p => count "010" (p_text p) = 0) ps.

Definition good (before g rest : string) (out : list (nat * token_type)) : Prop :=
  exists ps tail, (g ++ rest)%string = source ps tail /\ pieces_ok before ps tail /\ gap_after (behind before ps) tail "" /\
    no_lf ps /\ labs before ps = out.

Lemma gap_ok_nil before : gap_ok before "".
Proof. intros r. constructor. Qed.

Lemma gap_ok_app before g g2 : gap_ok before g -> (forall r, gap (bol_after true (before ++ g)) g2 r) -> gap_ok before (g ++ g2).
Proof. intros H H2 r. apply gap_app; [apply H|]. rewrite <- bol_after_app. apply H2. Qed.

Lemma gap_ok_space before g : gap_ok before g -> gap_ok before (g ++ " ").
Proof. intros H. apply gap_ok_app; [exact H|]. intros r. apply gap_blank; [cbn; tauto|constructor]. Qed.

Lemma count_space s : count "010" (s ++ " ") = count "010" s.
Proof. rewrite count_app. cbn. lia. Qed.

Lemma good_piece before g text ty rest out :
  gap_ok before g -> writes text ty -> fits ty -> complete text ty rest -> ~ (text = "*" /\ line_start (before ++ g)) ->
  count "010" text = 0 -> good (before ++ g ++ text) "" rest out ->
  good before g (text ++ rest) ((count "010" (before ++ g), ty) :: out).
Proof.
  intros G W F C N K (ps & tail & E & P & T & L & O). cbn [append] in E.
  exists (mkPiece g text ty :: ps), tail. cbn [source pieces_ok behind labs p_gap p_text p_type].
  split; [now rewrite <- E|]. split; [|split; [exact T|split; [constructor; assumption|now rewrite O]]].
  split; [apply gap_after_iff; apply G|]. rewrite <- E. auto 10.
Qed.

Lemma spelled_good : forall s tys rest, spelled s tys rest -> forall before g, gap_ok before g ->
  exists before' g', gap_ok before' g' /\ (before' ++ g' = before ++ g ++ s)%string /\
    forall out, good before' g' rest out -> good before g (s ++ rest) (map (pair (count "010" (before ++ g))) tys ++ out).
Proof.
  induction 1 as [rest|s tys rest H IH|text ty s tys rest W F C N K H IH|s tys rest H IH]; intros before g G.
  - exists before, g. split; [exact G|]. split; [now rewrite app_nil_r_s|]. auto.
  - destruct (IH before (g ++ " ")%string (gap_ok_space _ _ G)) as (b' & g' & G' & E & X). exists b', g'.
    split; [exact G'|]. split; [rewrite E, app_assoc_s; reflexivity|]. intros out Hout. specialize (X out Hout).
    rewrite <- app_assoc_s, count_space in X. destruct X as (ps & tail & E2 & R). exists ps, tail. split; [|exact R].
    rewrite <- E2, app_assoc_s. reflexivity.
  - destruct (IH (before ++ g ++ text)%string "" (gap_ok_nil _)) as (b' & g' & G' & E & X). exists b', g'.
    split; [exact G'|]. split; [rewrite E; cbn; now rewrite !app_assoc_s|]. intros out Hout. specialize (X out Hout).
    rewrite app_assoc_s. cbn [map app]. apply good_piece; auto; [tauto|].
    assert (Q: count "010" ((before ++ g ++ text) ++ "") = count "010" (before ++ g)) by (rewrite !count_app, K; cbn; lia).
    rewrite Q in X. exact X.
  - destruct (IH (before ++ (g ++ " ") ++ "*")%string "" (gap_ok_nil _)) as (b' & g' & G' & E & X). exists b', g'.
    split; [exact G'|]. split; [rewrite E; cbn; rewrite !app_assoc_s; reflexivity|]. intros out Hout. specialize (X out Hout).
    assert (Y: good before (g ++ " ") ("*" ++ s ++ rest) (map (pair (count "010" (before ++ g))) (TTimes :: tys) ++ out)).
    { cbn [map app]. rewrite <- (count_space (before ++ g)), app_assoc_s.
      apply good_piece; auto; [now apply gap_ok_space|apply w_punct; cbn; tauto|exact Logic.I|exact Logic.I| |].
      - intros [_ L]. apply line_start_bol in L. rewrite <- app_assoc_s, bol_after_app in L. discriminate.
      - assert (Q: count "010" ((before ++ (g ++ " ") ++ "*") ++ "") = count "010" (before ++ g ++ " ")).
        { rewrite !count_app. cbn. lia. }
        rewrite Q in X. exact X. }
    destruct Y as (ps & tail & E2 & R). exists ps, tail. split; [|exact R]. rewrite <- E2, app_assoc_s. reflexivity.
Qed.

Lemma good_end before g : gap_ok before g -> good before g "" [].
Proof.
  intros G. exists [], g. cbn. rewrite app_nil_r_s. split; [reflexivity|]. split; [exact Logic.I|]. split; [apply gap_after_iff; apply G|]. split; [constructor|reflexivity].
Qed.

Lemma types_of f : forall ps before, map t_type (tokens_of f before ps) = map snd (labs before ps) ++ [TEOF].
Proof. induction ps as [|p ps IH]; intros before; cbn; [reflexivity|]. now rewrite IH. Qed.

(** * One text without line ends *)

Theorem spelled_lex f s tys : spelled s tys "" -> exists toks, lex_input (new_input f s) = Ok toks /\ map t_type toks = tys ++ [TEOF].
Proof.
  intros H. destruct (spelled_good _ _ _ H "" "" (gap_ok_nil _)) as (b' & g' & G & _ & X).
  destruct (X [] (good_end _ _ G)) as (ps & tail & E & P & T & L & O). cbn [append] in E. rewrite app_nil_r_s in E.
  exists (tokens_of f "" ps). split.
  - apply lex_ok_iff. exists ps, tail. auto.
  - rewrite types_of, O, app_nil_r, map_map. cbn. now rewrite map_id.
Qed.

(** * Documents *)

Definition trailer (c : string) : Prop := forall b r, gap b (c ++ LFs) r.

Inductive doc : string -> list (list token_type) -> Prop :=
| doc_nil : doc "" []
| doc_line : forall s tys c text tl, spelled s tys (c ++ LFs ++ text) -> trailer c -> doc text tl ->
    doc (s ++ c ++ LFs ++ text) (tys :: tl)
| doc_last : forall s tys c, spelled s tys c -> (forall b, gap b c "") -> doc (s ++ c) [tys].

Definition flat (L : list (nat * list token_type)) : list (nat * token_type) :=
  flat_map (fun p => map (pair (fst p)) (snd p)) L.

(** Lines numbered upwards from [n], none of them empty. *)
Fixpoint upward (n : nat) (L : list (nat * list token_type)) : Prop :=
  match L with
  | [] => True
  | (k, tys) :: t => n <= k /\ tys <> [] /\ upward (S k) t
  end.

Definition filled (tys : list token_type) : bool := match tys with [] => false | _ => true end.

Lemma upward_le L : forall n m, m <= n -> upward n L -> upward m L.
Proof. destruct L as [|[k t] L]; cbn; [auto|]. intros n m H (A & B & C). repeat split; auto. lia. Qed.

Lemma doc_good text tl : doc text tl -> forall before g, gap_ok before g ->
  exists L, good before g text (flat L) /\ map snd L = filter filled tl /\ upward (count "010" (before ++ g)) L.
Proof.
  induction 1 as [|s tys c text tl H T D IH|s tys c H T]; intros before g G.
  - exists []. split; [now apply good_end|]. split; [reflexivity|exact Logic.I].
  - destruct (spelled_good _ _ _ H before g G) as (b' & g' & G' & E & X).
    destruct (IH b' (g' ++ c ++ LFs)%string) as (L & GL & M & U).
    { apply gap_ok_app; [exact G'|]. intros r. apply T. }
    assert (GL': good b' g' (c ++ LFs ++ text) (flat L)).
    { destruct GL as (ps & tail & E2 & R). exists ps, tail. split; [|exact R]. rewrite <- E2, !app_assoc_s. reflexivity. }
    specialize (X _ GL').
    assert (LT: count "010" (before ++ g) < count "010" (b' ++ g' ++ c ++ LFs)).
    { rewrite <- app_assoc_s, E, !count_app. cbn. lia. }
    assert (U': upward (S (count "010" (before ++ g))) L) by (eapply upward_le; [|exact U]; lia).
    destruct tys as [|ty tys].
    + exists L. split; [exact X|]. split; [exact M|]. eapply upward_le; [|exact U']. lia.
    + exists ((count "010" (before ++ g), ty :: tys) :: L). split; [exact X|]. split; [cbn; now rewrite M|].
      cbn. split; [lia|]. split; [discriminate|exact U'].
  - destruct (spelled_good _ _ _ H before g G) as (b' & g' & G' & E & X).
    assert (GL: good b' g' c []).
    { exists [], (g' ++ c)%string. cbn. split; [reflexivity|]. split; [exact Logic.I|]. split; [|split; [constructor|reflexivity]].
      apply gap_after_iff. apply gap_app; [apply G'|apply T]. }
    specialize (X _ GL). rewrite app_nil_r in X. destruct tys as [|ty tys].
    + exists []. split; [exact X|]. split; [reflexivity|exact Logic.I].
    + exists [(count "010" (before ++ g), ty :: tys)]. unfold flat. cbn [flat_map fst snd]. rewrite app_nil_r.
      split; [exact X|]. split; [reflexivity|]. cbn. split; [lia|]. split; [discriminate|exact Logic.I].
Qed.

(** * Grouping into lines *)

Definition tok_is (f : nat) (p : nat * token_type) (t : token) : Prop :=
  t_type t = snd p /\ l_line (s_start (t_span t)) = S (fst p) /\ l_line (s_end (t_span t)) = S (fst p) /\
  l_file (s_start (t_span t)) = f /\ l_file (s_end (t_span t)) = f.

Lemma tok_same f n a b t u : tok_is f (n, a) t -> tok_is f (n, b) u -> same_line t u.
Proof. unfold tok_is, same_line. cbn. intuition congruence. Qed.

Lemma tok_other f n m a b t u : tok_is f (n, a) t -> tok_is f (m, b) u -> n <> m -> ~ same_line t u.
Proof. unfold tok_is, same_line. cbn. intros (_ & _ & A & _) (_ & B & _) N [C _]. apply N. congruence. Qed.

Lemma last_default {A : Type} (l : list A) d e : l <> [] -> last l d = last l e.
Proof. induction l as [|x l IH]; [congruence|]. intros _. destruct l as [|y l]; [reflexivity|]. apply IH. discriminate. Qed.

Lemma tokens_labelled f : forall ps before, no_lf ps -> exists front eof, tokens_of f before ps = front ++ [eof] /\
  Forall2 (tok_is f) (labs before ps) front /\ tok_is f (last (map fst (labs before ps)) (count "010" before), TEOF) eof.
Proof.
  induction ps as [|p ps IH]; intros before N.
  - exists []. eexists. split; [reflexivity|]. split; [constructor|]. cbn. repeat split.
  - inversion N as [|? ? N1 N2]; subst. destruct (IH (before ++ p_gap p ++ p_text p)%string N2) as (front & eof & E & F & T).
    cbn [tokens_of labs]. rewrite E. eexists (_ :: front), eof. split; [reflexivity|].
    assert (C: count "010" (before ++ p_gap p ++ p_text p) = count "010" (before ++ p_gap p)) by (rewrite !count_app; lia).
    split.
    + constructor; [|exact F]. unfold tok_is. cbn -[append]. rewrite C. auto 10.
    + cbn [map fst]. rewrite C in T. destruct (labs (before ++ p_gap p ++ p_text p) ps) as [|q l]; [exact T|].
      cbn [map] in T |- *. rewrite (last_default (fst q :: map fst l) _ (count "010" before)) in T by discriminate. exact T.
Qed.

Fixpoint close (L : list (nat * list token_type)) : list (list token_type) :=
  match L with
  | [] => [[TEOF]]
  | [(_, t)] => [t ++ [TEOF]]
  | (_, t) :: L' => t :: close L'
  end.

Lemma last_flat n tys d : tys <> [] -> last (map fst (map (pair n) tys : list (nat * token_type))) d = n.
Proof.
  intros N. induction tys as [|x tys IH]; [congruence|]. destruct tys as [|y tys]; [reflexivity|]. apply IH. discriminate.
Qed.

Lemma last_app_ne {A : Type} (a b : list A) d : b <> [] -> last (a ++ b) d = last b d.
Proof. intros N. induction a as [|x a IH]; [reflexivity|]. cbn [app]. rewrite <- IH.
  destruct (a ++ b) eqn:E; [apply app_eq_nil in E as [_ E]; congruence|reflexivity].
Qed.


Lemma flat_ne n L : L <> [] -> upward n L -> flat L <> [].
Proof. destruct L as [|[k [|t ts]] L]; [congruence| |]; cbn; [intros _ (_ & X & _); congruence|discriminate]. Qed.

Lemma same_run f n tys toks : Forall2 (tok_is f) (map (pair n) tys) toks -> map t_type toks = tys /\
  forall a t, tok_is f (n, a) t -> Forall (same_line t) toks.
Proof.
  revert toks. induction tys as [|x tys IH]; intros toks H; inversion H as [|? t ? ts H1 H2]; subst; [split; [reflexivity|constructor]|].
  apply IH in H2 as [A B]. split.
  - cbn. destruct H1 as [-> _]. now rewrite A.
  - intros a u Hu. constructor; [exact (tok_same _ _ _ _ _ _ Hu H1)|exact (B _ _ Hu)].
Qed.

Lemma grouped_lines f : forall L n d front eof, upward n L -> Forall2 (tok_is f) (flat L) front ->
  tok_is f (last (map fst (flat L)) d, TEOF) eof ->
  exists Gs, grouped (front ++ [eof]) Gs /\ map (map t_type) Gs = close L.
Proof.
  induction L as [|[k tys] L IH]; intros n d front eof U F T.
  - inversion F; subst. exists [[eof]]. split.
    + apply (gr_line eof [] [] []); [constructor|discriminate|constructor].
    + cbn. destruct T as [-> _]. reflexivity.
  - destruct U as (_ & NE & U). cbn [flat flat_map fst snd] in F, T.
    apply Forall2_app_inv_l in F as (a & b & Fa & Fb & ->). destruct tys as [|ty tys]; [congruence|].
    inversion Fa as [|? t ? same H1 H2]; subst. destruct (same_run _ _ _ _ H2) as [<- SL].
    destruct L as [|p L].
    + inversion Fb; subst. rewrite app_nil_r in T |- *. rewrite last_flat in T by discriminate.
      exists [t :: same ++ [eof]]. split.
      * assert (X: grouped (t :: (same ++ [eof]) ++ []) [t :: same ++ [eof]]); [|now rewrite app_nil_r in X].
        apply gr_line; [|discriminate|constructor].
        apply Forall_app. split; [exact (SL _ _ H1)|]. constructor; [exact (tok_same _ _ _ _ _ _ H1 T)|constructor].
      * cbn. destruct H1 as [-> _]. rewrite map_app. cbn. destruct T as [-> _]. reflexivity.
    + assert (NF: flat (p :: L) <> []) by (eapply flat_ne; [discriminate|exact U]).
      rewrite map_app, last_app_ne in T by (intros X; apply map_eq_nil in X; exact (NF X)).
      destruct (IH (S k) d b eof U Fb T) as (Gs & G & M). exists ((t :: same) :: Gs). split.
      * rewrite <- app_assoc. cbn [app]. apply gr_line; [exact (SL _ _ H1)| |exact G].
        intros u r E. destruct p as [m ts]. destruct U as (LE & NE2 & _). destruct ts as [|y ts]; [congruence|].
        cbn [flat flat_map fst snd map app] in Fb. inversion Fb as [|? v ? vs V1 V2]; subst. cbn in E. injection E as <- _.
        apply (tok_other _ _ _ _ _ _ _ H1 V1). lia.
      * cbn [map]. rewrite M. destruct H1 as [-> _]. reflexivity.
Qed.

(** * Reading a document *)

Lemma line_empty ss : line [] ss -> ss = [].
Proof. intros H. exact (line_unique _ _ _ H l_empty). Qed.

Lemma line_not_macro tys ss x : line tys ss -> ~ first_is (TMacroIdent "%macro") (tys ++ x) \/ tys = [].
Proof.
  intros H. inversion H; subst; auto; left; intros (r & E); try discriminate.
  - match goal with K : command _ _ |- _ => apply command_head in K as (? & ? & -> & _) end. discriminate.
  - match goal with K : directive_of _ _ |- _ => apply directive_shape in K as (? & ? & -> & _) end. discriminate.
Qed.

Lemma close_program : forall L n sss, upward n L -> Forall2 line (map snd L) sss -> program [] (close L) (List.concat sss) [].
Proof.
  induction L as [|[k tys] L IH]; intros n sss U F.
  - inversion F; subst. change (@List.concat statement []) with ([] ++ @nil statement).
    apply pg_line with (front := []); [intros (r & E); discriminate|apply (ends_eof [] []); auto|apply l_empty|apply pg_nil].
  - destruct U as (_ & NE & U). inversion F as [|? ss ? sss' H1 H2]; subst. cbn [snd] in H1.
    pose proof (line_no_eof _ _ H1) as NO. destruct L as [|p L].
    + inversion H2; subst. cbn [close List.concat]. apply pg_line with (front := tys); [|now apply (ends_eof tys [])|exact H1|apply pg_nil].
      destruct (line_not_macro _ _ [TEOF] H1); [assumption|congruence].
    + cbn [List.concat]. change (close ((k, tys) :: p :: L)) with (tys :: close (p :: L)).
      apply pg_line with (front := tys); [|now apply ends_all|exact H1|exact (IH (S k) sss' U H2)].
      destruct (line_not_macro _ _ [] H1) as [X|X]; [now rewrite app_nil_r in X|congruence].
Qed.

Lemma filled_lines tl sss : Forall2 line tl sss -> exists sss', Forall2 line (filter filled tl) sss' /\ List.concat sss' = List.concat sss.
Proof.
  induction 1 as [|tys ss tl sss H F (sss' & I1 & I2)]; [exists []; split; [constructor|reflexivity]|].
  destruct tys as [|ty tys]; cbn.
  - apply line_empty in H. subst. exists sss'. auto.
  - exists (ss :: sss'). split; [constructor; assumption|]. cbn. now rewrite I2.
Qed.

Theorem doc_parse f text tl sss : doc text tl -> Forall2 line tl sss ->
  exists toks, lex_input (new_input f text) = Ok toks /\ parse toks = Ok (mkStatements [] (List.concat sss)).
Proof.
  intros D F. destruct (doc_good _ _ D "" "" (gap_ok_nil _)) as (L & (ps & tail & E & P & T & NL & O) & M & U).
  cbn [append] in E. exists (tokens_of f "" ps). split; [apply lex_ok_iff; exists ps, tail; auto|].
  destruct (tokens_labelled f ps "" NL) as (front & eof & TE & FT & TT). rewrite O in FT, TT.
  destruct (grouped_lines f L _ _ front eof U FT TT) as (Gs & G & MG).
  destruct (filled_lines _ _ F) as (sss' & F' & CE). rewrite <- M in F'.
  apply parse_iff. exists Gs, [], (List.concat sss). split; [now rewrite TE|]. split; [|reflexivity].
  rewrite MG, <- CE. exact (close_program _ _ _ U F').
Qed.

(** * Statements *)

Lemma white_space c : is_white c = true -> is_space c = true.
Proof.
  intros H. assert (A := all_ascii_ok (fun c => implb (is_white c) (is_space c)) ltac:(vm_compute; reflexivity) c).
  cbn beta in A. rewrite H in A. exact A.
Qed.

Lemma white_gap w b r : all_white w = true -> gap b w r.
Proof.
  intros H. apply blanks_gap. induction w as [|c w IH]; [exact Logic.I|]. cbn in H. apply andb_prop in H as [H1 H2].
  split; [now apply white_space|auto].
Qed.

Lemma white_lf w : all_white w = true -> all_white (w ++ LFs) = true.
Proof. induction w as [|c w IH]; cbn; [reflexivity|]. intros H. apply andb_prop in H as [H1 H2]. rewrite H1. auto. Qed.

Lemma no_break_rest t r : all_chars no_break t -> rest_of_line t (String "010" r).
Proof.
  intros H. split; [right; left; eauto|]. intros p q -> Q E.
  assert (K: all_chars no_break q). { clear E Q. induction p as [|c p IH]; [exact H|]. apply IH. apply H. }
  destruct q as [|c q]; [congruence|]. destruct K as [[K1 K2] _]. cbn in E.
  destruct E as [E|[(x & E)|(x & E)]]; [discriminate|injection E as E _; congruence|injection E as E _; congruence].
Qed.

Lemma comment_gap t b r : all_chars no_break t -> gap b ("  ;; " ++ t ++ LFs) r.
Proof.
  intros H. change ("  ;; " ++ t ++ LFs)%string with (String " " (String " " (String ";" (("; " ++ t) ++ LFs)))).
  do 2 (apply gap_blank; [cbn; tauto|]). apply gap_comment; [now left| |].
  - apply no_break_rest. cbn. unfold no_break at 1 2. repeat split; try discriminate. exact H.
  - apply gap_blank; [cbn; tauto|constructor].
Qed.

Lemma comment_trailer c : printable_statement (SComment c) -> trailer (show_comment c).
Proof.
  cbn [printable_statement]. intros P b r. unfold show_comment. destruct (all_white c) eqn:W; [apply white_gap; now apply white_lf|].
  destruct P as [->|[P|(t & -> & P)]]; [discriminate| |].
  - destruct c as [|n t]; [discriminate|]. destruct (Ascii.eqb_spec n "010") as [->|N].
    + destruct P as [[P _] _]. congruence.
    + rewrite app_assoc_s. now apply comment_gap.
  - cbn [Ascii.eqb Bool.eqb]. change (Ascii.eqb "010" "010") with true. cbn iota.
    change (String "010" ("  ;; " ++ t) ++ LFs)%string with (String "010" (("  ;; " ++ t) ++ LFs)).
    apply gap_blank; [cbn; tauto|]. rewrite app_assoc_s. now apply comment_gap.
Qed.

Lemma empty_trailer : trailer "".
Proof. intros b r. apply gap_blank; [cbn; tauto|constructor]. Qed.

Lemma statement_doc s text tl : printable_statement s -> doc text tl -> doc (show_statement s ++ LFs ++ text) (stoks s :: tl).
Proof.
  intros P D. destruct (is_comment s) eqn:C.
  - destruct s; try discriminate. apply (doc_line "" [] (show_comment text0) text tl); [constructor|now apply comment_trailer|exact D].
  - apply (doc_line (show_statement s) (stoks s) "" text tl); [|exact empty_trailer|exact D].
    apply statement_spelled; [exact P|exact C|]. right. eexists. reflexivity.
Qed.

Lemma concat_cons a l : String.concat "" (a :: l) = (a ++ String.concat "" l)%string.
Proof. destruct l; cbn; [now rewrite app_nil_r_s|reflexivity]. Qed.

Lemma output_cons s l : l <> [] -> expand_output (s :: l) = (show_statement s ++ LFs ++ expand_output l)%string.
Proof.
  unfold expand_output, show_statements. destruct l as [|x l]; [congruence|]. intros _. unfold show_list. cbn [map].
  rewrite concat_cons, !app_assoc_s. reflexivity.
Qed.

Lemma output_doc l : l <> [] -> Forall printable_statement l -> doc (expand_output l) (map stoks l).
Proof.
  intros N F. induction F as [|s l P F IH]; [congruence|]. destruct l as [|x l].
  - unfold expand_output, show_statements. cbn [show_list map String.concat]. rewrite app_nil_r_s.
    change (String "010" "") with (LFs ++ "")%string. apply statement_doc; [exact P|constructor].
  - rewrite output_cons by discriminate. cbn [map]. apply statement_doc; [exact P|]. apply IH. discriminate.
Qed.

Definition kept (s : statement) : list statement := if is_comment s then [] else [s].

Lemma output_lines l : Forall printable_statement l -> Forall2 line (map stoks l) (map kept l).
Proof.
  induction 1 as [|s l P F IH]; cbn; constructor; [|exact IH]. unfold kept. destruct (is_comment s) eqn:C.
  - destruct s; try discriminate. apply l_empty.
  - now apply statement_line.
Qed.

Lemma kept_filter l : List.concat (map kept l) = filter (fun s => negb (is_comment s)) l.
Proof. induction l as [|s l IH]; [reflexivity|]. cbn. rewrite IH. unfold kept. destruct (is_comment s); reflexivity. Qed.

Theorem output_reads f l : Forall printable_statement l ->
  exists toks, lex_input (new_input f (expand_output l)) = Ok toks /\ parse toks = Ok (mkStatements [] (filter (fun s => negb (is_comment s)) l)).
Proof.
  intros F. rewrite <- kept_filter. destruct l as [|s l].
  - apply (doc_parse f _ [[]] [[]]); [|repeat constructor].
    apply (doc_line "" [] "" "" []); [constructor|exact empty_trailer|constructor].
  - apply (doc_parse f _ (map stoks (s :: l))); [apply output_doc; [discriminate|exact F]|now apply output_lines].
Qed.

(** * Expressions and instructions alone *)

Theorem expr_reads f e : printable e -> exists toks, lex_input (new_input f (show_expr e)) = Ok toks /\ parse_expr (map t_type toks) = Ok (e, [TEOF]).
Proof.
  intros P. destruct (spelled_lex f (show_expr e) (etoks e)) as (toks & L & T); [apply show_expr_spelled; [exact P|apply stops_nil]|].
  exists toks. split; [exact L|]. rewrite T. apply parse_expr_complete; [apply etoks_both|]. left. right. eauto.
Qed.

Theorem instr_reads f i : printable_instr i -> ~ reads_as_equ i -> exists toks, lex_input (new_input f (show_instr i)) = Ok toks /\ parse_line (map t_type toks) = Ok [SInstr i].
Proof.
  intros P N. destruct (spelled_lex f (show_instr i) (itoks i)) as (toks & L & T); [apply instr_spelled; [exact P|apply stops_nil]|].
  exists toks. split; [exact L|]. rewrite T. apply line_complete; [now apply instr_line|]. right. eauto.
Qed.

Theorem labelled_instr_reads f n i : plain_name n -> printable_instr i ->
  exists toks, lex_input (new_input f (n ++ ": " ++ show_instr i)) = Ok toks /\ parse_line (map t_type toks) = Ok [SLabel n; SInstr i].
Proof.
  intros M P. destruct (spelled_lex f (n ++ ": " ++ show_instr i) (TName n :: TColon :: itoks i)) as (toks & L & T).
  - apply sp_name; [exact M|cbn; apply stops_colon|]. change (": " ++ show_instr i)%string with (":" ++ String " " (show_instr i))%string.
    apply sp_tok; [apply w_punct; cbn; tauto|exact Logic.I|cbn; discriminate|discriminate|reflexivity|].
    apply sp_space. apply instr_spelled; [exact P|apply stops_nil].
  - exists toks. split; [exact L|]. rewrite T.
    apply line_complete; [apply l_label_command; now apply instr_command|]. right. eauto.
Qed.
