(** The lines of C headers: definitions become constants. *)
From Coq Require Import ZArith List String Ascii Bool Arith Lia.
From Verif Require Import Base Expr Ast Macro Lexer Parser CHeader SpecLex SpecParse SpecLine SpecHeader
  LexProofs LexProofs2 LexProofs3 LexProofs4 LexProofs5 ParseProofs LineProofs LineProofs2 LineProofs3 HeaderProofs.
Import ListNotations.
Open Scope string_scope.
Open Scope list_scope.
Local Open Scope nat_scope.

(** * Names and hashes lie on one line *)

Definition tidy (t : token) : Prop :=
  (t_type t = THash \/ exists n, t_type t = TName n) ->
  l_line (s_start (t_span t)) = l_line (s_end (t_span t)) /\ l_file (s_start (t_span t)) = l_file (s_end (t_span t)).

Lemma no_lf_count w : all_chars (fun c => c <> "010"%char) w -> count "010" w = 0.
Proof.
  induction w as [|c w IH]; intros H; [reflexivity|]. destruct H as [N H]. cbn [count].
  destruct (ascii_dec "010" c); [congruence|]. now apply IH.
Qed.

Lemma ident_no_lf w : identifier w -> count "010" w = 0.
Proof.
  intros H. apply no_lf_count. destruct w as [|c w]; [contradiction|]. destruct H as [S H]. split.
  - intros ->. apply name_start_iff in S. discriminate.
  - eapply all_chars_impl; [|exact H]. intros a N ->. apply name_char_iff in N. discriminate.
Qed.

Lemma writes_one_line text ty : writes text ty -> (ty = THash \/ exists n, ty = TName n) -> count "010" text = 0.
Proof.
  intros W T. destruct W as [text ty I|w I|w I|w I|l s F1 F2|text n r N].
  - cbn in I. repeat (destruct I as [I|I]; [injection I as <- <-; reflexivity|]). contradiction.
  - now apply ident_no_lf.
  - destruct T as [T|(n & T)]; discriminate.
  - destruct T as [T|(n & T)]; discriminate.
  - destruct T as [T|(n & T)]; discriminate.
  - destruct T as [T|(m & T)]; discriminate.
Qed.

Lemma tokens_tidy f rest : forall ps before, c_pieces_ok ps rest -> Forall tidy (tokens_of f before ps).
Proof.
  induction ps as [|p ps IH]; intros before P; cbn [tokens_of].
  - constructor; [|constructor]. intros _. cbn. auto.
  - destruct P as (_ & W & _ & _ & _ & P). constructor; [|now apply IH].
    intros T. cbn in T |- *. split; auto. rewrite !count_app. rewrite (writes_one_line _ _ W T). lia.
Qed.

(** * One line *)

Definition equ_token (h d : token) : token := mkToken (TName "equ") (mkSpan (s_start (t_span h)) (s_end (t_span d))).

Definition conv (l : list token) : list token :=
  match l with
  | h :: d :: n :: ts =>
      if (is_hash (t_type h) && has_name "define" (t_type d))%bool then n :: equ_token h d :: ts else l
  | _ => l
  end.

Definition well (l : list token) : Prop := define_line (map t_type l) -> good_define (map t_type l).

Lemma hash_iff t : is_hash t = true <-> t = THash.
Proof. split; [destruct t; cbn; congruence|now intros ->]. Qed.

Lemma define_iff t : has_name "define" t = true <-> t = TName "define".
Proof.
  split; [|now intros ->]. destruct t; cbn [has_name]; try discriminate.
  intros H. apply String.eqb_eq in H. now subst.
Qed.

Lemma define_test l : (check is_hash (stream_of l) && check_at 1 (has_name "define") (stream_of l))%bool = true <->
  define_line (map t_type l).
Proof.
  unfold stream_of, check, check_at, define_line. rewrite andb_true_iff. destruct l as [|h [|d l]]; cbn [map nth_error].
  - split; [intros [? _]; discriminate|intros (r & E); discriminate].
  - split; [intros [_ ?]; discriminate|intros (r & E); discriminate].
  - rewrite hash_iff, define_iff. split.
    + intros [-> ->]. eauto.
    + intros (r & E). injection E as -> -> _. auto.
Qed.

Lemma header_line_define h d l : t_type h = THash -> t_type d = TName "define" ->
  header_line (h :: d :: l) =
  let! (_, r3) := read_name (map t_type l) in
  let! _ := parse_expr r3 in
  match l with n :: rest => Ok (n :: equ_token h d :: rest) | _ => Panic end.
Proof.
  intros H D. unfold header_line.
  replace (check is_hash _ && _)%bool with true.
  2:{ symmetry. apply define_test. exists (map t_type l). cbn. now rewrite H, D. }
  unfold stream_of. cbn [map next bind]. destruct l; reflexivity.
Qed.

Lemma header_line_other l : ~ define_line (map t_type l) -> header_line l = Ok l /\ conv l = l.
Proof.
  intros N. split.
  - unfold header_line. destruct (check is_hash _ && _)%bool eqn:E; auto. apply define_test in E. contradiction.
  - unfold conv. destruct l as [|h [|d [|n ts]]]; auto.
    destruct (is_hash (t_type h) && has_name "define" (t_type d))%bool eqn:E; auto. exfalso. apply N.
    apply andb_true_iff in E as [E1 E2]. apply hash_iff in E1. apply define_iff in E2. exists (map t_type (n :: ts)).
    cbn. now rewrite E1, E2.
Qed.

Lemma define_shape l : define_line (map t_type l) -> exists h d r, l = h :: d :: r /\ t_type h = THash /\ t_type d = TName "define".
Proof. intros (r & E). destruct l as [|h [|d l]]; try discriminate. cbn in E. injection E as H D _. eauto 8. Qed.

Lemma define_dec ts : define_line ts \/ ~ define_line ts.
Proof.
  destruct ts as [|h [|d r]]; [right; intros (? & ?); discriminate|right; intros (? & ?); discriminate|].
  destruct (is_hash h) eqn:H; [apply hash_iff in H; subst|right; intros (? & E); injection E as -> _ _; discriminate].
  destruct (has_name "define" d) eqn:D; [apply define_iff in D; subst; left; now exists r|].
  right. intros (? & E). injection E as -> _. discriminate.
Qed.

Lemma header_line_iff l out : header_line l = Ok out <-> well l /\ out = conv l.
Proof.
  destruct (define_dec (map t_type l)) as [D|N].
  - destruct (define_shape l D) as (h & d & r & -> & H & DD). rewrite header_line_define by auto. split.
    + intros E. destruct r as [|n r]; [discriminate|]. destruct (t_type n) eqn:T; cbn [map] in E; rewrite T in E; try discriminate.
      cbn [read_name bind] in E. destruct (parse_expr (map t_type r)) as [[e rest]| | |] eqn:P; try discriminate.
      cbn [bind] in E. injection E as <-. split.
      * intros _. apply parse_expr_iff in P as (front & E & X & C). cbn [map]. rewrite H, DD, T, E. unfold good_define. eauto 10.
      * unfold conv. rewrite H, DD. reflexivity.
    + intros [W ->]. destruct (W D) as (x & front & e & rest & E & X & C). cbn in E. destruct r as [|n r]; [discriminate|].
      cbn in E. injection E as _ _ T E. cbn [map]. rewrite T. cbn [read_name bind]. rewrite E.
      assert (P: parse_expr (front ++ rest) = Ok (e, rest)) by (apply parse_expr_iff; eauto).
      rewrite P. cbn [bind]. unfold conv. rewrite H, DD. reflexivity.
  - destruct (header_line_other l N) as [E C]. rewrite E, C. split.
    + intros X. injection X as <-. split; auto. intros D. contradiction.
    + now intros [_ ->].
Qed.

Lemma conv_converted l : well l -> converted l (conv l).
Proof.
  intros W. destruct (define_dec (map t_type l)) as [D|N].
  - destruct (W D) as (x & front & e & rest & E & _). destruct (define_shape l D) as (h & d & r & -> & H & DD).
    destruct r as [|n r]; [discriminate|]. cbn in E. injection E as _ _ T _.
    unfold conv. rewrite H, DD. cbn. now apply cv_define with (n := x).
  - rewrite (proj2 (header_line_other l N)). now apply cv_other.
Qed.

Lemma header_lines_iff : forall ls out, header_lines ls = Ok out <-> Forall well ls /\ out = List.concat (map conv ls).
Proof.
  induction ls as [|l ls IH]; intros out; cbn [header_lines map List.concat].
  - split; [intros E; now injection E as <-|now intros [_ ->]].
  - split.
    + intros E. destruct (header_line l) as [a| | |] eqn:A; try discriminate. cbn [bind] in E.
      destruct (header_lines ls) as [b| | |] eqn:B; try discriminate. cbn [bind] in E. injection E as <-.
      apply header_line_iff in A as [A ->]. destruct (proj1 (IH b) eq_refl) as [F ->]. auto.
    + intros [F ->]. inversion F; subst. rewrite (proj2 (header_line_iff l (conv l))) by auto. cbn [bind].
      rewrite (proj2 (IH _)) by eauto. reflexivity.
Qed.

(** Nothing but success and errors. *)
Lemma header_lines_total : forall ls, (exists out, header_lines ls = Ok out) \/ exists er, header_lines ls = Err er.
Proof.
  induction ls as [|l ls IH]; cbn [header_lines]; [eauto|].
  assert (L: (exists out, header_line l = Ok out) \/ exists er, header_line l = Err er).
  { destruct (define_dec (map t_type l)) as [D|N]; [|left; exists l; apply (header_line_other l N)].
    destruct (define_shape l D) as (h & d & r & -> & H & DD). rewrite header_line_define by auto.
    destruct r as [|n r]; [cbn; eauto|]. cbn [map]. destruct (t_type n); cbn [read_name bind]; eauto.
    destruct (parse_expr_total (map t_type r)) as [(e & rest & P)|(er & P)]; rewrite P; cbn; eauto. }
  destruct L as [(a & ->)|(er & ->)]; cbn; [|eauto]. destruct IH as [(b & ->)|(er & ->)]; cbn; eauto.
Qed.

(** * All lines *)

Lemma conv_cases l : well l -> (conv l = l) \/ exists h d n x ts, l = h :: d :: n :: ts /\
  t_type h = THash /\ t_type d = TName "define" /\ t_type n = TName x /\ conv l = n :: equ_token h d :: ts.
Proof.
  intros W. pose proof (conv_converted l W) as C. inversion C as [h d n x ts H D N E1 E2|ts N E1 E2]; [right|left; congruence].
  exists h, d, n, x, ts. auto.
Qed.

Lemma conv_group t same : well (t :: same) -> Forall tidy (t :: same) -> Forall (same_line t) same ->
  exists t' same', conv (t :: same) = t' :: same' /\ Forall (same_line t') same' /\ (forall v, same_line t' v <-> same_line t v) /\
    (forall v, same_line v t' <-> same_line v t).
Proof.
  intros W T S. destruct (conv_cases _ W) as [->|(h & d & n & x & ts & E & H & D & N & ->)].
  - exists t, same. split; [reflexivity|]. split; [exact S|]. split; intros v; reflexivity.
  - injection E as -> ->. exists n, (equ_token h d :: ts).
    apply Forall_cons_iff in T as [Th T]. apply Forall_cons_iff in T as [_ T]. apply Forall_cons_iff in T as [Tn _].
    apply Forall_cons_iff in S as [_ S]. apply Forall_cons_iff in S as [Sn S].
    specialize (Th (or_introl H)). specialize (Tn (or_intror (ex_intro _ x N))).
    unfold same_line in Sn.
    assert (F: forall v, same_line n v <-> same_line h v) by (intros v; unfold same_line; intuition congruence).
    split; [reflexivity|]. split; [|split].
    + constructor.
      * unfold same_line, equ_token. cbn. intuition congruence.
      * eapply Forall_impl; [|exact S]. intros v. apply F.
    + exact F.
    + intros v. unfold same_line. intuition congruence.
Qed.

Lemma conv_grouped toks gs : grouped toks gs -> Forall tidy toks -> Forall well gs ->
  grouped (List.concat (map conv gs)) (map conv gs) /\
  (forall u r, List.concat (map conv gs) = u :: r -> exists u' r', toks = u' :: r' /\ forall v, same_line v u <-> same_line v u').
Proof.
  intros G. induction G as [|t same rest groups S B G IH]; intros T W; cbn [map List.concat].
  - split; [constructor|]. intros; discriminate.
  - apply Forall_cons_iff in W as [W1 W]. change (t :: same ++ rest) with ((t :: same) ++ rest) in T.
    apply Forall_app in T as [T1 T]. destruct (IH T W) as [IG IB].
    destruct (conv_group t same W1 T1 S) as (t' & same' & -> & S' & A1 & A2).
    split.
    + cbn [app]. apply gr_line; auto. intros u r E X. destruct (IB u r E) as (u' & r' & E' & L).
      apply (B u' r' E'). apply A1. now apply L.
    + intros u r E. cbn [app] in E. injection E as <- _. eauto.
Qed.

Theorem header_lex_iff f text out : header_lex (new_input f text) = Ok out <->
  exists ps gs gs', header_text text ps /\ grouped (tokens_of f "" ps) gs /\ Forall well gs /\
    Forall2 converted gs gs' /\ out = List.concat gs' /\ grouped out gs'.
Proof.
  unfold header_lex. split.
  - intros H. destruct (lex_for_ws skip_c (new_input f text)) as [raw| | |] eqn:L; try discriminate. cbn [bind] in H.
    apply header_tokens_iff in L as (ps & HT & ->). apply header_lines_iff in H as [W ->].
    exists ps, (lines (tokens_of f "" ps)), (map conv (lines (tokens_of f "" ps))).
    pose proof (lines_grouped (tokens_of f "" ps)) as G. repeat split; auto.
    + clear G. induction W; constructor; auto. now apply conv_converted.
    + eapply conv_grouped; eauto. destruct HT as (tail & _ & P & _). eapply tokens_tidy; eauto.
  - intros (ps & gs & gs' & HT & G & W & F & -> & _).
    rewrite (proj2 (header_tokens_iff f text (tokens_of f "" ps))) by eauto. cbn [bind].
    apply lines_iff in G. rewrite G. apply header_lines_iff. split; auto. f_equal.
    clear G HT. induction F as [|g g' gs gs' C F IH]; cbn; auto. apply Forall_cons_iff in W as [W1 W]. f_equal; auto.
    inversion C as [h d n x ts H D N|ts N]; subst; [|symmetry; apply (header_line_other _ N)].
    unfold conv. rewrite H, D. reflexivity.
Qed.

Theorem header_accepts f text ps gs : header_text text ps -> grouped (tokens_of f "" ps) gs ->
  ((exists out, header_lex (new_input f text) = Ok out) <-> Forall well gs) /\
  (~ Forall well gs -> exists er, header_lex (new_input f text) = Err er).
Proof.
  intros HT G. unfold header_lex. rewrite (proj2 (header_tokens_iff f text (tokens_of f "" ps))) by eauto. cbn [bind].
  apply lines_iff in G. rewrite G. split; [split|].
  - intros (out & H). now apply header_lines_iff in H as [W _].
  - intros W. eexists. apply header_lines_iff. eauto.
  - intros N. destruct (header_lines_total gs) as [(out & H)|H]; auto. apply header_lines_iff in H as [W _]. contradiction.
Qed.

Lemma converted_exists : forall gs, Forall well gs -> exists gs', Forall2 converted gs gs'.
Proof. induction gs as [|g gs IH]; intros W; [eauto|]. apply Forall_cons_iff in W as [W1 W]. destruct (IH W) as (gs' & F). exists (conv g :: gs'). constructor; auto. now apply conv_converted. Qed.

(** * Constants *)

Lemma ends_tail ts front : ends ts front -> exists rest, ts = front ++ rest /\ fin rest /\ ~ In TEOF front.
Proof. intros E. now apply ends_split in E. Qed.

Lemma ends_empty_other ts : ends ts [] -> ~ define_line ts.
Proof. intros E (r & ->). apply ends_tail in E as (rest & E & F & _). cbn in E. subst. destruct F as [F|(x & F)]; discriminate. Qed.

Lemma constants_well gs cs : constants (map (map t_type) gs) cs -> Forall well gs.
Proof.
  revert cs. induction gs as [|g gs IH]; intros cs C; [constructor|]. cbn in C. inversion C; subst.
  - constructor; [|eauto]. intros D. exfalso. eapply ends_empty_other; eauto.
  - constructor; [|eauto]. intros _. apply ends_tail in H1 as (rest & -> & F & _).
    exists n, ets, e, rest. split; [reflexivity|]. split; auto. apply stop_continues. now left.
Qed.

Lemma constants_equ : forall gs gs', Forall2 converted gs gs' -> forall cs,
  constants (map (map t_type) gs) cs -> equ_lines (map (map t_type) gs') cs.
Proof.
  induction 1 as [|g g' gs gs' V F IH]; intros cs C; cbn in *.
  - inversion C. constructor.
  - inversion C as [|ts ls cs' E C'|ts n ets e ls cs' E X N C']; subst.
    + assert (D := ends_empty_other _ E). inversion V as [h d m x ts H1 H2 H3|ts O]; subst.
      * exfalso. apply D. exists (map t_type (m :: ts)). cbn. now rewrite H1, H2.
      * apply eq_empty; auto.
    + apply ends_tail in E as (rest & E & Fi & NE). inversion V as [h d m x ts H1 H2 H3|ts O]; subst.
      * cbn in E. injection E as _ _ E1 E2. rewrite H3 in E1. injection E1 as ->.
        apply eq_equ with (ets := ets); auto. apply ends_split. exists rest. cbn. rewrite H3, E2. split; [reflexivity|].
        split; auto. intros [I|[I|I]]; try discriminate. apply NE. cbn. auto.
      * exfalso. apply O. rewrite E. eexists. reflexivity.
Qed.

Lemma equ_program : forall ls cs, equ_lines ls cs -> program [] ls (map (fun c => SAlias (fst c) (snd c)) cs) [].
Proof.
  induction 1 as [|ts ls cs E H IH|ts n ets e ls cs E X N H IH]; cbn [map].
  - constructor.
  - apply (pg_line [] ts [] [] ls _ []); auto; [|constructor].
    intros (r & ->). apply ends_tail in E as (rest & E & F & _). cbn in E. subst. destruct F as [F|(x & F)]; discriminate.
  - apply (pg_line [] ts (TName n :: TName "equ" :: ets) [SAlias n e] ls _ []); auto.
    + intros (r & ->). apply ends_tail in E as (rest & E & F & _). discriminate.
    + now apply l_alias.
Qed.

Lemma equ_parse toks gs cs : grouped toks gs -> equ_lines (map (map t_type) gs) cs ->
  parse toks = Ok (mkStatements [] (map (fun c => SAlias (fst c) (snd c)) cs)).
Proof. intros G E. apply parse_iff. exists gs, [], (map (fun c => SAlias (fst c) (snd c)) cs). split; auto. split; auto. now apply equ_program. Qed.

Theorem header_constants f text ps gs cs : header_text text ps -> grouped (tokens_of f "" ps) gs ->
  constants (map (map t_type) gs) cs ->
  exists out, header_lex (new_input f text) = Ok out /\
    parse out = Ok (mkStatements [] (map (fun c => SAlias (fst c) (snd c)) cs)).
Proof.
  intros HT G C. pose proof (constants_well _ _ C) as W. destruct (proj2 (proj1 (header_accepts f text ps gs HT G)) W) as (out & O).
  exists out. split; auto. apply header_lex_iff in O as (ps2 & gs2 & gs' & HT2 & G2 & W2 & F & -> & G').
  assert (E: tokens_of f "" ps2 = tokens_of f "" ps).
  { assert (A := proj2 (header_tokens_iff f text _) (ex_intro _ ps (conj HT eq_refl))).
    assert (B := proj2 (header_tokens_iff f text _) (ex_intro _ ps2 (conj HT2 eq_refl))). congruence. }
  rewrite E in G2. assert (gs2 = gs) by (eapply grouped_unique; eauto). subst gs2.
  eapply equ_parse; [exact G'|]. eapply constants_equ; eauto.
Qed.

Theorem header_equivalent f text ps gs cs f2 text2 toks2 gs2 : header_text text ps -> grouped (tokens_of f "" ps) gs ->
  constants (map (map t_type) gs) cs ->
  lex_input (new_input f2 text2) = Ok toks2 -> grouped toks2 gs2 -> equ_lines (map (map t_type) gs2) cs ->
  exists out, header_lex (new_input f text) = Ok out /\ parse out = parse toks2.
Proof.
  intros HT G C L G2 E. destruct (header_constants f text ps gs cs HT G C) as (out & O & P).
  exists out. split; auto. rewrite P. symmetry. eapply equ_parse; eauto.
Qed.
