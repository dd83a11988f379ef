(** Lexing of C headers: blanks and comments, tokens and their places. *)
From Coq Require Import ZArith List String Ascii Bool Arith Lia.
From Verif Require Import Base Expr Ast Lexer Parser CHeader SpecLex SpecParse SpecLine SpecHeader
  LexProofs LexProofs2 LexProofs3 LexProofs4 LexProofs5.
Import ListNotations.
Open Scope string_scope.
Open Scope list_scope.
Local Open Scope nat_scope.

Local Arguments ascii_dec : simpl never.
Local Arguments Ascii.eqb : simpl never.

(** * The end of a comment *)

Lemma prefix_iff p : forall s, String.prefix p s = true <-> exists t, s = (p ++ t)%string.
Proof.
  induction p as [|c p IH]; intros s.
  - split; [intros _; now exists s|]. intros _. now destruct s.
  - destruct s as [|d s]; cbn [String.prefix append].
    + split; [discriminate|]. intros (t & H). discriminate.
    + destruct (ascii_dec c d) as [->|N].
      * rewrite IH. split; intros (t & H); exists t; [now subst|now injection H].
      * split; [discriminate|]. intros (t & H). injection H as -> _. congruence.
Qed.

Definition no_close (s : string) : Prop := forall p q, s <> (p ++ "*/" ++ q)%string.

Lemma close_len_eq c t : close_len (String c t) = if String.prefix "*/" (String c t) then 2 else S (close_len t).
Proof. reflexivity. Qed.

Lemma close_len_split : forall s,
  (exists body after, s = (body ++ "*/" ++ after)%string /\ close_len s = String.length body + 2 /\ closes body) \/
  (no_close s /\ close_len s = String.length s).
Proof.
  induction s as [|c t IH].
  - right. split; auto. intros p q. destruct p; discriminate.
  - rewrite close_len_eq. destruct (String.prefix "*/" (String c t)) eqn:P.
    + left. apply prefix_iff in P as (u & ->). exists "", u. repeat split; auto.
      intros p q E. destruct p as [|a [|b p]].
      * cbn in E. now injection E as <-.
      * cbn in E. discriminate.
      * cbn in E. injection E as _ _ E. destruct p; discriminate.
    + assert (N: forall u, String c t <> ("*/" ++ u)%string).
      { intros u E. assert (X: String.prefix "*/" (String c t) = true) by (apply prefix_iff; eauto). congruence. }
      destruct IH as [(body & after & E & L & C)|[NC L]].
      * left. exists (String c body), after. split; [now rewrite E|]. split; [cbn; now rewrite L|].
        intros p q X. destruct p as [|d p].
        -- exfalso. apply (N (q ++ after)%string). rewrite E.
           change (String c (body ++ "*/" ++ after)) with (String c body ++ "*/" ++ after)%string.
           rewrite <- app_assoc_s, X. reflexivity.
        -- cbn in X. injection X as _ X. eapply C. exact X.
      * right. split; [|cbn; now rewrite L]. intros p q X. destruct p as [|d p].
        -- eapply N. exact X.
        -- injection X as _ X. eapply NC. exact X.
Qed.

Lemma closes_unique : forall b1 b2 x y, closes b1 -> closes b2 -> (b1 ++ "*/" ++ x = b2 ++ "*/" ++ y)%string -> b1 = b2.
Proof.
  assert (W: forall b2 b1 x y, closes b1 -> closes b2 -> (b1 ++ "*/" ++ x = b2 ++ "*/" ++ y)%string ->
    String.length b1 <= String.length b2 -> b1 = b2).
  { intros b2 b1 x y C1 C2 E L.
    destruct (split_at _ _ L) as (a & d & E2 & La). subst b2. rewrite app_assoc_s in E.
    assert (b1 = a).
    { rewrite <- (substring_app b1 ("*/" ++ x)), E, <- La. apply substring_app. }
    subst a. apply app_inv_s in E. destruct d as [|d1 d]; [now rewrite app_nil_r_s|].
    exfalso. destruct d as [|d2 d].
    - cbn in E. injection E as <- E. destruct x; discriminate.
    - cbn in E. injection E as <- <- E. specialize (C2 b1 (d ++ "*/")%string). rewrite app_assoc_s in C2.
      specialize (C2 eq_refl). destruct d; discriminate. }
  intros b1 b2 x y C1 C2 E. destruct (Nat.le_ge_cases (String.length b1) (String.length b2)); [eauto|symmetry; eauto].
Qed.

(** * Skipping *)

Definition c_quiet (s : string) : Prop :=
  match s with EmptyString => True | String c _ => is_space c = false end /\
  (forall t, s <> ("//" ++ t)%string) /\ (forall t, s <> ("/*" ++ t)%string).

Lemma c_gap_app g1 g2 rest : c_gap g1 (g2 ++ rest) -> c_gap g2 rest -> c_gap (g1 ++ g2) rest.
Proof.
  intros H. remember (g2 ++ rest)%string as r eqn:R. revert R.
  induction H as [r|c g r B G IH|body g r RL G IH|body g r C G IH|body N]; intros E G2.
  - exact G2.
  - cbn [append]. apply cg_blank; auto.
  - subst r. cbn [append]. rewrite app_assoc_s. apply (cg_line body (g ++ g2)); auto. now rewrite app_assoc_s.
  - subst r. cbn [append]. rewrite app_assoc_s. apply (cg_block body (g ++ g2)); auto.
  - destruct g2; [|discriminate]. cbn in E. subst rest. rewrite app_nil_r_s. now apply cg_open.
Qed.

Lemma c_blanks w rest : all_chars (fun c => is_space c = true) w -> c_gap w rest.
Proof. induction w; intros H; [constructor|]. destruct H. apply cg_blank; auto. now apply is_space_blank. Qed.

Lemma slash_quiet w s : all_chars (fun c => is_space c = true) w -> w <> "" -> forall t, (w ++ s)%string <> String "/" t.
Proof. intros A N t E. destruct w as [|c w]; [congruence|]. destruct A as [A _]. injection E as -> _. discriminate. Qed.

Lemma line_comment_inp f before text : exists g rest,
  text = (g ++ rest)%string /\ skip_line_comment (inp f before text) = inp f (before ++ g) rest /\
  c_gap g rest /\ (g = "" -> forall t, text <> ("//" ++ t)%string).
Proof.
  unfold skip_line_comment. cbn [inp i_rest]. destruct (String.prefix "//" text) eqn:P.
  - apply prefix_iff in P as (t & ->). fold (inp f before ("//" ++ t)).
    destruct (skip_eol_inp f before ("//" ++ t)) as (g & rest & E & SK & L).
    assert (Q: eol_len ("//" ++ t) = S (S (eol_len t))).
    { cbn [append]. rewrite eol_len_cons; [f_equal; rewrite eol_len_cons; [reflexivity|]|]; cbn; destruct t; discriminate. }
    destruct g as [|c1 [|c2 body]]; [rewrite Q in L; discriminate|rewrite Q in L; discriminate|].
    cbn in E. injection E as <- <- E. exists ("//" ++ body)%string, rest. rewrite SK. repeat split.
    + now rewrite E.
    + rewrite <- (app_nil_r_s body). apply cg_line; [|constructor]. apply rest_of_line_len. cbn [append].
      rewrite <- E. rewrite Q in L. cbn in L. lia.
    + discriminate.
  - exists "", text. rewrite app_nil_r_s. repeat split; [constructor|]. intros _ t E.
    assert (X: String.prefix "//" text = true) by (apply prefix_iff; eauto). congruence.
Qed.

Lemma multiline_inp f before text : exists g rest,
  text = (g ++ rest)%string /\ skip_multiline_comment (inp f before text) = inp f (before ++ g) rest /\
  c_gap g rest /\ (g = "" -> forall t, text <> ("/*" ++ t)%string).
Proof.
  unfold skip_multiline_comment. cbn [inp i_rest]. destruct (String.prefix "/*" text) eqn:P.
  - apply prefix_iff in P as (t & ->).
    replace (substring 2 (String.length ("/*" ++ t) - 2) ("/*" ++ t)) with t.
    2:{ cbn [append String.length substring]. rewrite <- (substring_all t) at 1. f_equal. lia. }
    fold (inp f before ("/*" ++ t)).
    destruct (close_len_split t) as [(body & after & E & L & C)|[N L]]; rewrite L.
    + exists ("/*" ++ body ++ "*/")%string, after.
      replace ("/*" ++ t)%string with (("/*" ++ body ++ "*/") ++ after)%string by (rewrite E; cbn; now rewrite app_assoc_s).
      split; [reflexivity|]. split; [|split; [|discriminate]].
      * rewrite <- update_inp.
        { f_equal. cbn. rewrite app_length_s. cbn. lia. }
        change ("/*" ++ body ++ "*/")%string with (("/*" ++ body) ++ "*/")%string.
        rewrite cut_ok_app; [|discriminate]. cbn. now destruct after.
      * pose proof (cg_block body "" after C (cg_nil after)) as X. exact X.
    + exists ("/*" ++ t)%string, "". rewrite app_nil_r_s. split; [reflexivity|]. split; [|split; [now apply cg_open|discriminate]].
      rewrite <- update_inp.
      { rewrite app_nil_r_s. f_equal. }
      clear. cbn [append]. rewrite cut_ok_cons by discriminate. generalize ("*"%char). induction t; intros; auto.
      rewrite cut_ok_cons by discriminate. apply IHt.
  - exists "", text. rewrite app_nil_r_s. repeat split; [constructor|]. intros _ t E.
    assert (X: String.prefix "/*" text = true) by (apply prefix_iff; eauto). congruence.
Qed.

Lemma c_step_inp f before text : exists g rest,
  text = (g ++ rest)%string /\ c_step (inp f before text) = inp f (before ++ g) rest /\
  c_gap g rest /\ (g = "" -> c_quiet text).
Proof.
  unfold c_step.
  destruct (skip_ws_inp f before text) as (w & r1 & E1 & S1 & A1 & B1). rewrite S1.
  destruct (line_comment_inp f (before ++ w) r1) as (s & r2 & E2 & S2 & G2 & N2). rewrite S2.
  destruct (multiline_inp f ((before ++ w) ++ s) r2) as (k & r3 & E3 & S3 & G3 & N3). rewrite S3.
  exists (w ++ s ++ k)%string, r3. split; [|split; [|split]].
  - subst. now rewrite !app_assoc_s.
  - now rewrite !app_assoc_s.
  - apply c_gap_app; [now apply c_blanks|]. apply c_gap_app; [now rewrite <- E3|exact G3].
  - intros Z.
    assert (w = "") by (destruct w; auto; discriminate). subst w. cbn [append] in *.
    assert (s = "") by (destruct s; auto; discriminate). subst s. cbn [append] in *. subst k.
    cbn in E3. subst. split; [exact B1|]. split; [now apply N2|now apply N3].
Qed.

Lemma c_skip_loop : forall fuel f before text, String.length text < fuel -> exists g rest,
  text = (g ++ rest)%string /\ skip_loop c_step fuel (inp f before text) = Some (inp f (before ++ g) rest) /\
  c_gap g rest /\ c_quiet rest.
Proof.
  induction fuel; intros f before text L; [lia|]. cbn [skip_loop].
  destruct (c_step_inp f before text) as (g & rest & E & S & G & Q). rewrite S.
  cbn [inp i_pos]. rewrite app_length_s.
  destruct g as [|c g].
  - cbn [String.length append] in *. rewrite Nat.add_0_r, Nat.ltb_irrefl. subst text.
    exists "", rest. rewrite app_nil_r_s in *. repeat split; auto; now apply Q.
  - replace (String.length before <? String.length before + String.length (String c g)) with true
      by (symmetry; apply Nat.ltb_lt; cbn; lia).
    fold (inp f (before ++ String c g) rest).
    destruct (IHfuel f (before ++ String c g)%string rest) as (g' & rest' & E' & S' & G' & Q').
    { subst text. rewrite app_length_s in L. cbn in L. lia. }
    exists (String c g ++ g')%string, rest'. split; [|split; [|split]]; auto.
    + rewrite E, E'. now rewrite app_assoc_s.
    + rewrite S'. now rewrite app_assoc_s.
    + apply c_gap_app; [now rewrite <- E'|exact G'].
Qed.

Lemma skip_c_inp f before text : exists g rest,
  text = (g ++ rest)%string /\ skip_c (inp f before text) = Some (inp f (before ++ g) rest) /\ c_gap g rest /\ c_quiet rest.
Proof. unfold skip_c, skip_by. apply c_skip_loop. cbn. lia. Qed.

Lemma blank_not_slash c : blank c -> c <> "/"%char.
Proof. intros H E. subst. cbn in H. intuition discriminate. Qed.

Lemma c_gap_quiet g r : c_gap g r -> c_quiet (g ++ r) -> g = "".
Proof.
  intros G Q. destruct G as [r|c g r B G|body g r RL G|body g r C G|body N]; auto; exfalso; destruct Q as (Q1 & Q2 & Q3).
  - cbn in Q1. apply is_space_blank in B. congruence.
  - eapply Q2. cbn [append]. reflexivity.
  - eapply Q3. cbn [append]. reflexivity.
  - eapply Q3. cbn [append]. reflexivity.
Qed.

Lemma c_gap_det : forall g1 r1, c_gap g1 r1 -> forall g2 r2, c_gap g2 r2 ->
  (g1 ++ r1 = g2 ++ r2)%string -> c_quiet r1 -> c_quiet r2 -> g1 = g2.
Proof.
  intros g1 r1 G1. induction G1 as [r1|c g r1 B G IH|body g r1 RL G IH|body g r1 C G IH|body N]; intros g2 r2 G2 E Q1 Q2.
  - cbn in E. subst r1. symmetry. now apply (c_gap_quiet g2 r2).
  - destruct G2 as [r2|c2 g2 r2 B2 G2|body2 g2 r2 RL2 G2|body2 g2 r2 C2 G2|body2 N2].
    + cbn [append] in E. rewrite <- E in Q2. destruct Q2 as [Q2 _]. apply is_space_blank in B. congruence.
    + cbn [append] in E. injection E as <- E. f_equal. eapply IH; eauto.
    + exfalso. injection E as -> _. now apply (blank_not_slash _ B).
    + exfalso. injection E as -> _. now apply (blank_not_slash _ B).
    + exfalso. injection E as -> _. now apply (blank_not_slash _ B).
  - destruct G2 as [r2|c2 g2 r2 B2 G2|body2 g2 r2 RL2 G2|body2 g2 r2 C2 G2|body2 N2].
    + exfalso. cbn [append] in E. rewrite <- E in Q2. destruct Q2 as (_ & Q2 & _). eapply Q2. reflexivity.
    + exfalso. injection E as <- _. now apply (blank_not_slash _ B2).
    + cbn [append] in E. injection E as E. rewrite !app_assoc_s in E.
      assert (L: String.length body = String.length body2).
      { apply rest_of_line_len in RL, RL2. rewrite <- RL, <- RL2. now rewrite E. }
      assert (BE: body = body2).
      { rewrite <- (substring_app body (g ++ r1)), <- (substring_app body2 (g2 ++ r2)). now rewrite L, E. }
      subst body2. apply app_inv_s in E. do 2 f_equal. eapply IH; eauto.
    + exfalso. discriminate.
    + exfalso. discriminate.
  - destruct G2 as [r2|c2 g2 r2 B2 G2|body2 g2 r2 RL2 G2|body2 g2 r2 C2 G2|body2 N2].
    + exfalso. cbn [append] in E. rewrite <- E in Q2. destruct Q2 as (_ & _ & Q2). eapply Q2. reflexivity.
    + exfalso. injection E as <- _. now apply (blank_not_slash _ B2).
    + exfalso. discriminate.
    + cbn [append] in E. injection E as E. rewrite !app_assoc_s in E.
      assert (BE: body = body2) by (eapply closes_unique; [exact C|exact C2|]; exact E).
      subst body2. apply app_inv_s in E. injection E as E. do 2 f_equal. cbn. do 2 f_equal. eapply IH; eauto.
    + exfalso. cbn [append] in E. injection E as E. rewrite app_nil_r_s, app_assoc_s in E.
      apply (N2 body (g ++ r1)%string). rewrite <- E. reflexivity.
  - destruct G2 as [r2|c2 g2 r2 B2 G2|body2 g2 r2 RL2 G2|body2 g2 r2 C2 G2|body2 N2].
    + exfalso. cbn [append] in E. rewrite <- E in Q2. destruct Q2 as (_ & _ & Q2). eapply Q2. reflexivity.
    + exfalso. injection E as <- _. now apply (blank_not_slash _ B2).
    + exfalso. discriminate.
    + exfalso. cbn [append] in E. injection E as E. rewrite app_nil_r_s, app_assoc_s in E.
      apply (N body2 (g2 ++ r2)%string). rewrite E. reflexivity.
    + rewrite !app_nil_r_s in E. exact E.
Qed.

Lemma skip_c_gap f before g rest : c_gap g rest -> c_quiet rest ->
  skip_c (inp f before (g ++ rest)) = Some (inp f (before ++ g) rest).
Proof.
  intros G Q. destruct (skip_c_inp f before (g ++ rest)) as (g' & rest' & E & S & G' & Q').
  assert (g = g') by (eapply c_gap_det; eauto).
  subst g'. apply app_inv_s in E. now subst.
Qed.

(** * Tokens *)

Definition no_comment (text rest : string) : Prop :=
  ~ (text = "/" /\ starts (fun c => c = "/"%char \/ c = "*"%char) rest).

Lemma writes_slash t ty : writes (String "/" t) ty -> t = "".
Proof.
  intros W. inversion W; subst.
  - cbn in H. repeat (destruct H as [H|H]; [first [discriminate H|now injection H]|]). contradiction.
  - destruct H as [H _]. apply name_start_iff in H. discriminate.
  - destruct w as [|c w]; [contradiction|]. injection H as -> _. destruct H0 as [H _]. apply name_start_iff in H. discriminate.
  - destruct H as (p & base & body & vs & I & E & (c & v & u & ws & -> & _ & D & _) & _). exfalso. cbn in I.
    repeat (destruct I as [I|I]; [injection I as <- <- <-; cbn in E; try discriminate E|]); [|contradiction].
    injection E as <- _. destruct D as [D _]. cbn in D. intuition discriminate.
Qed.

Lemma writes_c_quiet text ty rest : writes text ty -> (c_quiet (text ++ rest) <-> no_comment text rest).
Proof.
  intros W. destruct (writes_head _ _ W) as (c & t & E & H & _). subst text.
  apply andb_true_iff in H as [H _]. apply negb_true_iff in H. unfold no_comment. split.
  - intros (_ & Q2 & Q3) [E S]. injection E as -> ->. destruct rest as [|d r]; [contradiction|].
    destruct S as [->| ->]; [eapply Q2|eapply Q3]; reflexivity.
  - intros N. split; [exact H|]. split; intros u E; cbn in E; injection E as -> E; apply writes_slash in W; subst t; cbn in E; subst rest; apply N; cbn; auto.
Qed.

Lemma c_read_ok f before g text ty rest :
  c_gap g (text ++ rest) -> writes text ty -> complete text ty rest -> no_comment text rest ->
  read_token skip_c (inp f before (g ++ text ++ rest)) =
  let! ty' := result ty in
  Ok (Some (inp f (before ++ g ++ text) rest,
            mkToken ty' (mkSpan (place f (before ++ g)) (place f (before ++ g ++ text))))).
Proof.
  intros G W C N.
  assert (Q: c_quiet (text ++ rest)) by (eapply writes_c_quiet; eauto).
  unfold read_token. rewrite (skip_c_gap _ _ _ _ G Q). unfold eof. cbn [inp i_rest].
  destruct (writes_head _ _ W) as (c & t & E & _).
  destruct (text ++ rest)%string eqn:TR; [subst text; discriminate|]. rewrite <- TR in *.
  fold (inp f (before ++ g) (text ++ rest)). rewrite first_match_pick. cbn [inp i_rest].
  fold (inp f (before ++ g) (text ++ rest)).
  destruct (pick_complete _ _ _ W C) as (conv & P & V). rewrite P, substring_app, V.
  rewrite update_inp by (eapply writes_cut; eauto). rewrite !loc_inp, app_assoc_s.
  destruct (result_inv ty) as [[_ R]|[_ R]]; rewrite R; reflexivity.
Qed.

Lemma c_quiet_nil : c_quiet "".
Proof. repeat split; discriminate. Qed.

Lemma c_read_eof f before g : c_gap g "" ->
  read_token skip_c (inp f before g) =
  Ok (Some (inp f (before ++ g) "", mkToken TEOF (mkSpan (place f (before ++ g)) (place f (before ++ g))))).
Proof.
  intros G. unfold read_token. rewrite <- (app_nil_r_s g) at 1. rewrite skip_c_gap; auto. apply c_quiet_nil.
Qed.

Lemma c_pieces_length : forall ps rest, c_pieces_ok ps rest -> List.length ps <= String.length (source ps rest).
Proof.
  induction ps as [|p ps IH]; intros rest P; cbn [List.length source]; [lia|].
  destruct P as (_ & W & _ & _ & _ & P). apply IH in P. destruct (writes_head _ _ W) as (c & t & -> & _).
  rewrite !app_length_s. cbn. lia.
Qed.

Lemma not_eof_step {A : Type} ty (x y : A) : ty <> TEOF -> match ty with TEOF => x | _ => y end = y.
Proof. destruct ty; congruence. Qed.

Lemma c_lex_loop : forall ps f before tail k, c_pieces_ok ps tail -> c_gap tail "" -> List.length ps < k ->
  lex_loop skip_c k (inp f before (source ps tail)) = Ok (tokens_of f before ps).
Proof.
  induction ps as [|p ps IH]; intros f before tail k P G L; (destruct k as [|k]; [cbn in L; lia|]); cbn [lex_loop source tokens_of].
  - rewrite c_read_eof; auto.
  - destruct P as (G1 & W & F & C & S & P).
    rewrite (c_read_ok _ _ _ _ _ _ G1 W C S). rewrite (result_fits _ F). cbn [bind t_type].
    rewrite not_eof_step by (intros E; rewrite E in W; eapply writes_not_eof; eauto).
    rewrite IH; auto. cbn in L. lia.
Qed.

Lemma c_lex_sound : forall k f before text toks, lex_loop skip_c k (inp f before text) = Ok toks ->
  exists ps tail, text = source ps tail /\ c_pieces_ok ps tail /\ c_gap tail "" /\ toks = tokens_of f before ps.
Proof.
  induction k as [|k IH]; intros f before text toks H; [discriminate|]. cbn [lex_loop] in H.
  destruct (skip_c_inp f before text) as (g & rest & E & S & G & Q).
  unfold read_token in H. rewrite S in H. unfold eof in H. cbn [inp i_rest] in H.
  destruct rest as [|c t].
  - cbn in H. injection H as <-. exists [], g. rewrite app_nil_r_s in E. cbn. auto.
  - fold (inp f (before ++ g) (String c t)) in H. rewrite first_match_pick in H. cbn [inp i_rest] in H.
    fold (inp f (before ++ g) (String c t)) in H.
    destruct (pick matchers (String c t)) as [[n conv]|] eqn:P; [|discriminate].
    apply pick_sound in P as (tx & r & ty & E2 & -> & W & C & V).
    assert (N: no_comment tx r) by (eapply writes_c_quiet; [exact W|]; now rewrite <- E2).
    rewrite E2 in H. rewrite substring_app, V in H.
    destruct (result_inv ty) as [[F R]|[_ R]]; rewrite R in H; [|discriminate].
    rewrite update_inp in H by (eapply writes_cut; eauto). cbn [bind t_type] in H.
    rewrite not_eof_step in H by (intros X; rewrite X in W; eapply writes_not_eof; eauto).
    destruct (lex_loop skip_c k _) as [l| | |] eqn:LL; try discriminate. cbn in H. injection H as <-.
    apply IH in LL as (ps & tail & -> & PO & GT & ->).
    exists (mkPiece g tx ty :: ps), tail. cbn [source p_gap p_text]. rewrite E2 in E, G. repeat split; auto.
    cbn [tokens_of p_gap p_text p_type]. rewrite !app_assoc_s. reflexivity.
Qed.

Theorem header_tokens_iff f text toks :
  lex_for_ws skip_c (new_input f text) = Ok toks <-> exists ps, header_text text ps /\ toks = tokens_of f "" ps.
Proof.
  unfold lex_for_ws. rewrite new_inp. cbn [inp i_rest]. fold (inp f "" text). split.
  - intros H. apply c_lex_sound in H as (ps & tail & A & B & C & D). exists ps. split; auto. exists tail. auto.
  - intros (ps & (tail & -> & P & G) & ->). apply c_lex_loop; auto. apply c_pieces_length in P. lia.
Qed.
