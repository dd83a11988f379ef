(** Proofs about text in grapheme clusters: both lexers side by side. *)
From Coq Require Import ZArith List String Ascii Bool Arith Lia.
From Verif Require Import Base Expr Lexer CHeader Unicode SpecUnicode SpecLex LexProofs LexProofs2 LexProofs3 HeaderProofs UnicodeProofs UnicodeProofs2.
Import ListNotations.
Open Scope string_scope.
Open Scope list_scope.
Local Open Scope nat_scope.
Local Arguments Ascii.eqb : simpl never.
Local Arguments nat_of_ascii : simpl never.
Local Arguments ascii_dec : simpl never.
Local Arguments update : simpl never.
Local Arguments update_u : simpl never.

Section Text.
Variable seg : string -> list string.
Variable ps : list string.
Variable f : nat.
Hypothesis SEG : forall a b, ps = a ++ b -> seg (joined b) = b.
Hypothesis TIDY : tidy ps.

Definition stuck (i : input) : Prop := exists done todo, ps = done ++ todo /\ i = inp f (joined done) (joined todo) /\ wide_space (joined todo).

Lemma along_inp iu ib : along ps f iu ib -> exists before rest, ib = inp f before rest.
Proof. intros (done & todo & _ & _ & ->). eauto. Qed.

Lemma along_rest iu ib : along ps f iu ib -> i_rest iu = i_rest ib.
Proof. intros H. now destruct (along_same ps TIDY f iu ib H). Qed.

Lemma along_bol iu ib : along ps f iu ib -> i_bol iu = i_bol ib.
Proof. intros H. now destruct (along_same ps TIDY f iu ib H) as (_ & B & _). Qed.

Lemma along_pos iu ib : along ps f iu ib -> i_pos iu = i_pos ib.
Proof. intros H. now destruct (along_same ps TIDY f iu ib H) as (_ & _ & B & _). Qed.

Lemma along_ws iu ib : along ps f iu ib -> along ps f (skip_whitespace_u seg iu) (skip_whitespace ib) \/ stuck (skip_whitespace ib).
Proof.
  intros H. destruct (span_len_split is_space (i_rest ib)) as (w & r & E & L & A & B).
  destruct (along_update seg ps SEG TIDY f iu ib w r H E (edge_spaces w r A B)) as [H2 R]. unfold skip_whitespace_u, skip_whitespace.
  rewrite (along_rest _ _ H), L, E, spaces_len_app by exact A. destruct (Nat.eq_dec (spaces_len 0 r) 0) as [Z|Z].
  - left. now rewrite Z, Nat.add_0_r.
  - right. destruct H2 as (done & todo & P & _ & X). exists done, todo. split; [exact P|]. split; [exact X|]. rewrite X in R. cbn in R. rewrite R.
    apply wide_spaces_rest; [|exact Z]. intros c t ->. exact B.
Qed.

Lemma along_eol iu ib : along ps f iu ib -> along ps f (skip_to_eol_u seg iu) (skip_to_eol ib).
Proof.
  intros H. destruct (split_at (eol_len (i_rest ib)) (i_rest ib) (eol_len_le _)) as (a & b & E & L). unfold skip_to_eol_u, skip_to_eol.
  rewrite (along_rest _ _ H), <- L. apply (along_update seg ps SEG TIDY f iu ib a b H E). apply edge_eol. apply rest_of_line_len. now rewrite <- E.
Qed.

Lemma along_star iu ib : along ps f iu ib -> along ps f (skip_star_comment_u seg iu) (skip_star_comment ib).
Proof.
  intros H. unfold skip_star_comment_u, skip_star_comment. rewrite (along_rest _ _ H), (along_bol _ _ H). destruct (i_rest ib) as [|c t]; [exact H|].
  destruct (_ && _)%bool; [now apply along_eol|exact H].
Qed.

Lemma along_comment iu ib : along ps f iu ib -> along ps f (skip_comment_u seg iu) (skip_comment ib).
Proof.
  intros H. unfold skip_comment_u, skip_comment. rewrite (along_rest _ _ H). destruct (i_rest ib) as [|c t]; [exact H|].
  destruct (Ascii.eqb c ";"); [now apply along_eol|exact H].
Qed.

Lemma along_line_comment iu ib : along ps f iu ib -> along ps f (skip_line_comment_u seg iu) (skip_line_comment ib).
Proof.
  intros H. unfold skip_line_comment_u, skip_line_comment. rewrite (along_rest _ _ H).
  destruct (String.prefix "//" (i_rest ib)); [now apply along_eol|exact H].
Qed.

Lemma close_bytes_len : forall s, close_bytes s = Ok (close_len s) \/ (close_bytes s = Panic /\ ~ every low s).
Proof.
  induction s as [|c t IH]; [now left|]. cbn [close_bytes]. destruct (inside_char c) eqn:I.
  - right. split; [reflexivity|]. intros [L _]. unfold inside_char, between in I. apply andb_true_iff in I as [I _]. apply Nat.leb_le in I.
    change (nat_of_ascii "128") with 128 in I. unfold low in L. lia.
  - rewrite close_len_eq. destruct (String.prefix "*/" (String c t)); [now left|]. destruct IH as [->|[-> N]].
    + left. reflexivity.
    + right. split; [reflexivity|]. intros [_ X]. contradiction.
Qed.

Lemma drop_substring u : substring 2 (String.length ("/*" ++ u) - 2) ("/*" ++ u) = u.
Proof. exact (substring_skip "/*" u). Qed.

Lemma along_block iu ib : along ps f iu ib ->
  (exists ju, skip_multiline_comment_u seg iu = Ok ju /\ along ps f ju (skip_multiline_comment ib)) \/
  (skip_multiline_comment_u seg iu = Panic /\ ~ every low (joined ps)).
Proof.
  intros H. unfold skip_multiline_comment_u, skip_multiline_comment. rewrite (along_rest _ _ H).
  destruct (String.prefix "/*" (i_rest ib)) eqn:P; [|left; eauto]. apply prefix_iff in P as (u & E). rewrite E, drop_substring.
  change (drop_bytes 2 ("/*" ++ u)) with (drop_bytes (String.length "/*") ("/*" ++ u)). rewrite drop_app.
  destruct (close_bytes_len u) as [->|[-> N]].
  - left. eexists. split; [reflexivity|]. destruct (close_len_split u) as [(body & after & -> & L & _)|[_ L]]; rewrite L.
    + replace (2 + (String.length body + 2)) with (String.length ("/*" ++ body ++ "*/")%string) by (rewrite !app_length_s; cbn; lia).
      apply (along_update seg ps SEG TIDY f iu ib _ after H).
      * rewrite E, !app_assoc_s. reflexivity.
      * apply fine_edge. exists ("/*" ++ body ++ "*")%string, "/"%char. split; [|reflexivity]. rewrite !app_assoc_s. reflexivity.
    + replace (2 + String.length u) with (String.length ("/*" ++ u)%string) by (rewrite !app_length_s; cbn; lia).
      apply (along_update seg ps SEG TIDY f iu ib _ "" H); [now rewrite E, app_nil_r_s|]. right. now left.
  - right. split; [reflexivity|]. intros X. apply N. destruct H as (done & todo & -> & _ & ->). cbn in E. rewrite joined_app, E in X.
    apply every_app in X. now apply (every_app low "/*").
Qed.

Lemma stuck_next i : stuck i -> asm_step i = i /\ c_step i = i.
Proof.
  intros (done & todo & _ & -> & W). apply wide_high in W as (c & t & -> & H).
  assert (Q : quiet (bol_after true (joined done)) (String c t) /\ c <> "/"%char).
  { assert (N : forall d, low d -> c <> d) by (intros d Ld ->; contradiction). split; [split; [|split]|].
    - destruct (is_space c) eqn:S; [|reflexivity]. apply space_fine in S. contradiction.
    - apply N. unfold low. vm_compute. lia.
    - intros [_ X]. revert X. apply N. unfold low. vm_compute. lia.
    - apply N. unfold low. vm_compute. lia. }
  assert (WS : skip_whitespace (inp f (joined done) (String c t)) = inp f (joined done) (String c t)).
  { destruct Q as [[S _] _]. unfold skip_whitespace. cbn [inp i_rest span_len]. rewrite S.
    rewrite <- (app_nil_r_s (joined done)) at 2. apply (update_inp f (joined done) "" (String c t)). reflexivity. }
  destruct Q as [(S & C & B) D]. split.
  - unfold asm_step. rewrite WS. unfold skip_star_comment. cbn [inp i_rest i_bol].
    assert (X : (bol_after true (joined done) && Ascii.eqb c "*")%bool = false).
    { apply andb_false_iff. destruct (bol_after true (joined done)); [right|now left]. apply Ascii.eqb_neq. intros ->. now apply B. }
    rewrite X. unfold skip_comment. cbn [inp i_rest]. apply Ascii.eqb_neq in C. now rewrite C.
  - unfold c_step. rewrite WS. assert (P : forall p, String.prefix (String "/" p) (String c t) = false).
    { intros p. cbn [String.prefix]. destruct (ascii_dec "/" c); [congruence|reflexivity]. }
    unfold skip_line_comment. cbn [inp i_rest]. rewrite P. unfold skip_multiline_comment. cbn [inp i_rest]. now rewrite P.
Qed.

Lemma stuck_rest i : stuck i -> exists c t, i_rest i = String c t /\ ~ low c.
Proof. intros (done & todo & _ & -> & W). now apply wide_high. Qed.

Lemma asm_along iu ib : along ps f iu ib -> (exists ju, asm_step_u seg iu = Ok ju /\ along ps f ju (asm_step ib)) \/ stuck (asm_step ib).
Proof.
  intros H. destruct (along_ws _ _ H) as [H2|S].
  - left. eexists. split; [reflexivity|]. unfold asm_step. now apply along_comment, along_star.
  - right. assert (E : asm_step (skip_whitespace ib) = skip_whitespace ib) by (now apply stuck_next).
    assert (E2 : asm_step ib = skip_whitespace ib); [|now rewrite E2].
    destruct (along_inp _ _ H) as (before & text & ->). rewrite <- E. unfold asm_step. f_equal. f_equal.
    destruct (skip_ws_inp f before text) as (w & r & _ & -> & _ & B). unfold skip_whitespace. cbn [inp i_rest].
    destruct r as [|c r]; cbn [span_len]; [|rewrite B].
    + rewrite <- (app_nil_r_s (before ++ w)) at 1. symmetry. apply (update_inp f (before ++ w)%string "" ""). reflexivity.
    + rewrite <- (app_nil_r_s (before ++ w)) at 1. symmetry. apply (update_inp f (before ++ w)%string "" (String c r)). reflexivity.
Qed.

Lemma c_along iu ib : along ps f iu ib ->
  (exists ju, c_step_u seg iu = Ok ju /\ along ps f ju (c_step ib)) \/ stuck (c_step ib) \/ (c_step_u seg iu = Panic /\ ~ every low (joined ps)).
Proof.
  intros H. destruct (along_ws _ _ H) as [H2|S].
  - unfold c_step_u, c_step. apply along_line_comment, along_block in H2. tauto.
  - right. left. assert (E : c_step (skip_whitespace ib) = skip_whitespace ib) by (now apply stuck_next).
    assert (E2 : c_step ib = skip_whitespace ib); [|now rewrite E2].
    destruct (along_inp _ _ H) as (before & text & ->). rewrite <- E. unfold c_step. f_equal. f_equal.
    destruct (skip_ws_inp f before text) as (w & r & _ & -> & _ & B). unfold skip_whitespace. cbn [inp i_rest].
    destruct r as [|c r]; cbn [span_len]; [|rewrite B].
    + rewrite <- (app_nil_r_s (before ++ w)) at 1. symmetry. apply (update_inp f (before ++ w)%string "" ""). reflexivity.
    + rewrite <- (app_nil_r_s (before ++ w)) at 1. symmetry. apply (update_inp f (before ++ w)%string "" (String c r)). reflexivity.
Qed.

(** * The loops *)

Section Loop.
Variable step_u : input -> outcome input.
Variable step_b : input -> input.
Variable Crash : Prop.
Hypothesis STEP : forall iu ib, along ps f iu ib ->
  (exists ju, step_u iu = Ok ju /\ along ps f ju (step_b ib)) \/ stuck (step_b ib) \/ (step_u iu = Panic /\ Crash).
Hypothesis STILL : forall i, stuck i -> step_b i = i.
Hypothesis TOTAL : forall before text, exists g rest, text = (g ++ rest)%string /\ skip_by step_b (inp f before text) = Some (inp f (before ++ g) rest).

Lemma skip_stuck : forall k i j, stuck i -> skip_loop step_b k i = Some j -> j = i.
Proof. destruct k; intros i j S H; [discriminate|]. cbn [skip_loop] in H. rewrite (STILL i S), Nat.ltb_irrefl in H. congruence. Qed.

Lemma skip_along : forall k iu ib jb, along ps f iu ib -> skip_loop step_b k ib = Some jb ->
  (exists ju, skip_loop_u step_u k iu = Ok ju /\ along ps f ju jb) \/ stuck jb \/ (skip_loop_u step_u k iu = Panic /\ Crash).
Proof.
  induction k as [|k IH]; intros iu ib jb H E; [discriminate|]. cbn [skip_loop skip_loop_u] in *.
  destruct (STEP iu ib H) as [(ju & -> & J)|[S|[-> C]]].
  - cbn [bind]. rewrite (along_pos _ _ H), (along_pos _ _ J). destruct (Nat.ltb (i_pos ib) (i_pos (step_b ib))); [now apply (IH _ (step_b ib))|].
    injection E as <-. left. eauto.
  - right. left. destruct (Nat.ltb (i_pos ib) (i_pos (step_b ib))); [|injection E as <-; exact S]. apply skip_stuck in E; [now subst|exact S].
  - right. right. split; [reflexivity|exact C].
Qed.

Lemma along_token iu ib ju jb ty : along ps f iu ib -> along ps f ju jb ->
  same_token f ps (mkToken ty (mkSpan (loc_of ib) (loc_of jb))) (mkToken ty (mkSpan (loc_of iu) (loc_of ju))).
Proof.
  intros (d1 & t1 & E1 & -> & ->) (d2 & t2 & E2 & -> & ->). split; [reflexivity|]. exists d1, t1, d2, t2. cbn [t_span]. auto.
Qed.

Definition agree (b u : outcome (list token)) : Prop :=
  match b with
  | Ok ts => exists us, u = Ok us /\ Forall2 (same_token f ps) ts us
  | Err e => u = Err e
  | Panic => u = Panic
  | Diverge => False
  end.

Lemma lex_along : forall k iu ib, along ps f iu ib -> String.length (i_rest ib) < k ->
  agree (lex_loop (skip_by step_b) k ib) (lex_loop_u seg step_u k iu) \/
  ((exists e, lex_loop (skip_by step_b) k ib = Err e) /\ ~ no_wide_space ps) \/
  (lex_loop_u seg step_u k iu = Panic /\ Crash).
Proof.
  induction k as [|k IH]; intros iu ib H L; [lia|]. cbn [lex_loop lex_loop_u]. unfold read_token, read_token_u.
  destruct (along_inp _ _ H) as (before & text & ->). destruct (TOTAL before text) as (g & rest & E & SK). rewrite SK.
  assert (SL : skip_loop step_b (S (String.length (i_rest iu))) (inp f before text) = Some (inp f (before ++ g) rest)).
  { rewrite (along_rest _ _ H). exact SK. }
  destruct (skip_along _ _ _ _ H SL) as [(ju & -> & J)|[S|[-> C]]].
  3:{ right. right. split; [reflexivity|exact C]. }
  2:{ right. left. destruct (stuck_rest _ S) as (c & t & R & NL). unfold eof. rewrite R. rewrite first_match_pick, R, pick_high by exact NL.
      split; [eexists; reflexivity|]. destruct S as (done & todo & P & X & W). intros N. exact (N done todo P W). }
  cbn [bind] in *. assert (RJ : i_rest (inp f (before ++ g) rest) = rest) by reflexivity. revert SK SL J RJ. generalize (inp f (before ++ g) rest) as jb.
  intros jb SK SL J RJ. rewrite (first_match_u_pick seg), (first_match_pick matchers jb). unfold eof. rewrite (along_rest _ _ J).
  rewrite RJ. destruct rest as [|c0 r0] eqn:R0.
  { left. cbn. eexists. split; [reflexivity|]. constructor; [|constructor]. now apply along_token. }
  rewrite <- R0 in *. destruct (pick matchers rest) as [[n conv]|] eqn:PK.
  2:{ left. cbn. rewrite (along_pos _ _ H). reflexivity. }
  destruct (pick_ends _ _ _ PK) as (x & y & EX & EN & F). subst n.
  destruct (along_update seg ps SEG TIDY f ju jb x y J (eq_trans RJ EX) (fine_edge x y F)) as [NX RX].
  destruct (conv (substring 0 (String.length x) rest)) as [ty|e| |] eqn:CV.
  - cbn. assert (IHx := IH _ _ NX). rewrite RX in IHx. assert (LY : String.length y < k).
    { destruct F as (z & c & -> & _). cbn [inp i_rest] in L. rewrite E, EX, !app_length_s in L. cbn in L. lia. }
    specialize (IHx LY). assert (TK := along_token _ _ _ _ ty J NX).
    assert (GO : agree (let! rest0 := lex_loop (skip_by step_b) k (update jb (String.length x)) in Ok (mkToken ty (mkSpan (loc_of jb) (loc_of (update jb (String.length x)))) :: rest0))
        (let! rest0 := lex_loop_u seg step_u k (update_u seg ju (String.length x)) in Ok (mkToken ty (mkSpan (loc_of ju) (loc_of (update_u seg ju (String.length x)))) :: rest0)) \/
      ((exists e, (let! rest0 := lex_loop (skip_by step_b) k (update jb (String.length x)) in Ok (mkToken ty (mkSpan (loc_of jb) (loc_of (update jb (String.length x)))) :: rest0)) = Err e) /\ ~ no_wide_space ps) \/
      ((let! rest0 := lex_loop_u seg step_u k (update_u seg ju (String.length x)) in Ok (mkToken ty (mkSpan (loc_of ju) (loc_of (update_u seg ju (String.length x)))) :: rest0)) = Panic /\ Crash)).
    { destruct IHx as [A|[[(e & ->) W]|[-> C]]].
      - left. destruct (lex_loop (skip_by step_b) k (update jb (String.length x))) as [ts|e| |]; cbn in A |- *.
        + destruct A as (us & -> & FA). eexists. split; [reflexivity|]. now constructor.
        + now rewrite A.
        + now rewrite A.
        + exact A.
      - right. left. split; [eexists; reflexivity|exact W].
      - right. right. split; [reflexivity|exact C]. }
    destruct ty; try exact GO. left. cbn. eexists. split; [reflexivity|]. constructor; [|constructor]. now apply along_token.
  - left. cbn. reflexivity.
  - left. cbn. reflexivity.
  - exfalso. clear - PK CV.
    assert (G : Forall (fun m => forall s, m_convert m s <> Diverge) matchers).
    { unfold matchers. repeat (apply Forall_cons; [cbn [m_convert]; intros s; try discriminate|]); [.. |apply Forall_nil].
      all: try (unfold to_indr_mode; destruct (get 2 s) as [q|]; [|discriminate]; destruct q as [[] [] [] [] [] [] [] []]; discriminate).
      all: unfold to_num; match goal with |- context [from_str_radix ?b ?a ?t] => generalize a; generalize t end;
        intros t; induction t as [|c t IH]; intros a; [discriminate|]; cbn [from_str_radix]; destruct (_ <? _)%Z; [discriminate|apply IH]. }
    revert PK CV. generalize (substring 0 (String.length x) rest) as w. generalize (String.length x) as n. intros n w.
    induction G as [|m ms M G IH]; [discriminate|]. cbn [pick]. destruct (m_len m rest) as [q|]; [|apply IH].
    intros [= _ <-] CV. exact (M _ CV).
Qed.

End Loop.

End Text.
