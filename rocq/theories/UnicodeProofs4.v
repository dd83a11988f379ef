(** Proofs about text in grapheme clusters: ASCII text, and what goes wrong. *)
From Coq Require Import ZArith List String Ascii Bool Arith Lia.
From Verif Require Import Base Expr Lexer CHeader Unicode SpecUnicode SpecLex LexProofs LexProofs2 LexProofs3 HeaderProofs UnicodeProofs UnicodeProofs2 UnicodeProofs3.
Import ListNotations.
Open Scope string_scope.
Open Scope list_scope.
Local Open Scope nat_scope.
Local Arguments Ascii.eqb : simpl never.
Local Arguments nat_of_ascii : simpl never.
Local Arguments ascii_dec : simpl never.
Local Arguments update : simpl never.
Local Arguments update_u : simpl never.

(** * Fuel *)

Lemma lex_fuel seg step : forall k i, lex_loop_u seg step k i <> Diverge -> forall n, k <= n -> lex_loop_u seg step n i = lex_loop_u seg step k i.
Proof.
  induction k as [|k IH]; intros i H n L; [now contradiction H|]. destruct n as [|n]; [lia|]. cbn [lex_loop_u] in *.
  destruct (read_token_u seg step i) as [r|e| |]; try reflexivity. cbn [bind] in *. destruct r as [[j tok]|]; [|reflexivity].
  destruct (t_type tok); try reflexivity; rewrite (IH j); try reflexivity; try lia; intros E; apply H; now rewrite E.
Qed.

Lemma start_along ps f : along ps f (new_input f (joined ps)) (new_input f (joined ps)).
Proof. exists [], ps. auto. Qed.

Section Text.
Variable seg : string -> list string.
Variable ps : list string.
Variable f : nat.
Hypothesis SEG : forall a b, ps = a ++ b -> seg (joined b) = b.
Hypothesis TIDY : tidy ps.

Lemma asm_text n : String.length (joined ps) < n ->
  agree ps f (lex_input (new_input f (joined ps))) (lex_input_u seg n (new_input f (joined ps))) \/
  ((exists e, lex_input (new_input f (joined ps)) = Err e) /\ ~ no_wide_space ps).
Proof.
  intros L. unfold lex_input, lex_for_ws, lex_input_u, skip_asm.
  assert (T : forall before text, exists g rest, text = (g ++ rest)%string /\ skip_by asm_step (inp f before text) = Some (inp f (before ++ g) rest)).
  { intros before text. destruct (skip_asm_inp f before text) as (g & rest & E & S & _). exists g, rest. split; [exact E|exact S]. }
  assert (ST : forall iu ib, along ps f iu ib ->
    (exists ju, asm_step_u seg iu = Ok ju /\ along ps f ju (asm_step ib)) \/ stuck ps f (asm_step ib) \/ (asm_step_u seg iu = Panic /\ False)).
  { intros iu ib H. destruct (asm_along seg ps f SEG TIDY iu ib H) as [X|X]; [now left|now right; left]. }
  destruct (lex_along seg ps f SEG TIDY (asm_step_u seg) asm_step False ST (fun i S => proj1 (stuck_next ps f i S)) T
    (S (String.length (joined ps))) _ _ (start_along ps f)) as [A|[W|[_ []]]]; [cbn; lia| |now right].
  left. change (i_rest (new_input f (joined ps))) with (joined ps). change (fun j => skip_comment (skip_star_comment (skip_whitespace j))) with asm_step.
  change (fun i => skip_by asm_step i) with (skip_by asm_step). rewrite (lex_fuel seg _ (S (String.length (joined ps)))); [exact A| |lia].
  intros X. rewrite X in A. destruct (lex_loop _ _ _) as [ts|e| |]; cbn in A; try discriminate; [|contradiction]. now destruct A as (us & A & _).
Qed.

Lemma c_text n : String.length (joined ps) < n ->
  agree ps f (lex_for_ws skip_c (new_input f (joined ps))) (header_tokens_u seg n (new_input f (joined ps))) \/
  ((exists e, lex_for_ws skip_c (new_input f (joined ps)) = Err e) /\ ~ no_wide_space ps) \/
  (header_tokens_u seg n (new_input f (joined ps)) = Panic /\ ~ every low (joined ps)).
Proof.
  intros L. unfold lex_for_ws, header_tokens_u, skip_c.
  assert (T : forall before text, exists g rest, text = (g ++ rest)%string /\ skip_by c_step (inp f before text) = Some (inp f (before ++ g) rest)).
  { intros before text. destruct (skip_c_inp f before text) as (g & rest & E & S & _). exists g, rest. split; [exact E|exact S]. }
  destruct (lex_along seg ps f SEG TIDY (c_step_u seg) c_step (~ every low (joined ps)) (c_along seg ps f SEG TIDY) (fun i S => proj2 (stuck_next ps f i S)) T
    (S (String.length (joined ps))) _ _ (start_along ps f)) as [A|[W|[C N]]]; [cbn; lia| |now right; left|].
  - left. change (i_rest (new_input f (joined ps))) with (joined ps).
    change (fun i => skip_by c_step i) with (skip_by c_step). rewrite (lex_fuel seg _ (S (String.length (joined ps)))); [exact A| |lia].
    intros X. rewrite X in A. destruct (lex_loop _ _ _) as [ts|e| |]; cbn in A; try discriminate; [|contradiction]. now destruct A as (us & A & _).
  - right. right. split; [|exact N]. rewrite (lex_fuel seg _ (S (String.length (joined ps)))); [exact C|now rewrite C|lia].
Qed.

End Text.

(** * ASCII *)

Lemma ac_joined t ps : ascii_clusters t ps -> joined ps = t.
Proof. induction 1; cbn; now rewrite ?IHascii_clusters. Qed.

Lemma ac_tidy t ps : ascii_clusters t ps -> tidy ps.
Proof. induction 1 as [|t ps A IH|c t ps L N A IH]; [constructor|now constructor|]. constructor; auto. intros C u. rewrite (ac_joined _ _ A). now apply N. Qed.

Lemma ac_det t ps : ascii_clusters t ps -> forall qs, ascii_clusters t qs -> qs = ps.
Proof.
  induction 1 as [|t ps A IH|c t ps L N A IH]; intros qs B.
  - now inversion B.
  - inversion B as [|? ? B2|? ? ? ? N B2]; subst; [now rewrite (IH _ B2)|]. now contradiction (N eq_refl t).
  - inversion B as [|? ? B2|? ? ? ? N2 B2]; subst; [now contradiction (N eq_refl t0)|]. now rewrite (IH _ B2).
Qed.

Lemma ac_suffix : forall a b t, ascii_clusters t (a ++ b) -> ascii_clusters (joined b) b.
Proof.
  induction a as [|p a IH]; intros b t A; [cbn [app] in A; now rewrite (ac_joined _ _ A)|]. cbn [app] in A. inversion A as [|t2 qs B|c t2 qs L N B]; subst; now apply (IH b t2).
Qed.

Lemma low_lf : low LF.
Proof. unfold low. vm_compute. lia. Qed.

Lemma ac_low t ps : ascii_clusters t ps -> every low t.
Proof. induction 1; cbn; auto using low_lf. repeat split; auto using low_lf. unfold low. vm_compute. lia. Qed.

Lemma ac_column : forall a b t, ascii_clusters t (a ++ b) -> forall n, column a n = after_last_lf (joined a) n.
Proof.
  induction a as [|p a IH]; intros b t A n; [reflexivity|]. cbn [app] in A. inversion A as [|t2 qs B|c t2 qs L N B]; subst.
  - cbn [column joined]. rewrite (IH b t2 B). reflexivity.
  - cbn [column joined]. rewrite after_app. unfold line_break. cbn [String.eqb]. cbn [after_last_lf].
    destruct (ascii_dec "010" c) as [<-|D].
    + change (Ascii.eqb "010" CR) with false. change (Ascii.eqb "010" LF) with true. cbn [orb]. apply (IH b t2 B).
    + assert (E : Ascii.eqb c LF = false) by (apply Ascii.eqb_neq; intros ->; now apply D). rewrite E.
      destruct (Ascii.eqb c CR); cbn [orb]; apply (IH b t2 B).
Qed.

Lemma breaks_prefix a b : tidy (a ++ b) -> List.length (filter line_break a) = count "010" (joined a).
Proof.
  intros T. apply breaks_count. revert a b T. induction a as [|p a IH]; intros b T; [constructor|]. cbn [app] in T.
  inversion T as [|? T2|c ? L N T2|? ? NE H T2]; subst.
  - constructor. now apply (IH b).
  - constructor; [exact L| |now apply (IH b)]. intros C t X. apply (N C (t ++ joined b)%string). rewrite joined_app, X. reflexivity.
  - constructor; [exact NE|exact H|now apply (IH b)].
Qed.

Lemma ac_place f a b t : ascii_clusters t (a ++ b) -> cluster_place f a = place f (joined a).
Proof. intros A. unfold cluster_place, place. rewrite (ac_column _ _ _ A), (breaks_prefix a b (ac_tidy _ _ A)). reflexivity. Qed.

Lemma ac_agree f t ps b u : ascii_clusters t ps -> agree ps f b u -> u = b.
Proof.
  intros A H. destruct b as [ts|e| |]; cbn in H; auto; [|contradiction]. destruct H as (us & -> & F). f_equal.
  induction F as [|x y ts us (T & b1 & r1 & b2 & r2 & E1 & E2 & X & Y) F IH]; [reflexivity|]. f_equal; [|exact IH].
  destruct x as [tx sx], y as [ty sy]. cbn in *. subst ty sx sy. f_equal.
  rewrite (ac_place f b1 r1 t), (ac_place f b2 r2 t); [reflexivity|now rewrite <- E2|now rewrite <- E1].
Qed.

Lemma ac_no_wide t ps : ascii_clusters t ps -> no_wide_space ps.
Proof.
  intros A a b -> W. apply ac_suffix in A. apply wide_high in W as (c & u & E & N). apply ac_low in A. rewrite E in A. destruct A as [A _]. contradiction.
Qed.

(** * What goes wrong *)

Lemma take_none c m t rest bol pos line col n : n < String.length (String c m) ->
  take_clusters n (String c m :: t) (rest) bol pos line col = (rest, bol, (pos, line, col)).
Proof. intros L. cbn [take_clusters]. apply Nat.ltb_lt in L. rewrite L. reflexivity. Qed.

Lemma hang seg c m rest tail f : name_start c -> m <> "" -> every (fun d => ~ low d) m ->
  seg (String c (m ++ rest)) = String c m :: tail -> forall k, lex_input_u seg k (new_input f (String c (m ++ rest))) = Diverge.
Proof.
  intros NS NE H SG k. set (i := new_input f (String c (m ++ rest))).
  assert (U : forall n, n < String.length (String c m) -> update_u seg i n = i).
  { intros n L. unfold update_u. cbn [i new_input i_rest i_bol i_pos i_line i_col i_file]. rewrite SG.
    rewrite (take_none c m tail (String c (m ++ rest)) true 0 1 0 n L). reflexivity. }
  assert (B : ident_start c = true) by (now apply name_start_iff).
  assert (SP : spaces_len 0 (i_rest i) = 0).
  { cbn [i new_input i_rest spaces_len]. assert (Z : space_at (String c (m ++ rest)) = 0); [|now rewrite Z]. unfold space_at.
    pose proof (all_ascii_ok (fun c => implb (ident_start c) (negb (is_space c) && negb (Ascii.eqb c "194") && negb (Ascii.eqb c "225") && negb (Ascii.eqb c "226") && negb (Ascii.eqb c "227")))%bool
      ltac:(vm_compute; reflexivity) c) as A. cbv beta in A. rewrite B in A. cbn [implb] in A.
    repeat (apply andb_true_iff in A as [A ?]). repeat match goal with X : negb _ = true |- _ => apply negb_true_iff in X; rewrite X end. cbn [andb orb].
    destruct (m ++ rest)%string as [|? [|? ?]]; reflexivity. }
  assert (ST : asm_step_u seg i = Ok i).
  { unfold asm_step_u, skip_whitespace_u. rewrite SP, U by (cbn; lia). unfold skip_star_comment_u. cbn [i new_input i_rest i_bol andb].
    pose proof (all_ascii_ok (fun c => implb (ident_start c) (negb (Ascii.eqb c "*") && negb (Ascii.eqb c ";")))%bool ltac:(vm_compute; reflexivity) c) as A. cbv beta in A.
    rewrite B in A. cbn [implb] in A. apply andb_true_iff in A as [A1 A2]. apply negb_true_iff in A1, A2. rewrite A1. unfold skip_comment_u. change (i_rest i) with (String c (m ++ rest)). cbv iota beta. now rewrite A2. }
  assert (SK : skip_loop_u (asm_step_u seg) (S (String.length (i_rest i))) i = Ok i).
  { cbn [skip_loop_u]. rewrite ST. cbn [bind]. now rewrite Nat.ltb_irrefl. }
  assert (MI : m_ident (i_rest i) = Some 1).
  { cbn [i new_input i_rest m_ident]. rewrite B. destruct m as [|d m]; [congruence|]. destruct H as [Hd _]. cbn [append span_len].
    destruct (ident_char d) eqn:X; [|reflexivity]. apply ident_fine in X. unfold fine in X. apply andb_true_iff in X as [X _]. apply low_b in X. contradiction. }
  assert (RT : exists ty, ty <> TEOF /\ read_token_u seg (asm_step_u seg) i = Ok (Some (i, mkToken ty (mkSpan (loc_of i) (loc_of i))))).
  { unfold read_token_u. rewrite SK. cbn [bind]. change (eof i) with false. cbv iota. rewrite first_match_u_pick.
    assert (PK : pick matchers (i_rest i) = Some (1, fun t => Ok (TName (lower t)))).
    { change (i_rest i) with (String c (m ++ rest)). rewrite pick_idxs, idxs_expected. unfold expected.
      assert (P : Ascii.eqb c "%" = false).
      { pose proof (all_ascii_ok (fun c => implb (ident_start c) (negb (Ascii.eqb c "%")))%bool ltac:(vm_compute; reflexivity) c) as A. cbv beta in A.
        rewrite B in A. now apply negb_true_iff in A. }
      rewrite P, B. cbn [map nth matchers pick m_len m_convert]. unfold m_macro_label. change (String c (m ++ rest)) with (i_rest i). rewrite MI.
      cbn [i new_input i_rest get]. destruct m as [|d m]; [congruence|]. cbn [append get]. destruct H as [Hd _]. destruct (Ascii.eqb d "%") eqn:X; [|reflexivity].
      apply eqb_true in X. subst. exfalso. apply Hd. unfold low. vm_compute. lia. }
    rewrite PK. cbn [bind]. rewrite (U 1) by (destruct m; [congruence|cbn; lia]). eexists. split; [|reflexivity]. discriminate. }
  destruct RT as (ty & NT & RT). unfold lex_input_u. induction k as [|k IH]; [reflexivity|]. cbn [lex_loop_u]. rewrite RT. cbn [bind t_type].
  rewrite IH. destruct ty; try reflexivity. congruence.
Qed.

Lemma take_zero : forall l rest bol pos line col, exists b p n k, take_clusters 0 l rest bol pos line col = (rest, b, (p, n, k)).
Proof.
  induction l as [|p l IH]; intros; [cbn; eauto|]. cbn [take_clusters]. destruct p as [|c p]; [|cbn; eauto]. cbn [String.length Nat.ltb Nat.leb Nat.sub drop_bytes].
  change (drop_bytes 0 rest) with rest || idtac. destruct (_ || _)%bool; destruct rest; apply IH.
Qed.

Lemma close_panic : forall body lead cont rest, every low body -> (forall p q, body <> (p ++ "*/" ++ q)%string) -> ~ low lead -> inside_char cont = true ->
  close_bytes (body ++ String lead (String cont rest)) = Panic.
Proof.
  induction body as [|c body IH]; intros lead cont rest L N HL HC.
  - cbn [append close_bytes]. destruct (inside_char lead); [reflexivity|].
    assert (P : String.prefix "*/" (String lead (String cont rest)) = false).
    { cbn [String.prefix]. destruct (ascii_dec "*" lead) as [<-|]; [|reflexivity]. exfalso. apply HL. unfold low. vm_compute. lia. }
    rewrite P. now rewrite HC.
  - destruct L as [L1 L2]. cbn [append close_bytes].
    assert (I : inside_char c = false).
    { unfold inside_char, between. change (nat_of_ascii "128") with 128. unfold low in L1. destruct (Nat.leb_spec 128 (nat_of_ascii c)); [lia|reflexivity]. }
    rewrite I. assert (P : String.prefix "*/" (String c (body ++ String lead (String cont rest))) = false).
    { cbn [String.prefix]. destruct (ascii_dec "*" c) as [<-|]; [|reflexivity]. destruct body as [|d body]; cbn [append String.prefix].
      - destruct (ascii_dec "/" lead) as [<-|]; [|reflexivity]. exfalso. apply HL. unfold low. vm_compute. lia.
      - destruct (ascii_dec "/" d) as [<-|]; [|reflexivity]. exfalso. now apply (N "" body). }
    rewrite P. rewrite IH; auto. intros p q E. apply (N (String c p) q). cbn [append] in *. now rewrite E.
Qed.

Lemma block_crash seg f body lead cont rest : every low body -> (forall p q, body <> (p ++ "*/" ++ q)%string) -> ~ low lead -> inside_char cont = true ->
  forall k, header_tokens_u seg (S k) (new_input f ("/*" ++ body ++ String lead (String cont rest))) = Panic.
Proof.
  intros L N HL HC k. unfold header_tokens_u. cbn [lex_loop_u]. unfold read_token_u.
  assert (X : c_step_u seg (new_input f ("/*" ++ body ++ String lead (String cont rest))) = Panic).
  { unfold c_step_u, skip_whitespace_u. cbn [new_input i_rest].
    assert (Z : spaces_len 0 ("/*" ++ body ++ String lead (String cont rest)) = 0) by (destruct (body ++ String lead (String cont rest))%string; reflexivity). rewrite Z.
    unfold update_u. cbn [new_input i_rest i_bol i_pos i_line i_col i_file].
    destruct (take_zero (seg ("/*" ++ body ++ String lead (String cont rest))%string) ("/*" ++ body ++ String lead (String cont rest))%string true 0 1 0) as (b & p & n & q & ->).
    unfold skip_line_comment_u. cbn [i_rest]. cbn [append String.prefix]. destruct (ascii_dec "/" "/"); [|congruence]. destruct (ascii_dec "/" "*"); [discriminate|].
    unfold skip_multiline_comment_u. cbn [i_rest append String.prefix]. destruct (ascii_dec "/" "/"); [|congruence]. destruct (ascii_dec "*" "*"); [|congruence].
    assert (D : forall t, drop_bytes 2 (String "/" (String "*" t)) = t) by (intros []; reflexivity). rewrite D, (close_panic body lead cont rest L N HL HC).
    destruct (body ++ String lead (String cont rest))%string; reflexivity. }
  cbn [skip_loop_u]. rewrite X. reflexivity.
Qed.
