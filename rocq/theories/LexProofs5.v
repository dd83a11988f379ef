(** Whole texts. *)
From Coq Require Import ZArith List String Ascii Bool Arith Lia.
From Verif Require Import Base Expr Lexer SpecLex LexProofs LexProofs2 LexProofs3 LexProofs4.
Import ListNotations.
Open Scope string_scope.
Open Scope list_scope.
Local Open Scope nat_scope.

Local Arguments ascii_dec : simpl never.
Local Arguments Ascii.eqb : simpl never.

(** * The shape of a token's text *)

Lemma cut_last : forall a c b, c <> CR -> cut_ok (a ++ String c "") b = true.
Proof.
  intros. rewrite cut_ok_app; [|discriminate]. cbn. destruct b; auto.
  destruct (Ascii.eqb c CR) eqn:E; auto. apply eqb_true in E. contradiction.
Qed.

Lemma cut_all : forall a b, all_chars (fun c => c <> CR) a -> cut_ok a b = true.
Proof.
  induction a as [|c a IH]; intros b A; auto. destruct A as [N A]. cbn.
  destruct a; [|now apply IH]. destruct b; auto.
  destruct (Ascii.eqb c CR) eqn:E; auto. apply eqb_true in E. contradiction.
Qed.

Lemma all_chars_app : forall P a b, all_chars P (a ++ b) <-> all_chars P a /\ all_chars P b.
Proof. induction a; intros; cbn; [tauto|]. rewrite IHa. tauto. Qed.

Lemma name_not_cr : forall c, name_char c -> c <> CR.
Proof. intros c H E. subst. apply name_char_iff in H. discriminate. Qed.

Lemma start_not_cr : forall c, name_start c -> c <> CR.
Proof. intros c H E. subst. apply name_start_iff in H. discriminate. Qed.

Lemma ident_no_cr : forall w, identifier w -> all_chars (fun c => c <> CR) w.
Proof.
  intros [|c w] H; [contradiction|]. destruct H. split. now apply start_not_cr.
  eapply all_chars_impl; [|eauto]. apply name_not_cr.
Qed.

Lemma digit_not_cr : forall base c v, digit base c v -> c <> CR.
Proof. intros base c v [I _] ->. cbn in I. intuition discriminate. Qed.

Lemma digits_no_cr : forall base a vs, more_digits base a vs -> all_chars (fun c => c <> CR) a.
Proof.
  induction 1; cbn; auto.
  - split; auto. eapply digit_not_cr; eauto.
  - split; [discriminate|]. split; auto. eapply digit_not_cr; eauto.
Qed.

Lemma writes_cut : forall text ty rest, writes text ty -> cut_ok text rest = true.
Proof.
  intros text ty rest W. destruct W as [text ty I|w I|w I|w I|l s F1 F2|text n r N].
  - apply cut_all. cbn in I. repeat (destruct I as [I|I]; [injection I as <- <-; cbn; repeat split; discriminate|]). contradiction.
  - apply cut_all. now apply ident_no_cr.
  - apply cut_all. split; [discriminate|]. now apply ident_no_cr.
  - apply cut_all. apply all_chars_app. split; [now apply ident_no_cr|]. split; [discriminate|exact Logic.I].
  - unfold quoted. change (String """" (written l ++ String """" "")) with (String """" (written l) ++ String """" "")%string.
    apply cut_last. discriminate.
  - apply cut_all. destruct N as (p & base & body & vs & I & -> & D & _). apply all_chars_app. split.
    + cbn in I. repeat (destruct I as [I|I]; [injection I as <- <- <-; cbn; repeat split; discriminate|]). contradiction.
    + destruct D as (c & v & t & ws & -> & _ & D & M). split. eapply digit_not_cr; eauto. eapply digits_no_cr; eauto.
Qed.

Definition head_ok (c : ascii) : bool := (negb (is_space c) && negb (Ascii.eqb c ";"))%bool.

Lemma start_head : forall c, name_start c -> head_ok c = true /\ c <> "*"%char.
Proof.
  intros c H. apply name_start_iff in H.
  pose proof (all_ascii_ok (fun c => (negb (ident_start c) || (head_ok c && negb (Ascii.eqb c "*")))%bool)
    ltac:(vm_compute; reflexivity) c) as A. cbv beta in A. rewrite H in A. cbn [negb orb] in A.
  apply andb_true_iff in A as [A B]. split; auto. apply negb_true_iff in B. now apply eqb_false.
Qed.

Lemma digit_head : forall base c v, digit base c v -> head_ok c = true /\ c <> "*"%char.
Proof.
  intros base c v [I _]. cbn in I.
  repeat (destruct I as [I|I]; [injection I as <- <-; split; [reflexivity|discriminate]|]). contradiction.
Qed.

Lemma writes_head : forall text ty, writes text ty ->
  exists c t, text = String c t /\ head_ok c = true /\ (c = "*"%char -> text = "*").
Proof.
  intros text ty W. destruct W as [text ty I|w I|w I|w I|l s F1 F2|text n r N].
  - cbn in I. repeat (destruct I as [I|I]; [injection I as <- <-; eexists _, _; split; [reflexivity|]; split; [reflexivity|try discriminate; auto]|]). contradiction.
  - destruct w as [|c w]; [contradiction|]. destruct I as [I _]. apply start_head in I as [? ?]. eexists _, _. split; [reflexivity|]. tauto.
  - eexists _, _. split; [reflexivity|]. split; [reflexivity|discriminate].
  - destruct w as [|c w]; [contradiction|]. destruct I as [I _]. apply start_head in I as [? ?]. eexists _, _. split; [reflexivity|]. tauto.
  - eexists _, _. split; [reflexivity|]. split; [reflexivity|discriminate].
  - destruct N as (p & base & body & vs & I & -> & D & _). destruct D as (c & v & t & ws & -> & _ & D & M).
    apply digit_head in D as [? ?].
    cbn in I. repeat (destruct I as [I|I]; [injection I as <- <- <-; cbn [append]; eexists _, _; split; [reflexivity|];
      first [tauto|split; [reflexivity|discriminate]]|]). contradiction.
Qed.

Lemma writes_quiet : forall text ty rest b, writes text ty -> ~ (text = "*" /\ b = true) -> quiet b (text ++ rest).
Proof.
  intros text ty rest b W N. destruct (writes_head _ _ W) as (c & t & E & H & S). rewrite E. cbn.
  apply andb_true_iff in H as [H1 H2]. apply negb_true_iff in H1, H2. apply eqb_false in H2.
  repeat split; auto. intros [B C]. apply N. auto.
Qed.

Lemma writes_not_eof : forall text, ~ writes text TEOF.
Proof.
  intros text W. inversion W; subst. cbn in H. repeat (destruct H as [H|H]; [discriminate|]). contradiction.
Qed.

Lemma result_fits : forall ty, fits ty -> result ty = Ok ty.
Proof. intros [] H; auto. cbn in *. apply Z.leb_le in H. now rewrite H. Qed.

Lemma result_inv : forall ty, (fits ty /\ result ty = Ok ty) \/ (~ fits ty /\ result ty = Panic).
Proof.
  intros []; auto; cbn; try (left; auto; fail).
  destruct (num <=? 2147483647)%Z eqn:E; [left|right]; split; auto.
  now apply Z.leb_le. apply Z.leb_gt in E. lia.
Qed.

(** * Reading one token *)

Lemma read_token_inp : forall f before text, exists g rest,
  text = (g ++ rest)%string /\ gap (bol_after true before) g rest /\ quiet (bol_after true (before ++ g)) rest /\
  read_token skip_asm (inp f before text) =
  match rest with
  | EmptyString => Ok (Some (inp f (before ++ g) "", mkToken TEOF (mkSpan (place f (before ++ g)) (place f (before ++ g)))))
  | _ => match pick matchers rest with
         | None => Ok None
         | Some (n, conv) =>
             let! ty := conv (substring 0 n rest) in
             let j := update (inp f (before ++ g) rest) n in
             Ok (Some (j, mkToken ty (mkSpan (place f (before ++ g)) (loc_of j))))
         end
  end.
Proof.
  intros. destruct (skip_asm_inp f before text) as (g & rest & E & S & G & Q).
  exists g, rest. repeat split; auto. unfold read_token. rewrite S. unfold eof. cbn [inp i_rest].
  destruct rest as [|c t]; [reflexivity|]. fold (inp f (before ++ g) (String c t)).
  rewrite first_match_pick. cbn [inp i_rest]. destruct (pick matchers (String c t)) as [[n conv]|]; auto.
  destruct (conv _); reflexivity.
Qed.

Lemma read_token_ok : forall f before g text ty rest,
  gap (bol_after true before) g (text ++ rest) -> writes text ty -> complete text ty rest ->
  ~ (text = "*" /\ line_start (before ++ g)) ->
  read_token skip_asm (inp f before (g ++ text ++ rest)) =
  let! ty' := result ty in
  Ok (Some (inp f (before ++ g ++ text) rest,
            mkToken ty' (mkSpan (place f (before ++ g)) (place f (before ++ g ++ text))))).
Proof.
  intros f before g text ty rest G W C N.
  assert (Q: quiet (bol_after true (before ++ g)) (text ++ rest)).
  { eapply writes_quiet; eauto. now rewrite <- line_start_bol. }
  unfold read_token. rewrite (skip_asm_gap _ _ _ _ G Q). unfold eof. cbn [inp i_rest].
  destruct (writes_head _ _ W) as (c & t & E & _).
  destruct (text ++ rest)%string eqn:TR; [subst text; discriminate|]. rewrite <- TR in *.
  fold (inp f (before ++ g) (text ++ rest)). rewrite first_match_pick. cbn [inp i_rest].
  fold (inp f (before ++ g) (text ++ rest)).
  destruct (pick_complete _ _ _ W C) as (conv & P & V). rewrite P, substring_app, V.
  rewrite update_inp by (eapply writes_cut; eauto). rewrite !loc_inp, app_assoc_s.
  destruct (result_inv ty) as [[_ R]|[_ R]]; rewrite R; reflexivity.
Qed.

Lemma read_token_eof : forall f before g, gap (bol_after true before) g "" ->
  read_token skip_asm (inp f before g) =
  Ok (Some (inp f (before ++ g) "", mkToken TEOF (mkSpan (place f (before ++ g)) (place f (before ++ g))))).
Proof.
  intros. unfold read_token. rewrite <- (app_nil_r_s g) at 1. rewrite skip_asm_gap; auto; try exact Logic.I.
Qed.

Lemma pick_none_iff : forall rest, rest <> "" ->
  (pick matchers rest = None <-> forall text ty r, rest = (text ++ r)%string -> writes text ty -> ~ complete text ty r).
Proof.
  intros rest NE. split.
  - intros P text ty r E W C. destruct (pick_complete _ _ _ W C) as (conv & X & _). rewrite <- E, P in X. discriminate.
  - intros N. destruct (pick matchers rest) as [[n conv]|] eqn:P; auto. exfalso.
    destruct rest as [|c t]; [congruence|]. apply pick_sound in P as (text & r & ty & E & _ & W & C & _). eapply N; eauto.
Qed.

Lemma quiet_gap : forall before g r, quiet (bol_after true before) (g ++ r) -> gap (bol_after true before) g r -> g = "".
Proof.
  intros before g r Q G. inversion G; subst; auto; exfalso; cbn in Q; destruct Q as (Q1 & Q2 & Q3).
  - apply is_space_blank in H. congruence.
  - destruct H; tauto.
Qed.

Lemma gap_after_iff : forall before g r, gap_after before g r <-> gap (bol_after true before) g r.
Proof.
  intros. unfold gap_after. split.
  - intros (b & S & G). apply starts_line_det in S. now subst.
  - intros. exists (bol_after true before). split; auto. apply starts_line_bol.
Qed.

Lemma unreadable_iff : forall before rest,
  unreadable before rest <-> rest <> "" /\ quiet (bol_after true before) rest /\ pick matchers rest = None.
Proof.
  intros before rest. unfold unreadable. split.
  - intros (NE & NG & NT).
    assert (Q: quiet (bol_after true before) rest).
    { destruct (skip_asm_inp 0 before rest) as (g & r & E & _ & G & Q).
      assert (g = ""). { eapply NG; eauto. now apply gap_after_iff. }
      subst g. cbn in E. subst r. now rewrite app_nil_r_s in Q. }
    repeat split; auto. apply pick_none_iff; auto. intros text ty r E W C.
    destruct (NT _ _ _ E W C) as [-> L]. subst rest. cbn in Q.
    destruct Q as (_ & _ & Q). apply Q. split; auto. now apply line_start_bol.
  - intros (NE & Q & P). repeat split; auto.
    + intros g r -> G. apply gap_after_iff in G. eapply quiet_gap; eauto.
    + exfalso. eapply (proj1 (pick_none_iff rest NE)); eauto.
    + exfalso. eapply (proj1 (pick_none_iff rest NE)); eauto.
Qed.

Lemma read_token_none : forall f before g rest, gap (bol_after true before) g rest -> unreadable (before ++ g) rest ->
  read_token skip_asm (inp f before (g ++ rest)) = Ok None.
Proof.
  intros f before g rest G U. apply unreadable_iff in U as (NE & Q & P).
  unfold read_token. rewrite (skip_asm_gap _ _ _ _ G Q). unfold eof. cbn [inp i_rest].
  destruct rest as [|c t]; [congruence|]. fold (inp f (before ++ g) (String c t)).
  rewrite first_match_pick. cbn [inp i_rest]. now rewrite P.
Qed.

(** * The loop *)

Fixpoint front (f : nat) (before : string) (ps : list piece) : list token :=
  match ps with
  | [] => []
  | p :: t =>
      mkToken (p_type p)
        (mkSpan (place f (before ++ p_gap p)) (place f (before ++ p_gap p ++ p_text p)))
      :: front f (before ++ p_gap p ++ p_text p) t
  end.

Lemma tokens_front : forall f ps before, tokens_of f before ps =
  front f before ps ++ [mkToken TEOF (mkSpan (place f (behind before ps)) (place f (behind before ps)))].
Proof. induction ps; intros; cbn; auto. now rewrite IHps. Qed.

Lemma source_nil : forall ps rest, source ps rest = (source ps "" ++ rest)%string.
Proof. induction ps; intros; cbn; auto. rewrite IHps, !app_assoc_s. reflexivity. Qed.

Lemma behind_source : forall ps before, behind before ps = (before ++ source ps "")%string.
Proof. induction ps; intros; cbn. now rewrite app_nil_r_s. rewrite IHps, !app_assoc_s. reflexivity. Qed.

Lemma lex_loop_front : forall ps f before rest k, pieces_ok before ps rest ->
  lex_loop skip_asm (List.length ps + k) (inp f before (source ps rest)) =
  let! l := lex_loop skip_asm k (inp f (behind before ps) rest) in Ok (front f before ps ++ l).
Proof.
  induction ps as [|p ps IH]; intros f before rest k P.
  - cbn. destruct (lex_loop skip_asm k _); reflexivity.
  - destruct P as (G & W & F & C & S & P). cbn [List.length Nat.add lex_loop source behind front].
    apply gap_after_iff in G. rewrite (read_token_ok _ _ _ _ _ _ G W C S). rewrite (result_fits _ F). cbn [bind t_type].
    assert (NE: p_type p <> TEOF). { intros E. rewrite E in W. eapply writes_not_eof; eauto. }
    replace (match p_type p with TEOF => _ | _ => let! rest0 := _ in _ end) with
      (let! rest0 := lex_loop skip_asm (List.length ps + k) (inp f (before ++ p_gap p ++ p_text p) (source ps rest)) in
       Ok (mkToken (p_type p) (mkSpan (place f (before ++ p_gap p)) (place f (before ++ p_gap p ++ p_text p))) :: rest0)).
    2:{ destruct (p_type p); try reflexivity. congruence. }
    rewrite IH; auto. destruct (lex_loop skip_asm k _); reflexivity.
Qed.

(** What becomes of a text: its tokens, or the first place where there is none. *)
Inductive verdict : Type :=
| VOk (ps : list piece) (tail : string)
| VStuck (ps : list piece) (g rest : string)
| VBig (ps : list piece) (g text rest : string) (ty : token_type).

Definition verdict_ok (before text0 : string) (v : verdict) : Prop :=
  match v with
  | VOk ps tail => text0 = source ps tail /\ pieces_ok before ps tail /\ gap_after (behind before ps) tail ""
  | VStuck ps g rest =>
      text0 = source ps (g ++ rest) /\ pieces_ok before ps (g ++ rest) /\ gap_after (behind before ps) g rest /\
      unreadable (behind before ps ++ g) rest
  | VBig ps g text rest ty =>
      text0 = source ps (g ++ text ++ rest) /\ pieces_ok before ps (g ++ text ++ rest) /\
      gap_after (behind before ps) g (text ++ rest) /\ writes text ty /\ complete text ty rest /\ ~ fits ty
  end.

Definition verdict_outcome (f : nat) (before : string) (v : verdict) : outcome (list token) :=
  match v with
  | VOk ps tail => Ok (tokens_of f before ps)
  | VStuck ps g rest => Err (UnexpectedChar (Z.of_nat (String.length (behind before ps))))
  | VBig _ _ _ _ _ => Panic
  end.

Lemma verdict_exists : forall n before text0, String.length text0 < n -> exists v, verdict_ok before text0 v.
Proof.
  induction n; intros before text0 L; [lia|].
  destruct (skip_asm_inp 0 before text0) as (g & rest & E & _ & G & Q).
  destruct rest as [|c t].
  - exists (VOk [] g). cbn. rewrite app_nil_r_s in E. repeat split; auto. now apply gap_after_iff.
  - destruct (pick matchers (String c t)) as [[k conv]|] eqn:P.
    + apply pick_sound in P as (text & r & ty & E2 & _ & W & C & _).
      rewrite E2 in *.
      assert (N: ~ (text = "*" /\ line_start (before ++ g))).
      { intros [-> LS]. cbn in Q. destruct Q as (_ & _ & Q). apply Q. split; auto. now apply line_start_bol. }
      destruct (result_inv ty) as [[F _]|[F _]].
      * destruct (IHn (before ++ g ++ text)%string r) as (v & V).
        { destruct (writes_head _ _ W) as (c' & t' & -> & _). subst text0. rewrite !app_length_s in L. cbn in L. lia. }
        assert (PC: forall ps rest', pieces_ok (before ++ g ++ text) ps rest' -> r = source ps rest' -> pieces_ok before (mkPiece g text ty :: ps) rest').
        { intros ps rest' PO ->. cbn. repeat split; auto. apply gap_after_iff in G. exact G. }
        destruct v as [ps tail|ps g' rest'|ps g' text' rest' ty']; cbn in V.
        -- destruct V as (-> & PO & GA). exists (VOk (mkPiece g text ty :: ps) tail). cbn [verdict_ok behind source p_gap p_text].
           split; [exact E|]. split; auto.
        -- destruct V as (-> & PO & GA & U). exists (VStuck (mkPiece g text ty :: ps) g' rest'). cbn [verdict_ok behind source p_gap p_text].
           split; [exact E|]. split; auto.
        -- destruct V as (-> & PO & GA & WW & CC & FF). exists (VBig (mkPiece g text ty :: ps) g' text' rest' ty'). cbn [verdict_ok behind source p_gap p_text].
           split; [exact E|]. split; auto.
      * exists (VBig [] g text r ty). cbn. repeat split; auto. now apply gap_after_iff.
    + exists (VStuck [] g (String c t)). cbn [verdict_ok behind source pieces_ok].
      split; [exact E|]. split; [exact Logic.I|]. split; [now apply gap_after_iff|].
      apply (proj2 (unreadable_iff _ _)). split; [discriminate|]. split; assumption.
Qed.

Lemma pieces_length : forall ps before rest, pieces_ok before ps rest -> List.length ps <= String.length (source ps rest).
Proof.
  induction ps as [|p ps IH]; intros before rest P; cbn [List.length source]; [lia|].
  destruct P as (_ & W & _ & _ & _ & P). apply IH in P. destruct (writes_head _ _ W) as (c & t & -> & _).
  rewrite !app_length_s. cbn. lia.
Qed.

Lemma verdict_lex : forall f before text0 v, verdict_ok before text0 v ->
  lex_for_ws skip_asm (inp f before text0) = verdict_outcome f before v.
Proof.
  intros f before text0 v V. unfold lex_for_ws. cbn [inp i_rest]. fold (inp f before text0).
  assert (R: forall ps rest, text0 = source ps rest -> pieces_ok before ps rest -> exists k,
     lex_loop skip_asm (S (String.length text0)) (inp f before text0) =
     let! l := lex_loop skip_asm (S k) (inp f (behind before ps) rest) in Ok (front f before ps ++ l)).
  { intros ps rest -> P. pose proof (pieces_length _ _ _ P) as L.
    exists (String.length (source ps rest) - List.length ps).
    rewrite <- lex_loop_front; auto. f_equal. lia. }
  destruct v as [ps tail|ps g rest|ps g text rest ty]; cbn [verdict_ok verdict_outcome] in *.
  - destruct V as (E & P & G). destruct (R _ _ E P) as (k & ->). apply gap_after_iff in G.
    cbn [lex_loop]. rewrite read_token_eof; auto. cbn [bind t_type]. rewrite tokens_front, !loc_inp. reflexivity.
  - destruct V as (E & P & G & U). destruct (R _ _ E P) as (k & ->). apply gap_after_iff in G.
    cbn [lex_loop]. rewrite read_token_none; auto.
  - destruct V as (E & P & G & W & C & F). destruct (R _ _ E P) as (k & ->). apply gap_after_iff in G.
    cbn [lex_loop]. rewrite (read_token_ok _ _ _ _ _ _ G W C).
    + destruct (result_inv ty) as [[X _]|[_ X]]; [contradiction|]. now rewrite X.
    + intros [-> _]. apply F. inversion W; subst; try exact Logic.I.
      * cbn in H. repeat (destruct H as [H|H]; [first [discriminate H|injection H as <-; exact Logic.I]|]). contradiction.
      * destruct H as (p & base & body & vs & I & E2 & (c & v & t & ws & -> & _ & D & _) & _).
        apply digit_head in D as [_ D]. exfalso. cbn in I.
        repeat (destruct I as [I|I]; [injection I as <- <- <-; cbn in E2; try discriminate E2; congruence|]). contradiction.
Qed.

Lemma lex_verdict : forall f text, exists v, verdict_ok "" text v /\ lex_input (new_input f text) = verdict_outcome f "" v.
Proof.
  intros. destruct (verdict_exists _ "" text (le_n _)) as (v & V). exists v. split; auto.
  exact (verdict_lex f "" text v V).
Qed.

Lemma lex_ok_iff : forall f text toks,
  lex_input (new_input f text) = Ok toks <->
  exists ps tail, text = source ps tail /\ pieces_ok "" ps tail /\ gap_after (behind "" ps) tail "" /\
    toks = tokens_of f "" ps.
Proof.
  intros. split.
  - intros H. destruct (lex_verdict f text) as (v & V & E). rewrite E in H.
    destruct v as [ps tail|ps g rest|ps g tx rest ty]; cbn in H; try discriminate. injection H as <-.
    destruct V as (A & B & C). exists ps, tail. auto.
  - intros (ps & tail & A & B & C & ->). refine (verdict_lex f "" text (VOk ps tail) _). cbn. auto.
Qed.

Lemma lex_err_iff : forall f text e,
  lex_input (new_input f text) = Err e <->
  exists ps g rest, text = source ps (g ++ rest) /\ pieces_ok "" ps (g ++ rest) /\ gap_after (behind "" ps) g rest /\
    unreadable (behind "" ps ++ g) rest /\ e = UnexpectedChar (Z.of_nat (String.length (behind "" ps))).
Proof.
  intros. split.
  - intros H. destruct (lex_verdict f text) as (v & V & E). rewrite E in H.
    destruct v as [ps tail|ps g rest|ps g tx rest ty]; cbn in H; try discriminate. injection H as <-.
    destruct V as (A & B & C & D). exists ps, g, rest. auto.
  - intros (ps & g & rest & A & B & C & D & ->). refine (verdict_lex f "" text (VStuck ps g rest) _). cbn. auto.
Qed.

Lemma lex_panic_iff : forall f text,
  lex_input (new_input f text) = Panic <->
  exists ps g lit rest n r, text = source ps (g ++ lit ++ rest) /\ pieces_ok "" ps (g ++ lit ++ rest) /\
    gap_after (behind "" ps) g (lit ++ rest) /\ numeral lit n r /\ complete lit (TNumber n r) rest /\ (2147483647 < n)%Z.
Proof.
  intros. split.
  - intros H. destruct (lex_verdict f text) as (v & V & E). rewrite E in H.
    destruct v as [ps tail|ps g rest|ps g tx rest ty]; cbn in H; try discriminate.
    destruct V as (A & B & C & W & D & F).
    destruct ty; cbn in F; try (exfalso; apply F; exact Logic.I).
    exists ps, g, tx, rest, num, r. repeat split; auto; [|lia].
    inversion W; subst; auto. cbn in H0. repeat (destruct H0 as [H0|H0]; [discriminate|]). contradiction.
  - intros (ps & g & lit & rest & n & r & A & B & C & D & E & F).
    refine (verdict_lex f "" text (VBig ps g lit rest (TNumber n r)) _). cbn [verdict_ok fits]. repeat split; auto. now constructor. lia.
Qed.

Lemma lex_terminates : forall f text, lex_input (new_input f text) <> Diverge.
Proof.
  intros. destruct (lex_verdict f text) as (v & V & E). rewrite E. destruct v; discriminate.
Qed.
