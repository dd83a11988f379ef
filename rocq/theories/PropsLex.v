(** Properties C20 to C23: letter case, number literals, string literals, coverage and positions. *)
From Coq Require Import ZArith List String Ascii Bool Arith Lia.
From Verif Require Import Base Expr Lexer SpecLex LexProofs LexProofs2 LexProofs3 LexProofs4 LexProofs5 LexProofs6.
Import ListNotations.
Open Scope string_scope.
Open Scope list_scope.
Local Open Scope nat_scope.

(** ** C23: every character is accounted for *)

(** Lexing succeeds exactly for the texts made of tokens with blanks and comments between them, and
    yields those tokens at their places. *)
Theorem C23_accounts_for_every_character : forall f text toks,
  lex_input (new_input f text) = Ok toks <->
  exists ps tail, text = source ps tail /\ pieces_ok "" ps tail /\ gap_after (behind "" ps) tail "" /\
    toks = tokens_of f "" ps.
Proof. exact lex_ok_iff. Qed.
Print Assumptions C23_accounts_for_every_character.

Definition line1 : string := "Foo: mov #$1'f, @R2 ; set
* done
 .byte %101".

Example C23_case : exists toks, lex_input (new_input 3 line1) = Ok toks /\
  map t_type toks = [TName "foo"; TColon; TName "mov"; THash; TNumber 31 Hex; TComma; TR2; TName ".byte"; TNumber 5 Binary; TEOF] /\
  nth_error (map t_span toks) 8 = Some (mkSpan (mkLoc 3 40 3 7) (mkLoc 3 44 3 11)).
Proof. eexists. split; [vm_compute; reflexivity|]. split; vm_compute; reflexivity. Qed.

(** Every token but the last stands in the text where its span says, written as a token of its type. *)
Theorem C23_token_text : forall f text toks tok, lex_input (new_input f text) = Ok toks -> In tok toks -> t_type tok <> TEOF ->
  exists before lit after, text = (before ++ lit ++ after)%string /\ writes lit (t_type tok) /\
    t_span tok = mkSpan (place f before) (place f (before ++ lit)).
Proof.
  intros f text toks tok H I NE. apply lex_ok_iff in H as (ps & tail & -> & P & _ & ->).
  assert (K: forall ps before, pieces_ok before ps tail -> In tok (tokens_of f before ps) ->
    exists pre lit after, (before ++ source ps tail = pre ++ lit ++ after)%string /\ writes lit (t_type tok) /\
      t_span tok = mkSpan (place f pre) (place f (pre ++ lit))).
  { induction ps0 as [|p ps0 IH]; intros before PO J; cbn in J.
    - destruct J as [<-|[]]. exfalso. apply NE. reflexivity.
    - destruct PO as (_ & W & _ & _ & _ & PO). destruct J as [<-|J].
      + exists (before ++ p_gap p)%string, (p_text p), (source ps0 tail). cbn [t_type t_span source].
        rewrite !app_assoc_s. auto.
      + destruct (IH _ PO J) as (pre & lit & after & E & X). exists pre, lit, after. split; auto.
        rewrite <- E. cbn [source]. now rewrite !app_assoc_s. }
  exact (K ps "" P I).
Qed.
Print Assumptions C23_token_text.

(** Tokens come in the order of the text and do not overlap. *)
Theorem C23_in_order : forall f text toks a b c d, lex_input (new_input f text) = Ok toks -> toks = a ++ b :: c :: d ->
  l_pos (s_start (t_span b)) < l_pos (s_end (t_span b)) /\
  l_pos (s_end (t_span b)) <= l_pos (s_start (t_span c)).
Proof.
  intros f text toks a b c d H E. apply lex_ok_iff in H as (ps & tail & _ & P & _ & ->).
  revert a E P. generalize "" as before. induction ps as [|p ps IH]; intros before a E P.
  - cbn in E. destruct a as [|x [|y a]]; discriminate.
  - destruct P as (_ & W & _ & _ & _ & P). cbn in E. destruct a as [|x a].
    + injection E as <- E. cbn [t_span s_start s_end place l_pos].
      destruct (writes_head _ _ W) as (k & t & EQ & _). rewrite !app_length_s, EQ. cbn [String.length]. split; [lia|].
      destruct ps as [|q ps]; cbn in E; injection E as <- _; cbn [t_span s_start place l_pos]; rewrite !app_length_s, ?EQ; cbn [String.length]; lia.
    + injection E as _ E. eauto.
Qed.
Print Assumptions C23_in_order.

Example C23_in_order_case : exists a b c d,
  lex_input (new_input 0 "A,;x
(B)") = Ok (a ++ b :: c :: d) /\ t_type b = TComma /\ t_type c = TLeftParen /\ l_line (s_start (t_span c)) = 2.
Proof.
  exists [mkToken (TName "a") (mkSpan (mkLoc 0 0 1 0) (mkLoc 0 1 1 1))], (mkToken TComma (mkSpan (mkLoc 0 1 1 1) (mkLoc 0 2 1 2))),
    (mkToken TLeftParen (mkSpan (mkLoc 0 5 2 0) (mkLoc 0 6 2 1))).
  eexists. split; [vm_compute; reflexivity|]. split; [reflexivity|]. split; reflexivity.
Qed.

(** Lexing is rejected exactly where there is neither blank, comment nor token; the error carries the
    end of the last token before. *)
Theorem C23_rejected_iff : forall f text e,
  lex_input (new_input f text) = Err e <->
  exists ps g rest, text = source ps (g ++ rest) /\ pieces_ok "" ps (g ++ rest) /\ gap_after (behind "" ps) g rest /\
    unreadable (behind "" ps ++ g) rest /\ e = UnexpectedChar (Z.of_nat (String.length (behind "" ps))).
Proof. exact lex_err_iff. Qed.
Print Assumptions C23_rejected_iff.

Example C23_rejected_case : lex_input (new_input 0 "nop  ! nop") = Err (UnexpectedChar 3).
Proof. vm_compute. reflexivity. Qed.

(** The error does not point at the offending character. *)
Theorem C23_error_position_refuted : exists text p, lex_input (new_input 0 text) = Err (UnexpectedChar p) /\
  exists before rest, text = (before ++ rest)%string /\ unreadable before rest /\ p <> Z.of_nat (String.length before).
Proof.
  exists "nop  ! nop", 3%Z. split; [vm_compute; reflexivity|]. exists "nop  ", "! nop".
  split; [reflexivity|]. split; [|discriminate]. apply unreadable_iff. split; [discriminate|]. split.
  - split; [reflexivity|]. split; [discriminate|]. intros [X _]. discriminate.
  - vm_compute. reflexivity.
Qed.
Print Assumptions C23_error_position_refuted.

(** The only other outcome is the panic on a literal beyond the signed 32-bit range. *)
Theorem C23_panics_iff : forall f text,
  lex_input (new_input f text) = Panic <->
  exists ps g lit rest n r, text = source ps (g ++ lit ++ rest) /\ pieces_ok "" ps (g ++ lit ++ rest) /\
    gap_after (behind "" ps) g (lit ++ rest) /\ numeral lit n r /\ complete lit (TNumber n r) rest /\ (2147483647 < n)%Z.
Proof. exact lex_panic_iff. Qed.
Print Assumptions C23_panics_iff.

Theorem C23_terminates : forall f text, lex_input (new_input f text) <> Diverge.
Proof. exact lex_terminates. Qed.
Print Assumptions C23_terminates.

(** ** C21: number literals *)

Theorem C21_value : forall f lit n r rest, numeral lit n r -> complete lit (TNumber n r) rest -> (n <= 2147483647)%Z ->
  exists j tok, read_token skip_asm (new_input f (lit ++ rest)) = Ok (Some (j, tok)) /\
    t_type tok = TNumber n r /\ i_rest j = rest /\ i_pos j = String.length lit /\
    t_span tok = mkSpan (place f "") (place f lit).
Proof.
  intros f lit n r rest N C F. assert (W: writes lit (TNumber n r)) by (now constructor).
  rewrite new_inp.
  assert (R := read_token_ok f "" "" lit (TNumber n r) rest (gap_nil _ _) W C).
  cbn [append] in R. rewrite R. 2:{ intros [-> _]. destruct N as (p & base & body & vs & I & E & (c & v & t & ws & -> & _ & D & _) & _).
    apply digit_head in D as [_ D]. cbn in I.
    repeat (destruct I as [I|I]; [injection I as <- <- <-; cbn in E; try discriminate E; congruence|]). contradiction. }
  rewrite (result_fits (TNumber n r) F). cbn [bind]. eexists _, _. repeat split.
Qed.
Print Assumptions C21_value.

(** A literal that makes up the whole text. *)
Theorem C21_alone : forall f lit n r, numeral lit n r -> (n <= 2147483647)%Z ->
  lex_input (new_input f lit) =
  Ok [mkToken (TNumber n r) (mkSpan (place f "") (place f lit)); mkToken TEOF (mkSpan (place f lit) (place f lit))].
Proof.
  intros f lit n r N F. apply lex_ok_iff. exists [mkPiece "" lit (TNumber n r)], "".
  assert (S: ~ (lit = "*" /\ line_start "")).
  { intros [-> _]. destruct N as (p & base & body & vs & I & E & (c & v & t & ws & -> & _ & D & _) & _).
    apply digit_head in D as [_ D]. cbn in I.
    repeat (destruct I as [I|I]; [injection I as <- <- <-; cbn in E; try discriminate E; congruence|]). contradiction. }
  cbn [source pieces_ok p_gap p_text p_type append behind tokens_of]. rewrite app_nil_r_s. repeat split; auto.
  - exists true. split; [|constructor]. unfold starts_line. split; auto. intros _. now left.
  - now constructor.
  - destruct r; cbn; try tauto. split; [tauto|]. intros [_ P]. apply prefixes_number_iff in P as (x & u & P & _). discriminate.
  - apply gap_after_iff. constructor.
Qed.
Print Assumptions C21_alone.

Example C21_case : numeral "0x1'fF" 511 Hex /\ numeral "%1'01" 5 Binary /\ numeral "0o17" 15 Octal /\ numeral "1'0'0" 100 Decimal.
Proof.
  assert (D: forall base c v, In (c, v) digit_chars -> (v < base)%Z -> digit base c v) by (split; auto).
  repeat split.
  - exists "0x", 16%Z, "1'fF", [1; 15; 15]%Z. repeat split; [cbn; auto 10|].
    exists "1"%char, 1%Z, "'fF", [15; 15]%Z. repeat split; try (cbn; auto 30; lia).
    apply md_sep; [apply D; [cbn; auto 30|lia]|]. apply md_digit; [apply D; [cbn; auto 30|lia]|constructor].
  - exists "%", 2%Z, "1'01", [1; 0; 1]%Z. repeat split; [cbn; auto 10|].
    exists "1"%char, 1%Z, "'01", [0; 1]%Z. repeat split; try (cbn; auto 30; lia).
    apply md_sep; [apply D; [cbn; auto 30|lia]|]. apply md_digit; [apply D; [cbn; auto 30|lia]|constructor].
  - exists "0o", 8%Z, "17", [1; 7]%Z. repeat split; [cbn; auto 10|].
    exists "1"%char, 1%Z, "7", [7]%Z. repeat split; try (cbn; auto 30; lia).
    apply md_digit; [apply D; [cbn; auto 30|lia]|constructor].
  - exists "", 10%Z, "1'0'0", [1; 0; 0]%Z. repeat split; [cbn; auto 10|].
    exists "1"%char, 1%Z, "'0'0", [0; 0]%Z. repeat split; try (cbn; auto 30; lia).
    apply md_sep; [apply D; [cbn; auto 30|lia]|]. apply md_sep; [apply D; [cbn; auto 30|lia]|constructor].
Qed.

Example C21_context_case : complete "0" (TNumber 0 Decimal) "xyz" /\ ~ complete "0" (TNumber 0 Decimal) "xab".
Proof.
  split.
  - cbn. split.
    + intros [(v & D)|[E _]]; [|discriminate]. apply (ro_inv _ _ ok_dec) in D as [D _]. discriminate.
    + intros [_ P]. apply prefixes_number_iff in P as (x & u & E & P). injection E as <- <-.
      destruct P as [[_ (c & w & E & v & D)]|[[[X|X] _]|[[X|X] _]]]; try discriminate. injection E as <- <-.
      apply (ro_inv _ _ ok_hex) in D as [D _]. discriminate.
  - intros [_ N]. apply N. split; auto. exists "x", 16%Z, Hex, "ab". repeat split; [cbn; auto|].
    exists "a"%char, "b". split; auto. exists 10%Z. split; [cbn; auto 20|lia].
Qed.

(** Literals above the signed range, even those that fit 32 bits, crash the assembler. *)
Theorem C21_too_large_panics : forall f lit n r, numeral lit n r -> (2147483647 < n)%Z ->
  lex_input (new_input f lit) = Panic.
Proof.
  intros f lit n r N F. apply lex_panic_iff. exists [], "", lit, "", n, r. cbn [source pieces_ok behind append].
  rewrite app_nil_r_s. repeat split; auto.
  - apply gap_after_iff. constructor.
  - destruct r; cbn; try tauto. split; [tauto|]. intros [_ P]. apply prefixes_number_iff in P as (x & u & P & _). discriminate.
Qed.
Print Assumptions C21_too_large_panics.

Theorem C21_unsigned_32_bits_refuted : exists lit n, numeral lit n Hex /\ (n < 2 ^ 32)%Z /\ forall f, lex_input (new_input f lit) = Panic.
Proof.
  exists "$80000000", 2147483648%Z.
  assert (N: numeral "$80000000" 2147483648 Hex).
  { exists "$", 16%Z, "80000000", [8; 0; 0; 0; 0; 0; 0; 0]%Z. repeat split; [cbn; auto|].
    exists "8"%char, 8%Z, "0000000", [0; 0; 0; 0; 0; 0; 0]%Z. repeat split; try (cbn; auto 30; lia).
    repeat (apply md_digit; [split; [cbn; auto|lia]|]). constructor. }
  split; auto. split; [lia|]. intros. eapply C21_too_large_panics; eauto. lia.
Qed.
Print Assumptions C21_unsigned_32_bits_refuted.

(** ** C22: string literals *)

(** A literal is read to the characters its items stand for, and ends at its first unescaped quote,
    whatever follows. *)
Theorem C22_value : forall f l s rest, Forall item_ok l -> Forall2 item_char l (list_ascii_of_string s) ->
  exists j tok, read_token skip_asm (new_input f (quoted (written l) ++ rest)) = Ok (Some (j, tok)) /\
    t_type tok = TString s /\ i_rest j = rest /\ i_pos j = String.length (quoted (written l)) /\
    t_span tok = mkSpan (place f "") (place f (quoted (written l))).
Proof.
  intros f l s rest F1 F2. assert (W: writes (quoted (written l)) (TString s)) by (now apply w_string).
  rewrite new_inp. assert (R := read_token_ok f "" "" _ _ rest (gap_nil _ _) W Logic.I).
  cbn [append] in R. change ("" ++ quoted (written l))%string with (quoted (written l)) in R.
  rewrite R by (intros [X _]; discriminate). cbn [result bind]. eexists _, _. repeat split.
Qed.
Print Assumptions C22_value.

(** Every sequence of items stands for exactly one text. *)
Theorem C22_items_denote : forall l, Forall item_ok l ->
  exists s, Forall2 item_char l (list_ascii_of_string s) /\ forall s', Forall2 item_char l (list_ascii_of_string s') -> s' = s.
Proof.
  intros l F. exists (clean false (written l)). split. now apply clean_written.
  intros s' H. apply clean_written in H; auto.
Qed.
Print Assumptions C22_items_denote.

Definition some_items : list item :=
  [Plain "a"; Escaped "n"; Escaped """"; Escaped "\"; Plain "010"; Escaped "q"]%char.

Example C22_case : Forall item_ok some_items /\
  Forall2 item_char some_items ["a"; "010"; """"; "\"; "010"; "q"]%char.
Proof.
  split.
  - repeat (apply Forall_cons; [cbn; repeat split; discriminate|]). apply Forall_nil.
  - repeat (apply Forall2_cons; [try reflexivity; apply esc_ok; reflexivity|]). apply Forall2_nil.
Qed.

(** A quote that is never closed is an error. *)
Theorem C22_unclosed : forall f t,
  (forall l rest, Forall item_ok l -> String """" t <> (quoted (written l) ++ rest)%string) ->
  lex_input (new_input f (String """" t)) = Err (UnexpectedChar 0).
Proof.
  intros f t N. apply lex_err_iff. exists [], "", (String """" t). cbn [source pieces_ok behind append].
  split; [reflexivity|]. split; [exact Logic.I|]. split; [apply gap_after_iff; constructor|]. split; [|reflexivity].
  apply unreadable_iff. split; [discriminate|]. split; [cbn; repeat split; try discriminate; intros [_ X]; discriminate|].
  rewrite pick_quote. destruct (m_string (String """" t)) eqn:M; auto. exfalso.
  apply m_string_inv in M as (l & rest & E & _ & F). eapply N; eauto.
Qed.
Print Assumptions C22_unclosed.

Example C22_unclosed_case : lex_input (new_input 0 """abc\""") = Err (UnexpectedChar 0).
Proof. vm_compute. reflexivity. Qed.

(** ** C20: letter case *)

(** Changing the case of letters anywhere outside string literals does not change the outcome of lexing:
    neither the tokens, nor their places, nor an error. *)
Theorem C20_tokens : forall f s t, recase true s t -> lex_input (new_input f s) = lex_input (new_input f t).
Proof. exact recase_lex. Qed.
Print Assumptions C20_tokens.

(** Decides whether two characters are the same letter. *)
Ltac letter := first [left; reflexivity|right; match goal with |- exists n, _ /\ (?c = _ /\ ?d = _ \/ _) =>
  let n := eval vm_compute in (Nat.min (nat_of_ascii c) (nat_of_ascii d) - 65)%nat in exists n; split; [lia|vm_compute; auto] end].

Example C20_case : recase true "Foo: MOV #$aB,ACC ; Hi" "foO: mov #$Ab,acc ; hI".
Proof.
  repeat (first [apply (rc_comment false ";" " Hi" " hI" "" "");
      [auto|repeat split; letter|apply rest_of_line_len; reflexivity|constructor]
    | apply rc_char; [letter|discriminate|discriminate|intros [? ?]; discriminate|cbn]]).
Qed.
