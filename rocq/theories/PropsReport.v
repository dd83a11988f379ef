(** Properties C42 and C49: the quoted source line and the carets below it. *)
From Coq Require Import ZArith List String Ascii Bool Arith Lia.
From Verif Require Import Base Lexer SpecLex LexProofs LexProofs5 Report SpecReport ReportProofs PropsLex.
Import ListNotations.
Open Scope string_scope.
Open Scope list_scope.
Local Open Scope nat_scope.

(** ** C42: the quoted line *)

(** Any offset on a line quotes that line, the text from line break to line break, unless nothing but a
    line break follows. *)
Theorem C42_quotes_line : forall pr pos pre line post, one_line pre line post -> on_line pos pre line ->
  2 <= String.length (pre ++ line ++ post) -> ~ only_break post ->
  line_for_pos pr pos (pre ++ line ++ post) = Ok line.
Proof.
  intros pr pos pre line post O P L N. rewrite quotes_line by auto. destruct (in_dec _ _ _) as [I|I]; auto.
  exfalso. apply N. destruct I as [<-|[<-|[]]]; [now left|now right].
Qed.
Print Assumptions C42_quotes_line.

Local Definition crlf : string := String "013" (String "010" "").
Local Definition lf : string := String "010" "".

Example C42_quotes_line_case :
  one_line ("  nop" ++ crlf) "x: mov #1, @" (lf ++ "  nop") /\ on_line 10 ("  nop" ++ crlf) "x: mov #1, @" /\
  ~ only_break (lf ++ "  nop") /\
  line_for_pos Debug 10 (("  nop" ++ crlf) ++ "x: mov #1, @" ++ (lf ++ "  nop")) = Ok "x: mov #1, @".
Proof.
  split; [split; [right; exists ("  nop" ++ String "013" "")%string; reflexivity|apply rest_of_line_len; reflexivity]|].
  split; [vm_compute; lia|]. split; [intros [X|X]; discriminate|vm_compute; reflexivity].
Qed.

(** Every offset within a text of two bytes or more quotes some line of the text around the offset. *)
Theorem C42_contains_offset : forall pr pos text, pos <= String.length text -> 2 <= String.length text ->
  exists pre quoted post, text = (pre ++ quoted ++ post)%string /\ line_for_pos pr pos text = Ok quoted /\
    line_start pre /\ on_line pos pre quoted.
Proof.
  intros pr pos text P L. destruct (start_total pos text P) as (pre & left & rest & -> & -> & LS & NL).
  rewrite quote_at by auto. assert (Q := quote_len_le rest).
  destruct (split_at (quote_len rest) rest Q) as (a & b & -> & N).
  exists pre, (left ++ a)%string, b. rewrite !app_assoc_s. split; [reflexivity|]. split.
  - f_equal. rewrite <- N. rewrite <- app_length_s. rewrite <- (app_assoc_s left a b). apply substring_mid.
  - split; auto. unfold on_line. rewrite !app_length_s. lia.
Qed.
Print Assumptions C42_contains_offset.

(** If only a line break follows the line, it is quoted too. *)
Theorem C42_last_line : forall pr pos pre line post, one_line pre line post -> on_line pos pre line ->
  2 <= String.length (pre ++ line ++ post) -> only_break post ->
  line_for_pos pr pos (pre ++ line ++ post) = Ok (line ++ post)%string.
Proof.
  intros pr pos pre line post O P L N. rewrite quotes_line by auto. destruct (in_dec _ _ _) as [I|I]; auto.
  exfalso. apply I. destruct N as [->| ->]; cbn; auto.
Qed.
Print Assumptions C42_last_line.

Example C42_last_line_case : line_for_pos Release 3 ("a" ++ lf ++ "bcd" ++ crlf) = Ok ("bcd" ++ crlf)%string.
Proof. vm_compute. reflexivity. Qed.

Theorem C42_exact_line_refuted : exists pr pos pre line post, one_line pre line post /\ on_line pos pre line /\
  2 <= String.length (pre ++ line ++ post) /\ line_for_pos pr pos (pre ++ line ++ post) <> Ok line.
Proof.
  exists Release, 1, "", "nop", lf.
  split; [split; [now left|apply rest_of_line_len; reflexivity]|]. split; [vm_compute; lia|]. split; [vm_compute; lia|].
  vm_compute. discriminate.
Qed.
Print Assumptions C42_exact_line_refuted.

(** For a text of a single byte a debug build panics, and a release build if it is a carriage return. *)
Theorem C42_one_byte : forall pr c, line_for_pos pr 0 (String c "") =
  match pr with Debug => Panic | Release => if Ascii.eqb c "013" then Panic else Ok (String c "") end.
Proof. exact one_byte. Qed.
Print Assumptions C42_one_byte.

(** ** C49: the carets *)

(** The message for a token that does not span lines quotes the line the token stands on and has one
    caret under each character of the token. *)
Theorem C49_token_marked : forall pr f text toks tok msg,
  lex_input (new_input f text) = Ok toks -> In tok toks -> t_type tok <> TEOF ->
  l_line (s_start (t_span tok)) = l_line (s_end (t_span tok)) -> 2 <= String.length text ->
  exists pre left lit right post quoted,
    text = (pre ++ (left ++ lit ++ right) ++ post)%string /\ one_line pre (left ++ lit ++ right) post /\
    writes lit (t_type tok) /\ l_pos (s_start (t_span tok)) = String.length (pre ++ left) /\
    line_for_pos pr (l_pos (s_start (t_span tok))) text = Ok quoted /\
    (quoted = (left ++ lit ++ right)%string \/ (only_break post /\ quoted = ((left ++ lit ++ right) ++ post)%string)) /\
    caret (l_col (s_start (t_span tok))) (l_col (s_end (t_span tok))) quoted msg =
      (margin left ++ carets (String.length lit) ++ remark msg)%string.
Proof.
  intros pr f text toks tok msg H I NE SL L. 
  destruct (C23_token_text _ _ _ _ H I NE) as (before & lit & after & E & W & S). clear H. subst text.
  rewrite S in *. cbn [s_start s_end place l_line l_pos l_col] in *.
  assert (NL: all_chars (fun c => c <> LF) lit).
  { rewrite count_app in SL. assert (Z: count "010" lit = 0) by lia. clear - Z.
    induction lit as [|c lit IH]; [exact Logic.I|]. cbn [count] in Z. cbn [all_chars]. destruct (ascii_dec "010" c) as [X|X]; [discriminate|].
    split; [intros ->; now apply X|apply IH; exact Z]. }
  destruct (writes_head _ _ W) as (k & t & EQ & _).
  destruct (token_quoted pr before lit after msg) as (pre & left & right & post & rest & quoted & E1 & E2 & O & R & Q & LP & CA); auto.
  { rewrite EQ. discriminate. } { exact (writes_cut _ _ after W). }
  exists pre, left, lit, right, post, quoted. subst before after. split; [now rewrite !app_assoc_s|]. split; [exact O|].
  split; [exact W|]. split; [reflexivity|]. split; [exact LP|]. split; [|exact CA].
  destruct R as [->|[-> B]]; [left|right; split; auto]; rewrite Q; rewrite ?app_nil_r_s, ?app_assoc_s; reflexivity.
Qed.
Print Assumptions C49_token_marked.

Local Definition source49 : string := ("  nop" ++ lf ++ String "009" "mov foo, bar ; x" ++ lf ++ "  nop" ++ lf)%string.

Example C49_case : exists toks tok, lex_input (new_input 0 source49) = Ok toks /\ In tok toks /\ t_type tok = TName "foo" /\
  line_for_pos Debug (l_pos (s_start (t_span tok))) source49 = Ok (String "009" "mov foo, bar ; x") /\
  caret (l_col (s_start (t_span tok))) (l_col (s_end (t_span tok))) (String "009" "mov foo, bar ; x") "here" =
    String "009" "    ^^^ here".
Proof.
  eexists. exists (mkToken (TName "foo") (mkSpan (mkLoc 0 11 2 5) (mkLoc 0 14 2 8))). split; [vm_compute; reflexivity|].
  split; [right; right; left; reflexivity|]. split; [reflexivity|]. split; vm_compute; reflexivity.
Qed.

(** A place of no width, as at the end of the text, gets one caret. *)
Theorem C49_point_marked : forall left right msg, all_chars (fun c => c <> "010"%char) left -> cut_ok left right = true ->
  caret (String.length left) (String.length left) (left ++ right) msg = (margin left ++ String "^" (remark msg))%string.
Proof. exact caret_point. Qed.
Print Assumptions C49_point_marked.

Example C49_point_case : caret 4 4 "ld (" "expected expression" = "    ^ expected expression".
Proof. vm_compute. reflexivity. Qed.

(** A string token may span lines; then only its first character is marked if it ends further left. *)
Theorem C49_every_token_refuted : exists text toks tok quoted, lex_input (new_input 0 text) = Ok toks /\ In tok toks /\
  t_type tok <> TEOF /\ line_for_pos Release (l_pos (s_start (t_span tok))) text = Ok quoted /\
  caret (l_col (s_start (t_span tok))) (l_col (s_end (t_span tok))) quoted "" = "      ^" /\
  l_pos (s_end (t_span tok)) - l_pos (s_start (t_span tok)) = 6 /\ quoted = ".byte ""ab".
Proof.
  exists (".byte ""ab" ++ lf ++ "c"" ; z")%string. eexists.
  exists (mkToken (TString ("ab" ++ lf ++ "c")) (mkSpan (mkLoc 0 6 1 6) (mkLoc 0 12 2 2))). eexists.
  split; [vm_compute; reflexivity|]. split; [right; left; reflexivity|]. split; [discriminate|].
  split; [vm_compute; reflexivity|]. split; [vm_compute; reflexivity|]. split; [reflexivity|]. reflexivity.
Qed.
Print Assumptions C49_every_token_refuted.
