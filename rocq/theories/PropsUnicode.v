(** C70: source text that is not ASCII. *)
From Coq Require Import ZArith List String Ascii Bool Arith Lia.
From Verif Require Import Base Expr Lexer CHeader Unicode SpecUnicode.
From Verif Require SpecLex LexProofs UnicodeProofs UnicodeProofs2 UnicodeProofs3 UnicodeProofs4.
Import ListNotations.
Open Scope string_scope.
Open Scope list_scope.
Local Open Scope nat_scope.

(** On ASCII text, whose clusters are its characters and CR LF, both lexers give what the lexers on bytes give. *)
Theorem C70_ascii : forall seg f text fuel, (forall t, every low t -> ascii_clusters t (seg t)) -> every low text -> String.length text < fuel ->
  lex_input_u seg fuel (new_input f text) = lex_input (new_input f text) /\
  header_tokens_u seg fuel (new_input f text) = lex_for_ws skip_c (new_input f text).
Proof.
  intros seg f text fuel SG L LT. pose proof (SG text L) as A. remember (seg text) as ps eqn:PS. clear PS.
  assert (J := UnicodeProofs4.ac_joined _ _ A). assert (T := UnicodeProofs4.ac_tidy _ _ A).
  assert (S : forall a b, ps = a ++ b -> seg (joined b) = b).
  { intros a b ->. apply UnicodeProofs4.ac_suffix in A. apply (UnicodeProofs4.ac_det (joined b)); [exact A|]. apply SG. now apply (UnicodeProofs4.ac_low _ b). }
  assert (W := UnicodeProofs4.ac_no_wide _ _ A). rewrite <- J in LT, L |- *. split.
  - destruct (UnicodeProofs4.asm_text seg ps f S T fuel LT) as [H|[_ H]]; [|contradiction]. now apply (UnicodeProofs4.ac_agree f _ _ _ _ A).
  - destruct (UnicodeProofs4.c_text seg ps f S T fuel LT) as [H|[[_ H]|[_ H]]]; [|contradiction|contradiction]. now apply (UnicodeProofs4.ac_agree f _ _ _ _ A).
Qed.
Print Assumptions C70_ascii.

(** Text in which nothing is combined with an ASCII character is read as by the lexer on bytes: the tokens are the same and stand
    behind the same clusters, a number that is too large crashes, and where no white space of Unicode is written, what cannot be read is
    the same. *)
Theorem C70_text : forall seg f text ps fuel, clusters_of seg text ps -> tidy ps -> String.length text < fuel ->
  match lex_input (new_input f text) with
  | Ok ts => exists us, lex_input_u seg fuel (new_input f text) = Ok us /\ Forall2 (same_token f ps) ts us
  | Err e => no_wide_space ps -> lex_input_u seg fuel (new_input f text) = Err e
  | Panic => lex_input_u seg fuel (new_input f text) = Panic
  | Diverge => False
  end.
Proof.
  intros seg f text ps fuel [<- S] T L. destruct (UnicodeProofs4.asm_text seg ps f S T fuel L) as [H|[(e & H) N]].
  - destruct (lex_input (new_input f (joined ps))); auto.
  - rewrite H. intros W. contradiction.
Qed.
Print Assumptions C70_text.

(** The same for C headers, which moreover may crash. *)
Theorem C70_header : forall seg f text ps fuel, clusters_of seg text ps -> tidy ps -> String.length text < fuel ->
  header_tokens_u seg fuel (new_input f text) = Panic \/
  match lex_for_ws skip_c (new_input f text) with
  | Ok ts => exists us, header_tokens_u seg fuel (new_input f text) = Ok us /\ Forall2 (same_token f ps) ts us
  | Err e => no_wide_space ps -> header_tokens_u seg fuel (new_input f text) = Err e
  | Panic | Diverge => False
  end.
Proof.
  intros seg f text ps fuel [<- S] T L. destruct (UnicodeProofs4.c_text seg ps f S T fuel L) as [H|[[(e & H) N]|[H _]]]; [|right|now left].
  - destruct (lex_for_ws skip_c (new_input f (joined ps))) as [ts|e| |]; auto.
  - rewrite H. intros W. contradiction.
Qed.
Print Assumptions C70_header.

(** Bytes and lines of a place are those of the place in bytes. *)
Theorem C70_places : forall f a b, tidy (a ++ b) ->
  l_pos (cluster_place f a) = l_pos (SpecLex.place f (joined a)) /\ l_line (cluster_place f a) = l_line (SpecLex.place f (joined a)).
Proof. intros f a b T. split; [reflexivity|]. cbn. now rewrite (UnicodeProofs4.breaks_prefix a b T). Qed.
Print Assumptions C70_places.

(** Lexing need not end: a letter that is combined with a mark is read as a name again and again. *)
Theorem C70_hangs : forall seg c m rest tail f fuel, SpecLex.name_start c -> m <> "" -> every (fun d => ~ low d) m ->
  seg (String c (m ++ rest)) = String c m :: tail ->
  lex_input_u seg fuel (new_input f (String c (m ++ rest))) = Diverge.
Proof. intros. now apply (UnicodeProofs4.hang seg c m rest tail). Qed.
Print Assumptions C70_hangs.

(** A character that is not ASCII crashes the reading of a C header when it stands in a comment of the form [/* */]. *)
Theorem C70_header_crash : forall seg f body lead cont rest fuel, every low body -> (forall p q, body <> (p ++ "*/" ++ q)%string) ->
  192 <= nat_of_ascii lead -> 128 <= nat_of_ascii cont < 192 ->
  header_tokens_u seg (S fuel) (new_input f ("/*" ++ body ++ String lead (String cont rest))) = Panic.
Proof.
  intros seg f body lead cont rest fuel L N HL HC. apply UnicodeProofs4.block_crash; auto.
  - unfold low. lia.
  - unfold inside_char, between. apply andb_true_iff. split; apply Nat.leb_le; [change (nat_of_ascii "128") with 128|change (nat_of_ascii "191") with 191]; lia.
Qed.
Print Assumptions C70_header_crash.

(** * Examples *)

(** Characters for clusters; the mark U+0301 is joined to what stands before it. *)
Fixpoint chars (s : string) : list string :=
  match s with
  | EmptyString => []
  | String c t =>
      match chars t with
      | [] => [String c ""]
      | String d u :: r =>
          if (Nat.leb 128 (nat_of_ascii d) && Nat.ltb (nat_of_ascii d) 192)%bool then String c (String d u) :: r
          else if (Ascii.eqb d "204" && String.prefix (String "129" "") u)%bool then String c (String d u) :: r
          else if (Ascii.eqb c CR && Ascii.eqb d LF)%bool then String c (String d u) :: r
          else String c "" :: String d u :: r
      | "" :: r => String c "" :: r
      end
  end.

Lemma chars_low t : every low t -> ascii_clusters t (chars t).
Proof.
  assert (X : forall t, every low t -> ascii_clusters t (chars t) /\
    (forall c u, t = String c u -> exists r, chars t = String c "" :: r \/ (c = CR /\ exists v, u = String LF v /\ chars t = String CR (String LF "") :: r /\ ascii_clusters v r))).
  { clear t. induction t as [|c t IH]; intros L; [split; [constructor|intros; discriminate]|]. destruct L as [L1 L2]. destruct (IH L2) as [A B]. clear IH.
    destruct t as [|d t].
    - cbn. split; [apply ac_one; [exact L1|intros _ u X; discriminate|constructor]|]. intros x u [= <- <-]. eexists. left. reflexivity.
    - destruct L2 as [L2 L3]. assert (ND : (Nat.leb 128 (nat_of_ascii d) && Nat.ltb (nat_of_ascii d) 192)%bool = false).
      { unfold low in L2. destruct (Nat.leb_spec 128 (nat_of_ascii d)); [lia|reflexivity]. }
      assert (NM : Ascii.eqb d "204" = false) by (apply Ascii.eqb_neq; intros ->; unfold low in L2; vm_compute in L2; lia).
      destruct (B d t eq_refl) as (r & [E|(-> & v & -> & E & V)]).
      + change (chars (String c (String d t))) with (match chars (String d t) with
          | [] => [String c ""]
          | String d u :: r => if (Nat.leb 128 (nat_of_ascii d) && Nat.ltb (nat_of_ascii d) 192)%bool then String c (String d u) :: r
              else if (Ascii.eqb d "204" && String.prefix (String "129" "") u)%bool then String c (String d u) :: r
              else if (Ascii.eqb c CR && Ascii.eqb d LF)%bool then String c (String d u) :: r else String c "" :: String d u :: r
          | "" :: r => String c "" :: r end). rewrite E in A |- *. rewrite ND, NM. cbn [andb].
        destruct (Ascii.eqb c CR && Ascii.eqb d LF)%bool eqn:CL.
        * apply andb_true_iff in CL as [X Y]. apply Ascii.eqb_eq in X, Y. subst c d. inversion A as [|? ? ? E2|x y z P Q R]; subst. split; [now apply ac_crlf|].
          intros x u [= <- <-]. exists r. right. split; [reflexivity|]. exists t. auto.
        * split; [|intros x u [= <- <-]; eexists; left; reflexivity]. apply ac_one; [exact L1| |exact A]. intros -> u [= -> _]. cbn in CL. discriminate.
      + change (chars (String c (String CR (String LF v)))) with (match chars (String CR (String LF v)) with
          | [] => [String c ""]
          | String d u :: r => if (Nat.leb 128 (nat_of_ascii d) && Nat.ltb (nat_of_ascii d) 192)%bool then String c (String d u) :: r
              else if (Ascii.eqb d "204" && String.prefix (String "129" "") u)%bool then String c (String d u) :: r
              else if (Ascii.eqb c CR && Ascii.eqb d LF)%bool then String c (String d u) :: r else String c "" :: String d u :: r
          | "" :: r => String c "" :: r end). rewrite E in A |- *. cbn [nat_of_ascii]. rewrite ND, NM. cbn [andb].
        replace (Ascii.eqb CR LF) with false by reflexivity. rewrite andb_false_r.
        split; [|intros x u [= <- <-]; eexists; left; reflexivity]. apply ac_one; [exact L1| |exact A]. intros -> u [= X]. }
  intros L. now apply X.
Qed.

(** A comment and a string with U+00E9, after a line that ends in CR LF. *)
Definition accents : string := "; " ++ String "195" (String "169" (String CR (String LF ("p ""x" ++ String "195" (String "169" """ q"))))).

Example C70_ex_clusters : clusters_of chars accents (chars accents) /\ tidy (chars accents) /\ no_wide_space (chars accents).
Proof.
  assert (H : forall a b, chars accents = a ++ b -> chars (joined b) = b /\ space_at (joined b) <= 1).
  { intros a b E. let v := eval vm_compute in (chars accents) in change (chars accents) with v in E.
    repeat (destruct a as [|? a]; [cbn in E; subst b; vm_compute; split; [reflexivity|lia] | cbn in E; injection E as <- E]).
    destruct a; [cbn in E; subst b; vm_compute; split; [reflexivity|lia]|discriminate]. }
  split; [split; [vm_compute; reflexivity|intros a b E; now apply (H a b)]|]. split.
  - vm_compute. repeat first [ apply tidy_none | apply tidy_crlf | apply tidy_ascii; [unfold low; vm_compute; lia|intros X; discriminate X|]
      | apply tidy_other; [discriminate|repeat split; intros X; unfold low in X; vm_compute in X; lia|] ].
  - intros a b E (l & t & I & W). specialize (H a b E) as [_ H]. rewrite W in H. unfold wide_spaces in I. cbn in I.
    repeat (destruct I as [<-|I]; [vm_compute in H; lia|]). contradiction.
Qed.

(** The quote behind the accent is the sixth cluster of the line, but the seventh byte. *)
Example C70_ex_text : match lex_input_u chars 20 (new_input 0 accents) with
  | Ok us => map (fun t => (l_line (s_end (t_span t)), l_pos (s_end (t_span t)), l_col (s_end (t_span t)))) us = [(2, 7, 1); (2, 13, 6); (2, 15, 8); (2, 15, 8)]
  | _ => False end.
Proof. vm_compute. reflexivity. Qed.

Example C70_ex_places : tidy ([String CR (String LF "")] ++ [String "195" (String "169" "")]) /\ l_line (cluster_place 0 [String CR (String LF "")]) = 2.
Proof.
  split; [|reflexivity]. cbn. apply tidy_crlf, tidy_other; [discriminate| |constructor]. repeat split; intros X; unfold low in X; vm_compute in X; lia.
Qed.

Example C70_ex_ascii : lex_input_u chars 9 (new_input 0 ("p ,q" ++ String LF "r")) = lex_input (new_input 0 ("p ,q" ++ String LF "r")).
Proof.
  refine (proj1 (C70_ascii chars 0 ("p ,q" ++ String LF "r") 9 chars_low _ _)); [|cbn; lia].
  cbn [every append]. repeat split; unfold low; vm_compute; lia.
Qed.

(** The letter x with U+0301. *)
Example C70_ex_hangs : forall fuel, lex_input_u chars fuel (new_input 0 (String "x" (String "204" (String "129" "")))) = Diverge.
Proof.
  intros fuel. apply (C70_hangs chars "x" (String "204" (String "129" "")) "" [] 0 fuel); [|discriminate| |vm_compute; reflexivity].
  - apply LexProofs3.name_start_iff. reflexivity.
  - repeat split; intros X; unfold low in X; vm_compute in X; lia.
Qed.

(** A header with a comment that contains U+00E9. *)
Example C70_ex_crash : header_tokens_u chars 30 (new_input 0 ("/* caf" ++ String "195" (String "169" " */"))) = Panic.
Proof.
  apply (C70_header_crash chars 0 " caf" "195" "169" " */" 29).
  - repeat split; unfold low; vm_compute; lia.
  - intros p q E. do 5 (destruct p as [|? p]; [cbn in E; discriminate E|cbn in E; injection E as _ E || discriminate E]); discriminate E.
  - vm_compute. lia.
  - vm_compute. lia.
Qed.

(** A no-break space (U+00A0) is skipped, which the lexer on bytes refuses. *)
Example C70_ex_space : lex_input (new_input 0 (String "194" (String "160" "p"))) = Err (UnexpectedChar 0) /\
  match lex_input_u chars 5 (new_input 0 (String "194" (String "160" "p"))) with Ok us => map t_type us = [TName "p"; TEOF] | _ => False end.
Proof. vm_compute. split; reflexivity. Qed.

(** So it is not true that lexing ends, nor that headers are read without a crash wherever the lexer on bytes reads them. *)
Theorem C70_ends_refuted : exists seg text, (forall t, every low t -> ascii_clusters t (seg t)) /\ forall f fuel, lex_input_u seg fuel (new_input f text) = Diverge.
Proof.
  exists chars, (String "x" (String "204" (String "129" ""))). split; [exact chars_low|]. intros f fuel.
  apply (C70_hangs chars "x" (String "204" (String "129" "")) "" [] f fuel); [|discriminate| |vm_compute; reflexivity].
  - apply LexProofs3.name_start_iff. reflexivity.
  - repeat split; intros X; unfold low in X; vm_compute in X; lia.
Qed.
Print Assumptions C70_ends_refuted.

Theorem C70_header_refuted : exists seg text ps ts, clusters_of seg text ps /\ tidy ps /\ no_wide_space ps /\
  (forall f, exists p, lex_for_ws skip_c (new_input f text) = Ok [mkToken ts p]) /\ forall f fuel, header_tokens_u seg (S fuel) (new_input f text) = Panic.
Proof.
  pose (cafe := ("/*" ++ "f" ++ String "195" (String "169" "*/"))%string).
  assert (H : forall a b, chars cafe = a ++ b -> chars (joined b) = b /\ space_at (joined b) <= 1).
  { intros a b E. let v := eval vm_compute in (chars cafe) in change (chars cafe) with v in E.
    repeat (destruct a as [|? a]; [cbn in E; subst b; vm_compute; split; [reflexivity|lia] | cbn in E; injection E as <- E]).
    destruct a; [cbn in E; subst b; vm_compute; split; [reflexivity|lia]|discriminate]. }
  exists chars, cafe, (chars cafe), TEOF. split; [|split; [|split; [|split]]].
  - split; [vm_compute; reflexivity|intros a b E; now apply (H a b)].
  - vm_compute. repeat first [ apply tidy_none | apply tidy_crlf | apply tidy_ascii; [unfold low; vm_compute; lia|intros X; discriminate X|]
      | apply tidy_other; [discriminate|repeat split; intros X; unfold low in X; vm_compute in X; lia|] ].
  - intros a b E (l & t & I & W). specialize (H a b E) as [_ H]. rewrite W in H. unfold wide_spaces in I. cbn in I.
    repeat (destruct I as [<-|I]; [vm_compute in H; lia|]). contradiction.
  - intros f. eexists. vm_compute. reflexivity.
  - intros f fuel. apply (C70_header_crash chars f "f" "195" "169" "*/" fuel).
    + split; [unfold low; vm_compute; lia|exact Logic.I].
    + intros p q E. destruct p as [|? [|? p]]; discriminate E.
    + vm_compute. lia.
    + vm_compute. lia.
Qed.
Print Assumptions C70_header_refuted.
