(** Proofs about quoting source lines. *)
From Coq Require Import ZArith List String Ascii Bool Arith Lia.
From Verif Require Import Base Lexer SpecLex LexProofs LexProofs3 LexProofs5 Report SpecReport.
Import ListNotations.
Open Scope string_scope.
Open Scope list_scope.
Local Open Scope nat_scope.

Lemma get_app_lt : forall a b n, n < String.length a -> get n (a ++ b) = get n a.
Proof. induction a; simpl; intros b n L; [lia|]. destruct n; auto. apply IHa. lia. Qed.

Lemma get_app_ge : forall a b n, get (String.length a + n) (a ++ b) = get n b.
Proof. induction a; simpl; auto. Qed.

Lemma last_split : forall s, s <> "" -> exists p c, s = (p ++ String c "")%string.
Proof.
  induction s as [|a s IH]; [congruence|]. intros _. destruct s as [|b s].
  - exists "", a. reflexivity.
  - destruct IH as (p & c & ->); [discriminate|]. exists (String a p), c. reflexivity.
Qed.

(** Going back through a piece without line feeds reaches its start. *)
Lemma start_back : forall left pre rest, line_start pre -> all_chars (fun c => c <> LF) left ->
  start_of_line (String.length (pre ++ left)) (pre ++ left ++ rest) = Ok (String.length pre).
Proof.
  intros left. remember (String.length left) as n eqn:N. revert left N.
  induction n as [|n IH]; intros left N pre rest LS NL.
  - destruct left; [|discriminate]. cbn [append]. rewrite app_nil_r_s.
    destruct LS as [->|(p & ->)]; [reflexivity|].
    rewrite app_length_s. cbn [String.length]. rewrite Nat.add_1_r. cbn [start_of_line].
    rewrite app_assoc_s. cbn [append].
    replace (get (String.length p) (p ++ String "010" rest)) with (Some LF) by (symmetry; apply get_app).
    rewrite Ascii.eqb_refl. f_equal. 
  - destruct (last_split left) as (p & c & ->); [intros ->; discriminate|].
    apply all_chars_app in NL as [NP [NC _]]. rewrite app_length_s in N. cbn in N.
    rewrite !app_length_s. cbn [String.length].
    replace (String.length pre + (String.length p + 1)) with (S (String.length (pre ++ p))) by (rewrite app_length_s; lia).
    cbn [start_of_line]. rewrite app_assoc_s. cbn [append].
    replace (get (String.length (pre ++ p)) (pre ++ p ++ String c rest)) with (Some c).
    2:{ rewrite <- app_assoc_s. symmetry. apply get_app. }
    rewrite (proj2 (Ascii.eqb_neq c LF)) by auto. apply IH; auto. lia.
Qed.

Lemma start_total : forall pos text, pos <= String.length text -> exists pre left rest,
  text = (pre ++ left ++ rest)%string /\ pos = String.length (pre ++ left) /\ line_start pre /\
  all_chars (fun c => c <> LF) left.
Proof.
  induction pos as [|pos IH]; intros text L.
  - exists "", "", text. repeat split. now left.
  - destruct (IH text) as (pre & left & rest & -> & E & LS & NL); [lia|].
    destruct rest as [|c rest].
    { rewrite !app_length_s in *. cbn in L. lia. }
    destruct (ascii_dec c LF) as [->|N].
    + exists (pre ++ left ++ String LF "")%string, "", rest. cbn [append]. rewrite !app_assoc_s. cbn [append].
      split; [reflexivity|]. split; [rewrite E, !app_length_s; cbn; lia|]. split; [|cbn; auto].
      right. exists (pre ++ left)%string. now rewrite app_assoc_s.
    + exists pre, (left ++ String c "")%string, rest. rewrite !app_assoc_s. cbn [append].
      split; [reflexivity|]. split; [rewrite E, !app_length_s; cbn; lia|]. split; auto.
      apply all_chars_app. cbn. auto.
Qed.

(** What the loop forwards measures: a line break at the very end of the text does not count. *)
Fixpoint quote_len (s : string) : nat :=
  match s with
  | EmptyString => 0
  | String c t =>
      match t with
      | EmptyString => 1
      | String d t2 =>
          if Ascii.eqb c LF then 0
          else if (Ascii.eqb c CR && Ascii.eqb d LF)%bool then
            match t2 with EmptyString => 2 | _ => 0 end
          else S (quote_len t)
      end
  end.

Lemma quote_len_two : forall c d t, quote_len (String c (String d t)) =
  if Ascii.eqb c LF then 0
  else if (Ascii.eqb c CR && Ascii.eqb d LF)%bool then match t with EmptyString => 2 | _ => 0 end
  else S (quote_len (String d t)).
Proof. reflexivity. Qed.

Lemma ends_here_two : forall pr a c d t, ends_here pr (String.length a) (a ++ String c (String d t)) =
  Ok (Ascii.eqb c LF || (match t with EmptyString => false | _ => true end && Ascii.eqb c CR && Ascii.eqb d LF))%bool.
Proof.
  intros. unfold ends_here. rewrite get_app. rewrite app_length_s. cbn [String.length].
  replace (get (S (String.length a)) (a ++ String c (String d t))) with (Some d).
  2:{ replace (S (String.length a)) with (String.length a + 1) by lia. now rewrite get_app_ge. }
  rewrite (proj2 (Z.ltb_lt _ _)) by lia. cbn [andb].
  destruct (Ascii.eqb c LF); [reflexivity|]. cbn [orb].
  unfold len_minus_2. rewrite (proj2 (Z.leb_le _ _)) by lia. cbn [bind].
  destruct t as [|e t]; cbn [String.length].
  - rewrite (proj2 (Z.ltb_ge _ _)) by lia. reflexivity.
  - rewrite (proj2 (Z.ltb_lt _ _)) by lia. cbn [andb]. destruct (Ascii.eqb c CR); reflexivity.
Qed.

Lemma ends_here_one : forall pr a c, a <> "" -> ends_here pr (String.length a) (a ++ String c "") = Ok false.
Proof.
  intros pr a c NE. unfold ends_here. rewrite get_app. rewrite app_length_s. cbn [String.length].
  rewrite (proj2 (Z.ltb_ge _ _)) by lia. cbn [andb]. unfold len_minus_2.
  assert (String.length a <> 0) by (destruct a; [congruence|discriminate]).
  rewrite (proj2 (Z.leb_le _ _)) by lia. cbn [bind]. rewrite (proj2 (Z.ltb_ge _ _)) by lia. reflexivity.
Qed.

Lemma end_loop_ok : forall pr b a n, 2 <= String.length (a ++ b) -> String.length b < n ->
  end_loop pr n (String.length a) (a ++ b) = Ok (String.length a + quote_len b).
Proof.
  intros pr b. remember (String.length b) as m eqn:M. revert b M.
  induction m as [m IH] using lt_wf_ind. intros b M a n L F. destruct n as [|n]; [lia|]. cbn [end_loop].
  destruct b as [|c [|d t]].
  - rewrite app_nil_r_s, Nat.ltb_irrefl. cbn. now rewrite Nat.add_0_r.
  - rewrite (proj2 (Nat.ltb_lt _ _)) by (rewrite app_length_s; cbn; lia).
    rewrite ends_here_one by (intros X; rewrite X in L; cbn in L; lia). cbn [bind quote_len].
    destruct n; [cbn in M; lia|]. cbn [end_loop].
    rewrite (proj2 (Nat.ltb_ge _ _)) by (rewrite app_length_s; cbn; lia). f_equal. lia.
  - rewrite (proj2 (Nat.ltb_lt _ _)) by (rewrite app_length_s; cbn; lia).
    rewrite ends_here_two. cbn [bind]. rewrite quote_len_two.
    assert (STEP: end_loop pr n (S (String.length a)) (a ++ String c (String d t)) = Ok (S (String.length a) + quote_len (String d t))).
    { replace (S (String.length a)) with (String.length (a ++ String c "")) by (rewrite app_length_s; cbn; lia).
      replace (a ++ String c (String d t))%string with ((a ++ String c "") ++ String d t)%string by (now rewrite app_assoc_s).
      apply (IH (String.length (String d t))); auto.
      - cbn in *. lia.
      - rewrite !app_length_s in *. cbn in *. lia.
      - cbn in *. lia. }
    destruct (Ascii.eqb c LF) eqn:CL; cbn [orb]; [f_equal; lia|].
    destruct t as [|e t]; cbn [andb].
    + rewrite STEP. cbn [quote_len]. destruct (_ && _)%bool; f_equal; lia.
    + destruct (Ascii.eqb c CR && Ascii.eqb d LF)%bool eqn:CD; [f_equal; lia|].
      rewrite STEP. f_equal. lia.
Qed.

Lemma quote_len_le : forall s, quote_len s <= String.length s.
Proof.
  intros s. remember (String.length s) as n eqn:N. revert s N. induction n as [n IH] using lt_wf_ind.
  intros [|c [|d t]] N; try (cbn in *; lia). rewrite quote_len_two.
  destruct (Ascii.eqb c LF); [lia|]. destruct (_ && _)%bool; [destruct t; cbn in *; lia|].
  specialize (IH (String.length (String d t)) ltac:(cbn in *; lia) (String d t) eq_refl). cbn [String.length] in *. lia.
Qed.

(** It agrees with the rest of the line unless only a line break follows. *)
Lemma quote_len_line : forall body post, rest_of_line body post -> ~ only_break post ->
  quote_len (body ++ post) = String.length body.
Proof.
  induction body as [|c body IH]; intros post R NB.
  - destruct R as [[->|[(t & ->)|(t & ->)]] _]; cbn [append]; [reflexivity| |].
    + destruct t; [exfalso; apply NB; now left|reflexivity].
    + destruct t; [exfalso; apply NB; now right|reflexivity].
  - assert (R2: rest_of_line body post).
    { destruct R as [A N]. split; auto. intros p q E. apply (N (String c p) q). cbn. now rewrite E. }
    assert (NE: ~ at_eol (String c body ++ post)) by (destruct R as [_ N]; apply (N "" (String c body)); [reflexivity|discriminate]).
    specialize (IH post R2 NB). cbn [append String.length] in *. rewrite <- IH.
    destruct (body ++ post)%string as [|d t]; [reflexivity|].
    rewrite quote_len_two.
    destruct (Ascii.eqb c LF) eqn:E; [exfalso; apply NE; apply eqb_true in E; subst; right; left; eexists; reflexivity|].
    destruct (_ && _)%bool eqn:E2; [|reflexivity].
    apply andb_true_iff in E2 as [E2 E3]. apply eqb_true in E2, E3. subst. exfalso. apply NE. right. right. eexists. reflexivity.
Qed.

Lemma quote_len_last : forall body post, rest_of_line body post -> only_break post ->
  quote_len (body ++ post) = String.length (body ++ post).
Proof.
  induction body as [|c body IH]; intros post R NB.
  - destruct NB as [->| ->]; reflexivity.
  - assert (R2: rest_of_line body post).
    { destruct R as [A N]. split; auto. intros p q E. apply (N (String c p) q). cbn. now rewrite E. }
    assert (NE: ~ at_eol (String c body ++ post)) by (destruct R as [_ N]; apply (N "" (String c body)); [reflexivity|discriminate]).
    specialize (IH post R2 NB). cbn [append String.length] in *. rewrite <- IH.
    destruct (body ++ post)%string as [|d t] eqn:BP; [reflexivity|].
    rewrite quote_len_two.
    destruct (Ascii.eqb c LF) eqn:E; [exfalso; apply NE; apply eqb_true in E; subst; right; left; eexists; reflexivity|].
    destruct (_ && _)%bool eqn:E2; [|reflexivity].
    apply andb_true_iff in E2 as [E2 E3]. apply eqb_true in E2, E3. subst. exfalso. apply NE. right. right. eexists. reflexivity.
Qed.

Lemma line_no_lf : forall body post, rest_of_line body post -> all_chars (fun c => c <> LF) body.
Proof.
  induction body as [|c body IH]; intros post [A N]; cbn; auto. split.
  - intros ->. apply (N "" (String LF body)); [reflexivity|discriminate|]. right. left. eexists. reflexivity.
  - apply (IH post). split; auto. intros p q E. apply (N (String c p) q). cbn. now rewrite E.
Qed.

Lemma tail_line : forall left right post, rest_of_line (left ++ right) post -> rest_of_line right post.
Proof. intros left right post [A N]. split; auto. intros p q ->. apply (N (left ++ p)%string q). now rewrite app_assoc_s. Qed.

Lemma quote_at : forall pr pre left rest, line_start pre -> all_chars (fun c => c <> LF) left ->
  2 <= String.length (pre ++ left ++ rest) ->
  line_for_pos pr (String.length (pre ++ left)) (pre ++ left ++ rest) =
  Ok (substring (String.length pre) (String.length left + quote_len rest) (pre ++ left ++ rest)).
Proof.
  intros pr pre left rest LS NL L. unfold line_for_pos. rewrite start_back by auto. cbn [bind].
  unfold end_of_line. rewrite <- app_assoc_s. rewrite end_loop_ok.
  2:{ rewrite app_assoc_s. exact L. } 2:{ rewrite (app_length_s (pre ++ left)). lia. }
  cbn [bind]. assert (Q := quote_len_le rest). rewrite !app_length_s.
  rewrite (proj2 (Nat.leb_le _ _)) by lia. rewrite (proj2 (Nat.leb_le _ _)) by lia. cbn [andb].
  f_equal. f_equal. lia.
Qed.

Lemma substring_mid : forall a b c, substring (String.length a) (String.length b) (a ++ b ++ c) = b.
Proof. induction a; cbn; intros; [apply substring_app|auto]. Qed.

Lemma all_chars_prefix : forall P a b, all_chars P (a ++ b) -> all_chars P a.
Proof. intros P a b H. now apply all_chars_app in H as [H _]. Qed.

Lemma on_line_split : forall pos pre line, on_line pos pre line -> exists left right,
  line = (left ++ right)%string /\ pos = String.length (pre ++ left).
Proof.
  intros pos pre line [A B]. destruct (split_at (pos - String.length pre) line) as (l & r & E & N); [lia|].
  exists l, r. split; auto. rewrite app_length_s. lia.
Qed.

Lemma quotes_line : forall pr pos pre line post, one_line pre line post -> on_line pos pre line ->
  2 <= String.length (pre ++ line ++ post) ->
  line_for_pos pr pos (pre ++ line ++ post) =
  Ok (if in_dec string_dec post [String LF ""; String CR (String LF "")] then line ++ post else line)%string.
Proof.
  intros pr pos pre line post [LS R] O L. destruct (on_line_split _ _ _ O) as (l & r & -> & ->).
  assert (NL := line_no_lf _ _ R). rewrite !app_assoc_s in *. rewrite quote_at; auto.
  2:{ exact (all_chars_prefix _ _ _ NL). }
  apply tail_line in R. f_equal. destruct (in_dec _ _ _) as [I|I].
  - rewrite quote_len_last; auto.
    2:{ destruct I as [<-|[<-|[]]]; [now left|now right]. }
    rewrite <- app_length_s. rewrite <- (app_nil_r_s (l ++ r ++ post)) at 2. rewrite substring_mid. now rewrite ?app_assoc_s.
  - rewrite quote_len_line; auto.
    2:{ intros [->| ->]; apply I; cbn; auto. }
    rewrite <- app_length_s. rewrite <- (app_assoc_s l r post). apply substring_mid.
Qed.

(** One byte. *)
Lemma one_byte : forall pr c, line_for_pos pr 0 (String c "") =
  match pr with Debug => Panic | Release => if Ascii.eqb c CR then Panic else Ok (String c "") end.
Proof.
  intros pr c. unfold line_for_pos, end_of_line. cbn [start_of_line bind String.length Nat.sub end_loop Nat.ltb Nat.leb].
  unfold ends_here. cbn. destruct pr; [reflexivity|]. cbn. destruct (Ascii.eqb c CR); reflexivity.
Qed.

Lemma beyond : forall pr pos text, String.length text < pos -> line_for_pos pr pos text = Panic.
Proof.
  intros pr pos text L. unfold line_for_pos. destruct pos; [lia|]. cbn [start_of_line].
  replace (get pos text) with (@None ascii); auto.
  symmetry. assert (G: forall s n, String.length s <= n -> get n s = None).
  { induction s; cbn; intros; auto. destruct n; [lia|]. apply IHs. lia. }
  apply G. lia.
Qed.

(** * The caret line *)

Lemma times_carets : forall n, times n "^" = carets n.
Proof. induction n; cbn; auto. now rewrite <- IHn. Qed.

Definition no_pair (s : string) : Prop := forall a b, s <> (a ++ String CR (String LF b))%string.

Lemma no_pair_tail : forall c s, no_pair (String c s) -> no_pair s.
Proof. intros c s N a b ->. apply (N (String c a) b). reflexivity. Qed.

Lemma graphemes_cons : forall c t, no_pair (String c t) -> graphemes (String c t) = String c "" :: graphemes t.
Proof.
  intros c t N. cbn [graphemes]. destruct t as [|d t]; auto. destruct (_ && _)%bool eqn:E; auto.
  apply andb_true_iff in E as [E1 E2]. apply eqb_true in E1, E2. subst. exfalso. apply (N "" t). reflexivity.
Qed.

Lemma no_lf_no_pair : forall s, all_chars (fun c => c <> LF) s -> no_pair s.
Proof. intros s H a b ->. apply all_chars_app in H as [_ [_ [H _]]]. congruence. Qed.

Lemma margin_char : forall c, (if one_blank (String c "") then String c "" else " ")%string =
  String (if in_dec ascii_dec c ["009"; "010"; "011"; "012"; "013"; " "]%char then c else " ") "".
Proof.
  intros c. cbn [one_blank]. assert (B := is_space_blank c). unfold blank in B.
  destruct (in_dec _ _ _) as [I|I].
  - now rewrite (proj2 B I).
  - destruct (is_space c); auto. exfalso. apply I, B. reflexivity.
Qed.

Lemma graphemes_app : forall w rest, all_chars (fun c => c <> LF) w -> cut_ok w rest = true ->
  graphemes (w ++ rest) = map (fun c => String c "") (list_ascii_of_string w) ++ graphemes rest.
Proof.
  induction w as [|c w IH]; intros rest [NC NL] CU || intros rest NL CU; [reflexivity|].
  cbn [append list_ascii_of_string map List.app]. destruct w as [|d w].
  - cbn [append list_ascii_of_string map List.app]. destruct rest as [|e rest]; [reflexivity|]. cbn [graphemes].
    cbn in CU. destruct (Ascii.eqb c CR && Ascii.eqb e LF)%bool; [discriminate|reflexivity].
  - rewrite <- IH; [|exact NL|rewrite <- CU; symmetry; apply cut_ok_cons; discriminate].
    cbn [append graphemes]. destruct (Ascii.eqb c CR && Ascii.eqb d LF)%bool eqn:E; [|reflexivity].
    apply andb_true_iff in E as [_ E]. apply eqb_true in E. destruct NL. congruence.
Qed.

(** Left of the token. *)
Lemma caret_margin : forall left gs col start stop, col + String.length left = start ->
  caret_loop (map (fun c => String c "") (list_ascii_of_string left) ++ gs) col start stop =
  ((margin left ++ fst (caret_loop gs start start stop))%string, snd (caret_loop gs start start stop)).
Proof.
  induction left as [|c left IH]; intros gs col start stop E; cbn [list_ascii_of_string map List.app margin append].
  - cbn in E. rewrite Nat.add_0_r in E. subst. now destruct (caret_loop gs start start stop).
  - cbn [String.length] in E. cbn [caret_loop]. rewrite (proj2 (Nat.ltb_lt _ _)) by lia.
    rewrite (IH gs (S col) start stop) by lia. rewrite margin_char. reflexivity.
Qed.

(** Under the token. *)
Lemma caret_under : forall lit gs col start stop, start <= col -> start < stop -> col + String.length lit = stop ->
  caret_loop (map (fun c => String c "") (list_ascii_of_string lit) ++ gs) col start stop = (carets (String.length lit), stop) \/
  (lit = "" /\ col = start).
Proof.
  induction lit as [|c lit IH]; intros gs col start stop L1 L2 E; cbn [list_ascii_of_string map List.app String.length carets].
  - cbn in E. rewrite Nat.add_0_r in E. subst. left. destruct gs; cbn [caret_loop]; auto.
    rewrite (proj2 (Nat.ltb_ge _ _)) by lia. rewrite (proj2 (Nat.eqb_neq _ _)) by lia. now rewrite Nat.ltb_irrefl.
  - cbn [String.length] in E. left. cbn [caret_loop]. rewrite (proj2 (Nat.ltb_ge _ _)) by lia.
    destruct (IH gs (S col) start stop) as [H|[_ H]]; try lia. rewrite H.
    destruct (Nat.eqb_spec col start); [reflexivity|]. rewrite (proj2 (Nat.ltb_lt _ _)) by lia. reflexivity.
Qed.

Lemma caret_remark : forall msg r, match msg with EmptyString => r | _ => (r ++ " " ++ msg)%string end = (r ++ remark msg)%string.
Proof. intros [|c m] r; cbn [remark]; [now rewrite app_nil_r_s|reflexivity]. Qed.

Lemma caret_token : forall left lit right msg, lit <> "" -> all_chars (fun c => c <> LF) (left ++ lit) -> cut_ok (left ++ lit) right = true ->
  caret (String.length left) (String.length left + String.length lit) (left ++ lit ++ right) msg =
  (margin left ++ carets (String.length lit) ++ remark msg)%string.
Proof.
  intros left lit right msg NE NL CU. unfold caret. rewrite <- app_assoc_s. rewrite graphemes_app by auto.
  rewrite <- (string_of_list_ascii_of_string (left ++ lit)). 
  assert (E: list_ascii_of_string (string_of_list_ascii (list_ascii_of_string (left ++ lit))) = list_ascii_of_string left ++ list_ascii_of_string lit).
  { rewrite list_ascii_of_string_of_list_ascii. clear. induction left; cbn; auto. now rewrite IHleft. }
  rewrite E, map_app, <- List.app_assoc. rewrite caret_margin by reflexivity.
  assert (0 < String.length lit) by (destruct lit; [congruence|cbn; lia]).
  destruct (caret_under lit (graphemes right) (String.length left) (String.length left) (String.length left + String.length lit)) as [H1|[H1 _]]; try lia; [|congruence].
  rewrite H1. cbn [fst snd]. rewrite (proj2 (Nat.leb_gt _ _)) by lia. rewrite caret_remark. now rewrite app_assoc_s.
Qed.

(** A place of no width. *)
Lemma caret_point : forall left right msg, all_chars (fun c => c <> LF) left -> cut_ok left right = true ->
  caret (String.length left) (String.length left) (left ++ right) msg = (margin left ++ String "^" (remark msg))%string.
Proof.
  intros left right msg NL CU. unfold caret. rewrite graphemes_app by auto. rewrite caret_margin by reflexivity.
  destruct (graphemes right) as [|g gs]; cbn [caret_loop fst snd].
  - rewrite Nat.leb_refl, Nat.sub_diag, Nat.eqb_refl. rewrite caret_remark. now rewrite app_nil_r_s, app_assoc_s.
  - rewrite Nat.ltb_irrefl, Nat.eqb_refl.
    assert (X: caret_loop gs (S (String.length left)) (String.length left) (String.length left) = ("", S (String.length left))).
    { destruct gs; cbn [caret_loop]; auto. rewrite (proj2 (Nat.ltb_ge _ _)) by lia.
      rewrite (proj2 (Nat.eqb_neq _ _)) by lia. reflexivity. }
    rewrite X. cbn [fst snd]. rewrite (proj2 (Nat.leb_gt _ _)) by lia. rewrite caret_remark. now rewrite app_assoc_s.
Qed.

(** * Tokens of a file *)

Lemma after_no_lf : forall s n, all_chars (fun c => c <> LF) s -> after_last_lf s n = n + String.length s.
Proof.
  induction s as [|c s IH]; intros n H; cbn [after_last_lf String.length]; [lia|]. destruct H as [H1 H2].
  destruct (ascii_dec "010" c) as [X|X]; [exfalso; apply H1; symmetry; exact X|]. rewrite IH by auto. lia.
Qed.

Lemma after_line_start : forall pre n, line_start pre -> pre <> "" \/ n = 0 -> after_last_lf pre n = 0.
Proof.
  intros pre n [->|(p & ->)] H; [destruct H; [congruence|subst; reflexivity]|].
  rewrite after_app. reflexivity.
Qed.

Lemma column_of : forall pre left, line_start pre -> all_chars (fun c => c <> LF) left ->
  after_last_lf (pre ++ left) 0 = String.length left.
Proof. intros pre left LS NL. rewrite after_app, (after_line_start pre 0); auto. now rewrite after_no_lf. Qed.

Lemma break_split : forall s, exists line post, s = (line ++ post)%string /\ rest_of_line line post.
Proof.
  induction s as [|c s IH].
  - exists "", "". split; auto. apply rest_of_line_len. reflexivity.
  - destruct (Nat.eq_dec (eol_len (String c s)) 0) as [Z|Z].
    + exists "", (String c s). split; auto. apply rest_of_line_len. exact Z.
    + destruct IH as (l & p & -> & R). exists (String c l), p. split; auto. apply rest_of_line_len.
      apply rest_of_line_len in R. cbn [append String.length]. rewrite eol_len_cons; auto.
Qed.

Lemma extend_line : forall w right post, all_chars (fun c => c <> LF) w -> cut_ok w (right ++ post) = true ->
  rest_of_line right post -> rest_of_line (w ++ right) post.
Proof.
  induction w as [|c w IH]; intros right post NL CU R; [exact R|].
  apply rest_of_line_len. cbn [append String.length]. destruct NL as [NC NL].
  assert (R2: rest_of_line (w ++ right) post).
  { destruct w as [|d w]; [exact R|]. apply IH; [exact NL| |exact R]. rewrite <- CU. symmetry. apply cut_ok_cons. discriminate. }
  apply rest_of_line_len in R2. rewrite eol_len_cons; [now f_equal|].
  intros Z. apply eol_len_zero in Z as [Z|[(t & Z)|(t & Z)]]; [discriminate|injection Z as Z _; exact (NC Z)|].
  injection Z as -> Z. destruct w as [|d w].
  - cbn [append] in Z. cbn [cut_ok] in CU. rewrite Z in CU. cbn in CU. discriminate.
  - cbn [append] in Z. injection Z as Z _. destruct NL as [NL _]. exact (NL Z).
Qed.

Lemma token_quoted : forall pr before lit after msg,
  lit <> "" -> all_chars (fun c => c <> LF) lit -> cut_ok lit after = true -> 2 <= String.length (before ++ lit ++ after) ->
  exists pre left right post rest quoted,
    before = (pre ++ left)%string /\ after = (right ++ post)%string /\ one_line pre (left ++ lit ++ right) post /\
    (rest = "" \/ (rest = post /\ only_break post)) /\ quoted = (left ++ lit ++ right ++ rest)%string /\
    line_for_pos pr (String.length before) (before ++ lit ++ after) = Ok quoted /\
    caret (after_last_lf before 0) (after_last_lf (before ++ lit) 0) quoted msg =
      (margin left ++ carets (String.length lit) ++ remark msg)%string.
Proof.
  intros pr before lit after msg NE NL CU L.
  destruct (start_total (String.length before) before) as (pre & left & rest0 & E & N & LS & NLL); [lia|].
  assert (rest0 = "").
  { rewrite E in N at 1. rewrite !app_length_s in N. destruct rest0; auto. cbn in N. lia. }
  subst rest0. rewrite app_nil_r_s in E.
  destruct (break_split after) as (right & post & -> & R).
  assert (R2: rest_of_line (left ++ lit ++ right) post).
  { rewrite <- app_assoc_s. apply extend_line; auto.
    - apply all_chars_app. auto.
    - rewrite cut_ok_app by auto. exact CU. }
  assert (O: on_line (String.length before) pre (left ++ lit ++ right)).
  { unfold on_line. rewrite E, !app_length_s. lia. }
  assert (ONE: one_line pre (left ++ lit ++ right) post) by (split; auto).
  assert (T: (before ++ lit ++ right ++ post)%string = (pre ++ (left ++ lit ++ right) ++ post)%string) by (rewrite E, !app_assoc_s; reflexivity).
  rewrite T in L |- *. assert (Q := quotes_line pr _ _ _ _ ONE O L).
  exists pre, left, right, post. 
  assert (C: forall rest, cut_ok (left ++ lit) (right ++ rest) = true ->
    caret (after_last_lf before 0) (after_last_lf (before ++ lit) 0) (left ++ lit ++ right ++ rest) msg =
      (margin left ++ carets (String.length lit) ++ remark msg)%string).
  { intros rest CR. rewrite E, app_assoc_s, !column_of; auto; [|apply all_chars_app; auto].
    rewrite app_length_s. apply caret_token; auto. apply all_chars_app; auto. }
  destruct (in_dec string_dec post _) as [I|I].
  - exists post. eexists. split; [exact E|]. split; [reflexivity|]. split; [exact ONE|].
    split; [right; split; auto; destruct I as [<-|[<-|[]]]; [now left|now right]|]. split; [reflexivity|].
    split; [rewrite Q; now rewrite !app_assoc_s|]. apply C. rewrite cut_ok_app by auto. exact CU.
  - exists "". eexists. split; [exact E|]. split; [reflexivity|]. split; [exact ONE|]. split; [now left|].
    split; [reflexivity|]. split; [rewrite Q; now rewrite app_nil_r_s|]. apply C. rewrite app_nil_r_s.
    rewrite cut_ok_app by auto. destruct right as [|c right]; [|destruct (last_split lit NE) as (p & x & ->); rewrite !cut_ok_app in * by discriminate; exact CU].
    destruct (last_split lit NE) as (p & x & ->). rewrite !cut_ok_app in * by discriminate. cbn [cut_ok]. reflexivity.
Qed.
