(** Proofs about text in grapheme clusters: positions. *)
From Coq Require Import ZArith List String Ascii Bool Arith Lia.
From Verif Require Import Base Expr Lexer CHeader Unicode SpecUnicode SpecLex LexProofs LexProofs2 LexProofs3.
Import ListNotations.
Open Scope string_scope.
Open Scope list_scope.
Local Open Scope nat_scope.
Local Arguments Ascii.eqb : simpl never.
Local Arguments nat_of_ascii : simpl never.

Lemma joined_app a b : joined (a ++ b) = (joined a ++ joined b)%string.
Proof. induction a as [|p t IH]; [reflexivity|]. cbn [joined app]. now rewrite IH, app_assoc_s. Qed.

Lemma drop_app a : forall b, drop_bytes (String.length a) (a ++ b) = b.
Proof. induction a as [|c t IH]; intros b; [now destruct b|]. cbn. apply IH. Qed.

Lemma after_bol : forall p b, after_lf b p = bol_after b p.
Proof. induction p as [|c t IH]; intros b; [reflexivity|]. cbn. apply IH. Qed.

Lemma tidy_cons p ps : tidy (p :: ps) -> p <> "" /\ tidy ps.
Proof. intros H. inversion H; subst; split; auto; discriminate. Qed.

Lemma tidy_app a b : tidy (a ++ b) -> tidy b.
Proof. induction a as [|p t IH]; intros H; [exact H|]. apply tidy_cons in H as [_ H]. now apply IH. Qed.

Lemma high_lf : ~ low LF -> False.
Proof. intros H. apply H. unfold low. vm_compute. lia. Qed.

Lemma high_cr : ~ low CR -> False.
Proof. intros H. apply H. unfold low. vm_compute. lia. Qed.

(** * Advancing *)

Lemma take_clusters_spec : forall a b bol pos line col, Forall (fun p => p <> "") (a ++ b) ->
  take_clusters (String.length (joined a)) (a ++ b) (joined (a ++ b)) bol pos line col =
  (joined b, bol_after bol (joined a), (pos + String.length (joined a), line + List.length (filter line_break a), column a col)).
Proof.
  induction a as [|p t IH]; intros b bol pos line col NE.
  - cbn [joined app String.length bol_after filter List.length column]. rewrite !Nat.add_0_r. destruct b as [|q b]; [reflexivity|].
    cbn [take_clusters]. inversion NE as [|? ? Q _]. destruct q as [|c q]; [congruence|]. cbn. reflexivity.
  - cbn [app] in NE. inversion NE as [|? ? _ NE2]; subst. cbn [joined app take_clusters]. rewrite app_length_s.
    destruct (Nat.ltb_spec (String.length p + String.length (joined t)) (String.length p)); [lia|].
    replace (String.length p + String.length (joined t) - String.length p) with (String.length (joined t)) by lia.
    rewrite drop_app. cbn [filter column]. fold (line_break p). rewrite after_bol, bol_after_app.
    destruct (line_break p); rewrite IH by exact NE2; cbn [List.length]; repeat (f_equal; try lia).
Qed.

Lemma tidy_some : forall ps, tidy ps -> Forall (fun p => p <> "") ps.
Proof. induction 1; constructor; auto; discriminate. Qed.

Lemma breaks_count : forall ps, tidy ps -> List.length (filter line_break ps) = count "010" (joined ps).
Proof.
  induction 1 as [|ps T IH|c ps L N T IH|p ps NE H T IH]; [reflexivity| | |].
  - cbn [filter]. change (line_break (String CR (String LF ""))) with true. cbn -[count]. rewrite IH. reflexivity.
  - cbn [joined]. rewrite count_app. cbn [filter]. rewrite <- IH. unfold line_break. cbn [String.eqb].
    destruct (ascii_dec "010" c) as [<-|D].
    + reflexivity.
    + assert (E : Ascii.eqb c LF = false) by (apply Ascii.eqb_neq; intros ->; now apply D).
      rewrite E. destruct (Ascii.eqb c CR); cbn [count]; destruct (ascii_dec "010" c); congruence || reflexivity.
  - cbn [joined]. rewrite count_app. cbn [filter]. rewrite <- IH.
    assert (Z : count "010" p = 0).
    { clear -H. induction p as [|c t IH]; [reflexivity|]. cbn [count]. destruct H as [H1 H2]. rewrite IH by exact H2.
      destruct (ascii_dec "010" c) as [<-|]; [now contradiction (high_lf H1)|reflexivity]. }
    rewrite Z. assert (B : line_break p = false).
    { destruct p as [|c p]; [congruence|]. destruct H as [H _]. unfold line_break. apply orb_false_iff. split; apply String.eqb_neq; intros E; injection E as -> _.
      - now apply high_cr. - now apply high_lf. }
    rewrite B. reflexivity.
Qed.

(** The input behind some clusters. *)
Definition inp_u (f : nat) (done todo : list string) : input :=
  mkInput f (joined todo) (bol_after true (joined done)) (String.length (joined done)) (1 + List.length (filter line_break done)) (column done 0).

Lemma column_app : forall a b n, column (a ++ b) n = column b (column a n).
Proof. induction a as [|p t IH]; intros b n; [reflexivity|]. cbn. destruct (line_break p); apply IH. Qed.

Section Text.
Variable seg : string -> list string.
Variable ps : list string.
Hypothesis SEG : forall a b, ps = a ++ b -> seg (joined b) = b.
Hypothesis TIDY : tidy ps.

Lemma update_clusters f done a b : ps = done ++ a ++ b ->
  update_u seg (inp_u f done (a ++ b)) (String.length (joined a)) = inp_u f (done ++ a) b.
Proof.
  intros E. unfold update_u. unfold inp_u at 1 2 3 4 5 6. cbn [i_rest i_bol i_pos i_line i_col]. rewrite (SEG _ _ E).
  rewrite take_clusters_spec by (apply tidy_some; rewrite E in TIDY; now apply tidy_app in TIDY).
  unfold inp_u. cbn [i_file]. rewrite joined_app, app_length_s, bol_after_app, filter_app, app_length, column_app. f_equal. 
Qed.

(** * Cuts *)

Definition low_last (x : string) : Prop := exists y c, x = (y ++ String c "")%string /\ low c.
Definition low_first (x : string) : Prop := exists c y, x = String c y /\ low c.
Definition edge (x y : string) : Prop := x = "" \/ y = "" \/ ((low_last x \/ low_first y) /\ cut_ok x y = true).

Lemma low_last_cons c x : x <> "" -> low_last (String c x) -> low_last x.
Proof. intros NE ([|d y] & c2 & E & L); cbn in E; [injection E as -> ->; congruence|]. injection E as -> ->. exists y, c2. auto. Qed.

Lemma edge_cons c x y : edge (String c x) y -> edge x y.
Proof.
  intros [H|[H|[H C]]]; [discriminate|right; now left|]. destruct x as [|d x]; [now left|]. right; right. split.
  - destruct H as [H|H]; [left; apply (low_last_cons c); [discriminate|exact H]|now right].
  - rewrite cut_ok_cons in C by discriminate. exact C.
Qed.

Lemma edge_app : forall p x y, edge (p ++ x) y -> edge x y.
Proof. induction p as [|c p IH]; intros x y H; [exact H|]. apply IH, (edge_cons c), H. Qed.

Lemma app_split : forall a b c d, (a ++ b)%string = (c ++ d)%string -> (exists l, a = (c ++ l)%string /\ d = (l ++ b)%string) \/ (exists c2 l, c = (a ++ String c2 l)%string /\ b = (String c2 l ++ d)%string).
Proof.
  induction a as [|x a IH]; intros b c d E.
  - destruct c as [|y c]; [left; exists ""; auto|]. right. exists y, c. split; [reflexivity|exact E].
  - destruct c as [|y c]; [left; exists (String x a); auto|]. cbn in E. injection E as -> E. destruct (IH _ _ _ E) as [(l & -> & ->)|(c2 & l & -> & ->)].
    + left. exists l. auto.
    + right. exists c2, l. auto.
Qed.

Lemma high_not_last : forall p x, every (fun c => ~ low c) (p ++ x) -> ~ low_last p.
Proof.
  intros p x H (y & c & -> & L). rewrite app_assoc_s in H. induction y as [|d y IH]; [now destruct H|]. destruct H as [_ H]. now apply IH.
Qed.

Lemma every_app P : forall a b, every P (a ++ b) -> every P b.
Proof. induction a as [|c a IH]; intros b H; [exact H|]. destruct H as [_ H]. now apply IH. Qed.

Lemma cut_at : forall todo x y, tidy todo -> joined todo = (x ++ y)%string -> edge x y -> exists a b, todo = a ++ b /\ joined a = x /\ joined b = y.
Proof.
  intros todo x y T. revert x y. induction T as [|todo T IH|c todo L N T IH|p todo NE H T IH]; intros x y E ED.
  - destruct x; [|discriminate]. exists [], []. auto.
  - destruct x as [|c x]; [exists [], (String CR (String LF "") :: todo); auto|]. cbn in E. injection E as <- E. destruct x as [|d x].
    + exfalso. cbn in E. subst y. destruct ED as [ED|[ED|[_ C]]]; try discriminate.
    + cbn in E. injection E as <- E. apply edge_cons, edge_cons in ED. destruct (IH x y E ED) as (a & b & -> & <- & <-). exists (String CR (String LF "") :: a), b. auto.
  - destruct x as [|d x]; [exists [], (String c "" :: todo); auto|]. cbn in E. injection E as <- E. apply edge_cons in ED.
    destruct (IH x y E ED) as (a & b & -> & <- & <-). exists (String c "" :: a), b. auto.
  - destruct x as [|d x]; [exists [], (p :: todo); auto|]. cbn [joined] in E. symmetry in E. destruct (app_split _ _ _ _ E) as [(l & E1 & E2)|(c2 & l & E1 & E2)].
    + rewrite E1 in ED |- *. apply edge_app in ED. destruct (IH l y E2 ED) as (a & b & -> & <- & <-).
      exists (p :: a), b. auto.
    + exfalso. rewrite E1 in H. destruct ED as [ED|[ED|[[LL|(c3 & y2 & Y & L3)] _]]]; [discriminate| | |].
      * rewrite ED in E2. discriminate.
      * now apply (high_not_last _ _ H).
      * rewrite E2 in Y. cbn in Y. injection Y as -> _. apply every_app in H. destruct H as [H _]. contradiction.
Qed.

Lemma tidy_cut : forall a b, tidy (a ++ b) -> cut_ok (joined a) (joined b) = true.
Proof.
  induction a as [|p a IH]; intros b T; [reflexivity|]. cbn [app] in T. inversion T as [|? T2|c ? L N T2|? ? NE H T2]; subst; cbn [joined].
  - destruct (joined a) as [|d u] eqn:E.
    + cbn. destruct (joined b); [reflexivity|]. reflexivity.
    + rewrite cut_ok_app by discriminate. now apply IH.
  - destruct (joined a) as [|d u] eqn:E.
    + cbn. destruct (joined b) as [|d u] eqn:E2; [reflexivity|]. destruct (Ascii.eqb c CR) eqn:X; [|reflexivity]. apply eqb_true in X.
      destruct (Ascii.eqb d LF) eqn:Y; [|reflexivity]. apply eqb_true in Y. subst. exfalso. apply (N eq_refl u). rewrite joined_app, E, E2. reflexivity.
    + rewrite cut_ok_app by discriminate. now apply IH.
  - destruct (joined a) as [|d u] eqn:E.
    + rewrite app_nil_r_s. clear -H NE. induction p as [|c p IH]; [congruence|]. destruct p as [|d p].
      * cbn. destruct (joined b); [reflexivity|]. destruct (Ascii.eqb c CR) eqn:X; [|reflexivity]. apply eqb_true in X. subst. destruct H as [H _]. now contradiction (high_cr H).
      * rewrite cut_ok_cons by discriminate. apply IH; [discriminate|now destruct H].
    + rewrite cut_ok_app by discriminate. now apply IH.
Qed.

(** Both inputs behind the same clusters. *)
Definition along (f : nat) (iu ib : input) : Prop :=
  exists done todo, ps = done ++ todo /\ iu = inp_u f done todo /\ ib = inp f (joined done) (joined todo).

Lemma along_update f iu ib x y : along f iu ib -> i_rest ib = (x ++ y)%string -> edge x y ->
  along f (update_u seg iu (String.length x)) (update ib (String.length x)) /\ i_rest (update ib (String.length x)) = y.
Proof.
  intros (done & todo & E & -> & ->) R ED. cbn [inp i_rest] in R. assert (T := TIDY). rewrite E in T. assert (T2 := tidy_app _ _ T).
  destruct (cut_at todo x y T2 R ED) as (a & b & -> & <- & <-).
  rewrite (update_clusters f done a b E). rewrite joined_app, update_inp by (now apply tidy_cut). rewrite <- joined_app. split; [|reflexivity].
  exists (done ++ a), b. rewrite <- app_assoc. auto.
Qed.

Lemma along_same f iu ib : along f iu ib -> i_rest iu = i_rest ib /\ i_bol iu = i_bol ib /\ i_pos iu = i_pos ib /\ i_line iu = i_line ib.
Proof.
  intros (done & todo & E & -> & ->). cbn. repeat split. f_equal. apply breaks_count. assert (T := TIDY). rewrite E in T. clear -T. revert T.
  remember (done ++ todo) as l eqn:El. intros T. revert done El. induction T as [|l T IH|c l L N T IH|p l NE H T IH]; intros done El.
  - destruct done; [constructor|discriminate].
  - destruct done as [|q done]; [constructor|]. injection El as <- ->. constructor. now apply IH.
  - destruct done as [|q done]; [constructor|]. injection El as <- ->. constructor; [exact L| |now apply IH]. intros C t X. apply (N C (t ++ joined todo)%string). rewrite joined_app, X. reflexivity.
  - destruct done as [|q done]; [constructor|]. injection El as <- ->. constructor; auto.
Qed.

End Text.
