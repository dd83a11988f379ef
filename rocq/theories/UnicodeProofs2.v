(** Proofs about text in grapheme clusters: the loops of the lexers. *)
From Coq Require Import ZArith List String Ascii Bool Arith Lia.
From Verif Require Import Base Expr Lexer CHeader Unicode SpecUnicode SpecLex LexProofs LexProofs2 LexProofs3 HeaderProofs UnicodeProofs.
Import ListNotations.
Open Scope string_scope.
Open Scope list_scope.
Local Open Scope nat_scope.
Local Arguments Ascii.eqb : simpl never.
Local Arguments nat_of_ascii : simpl never.
Local Arguments ascii_dec : simpl never.

Definition lowb (c : ascii) : bool := Nat.ltb (nat_of_ascii c) 128.

Lemma low_b c : lowb c = true <-> low c.
Proof. unfold lowb, low. apply Nat.ltb_lt. Qed.

(** * Where tokens end *)

Definition fine (c : ascii) : bool := (lowb c && negb (Ascii.eqb c CR))%bool.
Definition fine_end (x : string) : Prop := exists y c, x = (y ++ String c "")%string /\ fine c = true.

Lemma fine_app a x : fine_end x -> fine_end (a ++ x).
Proof. intros (y & c & -> & F). exists (a ++ y)%string, c. now rewrite app_assoc_s. Qed.

Lemma fine_all p x : x <> "" -> all_chars (fun c => p c = true) x -> (forall c, p c = true -> fine c = true) -> fine_end x.
Proof.
  intros NE A P. induction x as [|c x IH]; [congruence|]. destruct A as [A1 A2]. destruct x as [|d x].
  - exists "", c. auto.
  - apply (fine_app (String c "")). apply IH; [discriminate|exact A2].
Qed.

Lemma fine_edge x y : fine_end x -> edge x y.
Proof.
  intros (z & c & -> & F). right; right. unfold fine in F. apply andb_true_iff in F as [F1 F2]. split.
  - left. exists z, c. split; [reflexivity|]. now apply low_b.
  - rewrite cut_ok_app by discriminate. cbn. destruct y; [reflexivity|]. apply negb_true_iff in F2. now rewrite F2.
Qed.

Lemma ident_fine c : ident_char c = true -> fine c = true.
Proof.
  pose proof (all_ascii_ok (fun c => implb (ident_char c) (fine c)) ltac:(vm_compute; reflexivity) c) as A. cbv beta in A.
  intros H. now rewrite H in A.
Qed.

Lemma start_fine c : ident_start c = true -> fine c = true.
Proof.
  pose proof (all_ascii_ok (fun c => implb (ident_start c) (fine c)) ltac:(vm_compute; reflexivity) c) as A. cbv beta in A.
  intros H. now rewrite H in A.
Qed.

Lemma hex_fine c : is_hex c = true -> fine c = true.
Proof.
  pose proof (all_ascii_ok (fun c => implb (is_hex c) (fine c)) ltac:(vm_compute; reflexivity) c) as A. cbv beta in A.
  intros H. now rewrite H in A.
Qed.

Definition ends_fine (m : string -> option nat) : Prop :=
  forall s n, m s = Some n -> exists x y, s = (x ++ y)%string /\ n = String.length x /\ fine_end x.

Lemma ident_ends : ends_fine m_ident.
Proof.
  intros [|c t] n H; [discriminate|]. cbn [m_ident] in H. destruct (ident_start c) eqn:S; [|discriminate].
  destruct (span_len_split ident_char t) as (a & b & -> & L & A & B). rewrite L in H. injection H as <-.
  exists (String c a), b. split; [reflexivity|]. split; [reflexivity|]. destruct a as [|d a].
  - exists "", c. split; [reflexivity|]. now apply start_fine.
  - apply (fine_app (String c "")). apply (fine_all ident_char); [discriminate|exact A|apply ident_fine].
Qed.

Lemma cons_ends (p : ascii) m : ends_fine m ->
  ends_fine (fun s => match s with String c t => if Ascii.eqb c p then option_map S (m t) else None | EmptyString => None end).
Proof.
  intros M [|c t] n H; [discriminate|]. destruct (Ascii.eqb c p); [|discriminate]. destruct (m t) as [k|] eqn:E; [|discriminate]. injection H as <-.
  destruct (M _ _ E) as (x & y & -> & -> & F). exists (String c x), y. split; [reflexivity|]. split; [reflexivity|]. now apply (fine_app (String c "")).
Qed.

Lemma label_ends : ends_fine m_macro_label.
Proof.
  intros s n H. apply m_label_inv in H as (w & rest & -> & -> & _). exists (w ++ String "%" "")%string, rest. rewrite app_assoc_s, app_length_s. cbn.
  split; [reflexivity|]. split; [lia|]. exists w, "%"%char. auto.
Qed.

Lemma text_ends x c : fine c = true -> ends_fine (m_text (x ++ String c "")).
Proof.
  intros F s n H. unfold m_text in H. destruct (String.prefix _ s) eqn:P; [|discriminate]. injection H as <-.
  apply prefix_iff in P as (t & ->). exists (x ++ String c "")%string, t. split; [reflexivity|]. split; [reflexivity|]. exists x, c. auto.
Qed.

Lemma string_ends : ends_fine m_string.
Proof.
  intros s n H. apply m_string_inv in H as (l & rest & -> & -> & _). exists (quoted (SpecLex.written l)), rest. split; [reflexivity|]. split; [reflexivity|].
  exists (String """" (SpecLex.written l)), """"%char. split; reflexivity.
Qed.

Lemma digit_fine base c v : digit base c v -> (base <= 16)%Z -> fine c = true.
Proof. intros [D L] B. apply hex_fine. apply (ro_inv _ _ ok_hex c v). split; [exact D|lia]. Qed.

Lemma digits_fine base a vs : more_digits base a vs -> (base <= 16)%Z -> a = "" \/ fine_end a.
Proof.
  intros M B. induction M as [|c v t vs Hd M IH|c v t vs Hd M IH].
  - now left.
  - right. destruct IH as [->|IH]; [exists "", c; split; [reflexivity|now apply (digit_fine base c v)]|now apply (fine_app (String c ""))].
  - right. destruct IH as [->|IH]; [exists "'", c; split; [reflexivity|now apply (digit_fine base c v)]|now apply (fine_app (String "'" (String c "")))].
Qed.

Lemma digits_ends base p : radix_ok base p -> ends_fine (m_digits p).
Proof.
  intros RO s n H. destruct (m_digits_inv base p RO s n H) as (a & b & vs & -> & -> & (c & v & t & ws & -> & _ & D & M) & _).
  assert (B := ro_base _ _ RO). exists (String c t), b. split; [reflexivity|]. split; [reflexivity|].
  assert (M2 : more_digits base (String c t) (v :: ws)) by (now constructor). destruct (digits_fine _ _ _ M2) as [X|X]; [lia|discriminate|exact X].
Qed.

Lemma number2_ends base p a b : radix_ok base p -> ends_fine (m_number2 a b p).
Proof.
  intros RO [|z [|c t]] n H; try discriminate. cbn [m_number2] in H. destruct (_ && _)%bool; [|discriminate].
  destruct (m_digits p t) as [k|] eqn:E; [|discriminate]. injection H as <-. destruct (digits_ends base p RO _ _ E) as (x & y & -> & -> & F).
  exists (String z (String c x)), y. split; [reflexivity|]. split; [reflexivity|]. now apply (fine_app (String z (String c ""))).
Qed.

Lemma indr_ends : ends_fine m_indr.
Proof.
  intros [|a [|r [|d t]]] n H; try discriminate. cbn [m_indr] in H. destruct (_ && _)%bool eqn:E; [|discriminate]. injection H as <-.
  apply andb_true_iff in E as [_ E]. exists (String a (String r (String d ""))), t. split; [reflexivity|]. split; [reflexivity|].
  exists (String a (String r "")), d. split; [reflexivity|]. apply hex_fine. revert E.
  pose proof (all_ascii_ok (fun c => implb (between "0" "3" c) (is_hex c)) ltac:(vm_compute; reflexivity) d) as A. cbv beta in A.
  intros H. now rewrite H in A.
Qed.

Lemma matchers_end : Forall (fun m => ends_fine (m_len m)) matchers.
Proof.
  unfold matchers. repeat (apply Forall_cons; [cbn [m_len]|]); [.. |apply Forall_nil].
  all: try first [ exact ident_ends | exact label_ends | exact string_ends | exact indr_ends
    | exact (cons_ends "%" _ ident_ends) | exact (cons_ends "$" _ (digits_ends 16 _ ok_hex)) | exact (cons_ends "%" _ (digits_ends 2 _ ok_bin))
    | exact (number2_ends _ _ _ _ ok_oct) | exact (number2_ends _ _ _ _ ok_hex) | exact (number2_ends _ _ _ _ ok_bin) | exact (digits_ends _ _ ok_dec)
    | match goal with |- ends_fine (m_text (String ?c "")) => exact (text_ends "" c eq_refl) end
    | exact (text_ends ":" ":"%char eq_refl) ].
Qed.

Lemma pick_ends s n conv : pick matchers s = Some (n, conv) -> exists x y, s = (x ++ y)%string /\ n = String.length x /\ fine_end x.
Proof.
  generalize matchers_end. generalize matchers. intros ms F H. induction F as [|m ms M F IH]; [discriminate|]. cbn [pick] in H.
  destruct (m_len m s) as [k|] eqn:E; [|now apply IH]. injection H as <- _. now apply M.
Qed.

Lemma pick_high c t : ~ low c -> pick matchers (String c t) = None.
Proof.
  intros H. rewrite pick_idxs. assert (E : idxs_from 0 firsts c = []); [|now rewrite E]. apply same_nats_eq.
  pose proof (all_ascii_ok (fun c => lowb c || same_nats (idxs_from 0 firsts c) [])%bool ltac:(vm_compute; reflexivity) c) as A. cbv beta in A.
  apply orb_true_iff in A as [A|A]; [apply low_b in A; contradiction|exact A].
Qed.

Lemma first_match_u_pick seg : forall ms i,
  first_match_u seg ms i =
  match pick ms (i_rest i) with
  | None => None
  | Some (n, conv) =>
      Some (let! ty := conv (substring 0 n (i_rest i)) in
            Ok (update_u seg i n, mkToken ty (mkSpan (loc_of i) (loc_of (update_u seg i n)))))
  end.
Proof. induction ms; intros; cbn [first_match_u pick]; auto. unfold do_match_u. destruct (m_len a (i_rest i)); auto. Qed.

(** * White space *)

Lemma space_fine c : is_space c = true -> low c.
Proof.
  pose proof (all_ascii_ok (fun c => implb (is_space c) (lowb c)) ltac:(vm_compute; reflexivity) c) as A. cbv beta in A.
  intros H. rewrite H in A. now apply low_b.
Qed.

Lemma spaces_len_app : forall w r, all_chars (fun c => is_space c = true) w -> spaces_len 0 (w ++ r) = String.length w + spaces_len 0 r.
Proof.
  induction w as [|c w IH]; intros r H; [reflexivity|]. destruct H as [H1 H2]. cbn [append spaces_len space_at]. rewrite H1. cbn [String.length]. now rewrite IH.
Qed.

Lemma wide_spaces_rest s : (forall c t, s = String c t -> is_space c = false) -> spaces_len 0 s <> 0 -> wide_space s.
Proof.
  intros N H. destruct s as [|a t]; [now cbn in H|]. cbn [spaces_len] in H. specialize (N a t eq_refl). unfold space_at in H. rewrite N in H.
  destruct t as [|b t]; [now contradiction H|].
  destruct (Ascii.eqb a "194" && (Ascii.eqb b "133" || Ascii.eqb b "160"))%bool eqn:E1.
  { apply andb_true_iff in E1 as [A B]. apply eqb_true in A. subst a. apply orb_true_iff in B as [B|B]; apply eqb_true in B; subst b.
    - exists [194; 133], t. split; [cbn; tauto|reflexivity].
    - exists [194; 160], t. split; [cbn; tauto|reflexivity]. }
  destruct t as [|c t]; [now contradiction H|].
  destruct (_ || _)%bool eqn:E2 in H; [|now contradiction H]. clear H.
  apply orb_true_iff in E2 as [E2|E2]; [apply orb_true_iff in E2 as [E2|E2]; [apply orb_true_iff in E2 as [E2|E2]|]|].
  - apply andb_true_iff in E2 as [E2 C]. apply andb_true_iff in E2 as [A B]. apply eqb_true in A, B, C. subst. exists [225; 154; 128], t. split; [cbn; tauto|reflexivity].
  - apply andb_true_iff in E2 as [E2 C]. apply andb_true_iff in E2 as [A B]. apply eqb_true in A, B. subst.
    apply orb_true_iff in C as [C|C]; [apply orb_true_iff in C as [C|C]; [apply orb_true_iff in C as [C|C]|]|].
    + unfold between in C. apply andb_true_iff in C as [C1 C2]. apply Nat.leb_le in C1, C2. change (nat_of_ascii "128") with 128 in C1. change (nat_of_ascii "138") with 138 in C2.
      exists [226; 128; nat_of_ascii c], t. split; [|cbn [bytes_of append]; rewrite ascii_nat_embedding; reflexivity].
      unfold wide_spaces. apply in_or_app. right. apply in_map_iff. exists (nat_of_ascii c - 128). split; [repeat f_equal; lia|]. apply in_seq. lia.
    + apply eqb_true in C. subst. exists [226; 128; 168], t. split; [cbn; tauto|reflexivity].
    + apply eqb_true in C. subst. exists [226; 128; 169], t. split; [cbn; tauto|reflexivity].
    + apply eqb_true in C. subst. exists [226; 128; 175], t. split; [cbn; tauto|reflexivity].
  - apply andb_true_iff in E2 as [E2 C]. apply andb_true_iff in E2 as [A B]. apply eqb_true in A, B, C. subst. exists [226; 129; 159], t. split; [cbn; tauto|reflexivity].
  - apply andb_true_iff in E2 as [E2 C]. apply andb_true_iff in E2 as [A B]. apply eqb_true in A, B, C. subst. exists [227; 128; 128], t. split; [cbn; tauto|reflexivity].
Qed.

Lemma wide_high s : wide_space s -> exists c t, s = String c t /\ ~ low c.
Proof.
  intros (l & t & I & ->). unfold wide_spaces in I. cbn in I.
  repeat (destruct I as [<-|I]; [eexists; eexists; split; [reflexivity|unfold low; vm_compute; lia]|]). contradiction.
Qed.

Lemma edge_spaces w r : all_chars (fun c => is_space c = true) w -> match r with EmptyString => True | String c _ => is_space c = false end -> edge w r.
Proof.
  intros A R. destruct w as [|c w]; [now left|]. right; right. split; [|now apply spaces_cut]. left.
  revert c A. induction w as [|d w IH]; intros c A.
  - exists "", c. split; [reflexivity|]. apply space_fine, A.
  - destruct A as [_ A]. destruct (IH d A) as (y & e & E & L). exists (String c y), e. cbn. rewrite E. auto.
Qed.

Lemma edge_eol a b : rest_of_line a b -> edge a b.
Proof.
  intros R. destruct b as [|c b]; [right; now left|]. destruct a as [|d a]; [now left|]. right; right. split; [|now apply eol_cut]. right.
  apply rest_of_line_len in R. assert (Z : eol_len (String c b) = 0).
  { revert R. generalize (String d a) as x. induction x as [|e x IH]; intros R; [exact R|]. apply IH. cbn [append String.length] in R.
    rewrite eol_len_cons in R by (rewrite R; discriminate). now injection R. }
  cbn [eol_len] in Z. exists c, b. split; [reflexivity|]. destruct (Ascii.eqb c LF) eqn:E.
  - apply eqb_true in E. subst. unfold low. vm_compute. lia.
  - destruct b as [|e b]; [discriminate|]. destruct (Ascii.eqb c CR && Ascii.eqb e LF)%bool eqn:E2; [|discriminate]. apply andb_true_iff in E2 as [E2 _].
    apply eqb_true in E2. subst. unfold low. vm_compute. lia.
Qed.
