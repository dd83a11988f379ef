(** Proofs about the matchers. *)
From Coq Require Import ZArith List String Ascii Bool Arith Lia.
From Verif Require Import Base Expr Lexer SpecLex LexProofs.
Import ListNotations.
Open Scope string_scope.
Open Scope list_scope.
Local Open Scope nat_scope.

Local Arguments ascii_dec : simpl never.
Local Arguments Ascii.eqb : simpl never.

Definition converter : Type := string -> outcome token_type.

Fixpoint pick (ms : list matcher) (s : string) : option (nat * converter) :=
  match ms with
  | [] => None
  | m :: t => match m_len m s with Some n => Some (n, m_convert m) | None => pick t s end
  end.

Lemma first_match_pick : forall ms i,
  first_match ms i =
  match pick ms (i_rest i) with
  | None => None
  | Some (n, conv) =>
      Some (let! ty := conv (substring 0 n (i_rest i)) in
            Ok (update i n, mkToken ty (mkSpan (loc_of i) (loc_of (update i n)))))
  end.
Proof.
  induction ms; intros; cbn [first_match pick]; auto. unfold do_match.
  destruct (m_len a (i_rest i)); auto.
Qed.

Definition orelse (a b : option (nat * converter)) : option (nat * converter) :=
  match a with Some _ => a | None => b end.

Definition try_ (m : option nat) (conv : converter) : option (nat * converter) :=
  match m with Some n => Some (n, conv) | None => None end.

(** Which characters each matcher can start with. *)
Definition only (x c : ascii) : bool := Ascii.eqb c x.

Definition firsts : list (ascii -> bool) :=
  [only "%"; ident_start; only "("; only ")"; only "#"; only ","; only ":"; only ":"; only "="; only "+";
   only "*"; only "-"; only "/"; only "&"; only "|"; only "^"; only ">"; only "<"; only """"; only "@";
   ident_start; only "$"; only "0"; only "0"; only "%"; only "0"; is_dec].

Definition idxs_from (k : nat) (fs : list (ascii -> bool)) (c : ascii) : list nat :=
  map fst (filter (fun p => snd p c) (combine (seq k (List.length fs)) fs)).

Definition nothing : matcher := mkMatcher (fun _ => None) (fun _ => Panic).

Lemma pick_idxs_gen : forall ms fs k c t (all : list matcher),
  List.length ms = List.length fs ->
  (forall j, j < List.length ms -> nth (k + j) all nothing = nth j ms nothing) ->
  Forall2 (fun m (f : ascii -> bool) => f c = false -> m_len m (String c t) = None) ms fs ->
  pick ms (String c t) = pick (map (fun j => nth j all nothing) (idxs_from k fs c)) (String c t).
Proof.
  induction ms as [|m ms IH]; intros fs k c t all L N F; destruct fs as [|f fs]; try discriminate; auto.
  inversion F; subst. unfold idxs_from. cbn [List.length seq combine filter map fst snd].
  assert (N0: nth k all nothing = m). { rewrite <- (Nat.add_0_r k). apply (N 0). cbn. lia. }
  assert (R: pick ms (String c t) = pick (map (fun j => nth j all nothing) (idxs_from (S k) fs c)) (String c t)).
  { apply IH; auto. intros j J. pose proof (N (S j)) as X. cbn [nth List.length] in X. rewrite <- X; [|lia]. f_equal. lia. }
  destruct (f c) eqn:FC.
  - cbn [map fst pick]. rewrite N0. destruct (m_len m (String c t)); auto.
  - cbn [pick]. rewrite H2; auto.
Qed.

Lemma text_first : forall x w c t, only x c = false -> m_text (String x w) (String c t) = None.
Proof.
  intros. unfold m_text, only in *. cbn [String.prefix]. destruct (ascii_dec x c); auto.
  subst. rewrite Ascii.eqb_refl in H. discriminate.
Qed.

Lemma pick_idxs : forall c t,
  pick matchers (String c t) = pick (map (fun j => nth j matchers nothing) (idxs_from 0 firsts c)) (String c t).
Proof.
  intros. apply pick_idxs_gen; auto.
  unfold matchers, firsts.
  repeat (apply Forall2_cons; [intros F; cbn [m_len];
    first [ apply text_first; exact F
          | unfold m_macro_label, m_macro_ident, m_ident, m_string, m_number1, m_digits, m_number2, m_indr, only in *;
            rewrite F; try reflexivity ]|]).
  all: try apply Forall2_nil.
  all: destruct t as [|? [|? ?]]; try reflexivity; rewrite ?F; reflexivity.
Qed.

Definition same_nats (a b : list nat) : bool := if list_eq_dec Nat.eq_dec a b then true else false.

Lemma same_nats_eq : forall a b, same_nats a b = true -> a = b.
Proof. intros a b. unfold same_nats. now destruct (list_eq_dec Nat.eq_dec a b). Qed.

Definition expected (c : ascii) : list nat :=
  if Ascii.eqb c "%" then [0; 24]
  else if ident_start c then [1; 20]
  else if Ascii.eqb c ":" then [6; 7]
  else if Ascii.eqb c """" then [18]
  else if Ascii.eqb c "@" then [19]
  else if Ascii.eqb c "$" then [21]
  else if Ascii.eqb c "0" then [22; 23; 25; 26]
  else if is_dec c then [26]
  else idxs_from 0 firsts c.

Lemma idxs_expected : forall c, idxs_from 0 firsts c = expected c.
Proof.
  intros. apply same_nats_eq.
  apply (all_ascii_ok (fun c => same_nats (idxs_from 0 firsts c) (expected c))). vm_compute. reflexivity.
Qed.

Definition singles : list (ascii * nat * token_type) :=
  [("(", 2, TLeftParen); (")", 3, TRightParen); ("#", 4, THash); (",", 5, TComma); ("=", 8, TEquals);
   ("+", 9, TPlus); ("*", 10, TTimes); ("-", 11, TMinus); ("/", 12, TDivide); ("&", 13, TAmpersand);
   ("|", 14, TPipe); ("^", 15, TCaret); (">", 16, TUpperByte); ("<", 17, TLowerByte)]%char.

Lemma m_text_1 : forall c t, m_text (String c "") (String c t) = Some 1.
Proof.
  intros. unfold m_text. cbn [String.prefix]. destruct (ascii_dec c c); [|congruence].
  destruct t; reflexivity.
Qed.

Lemma pick_single : forall c k ty t, In (c, k, ty) singles ->
  exists conv, pick matchers (String c t) = Some (1, conv) /\ forall s, conv s = Ok ty.
Proof.
  intros c k ty t H. rewrite pick_idxs, idxs_expected. cbn in H.
  repeat (destruct H as [H|H];
    [injection H as <- <- <-;
     match goal with |- context [expected ?c] => let v := eval vm_compute in (expected c) in change (expected c) with v end;
     cbn [map nth matchers pick m_len]; rewrite m_text_1; cbn [m_convert]; eexists; split; reflexivity|]).
  contradiction.
Qed.

(** Any other character starts no token. *)
Lemma pick_other : forall c t,
  Ascii.eqb c "%" = false -> ident_start c = false -> Ascii.eqb c ":" = false -> Ascii.eqb c """" = false ->
  Ascii.eqb c "@" = false -> Ascii.eqb c "$" = false -> is_dec c = false ->
  (forall k ty, ~ In (c, k, ty) singles) ->
  pick matchers (String c t) = None.
Proof.
  intros c t H1 H2 H3 H4 H5 H6 H7 H8. rewrite pick_idxs.
  assert (E: idxs_from 0 firsts c = []); [|now rewrite E].
  pose proof (all_ascii_ok (fun c =>
    ((Ascii.eqb c "%" || ident_start c || Ascii.eqb c ":" || Ascii.eqb c """" || Ascii.eqb c "@" || Ascii.eqb c "$" || is_dec c) ||
    existsb (fun p => Ascii.eqb (fst (fst p)) c) singles ||
    same_nats (idxs_from 0 firsts c) [])%bool)
    ltac:(vm_compute; reflexivity) c) as A.
  cbv beta in A. rewrite H1, H2, H3, H4, H5, H6, H7 in A. cbn [orb] in A.
  apply orb_true_iff in A as [A|A]; [|now apply same_nats_eq].
  apply existsb_exists in A as ([[x k] ty] & I & E). apply eqb_true in E. cbn in E. subst x.
  exfalso. eapply H8; eauto.
Qed.
