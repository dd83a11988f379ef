(** Proofs about error headings: numbers can be read back, texts can be cut. *)
From Coq Require Import ZArith List String Ascii Bool Lia.
From Verif Require Import Base Expr Printer Heading SpecHeading.
Import ListNotations.
Open Scope string_scope.
Local Open Scope Z_scope.

Definition undig (c : ascii) : Z :=
  let n := Z.of_nat (nat_of_ascii c) in if n <? 58 then n - 48 else n - 55.

Fixpoint val (base acc : Z) (s : string) : Z :=
  match s with
  | EmptyString => acc
  | String c s => val base (acc * base + undig c) s
  end.

Lemma undig_digit v : 0 <= v < 16 -> undig (digit_char v) = v.
Proof.
  intros H. assert (F : forallb (fun v => undig (digit_char v) =? v) [0;1;2;3;4;5;6;7;8;9;10;11;12;13;14;15] = true) by reflexivity.
  rewrite forallb_forall in F. apply Z.eqb_eq. apply F. cbn. lia.
Qed.

Lemma val_digits base f : 1 < base <= 16 -> forall n acc, 0 <= n < base ^ Z.of_nat f ->
  val base 0 (digits f digit_char base n acc) = val base n acc.
Proof.
  intros B. induction f as [|f IH]; intros n acc H.
  - cbn in *. f_equal. lia.
  - cbn [digits]. assert (D := Z.div_mod n base ltac:(lia)). assert (M := Z.mod_pos_bound n base ltac:(lia)).
    destruct (n / base =? 0) eqn:E.
    + apply Z.eqb_eq in E. cbn [val]. rewrite undig_digit by lia. f_equal. rewrite E in D. lia.
    + rewrite IH.
      * cbn [val]. rewrite undig_digit by lia. f_equal. lia.
      * split; [apply Z.div_pos; lia|]. apply Z.div_lt_upper_bound; [lia|].
        rewrite Nat2Z.inj_succ, Z.pow_succ_r in H by lia. lia.
Qed.

Lemma val_natural base n : 1 < base <= 16 -> 0 <= n < 2 ^ 64 -> val base 0 (natural digit_char base n) = n.
Proof.
  intros B H. unfold natural. rewrite val_digits; auto. split; [lia|]. eapply Z.lt_le_trans; [apply H|].
  change (Z.of_nat 64) with 64. apply Z.pow_le_mono_l. lia.
Qed.

Lemma val_zeros base k s : val base 0 (string_of_list_ascii (repeat "0"%char k) ++ s) = val base 0 s.
Proof. induction k; cbn [repeat string_of_list_ascii append val]; [reflexivity|]. change (undig "0") with 0. now rewrite Z.mul_0_l. Qed.

Lemma val_pad base w s : val base 0 (pad_zeros w s) = val base 0 s.
Proof. apply val_zeros. Qed.

(** Characters of numbers. *)
Fixpoint lacks (c : ascii) (s : string) : Prop :=
  match s with
  | EmptyString => True
  | String d s => d <> c /\ lacks c s
  end.

Lemma lacks_app c a b : lacks c (a ++ b) <-> lacks c a /\ lacks c b.
Proof. induction a; cbn [append lacks]; tauto. Qed.

Definition hexy (c : ascii) : Prop := forallb (fun v => negb (Ascii.eqb (digit_char v) c)) [0;1;2;3;4;5;6;7;8;9;10;11;12;13;14;15] = true.

Lemma digit_hexy c v : hexy c -> 0 <= v < 16 -> digit_char v <> c.
Proof.
  intros H V E. unfold hexy in H. rewrite forallb_forall in H. specialize (H v ltac:(cbn; lia)). rewrite E, Ascii.eqb_refl in H. discriminate.
Qed.

Lemma digits_lacks c base f : hexy c -> 1 < base <= 16 -> forall n acc, lacks c acc -> lacks c (digits f digit_char base n acc).
Proof.
  intros X B. induction f as [|f IH]; intros n acc L; [assumption|]. cbn [digits].
  assert (M := Z.mod_pos_bound n base ltac:(lia)).
  assert (K : lacks c (String (digit_char (n mod base)) acc)) by (split; [apply digit_hexy; [assumption|lia]|assumption]).
  destruct (n / base =? 0); auto.
Qed.

Lemma natural_lacks c base n : hexy c -> 1 < base <= 16 -> lacks c (natural digit_char base n).
Proof. intros. now apply digits_lacks. Qed.

Lemma dec_lacks c n : hexy c -> c <> "-"%char -> lacks c (show_dec n).
Proof.
  intros X M. unfold show_dec. destruct (n <? 0); [split; [congruence|]|]; apply natural_lacks; auto; lia.
Qed.

Lemma pad_lacks c w s : hexy c -> lacks c s -> lacks c (pad_zeros w s).
Proof.
  intros X L. apply lacks_app. split; [|assumption]. induction (w - _)%nat; cbn [repeat string_of_list_ascii lacks]; [auto|].
  split; [|assumption]. apply (digit_hexy c 0 X). lia.
Qed.

(** Numbers are read back. *)
Lemma dec_inj a b : a_usize a -> a_usize b -> show_dec a = show_dec b -> a = b.
Proof.
  unfold a_usize, show_dec. intros A B E.
  replace (a <? 0) with false in E by lia. replace (b <? 0) with false in E by lia.
  apply (f_equal (val 10 0)) in E. rewrite !val_natural in E by lia. exact E.
Qed.

Lemma dec_inj_i32 a b : an_i32 a -> an_i32 b -> show_dec a = show_dec b -> a = b.
Proof.
  unfold an_i32, show_dec. intros A B E. destruct (a <? 0) eqn:EA, (b <? 0) eqn:EB.
  - injection E as E. apply (f_equal (val 10 0)) in E. rewrite !val_natural in E by lia. lia.
  - exfalso. assert (L := natural_lacks "-" 10 b eq_refl ltac:(lia)). rewrite <- E in L. now destruct L.
  - exfalso. assert (L := natural_lacks "-" 10 a eq_refl ltac:(lia)). rewrite E in L. now destruct L.
  - apply (f_equal (val 10 0)) in E. rewrite !val_natural in E by lia. lia.
Qed.

Lemma hex_inj w m a b : a_usize (a mod m) -> a_usize (b mod m) ->
  pad_zeros w (natural digit_char 16 (a mod m)) = pad_zeros w (natural digit_char 16 (b mod m)) -> a mod m = b mod m.
Proof. intros A B E. apply (f_equal (val 16 0)) in E. rewrite !val_pad, !val_natural in E by (unfold a_usize in *; lia). exact E. Qed.

Lemma mod_i32 m a b : 2 ^ 32 <= m -> an_i32 a -> an_i32 b -> a mod m = b mod m -> a = b.
Proof.
  unfold an_i32. intros M A B E.
  assert (DA := Z.div_mod a m ltac:(lia)). assert (DB := Z.div_mod b m ltac:(lia)).
  assert (BA := Z.mod_pos_bound a m ltac:(lia)). rewrite <- E in DB.
  assert (QA : a / m = 0 \/ a / m = -1) by nia. assert (QB : b / m = 0 \/ b / m = -1) by nia. nia.
Qed.

Lemma i32_hex_inj a b : an_i32 a -> an_i32 b -> show_i32_hex a = show_i32_hex b -> a = b.
Proof.
  intros A B E. unfold show_i32_hex, show_radix in E. injection E as E.
  apply (mod_i32 4294967296); auto; [lia|]. eapply hex_inj; [| |exact E]; unfold a_usize; pose proof (Z.mod_pos_bound a 4294967296); pose proof (Z.mod_pos_bound b 4294967296); lia.
Qed.

Lemma as_usize_hex_inj a b : an_i32 a -> an_i32 b -> show_as_usize_hex a = show_as_usize_hex b -> a = b.
Proof.
  intros A B E. unfold show_as_usize_hex, show_usize_hex in E. injection E as E.
  apply (mod_i32 18446744073709551616); auto; [lia|]. eapply hex_inj; [| |exact E]; unfold a_usize; pose proof (Z.mod_pos_bound a 18446744073709551616); pose proof (Z.mod_pos_bound b 18446744073709551616); lia.
Qed.

Lemma usize_hex_inj a b : a_usize a -> a_usize b -> show_usize_hex a = show_usize_hex b -> a = b.
Proof. intros A B E. apply (f_equal (val 16 0)) in E. unfold show_usize_hex in E. now rewrite !val_pad, !val_natural in E by (unfold a_usize in *; lia). Qed.

Lemma bits4_inj a b : a_u8 a -> a_u8 b -> show_bits4 a = show_bits4 b -> a = b.
Proof. intros A B E. apply (f_equal (val 2 0)) in E. unfold show_bits4 in E. now rewrite !val_pad, !val_natural in E by (unfold a_u8 in *; lia). Qed.

(** Cutting texts. *)
Lemma cut c a : forall b r r', lacks c a -> lacks c b -> (a ++ String c r = b ++ String c r')%string -> a = b /\ r = r'.
Proof.
  induction a as [|x a IH]; intros [|y b] r r' A B E; cbn [append lacks] in *.
  - injection E. auto.
  - injection E as E1 E2. destruct B. congruence.
  - injection E as E1 E2. destruct A. congruence.
  - injection E as -> E. destruct (IH b r r') as [-> ->]; try tauto.
Qed.

Lemma length_append a b : String.length (a ++ b) = (String.length a + String.length b)%nat.
Proof. induction a; cbn [append String.length]; [reflexivity|now rewrite IHa]. Qed.

Lemma cancel_right a : forall b s, (a ++ s = b ++ s)%string -> a = b.
Proof.
  induction a as [|x a IH]; intros [|y b] s E; auto.
  - exfalso. apply (f_equal String.length) in E. cbn [append String.length] in E. rewrite length_append in E. lia.
  - exfalso. apply (f_equal String.length) in E. cbn [append String.length] in E. rewrite length_append in E. lia.
  - cbn [append] in E. injection E as -> E. now rewrite (IH b s E).
Qed.

Lemma append_inj_length a : forall b r r', String.length r = String.length r' -> (a ++ r = b ++ r')%string -> a = b /\ r = r'.
Proof.
  induction a as [|x a IH]; intros [|y b] r r' L E; auto.
  - exfalso. cbn [append] in E. subst r. cbn [String.length] in L. rewrite length_append in L. lia.
  - exfalso. cbn [append] in E. subst r'. cbn [String.length] in L. rewrite length_append in L. lia.
  - cbn [append] in E. injection E as -> E. destruct (IH b r r' L E) as [-> ->]. auto.
Qed.

(** The last occurrence of a character splits a text in one way. *)
Lemma cut_last c a : forall b r r', lacks c r -> lacks c r' -> (a ++ String c r = b ++ String c r')%string -> a = b /\ r = r'.
Proof.
  induction a as [|x a IH]; intros [|y b] r r' A B E; cbn [append] in *.
  - injection E. auto.
  - exfalso. injection E as E1 E2. subst r. apply lacks_app in A. now destruct A as [_ [A _]].
  - exfalso. injection E as E1 E2. subst r'. apply lacks_app in B. now destruct B as [_ [B _]].
  - injection E as -> E. destruct (IH b r r' A B E) as [-> ->]. auto.
Qed.

Lemma append_assoc_s (a b c : string) : ((a ++ b) ++ c = a ++ (b ++ c))%string.
Proof. induction a; cbn [append]; [reflexivity|now rewrite IHa]. Qed.

Lemma no_space_lacks s : no_space s -> lacks " " s.
Proof.
  induction s as [|c s IH]; intros H; [exact Logic.I|]. split.
  - intros ->. apply H. now left.
  - apply IH. intros F. apply H. now right.
Qed.
