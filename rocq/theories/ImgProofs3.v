(** Lemmas about palettes and pixel data of icons. *)
From Coq Require Import ZArith List String Ascii Bool Lia.
From Verif Require Import Base Expr Instr Ast Asm Img SpecIsa SpecExpr SpecAsm SpecImg AsmProofs AsmProofs5 AsmProofs8 ImgProofs ImgProofs2.
Import ListNotations.
Open Scope list_scope.
Open Scope Z_scope.

(** ** Words and bytes *)

Definition words (ns : list Z) : list Z := flat_map (fun n => [n mod 256; n / 256]) ns.

Definition word16 (n : Z) : Prop := 0 <= n <= 65535.

Lemma words_app a b : words (a ++ b) = words a ++ words b.
Proof. unfold words. apply flat_map_app. Qed.

Lemma words_len ns : zlen (words ns) = 2 * zlen ns.
Proof. induction ns as [|n t IH]; [reflexivity|]. unfold words in *. cbn [flat_map]. rewrite zlen_app, IH, !zlen_cons, zlen_nil. lia. Qed.

Lemma words_data ns : Forall word16 ns -> stmt_data (SDirective (DWord (map num ns))) = Some (words ns).
Proof.
  intros H. cbn [stmt_data]. induction H as [|n t N T IH]; [reflexivity|]. cbn [map all_data]. rewrite IH.
  destruct N as [N0 N1]. apply Z.leb_le in N0, N1. unfold num at 1. cbn [word_data]. now rewrite N0, N1.
Qed.

Lemma bytes_data ns : Forall byte ns -> all_data item_data (map (fun n => BVExpr (num n)) ns) = Some ns.
Proof.
  intros H. induction H as [|n t N T IH]; [reflexivity|]. cbn [map all_data]. rewrite IH.
  destruct N as [N0 N1]. apply Z.leb_le in N0, N1. unfold num at 1. cbn [item_data]. now rewrite N0, N1.
Qed.

Lemma data_cons s t a b : stmt_data s = Some a -> data t = Some b -> data (s :: t) = Some (a ++ b).
Proof. unfold data. cbn [all_data]. now intros -> ->. Qed.

Lemma data_app a b x y : data a = Some x -> data b = Some y -> data (a ++ b) = Some (x ++ y).
Proof. apply all_data_app. Qed.

Lemma word_bytes_ok v : word16 v -> byte (v mod 256) /\ byte (v / 256) /\ v = v mod 256 + 256 * (v / 256).
Proof.
  unfold word16, byte. intros H. pose proof (Z.mod_pos_bound v 256). pose proof (Z.div_mod v 256).
  assert (0 <= v / 256 <= 255) by (split; [apply Z.div_pos; lia|apply Z.lt_succ_r, Z.div_lt_upper_bound; lia]). lia.
Qed.

Lemma words_at ns k v : nth_error ns k = Some v -> word16 v -> word_at (words ns) (2 * Z.of_nat k) v.
Proof.
  revert k. induction ns as [|n t IH]; intros [|k] E V; try discriminate.
  - injection E as <-. destruct (word_bytes_ok n V) as (A & B & C). exists (n mod 256), (n / 256). cbn. auto.
  - cbn in E. destruct (IH k E V) as (lo & hi & A & B & C). exists lo, hi.
    replace (words (n :: t)) with ([n mod 256; n / 256] ++ words t) by reflexivity.
    replace (2 * Z.of_nat (S k)) with (zlen [n mod 256; n / 256] + 2 * Z.of_nat k) by (rewrite !zlen_cons, zlen_nil; lia).
    split; [now apply get_at_app_r|]. split; [rewrite <- Z.add_assoc; now apply get_at_app_r|auto].
Qed.

Lemma word_at_shift a b c base o v : zlen a = base -> word_at b o v -> word_at (a ++ b ++ c) (base + o) v.
Proof.
  intros L (lo & hi & A & B & C). exists lo, hi. split; [now apply get_at_shift|].
  split; [rewrite <- Z.add_assoc; now apply get_at_shift|exact C].
Qed.

Lemma color_at_shift a b c base o v : zlen a = base -> color_at b o v -> color_at (a ++ b ++ c) (base + o) v.
Proof. intros L (r & R & W). exists r. split; [exact R|]. now apply word_at_shift. Qed.

Lemma nibble_at_shift a b c base o n i : zlen a = base -> nibble_at b o n i -> nibble_at (a ++ b ++ c) (base + o) n i.
Proof. intros L (v & G & R). exists v. split; [rewrite <- Z.add_assoc; now apply get_at_shift|exact R]. Qed.

(** ** Palettes *)

Lemma color_eqb_spec a b : color_eqb a b = true <-> a = b.
Proof.
  destruct a as [r g b0 a], b as [r' g' b' a']. unfold color_eqb. cbn. rewrite !andb_true_iff, !Z.eqb_eq. split.
  - intros [[[-> ->] ->] ->]. reflexivity.
  - intros [= -> -> -> ->]. auto.
Qed.

Inductive good : palette -> Prop :=
  | good_nil : good []
  | good_cons c p : good p -> pal_get p c = None -> good ((c, pal_len p) :: p).

Lemma pal_len_nonneg p : 0 <= pal_len p. Proof. unfold pal_len. lia. Qed.

Lemma pal_len_cons x p : pal_len (x :: p) = pal_len p + 1.
Proof. unfold pal_len. cbn [List.length]. lia. Qed.

Lemma pal_range p c v : good p -> pal_get p c = Some v -> 0 <= v < pal_len p.
Proof.
  intros H. revert v. induction H as [|k p G IH N]; intros v E; [discriminate|]. rewrite pal_len_cons. cbn in E.
  pose proof (pal_len_nonneg p). destruct (color_eqb k c); [injection E as <-; lia|]. specialize (IH v E). lia.
Qed.

Lemma pal_mem p c : pal_get p c <> None <-> In c (map fst p).
Proof.
  induction p as [|[k v] t IH]; cbn; [intuition|]. destruct (color_eqb k c) eqn:E.
  - apply color_eqb_spec in E as ->. intuition discriminate.
  - rewrite IH. intuition. subst. assert (color_eqb c c = true) by now apply color_eqb_spec. congruence.
Qed.

Lemma good_nodup p : good p -> NoDup (map fst p).
Proof.
  induction 1 as [|c p G IH N]; cbn; constructor; auto. intros I. apply pal_mem in I. congruence.
Qed.

Lemma nested_fold {A B : Type} (f : B -> A -> B) ls : forall st,
  fold_left (fun st l => fold_left f l st) ls st = fold_left f (List.concat ls) st.
Proof. induction ls as [|l t IH]; intros st; cbn; [reflexivity|]. now rewrite IH, fold_left_app. Qed.

Definition all_pixels (i : image) : list color := List.concat (List.concat i).

Lemma nested_fold2 {A B : Type} (f : B -> A -> B) (i : list (list (list A))) : forall st,
  fold_left (fun st g => fold_left (fun st row => fold_left f row st) g st) i st = fold_left f (List.concat (List.concat i)) st.
Proof. induction i as [|g t IH]; intros st; [reflexivity|]. cbn [fold_left List.concat]. now rewrite IH, concat_app, fold_left_app, nested_fold. Qed.

Lemma get_palette_flat i : forall q, fold_left pal_add (all_pixels i) ([], pal_len []) = (q, pal_len q) -> get_palette i = q.
Proof.
  intros q H. unfold get_palette. etransitivity; [apply (f_equal fst); apply nested_fold2|]. exact (f_equal fst H).
Qed.

Lemma pal_fold l : forall p, good p ->
  exists q, fold_left pal_add l (p, pal_len p) = (q, pal_len q) /\ good q /\
    forall c, In c (map fst q) <-> In c (map fst p) \/ In c l.
Proof.
  induction l as [|c t IH]; intros p G; [exists p; cbn; intuition|]. cbn [fold_left pal_add].
  destruct (pal_get p c) as [v|] eqn:E.
  - destruct (IH p G) as (q & Q1 & Q2 & Q3). exists q. split; [exact Q1|]. split; [exact Q2|]. intros x. rewrite Q3. cbn [In].
    assert (In c (map fst p)) by (apply pal_mem; congruence). intuition. subst. auto.
  - destruct (IH ((c, pal_len p) :: p)) as (q & Q1 & Q2 & Q3); [now constructor|]. rewrite pal_len_cons in Q1.
    exists q. split; [exact Q1|]. split; [exact Q2|]. intros x. rewrite Q3. cbn. intuition.
Qed.

Lemma palette_good i : good (get_palette i) /\ forall c, In c (map fst (get_palette i)) <-> In c (all_pixels i).
Proof.
  destruct (pal_fold (all_pixels i) [] good_nil) as (q & Q1 & Q2 & Q3). rewrite (get_palette_flat i q Q1). split; [exact Q2|]. intros c. rewrite Q3. cbn. intuition.
Qed.

Lemma fill_spec p : good p -> forall table, pal_len p <= zlen table ->
  exists t, fill_palette p table = Ok t /\ zlen t = zlen table /\
    (forall c v, pal_get p c = Some v -> get_at t v = Some c) /\
    (forall j, pal_len p <= j -> get_at t j = get_at table j) /\
    (forall c, In c t -> In c table \/ In c (map fst p)).
Proof.
  induction 1 as [|k p G IH N]; intros table L.
  - exists table. repeat split; auto. discriminate.
  - rewrite pal_len_cons in L. pose proof (pal_len_nonneg p).
    destruct (write_at_some table (pal_len p) k) as (t1 & E1); [unfold zlen in L; lia|].
    destruct (write_at_ok _ _ _ _ E1) as (_ & L1 & H2).
    assert (Z1 : zlen t1 = zlen table) by (unfold zlen; now rewrite L1).
    destruct (IH t1) as (t & E & L2 & P1 & P2 & P3); [lia|]. exists t. cbn [fill_palette]. rewrite E1. cbn [bind].
    split; [exact E|]. split; [congruence|]. split; [|split].
    + intros c v Hv. cbn in Hv. destruct (color_eqb k c) eqn:Ek; [|now apply P1]. apply color_eqb_spec in Ek as ->.
      injection Hv as <-. rewrite P2 by lia. now rewrite H2, Z.eqb_refl.
    + intros j J. rewrite pal_len_cons in J. rewrite P2 by lia. rewrite H2. destruct (Z.eqb_spec j (pal_len p)); [lia|reflexivity].
    + intros c I. destruct (P3 c I) as [I1|I1]; [|right; cbn; auto].
      apply In_nth_error in I1 as (m & Em). destruct (Z.eq_dec (Z.of_nat m) (pal_len p)) as [Eq|Ne].
      * right. cbn. left. assert (G1 : get_at t1 (Z.of_nat m) = Some c) by (unfold get_at; destruct (Z.ltb_spec (Z.of_nat m) 0); [lia|now rewrite Nat2Z.id]).
        rewrite Eq, H2, Z.eqb_refl in G1. congruence.
      * left. assert (G1 : get_at t1 (Z.of_nat m) = Some c) by (unfold get_at; destruct (Z.ltb_spec (Z.of_nat m) 0); [lia|now rewrite Nat2Z.id]).
        rewrite H2 in G1. destruct (Z.eqb_spec (Z.of_nat m) (pal_len p)); [contradiction|]. unfold get_at in G1. destruct (Z.ltb_spec (Z.of_nat m) 0); [lia|]. eapply nth_error_In; eauto.
Qed.
