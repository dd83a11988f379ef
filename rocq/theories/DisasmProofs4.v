(** Labels of the listing. *)
From Coq Require Import ZArith List String Ascii Bool Lia.
From Verif Require Import Base Expr Instr Ast Printer SpecIsa CodecProofs CodecProofs2 ExprProofs Disasm SpecDisasm DisasmProofs DisasmProofs2 DisasmProofs3.
Import ListNotations.
Open Scope string_scope.
Open Scope list_scope.
Open Scope Z_scope.

Lemma label_count_filter name l :
  definitions name (map d_statement l) = definitions name (map d_statement (filter is_code l)).
Proof.
  unfold definitions. induction l as [|d l IH]; [reflexivity|]. cbn [map filter]. unfold is_code at 1.
  destruct (d_statement d) eqn:E; cbn [is_label map filter]; rewrite ?E; cbn [is_label]; try exact IH.
  destruct (String.eqb _ name); cbn [List.length]; now rewrite IH.
Qed.

Definition has_label (c : listing) (t : Z) : bool :=
  match lookup t (l_lifted c), lookup t (n_labels (l_names c)) with Some _, Some _ => true | _, _ => false end.

Lemma definitions_app name a b : definitions name (a ++ b) = (definitions name a + definitions name b)%nat.
Proof. unfold definitions. rewrite filter_app, app_length. reflexivity. Qed.

Lemma code_at_count c p t : (forall q n, lookup q (n_labels (l_names c)) = Some n -> n = label_name q) ->
  0 <= p < 18446744073709551616 -> 0 <= t < 18446744073709551616 ->
  definitions (label_name t) (map d_statement (code_at c p)) = if (p =? t) && has_label c t then 1%nat else 0%nat.
Proof.
  intros N P T. unfold code_at, has_label. destruct (lookup p (l_lifted c)) as [i|] eqn:E.
  - destruct (lookup p (n_labels (l_names c))) as [n|] eqn:L; cbn [app map d_statement d_label d_instr definitions filter is_label].
    + pose proof (N p n L). subst n. unfold definitions. cbn [filter is_label]. destruct (String.eqb (label_name p) (label_name t)) eqn:Q.
      * apply String.eqb_eq in Q. apply label_name_inj in Q; auto. subst t. rewrite Z.eqb_refl, E, L. reflexivity.
      * destruct (p =? t) eqn:Q2; [|reflexivity]. apply Z.eqb_eq in Q2. subst t. rewrite String.eqb_refl in Q. discriminate.
    + destruct (p =? t) eqn:Q2; [|reflexivity]. apply Z.eqb_eq in Q2. subst t. rewrite E, L. reflexivity.
  - destruct (p =? t) eqn:Q2; [|reflexivity]. apply Z.eqb_eq in Q2. subst t. rewrite E. reflexivity.
Qed.

Lemma upto_count c t : (forall q n, lookup q (n_labels (l_names c)) = Some n -> n = label_name q) -> 0 <= t < 18446744073709551616 ->
  forall n pos, 0 <= pos -> pos + Z.of_nat n < 18446744073709551616 ->
  definitions (label_name t) (map d_statement (flat_map (code_at c) (upto n pos))) =
  if (pos <=? t) && (t <? pos + Z.of_nat n) && has_label c t then 1%nat else 0%nat.
Proof.
  intros N T. induction n as [|n IH]; intros pos P B.
  - cbn [upto flat_map map]. destruct (pos <=? t) eqn:A; [|reflexivity]. destruct (t <? pos + Z.of_nat 0) eqn:A2; [|reflexivity].
    apply Z.leb_le in A. apply Z.ltb_lt in A2. lia.
  - cbn [upto flat_map]. rewrite map_app, definitions_app, (code_at_count c pos t N) by lia. rewrite IH by lia.
    destruct (has_label c t); rewrite ?andb_false_r; [rewrite !andb_true_r|reflexivity].
    destruct (pos =? t) eqn:A1; destruct (pos + 1 <=? t) eqn:A2; destruct (t <? pos + 1 + Z.of_nat n) eqn:A3;
      destruct (pos <=? t) eqn:A4; destruct (t <? pos + Z.of_nat (S n)) eqn:A5; try reflexivity; exfalso;
      rewrite ?Z.eqb_eq, ?Z.eqb_neq, ?Z.leb_le, ?Z.leb_gt, ?Z.ltb_lt, ?Z.ltb_ge in *; lia.
Qed.

Lemma lift_key p g i n j : lift_instr p g i n = Ok j -> key j = key i.
Proof.
  destruct i; cbn [lift_instr]; try destruct (leaves g p); repeat match goal with |- context [mode ?x] => destruct (mode x) end;
    cbn [bind]; intros H; try discriminate; injection H as <-; reflexivity.
Qed.

(** The jump operand of a lifted instruction. *)
Lemma lift_code_label p g i n j : (forall q m, lookup q (n_labels n) = Some m -> m = label_name q) -> lift_instr p g i n = Ok j ->
  code_label j = match jump_target p i with
                 | Some t => if is_jmpf i && leaves g p then None else lookup t (n_labels n)
                 | None => None
                 end.
Proof.
  intros N H. assert (LE: forall t, match label_expr n t with EName m => Some m | _ => None end = lookup t (n_labels n)).
  { intros t. unfold label_expr. destruct (lookup t (n_labels n)); reflexivity. }
  destruct i; cbn [lift_instr] in H; repeat match type of H with context [mode ?x] => destruct (mode x); cbn [bind] in H; try discriminate H end;
    try (destruct (leaves g p) eqn:L); injection H as <-; unfold code_label; cbn [key op_list snd rev app]; cbn [jump_target is_jmpf andb]; rewrite ?L;
    try reflexivity; rewrite <- LE; destruct (label_expr n _); reflexivity.
Qed.

(** The jump operand leads to the target. *)
Lemma target_leads p i : in_range i -> 0 <= p <= 1073741824 -> forall t,
  jump_target p i = Some t <-> exists u, leads i (p + size i) u /\ t = wrap_usize u.
Proof.
  intros R P t. pose proof (size_bounds i) as S. set (next := p + size i) in *.
  assert (B8: forall r, - 128 <= r <= 127 -> branch8 r next = wrap_usize (next + r)) by (intros; apply branch8_address; lia).
  assert (B16: forall r, - 32768 <= r <= 32767 -> branch16 r next = wrap_usize (next - 1 + r)) by (intros; apply branch16_address; lia).
  assert (PA: forall o, 0 <= o <= 4095 -> page_address o next = wrap_usize ((next / 4096) mod 16 * 4096 + o)) by (intros; now apply page_address_value).
  assert (Q: (exists u, leads i next u /\ t = wrap_usize u) <-> (snd (key i) <> [] /\ option_map wrap_usize (address (last (snd (key i)) I8) next (last (values i) 0)) = Some t)).
  { split.
    - intros (u & (ks & k & os & o & K & V & A) & ->). split; [rewrite K; destruct ks; discriminate|].
      now rewrite (last_two _ _ _ I8 K), (last_two _ _ _ 0 V), A.
    - intros [N A]. destruct (address (last (snd (key i)) I8) next (last (values i) 0)) as [u|] eqn:E; [|discriminate]. cbn [option_map] in A. injection A as <-.
      exists u. split; [|reflexivity]. exists (removelast (snd (key i))), (last (snd (key i)) I8), (removelast (values i)), (last (values i) 0).
      split; [now apply app_removelast_last|]. split; [|exact E]. apply app_removelast_last. intros V. apply N. apply length_zero_iff_nil.
      rewrite <- values_length, V. reflexivity. }
  rewrite Q. clear Q.
  destruct i; unfold values; cbn [jump_target key snd op_list map strip last address option_map]; fold next; ranges R;
    rewrite ?B8, ?B16, ?PA by lia; (split; [intros H; split; [discriminate|]|intros [N H]]); try discriminate; try congruence; exact H.
Qed.

(** What is known about the listing of a binary. *)
Section Listing.
Variables (fuel : nat) (flag : bool) (entries bytes : list Z) (g : graph) (lifted : list (Z * instr expr imode)) (r : list dstatement).
Hypothesis F : Forall is_byte bytes.
Hypothesis M : moderate bytes.
Hypothesis E : Forall (fun e => 0 <= e) entries.
Hypothesis B : build_instruction_graph fuel entries bytes = Ok (inl g).
Hypothesis LI : lift_instrs g (build_names g) (g_instrs g) = Ok lifted.
Let c := mkListing flag entries bytes g lifted (build_names g).
Hypothesis EM : emit (S (List.length bytes)) c (fun _ => false) 0 = Ok r.
Let l := r ++ tail_part c.

Lemma listing_inv : inv bytes entries g [].
Proof. exact (built_inv bytes entries fuel g F E B). Qed.

Lemma listing_code : filter is_code l = flat_map (code_at c) (upto (List.length bytes) 0).
Proof.
  unfold l. rewrite filter_app, tail_code, app_nil_r. rewrite (emit_code c _ _ 0 r (Z.le_refl 0) EM).
  cbn [l_bytes c]. do 2 f_equal. unfold blen. lia.
Qed.

Lemma lifted_at p j : lookup p lifted = Some j -> exists i, instr_at g p = Some i /\ lift_instr p g i (build_names g) = Ok j.
Proof.
  intros H. pose proof (lift_lookup g (build_names g) _ _ LI p) as K. unfold instr_at. destruct (lookup p (g_instrs g)) as [i|].
  - destruct K as (j' & K1 & K2). exists i. split; [reflexivity|congruence].
  - congruence.
Qed.

Lemma lifted_of p i : instr_at g p = Some i -> exists j, lookup p lifted = Some j /\ lift_instr p g i (build_names g) = Ok j.
Proof.
  intros H. pose proof (lift_lookup g (build_names g) _ _ LI p) as K. unfold instr_at in H. rewrite H in K. destruct K as (j & K1 & K2). eauto.
Qed.

Lemma listing_instr d j : In d l -> d_statement d = SInstr j -> exists p i, d = d_instr p j (arrival_comment flag g p) /\
  instr_at g p = Some i /\ lookup p lifted = Some j /\ lift_instr p g i (build_names g) = Ok j.
Proof.
  intros I S. assert (J: In d (filter is_code l)) by (apply filter_In; split; [exact I|unfold is_code; now rewrite S]).
  rewrite listing_code in J. apply in_flat_map in J as (p & _ & J). unfold code_at in J. cbn [l_lifted c] in J.
  destruct (lookup p lifted) as [j'|] eqn:L; [|destruct J]. destruct (lifted_at p j' L) as (i & I1 & I2).
  apply in_app_or in J as [J|[<-|[]]].
  - destruct (lookup p (n_labels (l_names c))); [|destruct J]. destruct J as [<-|[]]. discriminate.
  - cbn in S. injection S as ->. exists p, i. auto.
Qed.

Lemma names_ok : forall q m, lookup q (n_labels (build_names g)) = Some m -> m = label_name q.
Proof. exact (labels_name g). Qed.

(** A generated label below the end of the binary stands before an instruction. *)
Lemma label_inside a i t : instr_at g a = Some i -> jump_target a i = Some t -> is_jmpf i && leaves g a = false ->
  (t < blen bytes -> contains_instr g t = true) /\ lookup t (compute_labels g) = Some (label_name t).
Proof.
  intros I T L. split.
  - intros N. destruct (i_closed _ _ _ _ listing_inv a i t I (jump_target_full a i t T)) as [[C|[[]|C]]|[C S]]; [exact C|lia|].
    exfalso. rewrite C in L. cbn [andb] in L. assert (2 <= a) by (destruct (i_decoded _ _ _ _ listing_inv _ _ S) as [[X _] _]; lia).
    assert (leaves g a = true) by (apply (leaves_switch bytes entries g [] a listing_inv); auto). congruence.
  - apply labels_at. exists a, i. split; [|auto]. exact (lookup_in _ _ _ I).
Qed.

Lemma listing_count t : 0 <= t < 18446744073709551616 ->
  definitions (label_name t) (map d_statement l) = if (t <? blen bytes) && has_label c t then 1%nat else 0%nat.
Proof.
  intros T. rewrite label_count_filter, listing_code. rewrite (upto_count c t names_ok T _ 0); [|lia|unfold moderate in M; lia].
  replace (0 <=? t) with true by (symmetry; apply Z.leb_le; lia). reflexivity.
Qed.

Lemma listing_label d j nm : In d l -> d_statement d = SInstr j -> code_label j = Some nm -> exists a i t,
  d_pos d = Some a /\ instr_at g a = Some i /\ jump_target a i = Some t /\ is_jmpf i && leaves g a = false /\ nm = label_name t.
Proof.
  intros I S K. destruct (listing_instr d j I S) as (p & i & -> & IA & L & LF). rewrite (lift_code_label p g i (build_names g) j names_ok LF) in K.
  destruct (jump_target p i) as [t|] eqn:T; [|discriminate]. destruct (is_jmpf i && leaves g p) eqn:Q; [discriminate|].
  exists p, i, t. split; [reflexivity|]. split; [exact IA|]. split; [exact T|]. split; [exact Q|]. exact (names_ok t nm K).
Qed.

Lemma listing_split t : contains_instr g t = true -> lookup t (compute_labels g) = Some (label_name t) ->
  exists l1 l2 j, filter is_code l = l1 ++ d_label (label_name t) :: d_instr t j (arrival_comment flag g t) :: l2.
Proof.
  intros C L. apply contains_iff in C as (i & C). destruct (lifted_of t i C) as (j & J & _).
  destruct (i_decoded _ _ _ _ listing_inv t i C) as [[A1 A2] _].
  rewrite listing_code. replace (List.length bytes) with (Z.to_nat t + S (List.length bytes - Z.to_nat t - 1))%nat by lia.
  rewrite upto_app, flat_map_app. cbn [upto flat_map]. rewrite Z2Nat.id, Z.add_0_l by lia.
  unfold code_at at 2. cbn [l_lifted l_names n_labels build_names l_flag l_graph c]. rewrite J, L. cbn [app]. eauto.
Qed.
End Listing.

Lemma same_target a i t u bytes : Forall is_byte bytes -> moderate bytes -> inside bytes a -> stands bytes a i (a + size i) ->
  leads i (a + size i) u -> t = wrap_usize u -> (inside bytes u -> t = u) /\ (~ inside bytes u -> blen bytes <= t) /\ (t < blen bytes -> t = u /\ inside bytes u).
Proof.
  intros F M I S L ->. assert (G: goes bytes a u).
  { destruct L as (ks & k & os & o & K & V & A). exact (goes_to bytes a i (a + size i) ks k os o u S K V A). }
  destruct (goes_bounds bytes a u F M G) as [_ BD]. unfold inside, moderate, blen in *.
  destruct (Z_lt_dec u 0) as [N|N].
  - pose proof (usize_negative u ltac:(lia)). lia.
  - rewrite usize_small by lia. lia.
Qed.
