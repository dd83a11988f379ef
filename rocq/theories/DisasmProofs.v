(** Control-flow discovery: termination, soundness, closure. *)
From Coq Require Import ZArith List String Ascii Bool Lia.
From Verif Require Import Base Expr Instr Ast Printer SpecIsa CodecProofs CodecProofs2 ExprProofs Disasm SpecDisasm.
Import ListNotations.
Open Scope string_scope.
Open Scope list_scope.
Open Scope Z_scope.

(** * Maps *)

Lemma lookup_filter_eq {A : Type} k (l : list (Z * A)) : lookup k (filter (fun p => negb (fst p =? k)) l) = None.
Proof.
  induction l as [|[q v] l IH]; [reflexivity|]. cbn [filter fst]. destruct (q =? k) eqn:E; cbn [negb]; [exact IH|].
  cbn [lookup]. now rewrite E.
Qed.

Lemma lookup_filter_ne {A : Type} k j (l : list (Z * A)) : k <> j -> lookup k (filter (fun p => negb (fst p =? j)) l) = lookup k l.
Proof.
  intros N. induction l as [|[q v] l IH]; [reflexivity|]. cbn [filter fst]. destruct (q =? j) eqn:E; cbn [negb lookup].
  - apply Z.eqb_eq in E. subst q. replace (j =? k) with false by (symmetry; apply Z.eqb_neq; congruence). exact IH.
  - now rewrite IH.
Qed.

Lemma lookup_insert_eq {A : Type} k (v : A) l : lookup k (insert k v l) = Some v.
Proof. unfold insert. cbn [lookup]. now rewrite Z.eqb_refl. Qed.

Lemma lookup_insert_ne {A : Type} k j (v : A) l : k <> j -> lookup k (insert j v l) = lookup k l.
Proof.
  intros N. unfold insert. cbn [lookup]. replace (j =? k) with false by (symmetry; apply Z.eqb_neq; congruence).
  now apply lookup_filter_ne.
Qed.

Lemma lookup_in {A : Type} k (v : A) l : lookup k l = Some v -> In (k, v) l.
Proof.
  induction l as [|[q w] l IH]; [discriminate|]. cbn [lookup]. destruct (q =? k) eqn:E.
  - intros [= ->]. apply Z.eqb_eq in E. subst. now left.
  - intros H. right. auto.
Qed.

Lemma lookup_none {A : Type} k (l : list (Z * A)) : lookup k l = None <-> ~ In k (map fst l).
Proof.
  induction l as [|[q w] l IH]; [cbn; tauto|]. cbn [lookup map fst In]. destruct (q =? k) eqn:E.
  - apply Z.eqb_eq in E. subst. split; [discriminate|]. intros H. exfalso. apply H. now left.
  - apply Z.eqb_neq in E. rewrite IH. tauto.
Qed.

Lemma insert_keys {A : Type} k (v : A) l : NoDup (map fst l) -> NoDup (map fst (insert k v l)).
Proof.
  intros H. unfold insert. cbn [map fst]. constructor.
  - rewrite in_map_iff. intros ([q w] & E & I). cbn in E. subst q. apply filter_In in I as [_ I]. cbn in I.
    rewrite Z.eqb_refl in I. discriminate.
  - clear -H. induction l as [|[q w] l IH]; [constructor|]. cbn [map fst] in H. apply NoDup_cons_iff in H as [H1 H2]. cbn [filter fst].
    destruct (negb (q =? k)); [|auto]. cbn [map fst]. constructor; [|auto]. intros I. apply H1. rewrite in_map_iff in *.
    destruct I as (x & E & I). exists x. apply filter_In in I. tauto.
Qed.

Lemma in_lookup {A : Type} k (v : A) l : NoDup (map fst l) -> In (k, v) l -> lookup k l = Some v.
Proof.
  induction l as [|[q w] l IH]; [contradiction|]. cbn [map fst]. intros N. apply NoDup_cons_iff in N as [N1 N2].
  intros [[= -> ->]|I]; cbn [lookup]; [now rewrite Z.eqb_refl|]. replace (q =? k) with false; [auto|].
  symmetry. apply Z.eqb_neq. intros ->. apply N1. apply in_map_iff. exists (k, v). auto.
Qed.

(** * Decoding at an offset *)

Lemma skipn_bytes bytes n : Forall is_byte bytes -> Forall is_byte (skipn n bytes).
Proof.
  intros H. rewrite Forall_forall in *. intros x I. apply H. rewrite <- (firstn_skipn n bytes). apply in_or_app. now right.
Qed.

Lemma skipn_ne bytes a : inside bytes a -> skipn (Z.to_nat a) bytes <> [].
Proof.
  intros [A B] E. apply (f_equal (@List.length Z)) in E. rewrite skipn_length in E. cbn in E. lia.
Qed.

Lemma decode_fine bytes a : Forall is_byte bytes -> inside bytes a -> exists o, decode (skipn (Z.to_nat a) bytes) = Ok o.
Proof.
  intros F H. pose proof (skipn_bytes bytes (Z.to_nat a) F) as G. pose proof (skipn_ne bytes a H) as N.
  destruct (skipn (Z.to_nat a) bytes) as [|b t]; [congruence|]. rewrite decode_cons. eauto.
Qed.

Definition key_dec (x y : string * list kind) : {x = y} + {x <> y}.
Proof. decide equality; [apply list_eq_dec; decide equality|apply string_dec]. Defined.

Lemma isa_keys : NoDup (map (fun f => (f_name f, f_kinds f)) isa).
Proof.
  replace (map (fun f => (f_name f, f_kinds f)) isa) with (nodup key_dec (map (fun f => (f_name f, f_kinds f)) isa)) by (vm_compute; reflexivity).
  apply NoDup_nodup.
Qed.

Lemma nodup_map_inj {A B : Type} (h : A -> B) l x y : NoDup (map h l) -> In x l -> In y l -> h x = h y -> x = y.
Proof.
  induction l as [|z l IH]; [contradiction|]. cbn [map]. intros N. apply NoDup_cons_iff in N as [N1 N2]. intros [->|I] [->|J] E; auto.
  - exfalso. apply N1. rewrite E. now apply in_map.
  - exfalso. apply N1. rewrite <- E. now apply in_map.
Qed.

Lemma form_key_unique f g : In f isa -> In g isa -> (f_name f, f_kinds f) = (f_name g, f_kinds g) -> f = g.
Proof. exact (nodup_map_inj (fun f => (f_name f, f_kinds f)) isa f g isa_keys). Qed.

Lemma form_bytes_length f args : List.length (form_bytes f args) = List.length (f_bits f).
Proof. apply map_length. Qed.

Lemma decode_stands bytes a i : Forall is_byte bytes -> inside bytes a -> decode (skipn (Z.to_nat a) bytes) = Ok (Some i) ->
  stands bytes a i (a + size i).
Proof.
  intros F H D. destruct (decode_sound _ i (skipn_bytes _ _ F) D) as (R & rest & E).
  destruct (encode_docs i) as (f & I & K & EB). destruct (encode_length i) as [L _].
  exists (firstn (Z.to_nat a) bytes), f, rest. rewrite <- EB, <- E, firstn_skipn. split; [reflexivity|]. unfold inside in H.
  split; [rewrite firstn_length; lia|]. split; [exact I|]. split; [exact K|]. split; [exact R|].
  rewrite <- L, EB, form_bytes_length. reflexivity.
Qed.

Lemma stands_decode bytes a i b : Forall is_byte bytes -> stands bytes a i b ->
  inside bytes a /\ decode (skipn (Z.to_nat a) bytes) = Ok (Some i) /\ b = a + size i /\ b <= blen bytes /\ in_range i.
Proof.
  intros F (pre & f & post & E & -> & I & K & R & ->).
  destruct (encode_docs i) as (f' & I' & K' & EB). assert (f' = f) by (apply form_key_unique; auto; congruence). subst f'.
  destruct (encode_length i) as [L B]. rewrite EB, form_bytes_length in L. rewrite <- EB in E.
  assert (LE: List.length bytes = (List.length pre + (List.length (f_bits f) + List.length post))%nat).
  { rewrite E, !app_length, EB, form_bytes_length. reflexivity. }
  assert (FP: Forall is_byte post).
  { rewrite E in F. apply Forall_app in F as [_ F]. apply Forall_app in F as [_ F]. exact F. }
  unfold inside, blen. split; [lia|]. split; [|split; [lia|split; [lia|exact R]]].
  rewrite Nat2Z.id, E, skipn_app, skipn_all, Nat.sub_diag. cbn [app skipn]. now apply decode_encode.
Qed.

Lemma size_bounds {E J : Type} (i : instr E J) : 1 <= size i <= 3.
Proof. destruct i; cbv; split; discriminate. Qed.

(** * Targets *)

(** The targets if the jump is not to another memory. *)
Definition full (pos : Z) (i : instr Z Z) : list Z := targets pos i new_graph.

Definition is_jmpf (i : instr Z Z) : bool := match i with Jmpf _ => true | _ => false end.

Lemma leaves_new pos : leaves new_graph pos = false.
Proof. unfold leaves. destruct (2 <=? pos); reflexivity. Qed.

Lemma targets_full pos i g : targets pos i g = if is_jmpf i && leaves g pos then [] else full pos i.
Proof. destruct i; try reflexivity. cbn [is_jmpf andb]. unfold full. cbn [targets]. rewrite leaves_new. reflexivity. Qed.

(** * The invariant of the discovery *)

Inductive treach (bytes entries : list Z) : Z -> Prop :=
| tr_entry : forall e, In e entries -> treach bytes entries e
| tr_step : forall a i t, treach bytes entries a -> inside bytes a -> decode (skipn (Z.to_nat a) bytes) = Ok (Some i) ->
    In t (full a i) -> treach bytes entries t.

Definition covered (bytes : list Z) (g : graph) (W : list Z) (t : Z) : Prop :=
  contains_instr g t = true \/ In t W \/ blen bytes <= t.

Definition switch (g : graph) (pos : Z) : Prop := instr_at g (pos - 2) = Some (Not1 269 0).

Record inv (bytes entries : list Z) (g : graph) (W : list Z) : Prop := mkInv {
  i_decoded : forall a i, instr_at g a = Some i -> inside bytes a /\ decode (skipn (Z.to_nat a) bytes) = Ok (Some i);
  i_keys : NoDup (map fst (g_instrs g));
  i_reach : forall a, contains_instr g a = true -> treach bytes entries a;
  i_work : forall a, In a W -> treach bytes entries a /\ 0 <= a;
  i_closed : forall a i t, instr_at g a = Some i -> In t (full a i) -> covered bytes g W t \/ (is_jmpf i = true /\ switch g a);
  i_entries : forall e, In e entries -> covered bytes g W e;
  i_not1 : forall a d b, instr_at g a = Some (Not1 d b) -> arrived_from g (a + 2) a = true
}.

Lemma contains_iff g a : contains_instr g a = true <-> exists i, instr_at g a = Some i.
Proof.
  unfold contains_instr. destruct (instr_at g a) as [i|]; split.
  - eauto.
  - reflexivity.
  - discriminate.
  - intros [i H]. discriminate.
Qed.

Lemma jump_to_instrs g a t : g_instrs (jump_to g a t) = g_instrs g.
Proof. unfold jump_to. destruct (existsb _ _); reflexivity. Qed.

Lemma jumps_instrs a ts : forall g, g_instrs (fold_left (fun acc t => jump_to acc a t) ts g) = g_instrs g.
Proof. induction ts as [|t ts IH]; intros g; [reflexivity|]. cbn [fold_left]. now rewrite IH, jump_to_instrs. Qed.

Lemma pair_eqb_iff p q : pair_eqb p q = true <-> p = q.
Proof.
  destruct p as [a b], q as [c d]. unfold pair_eqb. cbn. rewrite andb_true_iff, !Z.eqb_eq. split; [intros [-> ->]; reflexivity|intros [= -> ->]; auto].
Qed.

Lemma arrived_iff g pos from : arrived_from g pos from = true <-> In (from, pos) (g_jumps g).
Proof.
  unfold arrived_from. rewrite existsb_exists. split.
  - intros (x & I & E). apply pair_eqb_iff in E. now subst.
  - intros I. exists (from, pos). split; [exact I|now apply pair_eqb_iff].
Qed.

Lemma jump_to_keeps g a t p : In p (g_jumps g) -> In p (g_jumps (jump_to g a t)).
Proof. unfold jump_to. destruct (existsb _ _); [auto|]. now right. Qed.

Lemma jump_to_adds g a t : In (a, t) (g_jumps (jump_to g a t)).
Proof.
  unfold jump_to. destruct (existsb _ _) eqn:E; [|now left]. apply existsb_exists in E as (x & I & E). apply pair_eqb_iff in E. now subst.
Qed.

Lemma jumps_keep a ts : forall g p, In p (g_jumps g) -> In p (g_jumps (fold_left (fun acc t => jump_to acc a t) ts g)).
Proof. induction ts as [|t ts IH]; intros g p H; [exact H|]. cbn [fold_left]. apply IH. now apply jump_to_keeps. Qed.

Lemma jumps_add a ts : forall g t, In t ts -> In (a, t) (g_jumps (fold_left (fun acc t => jump_to acc a t) ts g)).
Proof.
  induction ts as [|u ts IH]; intros g t; [contradiction|]. intros [<-|I]; cbn [fold_left]; [|auto].
  apply jumps_keep, jump_to_adds.
Qed.

Lemma instr_at_add g a i b : instr_at (add_instr g a i) b = if b =? a then Some i else instr_at g b.
Proof.
  unfold instr_at, add_instr. cbn [g_instrs]. destruct (b =? a) eqn:E.
  - apply Z.eqb_eq in E. subst. apply lookup_insert_eq.
  - apply Z.eqb_neq in E. now apply lookup_insert_ne.
Qed.

(** The graph after a visit. *)
Definition visited (a : Z) (i : instr Z Z) (g : graph) : graph :=
  add_instr (fold_left (fun acc t => jump_to acc a t) (targets a i g) g) a i.

Lemma instr_at_visited a i g b : instr_at (visited a i g) b = if b =? a then Some i else instr_at g b.
Proof. unfold visited. rewrite instr_at_add. unfold instr_at. now rewrite jumps_instrs. Qed.

Lemma visit_step bytes a g P r : Forall is_byte bytes -> 0 <= a -> visit bytes a g P = r ->
  (blen bytes <= a /\ r = Ok (inl (g, P))) \/
  (inside bytes a /\ exists i, decode (skipn (Z.to_nat a) bytes) = Ok (Some i) /\
     r = Ok (inl (visited a i g, P ++ filter (fun t => negb (contains_instr (visited a i g) t)) (targets a i g)))) \/
  (inside bytes a /\ decode (skipn (Z.to_nat a) bytes) = Ok None /\ r = Ok (inr (NoInstruction a (nth (Z.to_nat a) bytes 0)))).
Proof.
  intros F A <-. unfold visit. destruct (a =? blen bytes) eqn:E1; [left; apply Z.eqb_eq in E1; split; [lia|reflexivity]|].
  destruct (blen bytes <? a) eqn:E2; [left; apply Z.ltb_lt in E2; split; [lia|reflexivity]|].
  right. apply Z.eqb_neq in E1. apply Z.ltb_ge in E2. assert (I: inside bytes a) by (unfold inside, blen in *; lia).
  destruct (decode_fine bytes a F I) as ([i|] & D); rewrite D; cbn [bind].
  - left. split; [exact I|]. exists i. split; reflexivity.
  - right. auto.
Qed.

Lemma leaves_switch bytes entries g W a : inv bytes entries g W -> leaves g a = true <-> 2 <= a /\ switch g a.
Proof.
  intros V. unfold leaves, switch. destruct (2 <=? a) eqn:E.
  - apply Z.leb_le in E. destruct (instr_at g (a - 2)) as [[]|] eqn:I; try (split; [discriminate|intros [_ H]; discriminate]).
    split.
    + intros H. apply andb_prop in H as [H _]. apply andb_prop in H as [H1 H2]. apply Z.eqb_eq in H1, H2. subst. auto.
    + intros [_ H]. injection H as -> ->. change (269 =? 269) with true. change (0 =? 0) with true. cbn [andb].
      replace a with (a - 2 + 2) at 1 by lia. exact (i_not1 _ _ _ _ V _ _ _ I).
  - apply Z.leb_gt in E. split; [discriminate|lia].
Qed.

Lemma covered_grow bytes g W a i W' t : covered bytes g (a :: W) t -> (forall x, In x W -> In x W') ->
  covered bytes (visited a i g) W' t.
Proof.
  intros H M. unfold covered. assert (Q: contains_instr (visited a i g) t = true <-> t = a \/ contains_instr g t = true).
  { unfold contains_instr. rewrite instr_at_visited. destruct (t =? a) eqn:E.
    - apply Z.eqb_eq in E. tauto.
    - apply Z.eqb_neq in E. tauto. }
  destruct H as [H|[[H|H]|H]]; [left; apply Q; auto|left; apply Q; auto|right; left; auto|right; right; exact H].
Qed.

Lemma visit_inv bytes entries a L P g g' P' : Forall is_byte bytes -> inv bytes entries g (a :: L ++ P) ->
  visit bytes a g P = Ok (inl (g', P')) -> inv bytes entries g' (L ++ P').
Proof.
  intros F V H. destruct (i_work _ _ _ _ V a (or_introl eq_refl)) as [RA A0].
  destruct (visit_step bytes a g P _ F A0 H) as [[B [= -> ->]]|[(I & i & D & [= -> ->])|(_ & _ & [=])]].
  - (* outside *)
    constructor.
    + exact (i_decoded _ _ _ _ V).
    + exact (i_keys _ _ _ _ V).
    + exact (i_reach _ _ _ _ V).
    + intros b J. apply (i_work _ _ _ _ V). now right.
    + intros b i t E J. destruct (i_closed _ _ _ _ V b i t E J) as [[C|[[<-|C]|C]]|C]; [left; left; auto|left; right; right; auto| | |right; auto].
      * left. right. left. exact C.
      * left. right. right. exact C.
    + intros e J. destruct (i_entries _ _ _ _ V e J) as [C|[[<-|C]|C]]; [left; auto|right; right; auto|right; left; auto|right; right; auto].
    + exact (i_not1 _ _ _ _ V).
  - set (g2 := visited a i g). set (new := filter (fun t => negb (contains_instr g2 t)) (targets a i g)).
    assert (TS: forall t, In t (targets a i g) -> In t (full a i)).
    { intros t. rewrite targets_full. destruct (is_jmpf i && leaves g a); [contradiction|auto]. }
    constructor.
    + intros b j E. unfold g2 in E. rewrite instr_at_visited in E. destruct (b =? a) eqn:Q.
      * apply Z.eqb_eq in Q. injection E as <-. subst b. auto.
      * exact (i_decoded _ _ _ _ V b j E).
    + unfold g2, visited, add_instr. cbn [g_instrs]. rewrite jumps_instrs. apply insert_keys. exact (i_keys _ _ _ _ V).
    + intros b E. unfold g2, contains_instr in E. rewrite instr_at_visited in E. destruct (b =? a) eqn:Q.
      * apply Z.eqb_eq in Q. now subst b.
      * apply (i_reach _ _ _ _ V). exact E.
    + intros b J. apply in_app_or in J as [J|J]; [apply (i_work _ _ _ _ V); right; apply in_or_app; auto|].
      apply in_app_or in J as [J|J]; [apply (i_work _ _ _ _ V); right; apply in_or_app; auto|].
      unfold new in J. apply filter_In in J as [J _]. apply TS in J. split; [exact (tr_step _ _ a i b RA I D J)|].
      clear -J A0. unfold full in J. pose proof (size_bounds i) as S.
      assert (N: 0 <= a + size i) by lia.
      assert (W1: forall r n, 0 <= branch8 r n) by (intros; unfold branch8, wrap_usize; apply Z.mod_pos_bound; lia).
      assert (W2: forall r n, 0 <= branch16 r n) by (intros; unfold branch16, wrap_usize; apply Z.mod_pos_bound; lia).
      assert (W3: forall x, 0 <= wrap_usize x) by (intros; unfold wrap_usize; apply Z.mod_pos_bound; lia).
      assert (W4: forall x, 0 <= page_address x (a + size i)).
      { intros. unfold page_address. apply Z.lor_nonneg. split; apply Z.land_nonneg; right; lia. }
      destruct i; cbn [targets] in J; rewrite ?leaves_new in J; cbn in J;
        repeat match goal with J : _ \/ _ |- _ => destruct J as [J|J] end; try contradiction; subst b;
        first [apply W1|apply W2|apply W3|apply W4|exact N].
    + intros b j t E J. unfold g2 in E. rewrite instr_at_visited in E. destruct (b =? a) eqn:Q.
      * apply Z.eqb_eq in Q. injection E as <-. subst b.
        destruct (is_jmpf i && leaves g a) eqn:S.
        -- right. apply andb_prop in S as [S1 S2]. split; [exact S1|]. apply (leaves_switch _ _ _ _ _ V) in S2 as [S2 S3].
           unfold switch, g2. rewrite instr_at_visited. replace (a - 2 =? a) with false by (symmetry; apply Z.eqb_neq; lia). exact S3.
        -- left. destruct (contains_instr g2 t) eqn:C; [left; exact C|]. right. left. apply in_or_app. right. apply in_or_app. right.
           unfold new. apply filter_In. split; [|now rewrite C]. rewrite targets_full, S. exact J.
      * destruct (i_closed _ _ _ _ V b j t E J) as [C|[C1 C2]].
        -- left. eapply covered_grow; [exact C|]. intros x X. apply in_app_or in X as [X|X]; apply in_or_app; [now left|right; apply in_or_app; now left].
        -- right. split; [exact C1|]. unfold switch, g2 in *. rewrite instr_at_visited. destruct (b - 2 =? a) eqn:Q2; [|exact C2].
           apply Z.eqb_eq in Q2. f_equal. destruct (i_decoded _ _ _ _ V _ _ C2) as [_ D2]. rewrite Q2 in D2. congruence.
    + intros e J. eapply covered_grow; [exact (i_entries _ _ _ _ V e J)|]. intros x X. apply in_app_or in X as [X|X]; apply in_or_app; [now left|right; apply in_or_app; now left].
    + intros b d x E. unfold g2 in E. rewrite instr_at_visited in E. apply arrived_iff. unfold g2, visited, add_instr. cbn [g_jumps].
      destruct (b =? a) eqn:Q.
      * apply Z.eqb_eq in Q. injection E as ->. subst b. apply jumps_add. cbn [targets]. now left.
      * apply jumps_keep. apply arrived_iff. exact (i_not1 _ _ _ _ V _ _ _ E).
Qed.

Lemma visit_all_inv bytes entries : Forall is_byte bytes -> forall L g P g' P', inv bytes entries g (L ++ P) ->
  visit_all bytes L g P = Ok (inl (g', P')) -> inv bytes entries g' P'.
Proof.
  intros F. induction L as [|a L IH]; intros g P g' P' V H; cbn [visit_all] in H.
  - injection H as <- <-. exact V.
  - destruct (visit bytes a g P) as [[[g1 P1]|e]| | |] eqn:E; cbn [bind] in H; try discriminate.
    apply (IH g1 P1 g' P'); [|exact H]. exact (visit_inv bytes entries a L P g g1 P1 F V E).
Qed.

Lemma visit_all_error bytes entries : Forall is_byte bytes -> forall L g P e, inv bytes entries g (L ++ P) ->
  visit_all bytes L g P = Ok (inr e) -> exists a, e = NoInstruction a (nth (Z.to_nat a) bytes 0) /\ treach bytes entries a /\ inside bytes a /\
    decode (skipn (Z.to_nat a) bytes) = Ok None.
Proof.
  intros F. induction L as [|a L IH]; intros g P e V H; cbn [visit_all] in H; [discriminate|].
  destruct (i_work _ _ _ _ V a (or_introl eq_refl)) as [RA A0].
  destruct (visit bytes a g P) as [[[g1 P1]|e1]| | |] eqn:E; cbn [bind] in H; try discriminate.
  - apply (IH g1 P1 e); [|exact H]. exact (visit_inv bytes entries a L P g g1 P1 F V E).
  - injection H as <-. destruct (visit_step bytes a g P _ F A0 E) as [[_ [=]]|[(_ & i & _ & [=])|(I & D & [= ->])]]. exists a. auto.
Qed.

Lemma visit_all_fine bytes entries : Forall is_byte bytes -> forall L g P, inv bytes entries g (L ++ P) ->
  exists r, visit_all bytes L g P = Ok r.
Proof.
  intros F. induction L as [|a L IH]; intros g P V; cbn [visit_all]; [eauto|].
  destruct (i_work _ _ _ _ V a (or_introl eq_refl)) as [RA A0].
  destruct (visit_step bytes a g P _ F A0 eq_refl) as [[_ E]|[(_ & i & _ & E)|(_ & _ & E)]].
  - rewrite E. cbn [bind]. apply IH. exact (visit_inv bytes entries a L P g _ _ F V E).
  - rewrite E. cbn [bind]. apply IH. exact (visit_inv bytes entries a L P g _ _ F V E).
  - rewrite E. cbn [bind]. eauto.
Qed.

Lemma discover_inv bytes entries : Forall is_byte bytes -> forall fuel P g g', inv bytes entries g P ->
  discover fuel bytes P g = Ok (inl g') -> inv bytes entries g' [].
Proof.
  intros F. induction fuel as [|f IH]; intros P g g' V H.
  - destruct P; cbn [discover] in H; [injection H as <-; exact V|discriminate].
  - destruct P as [|a P]; cbn [discover] in H; [injection H as <-; exact V|].
    destruct (visit_all bytes (a :: P) g []) as [[[g1 P1]|e]| | |] eqn:E; cbn [bind] in H; try discriminate.
    apply (IH P1 g1 g'); [|exact H]. apply (visit_all_inv bytes entries F (a :: P) g [] g1 P1); [now rewrite app_nil_r|exact E].
Qed.

Lemma discover_error bytes entries : Forall is_byte bytes -> forall fuel P g e, inv bytes entries g P ->
  discover fuel bytes P g = Ok (inr e) -> exists a, e = NoInstruction a (nth (Z.to_nat a) bytes 0) /\ treach bytes entries a /\ inside bytes a /\
    decode (skipn (Z.to_nat a) bytes) = Ok None.
Proof.
  intros F. induction fuel as [|f IH]; intros P g e V H.
  - destruct P; cbn [discover] in H; discriminate.
  - destruct P as [|a P]; cbn [discover] in H; [discriminate|].
    destruct (visit_all bytes (a :: P) g []) as [[[g1 P1]|e1]| | |] eqn:E; cbn [bind] in H; try discriminate.
    + apply (IH P1 g1 e); [|exact H]. apply (visit_all_inv bytes entries F (a :: P) g [] g1 P1); [now rewrite app_nil_r|exact E].
    + injection H as <-. apply (visit_all_error bytes entries F (a :: P) g [] e1); [now rewrite app_nil_r|exact E].
Qed.

Lemma inv_start bytes entries : Forall (fun e => 0 <= e) entries -> inv bytes entries new_graph entries.
Proof.
  intros H. constructor; try discriminate.
  - constructor.
  - intros a I. split; [now constructor|]. rewrite Forall_forall in H. auto.
  - intros e I. right. left. exact I.
Qed.

(** * Termination *)

Definition missing (bytes : list Z) (g : graph) : list Z :=
  filter (fun a => negb (contains_instr g a)) (map Z.of_nat (seq 0 (List.length bytes))).

Definition fresh (bytes : list Z) (g : graph) (a : Z) : bool := (a <? blen bytes) && negb (contains_instr g a).

Lemma filter_le {A : Type} (p q : A -> bool) l : (forall x, In x l -> p x = true -> q x = true) ->
  (List.length (filter p l) <= List.length (filter q l))%nat.
Proof.
  induction l as [|x l IH]; intros H; [reflexivity|]. cbn [filter]. assert (IH' := IH (fun y I => H y (or_intror I))).
  destruct (p x) eqn:E; [rewrite (H x (or_introl eq_refl) E); cbn; lia|]. destruct (q x); cbn; lia.
Qed.

Lemma filter_lt {A : Type} (p q : A -> bool) l y : (forall x, In x l -> p x = true -> q x = true) -> In y l ->
  q y = true -> p y = false -> (List.length (filter p l) < List.length (filter q l))%nat.
Proof.
  induction l as [|x l IH]; intros H I Q P; [contradiction|]. destruct I as [->|I].
  - cbn [filter]. rewrite Q, P. cbn. pose proof (filter_le p q l (fun z J => H z (or_intror J))). lia.
  - specialize (IH (fun z J => H z (or_intror J)) I Q P). cbn [filter]. destruct (p x) eqn:E; [rewrite (H x (or_introl eq_refl) E); cbn; lia|].
    destruct (q x); cbn; lia.
Qed.

Lemma visited_contains a i g t : contains_instr (visited a i g) t = true <-> t = a \/ contains_instr g t = true.
Proof.
  unfold contains_instr. rewrite instr_at_visited. destruct (t =? a) eqn:E.
  - apply Z.eqb_eq in E. tauto.
  - apply Z.eqb_neq in E. tauto.
Qed.

Lemma visit_grows bytes a g P g' P' t : Forall is_byte bytes -> 0 <= a -> visit bytes a g P = Ok (inl (g', P')) ->
  contains_instr g t = true -> contains_instr g' t = true.
Proof.
  intros F A H C. destruct (visit_step bytes a g P _ F A H) as [[_ [= -> ->]]|[(_ & i & _ & [= -> ->])|(_ & _ & [=])]]; [exact C|].
  apply visited_contains. now right.
Qed.

Lemma visit_all_grows bytes : Forall is_byte bytes -> forall L g P g' P' t, Forall (fun e => 0 <= e) L -> visit_all bytes L g P = Ok (inl (g', P')) ->
  contains_instr g t = true -> contains_instr g' t = true.
Proof.
  intros F. induction L as [|a L IH]; intros g P g' P' t A H C; cbn [visit_all] in H; [injection H as <- <-; exact C|].
  inversion A; subst. destruct (visit bytes a g P) as [[[g1 P1]|e]| | |] eqn:E; cbn [bind] in H; try discriminate.
  eapply IH; [assumption|exact H|]. eapply visit_grows; eauto.
Qed.

Lemma visit_all_visits bytes : Forall is_byte bytes -> forall L g P g' P' t, Forall (fun e => 0 <= e) L -> visit_all bytes L g P = Ok (inl (g', P')) ->
  In t L -> t < blen bytes -> contains_instr g' t = true.
Proof.
  intros F. induction L as [|a L IH]; intros g P g' P' t A H I T; [contradiction|]. cbn [visit_all] in H.
  inversion A; subst. destruct (visit bytes a g P) as [[[g1 P1]|e]| | |] eqn:E; cbn [bind] in H; try discriminate.
  destruct I as [->|I]; [|eapply IH; eauto]. eapply visit_all_grows; [exact F| |exact H|]; [assumption|].
  destruct (visit_step bytes t g P _ F H2 E) as [[B _]|[(_ & i & _ & [= -> ->])|(_ & _ & [=])]]; [lia|]. apply visited_contains. now left.
Qed.

(** A round without fresh positions only asks for positions behind the end. *)
Lemma stale_round bytes entries : Forall is_byte bytes -> forall L W g P g' P', inv bytes entries g (W ++ P) -> (forall a, In a L -> In a W) ->
  (forall a, In a W -> fresh bytes g a = false) -> (forall a, In a P -> blen bytes <= a) ->
  visit_all bytes L g P = Ok (inl (g', P')) -> (forall a, In a P' -> blen bytes <= a).
Proof.
  intros F. induction L as [|a L IH]; intros W g P g' P' V S N B H; cbn [visit_all] in H; [injection H as <- <-; exact B|].
  assert (IA: In a W) by (apply S; now left).
  destruct (i_work _ _ _ _ V a (in_or_app _ _ _ (or_introl IA))) as [RA A0].
  destruct (visit bytes a g P) as [[[g1 P1]|e]| | |] eqn:E; cbn [bind] in H; try discriminate.
  assert (V1: inv bytes entries g1 (W ++ P1)).
  { apply (visit_inv bytes entries a W P g g1 P1 F); [|exact E]. destruct V as [V1 V2 V3 V4 V5 V6 V7]. 
    assert (CV: forall t, covered bytes g (W ++ P) t -> covered bytes g (a :: W ++ P) t).
    { intros t [C|[C|C]]; [left; auto|right; left; now right|right; right; auto]. }
    constructor; auto.
    - intros b [<-|J]; [auto|apply V4; exact J].
    - intros b i t X Y. destruct (V5 b i t X Y) as [C|C]; [left; auto|right; auto]. }
  apply (IH W g1 P1 g' P' V1); [intros b J; apply S; now right| | |exact H].
  - intros b J. specialize (N b J). unfold fresh in *. destruct (b <? blen bytes); [|reflexivity]. cbn [andb] in *.
    apply negb_false_iff in N. apply negb_false_iff. eapply visit_grows; eauto.
  - destruct (visit_step bytes a g P _ F A0 E) as [[_ [= -> ->]]|[(I & i & D & [= -> ->])|(_ & _ & [=])]]; [exact B|].
    intros b J. apply in_app_or in J as [J|J]; [auto|]. apply filter_In in J as [J C]. apply negb_true_iff in C.
    pose proof (N a IA) as NA. unfold fresh in NA. replace (a <? blen bytes) with true in NA by (symmetry; apply Z.ltb_lt; unfold inside, blen in *; lia).
    cbn [andb] in NA. apply negb_false_iff in NA. apply contains_iff in NA as (j & NA). destruct (i_decoded _ _ _ _ V a j NA) as [_ D2].
    assert (j = i) by congruence. subst j. rewrite targets_full in J. destruct (is_jmpf i && leaves g a) eqn:Q; [contradiction|].
    destruct (i_closed _ _ _ _ V a i b NA J) as [[C2|[C2|C2]]|[C2 C3]].
    + exfalso. assert (contains_instr (visited a i g) b = true) by (apply visited_contains; auto). congruence.
    + apply in_app_or in C2 as [C2|C2]; [|auto]. specialize (N b C2). unfold fresh in N. destruct (b <? blen bytes) eqn:Q2; [|now apply Z.ltb_ge].
      cbn [andb] in N. apply negb_false_iff in N. exfalso. assert (contains_instr (visited a i g) b = true) by (apply visited_contains; auto). congruence.
    + exact C2.
    + exfalso. rewrite C2 in Q. cbn [andb] in Q.
      assert (2 <= a). { destruct (i_decoded _ _ _ _ V _ _ C3) as [[X _] _]. lia. }
      pose proof (leaves_switch _ _ _ _ a V) as LS. assert (leaves g a = true) by (apply LS; auto). congruence.
Qed.

Lemma outside_round bytes : forall L g P, (forall a, In a L -> blen bytes <= a) -> visit_all bytes L g P = Ok (inl (g, P)).
Proof.
  induction L as [|a L IH]; intros g P H; [reflexivity|]. cbn [visit_all]. assert (B := H a (or_introl eq_refl)).
  unfold visit. destruct (a =? blen bytes) eqn:E; [cbn [bind]; apply IH; intros b J; apply H; now right|].
  apply Z.eqb_neq in E. replace (blen bytes <? a) with true by (symmetry; apply Z.ltb_lt; lia). cbn [bind]. apply IH. intros b J. apply H. now right.
Qed.

Lemma discover_ends bytes entries : Forall is_byte bytes -> forall n P g fuel, inv bytes entries g P ->
  (List.length (missing bytes g) <= n)%nat -> (n + 2 <= fuel)%nat -> exists r, discover fuel bytes P g = Ok r.
Proof.
  intros F. induction n as [|n IH]; intros P g fuel V M FU.
  all: destruct (existsb (fresh bytes g) P) eqn:FR.
  - (* impossible: a fresh position is missing *)
    exfalso. apply existsb_exists in FR as (a & I & FR). apply andb_prop in FR as [F1 F2]. apply Z.ltb_lt in F1.
    destruct (i_work _ _ _ _ V a I) as [_ A0]. assert (J: In a (missing bytes g)).
    { unfold missing. apply filter_In. split; [|exact F2]. apply in_map_iff. exists (Z.to_nat a). split; [lia|]. apply in_seq. unfold blen in F1. lia. }
    destruct (missing bytes g); [destruct J|cbn in M; lia].
  - destruct fuel as [|[|fuel]]; [lia|lia|]. destruct P as [|a P]; [eexists; reflexivity|]. set (P0 := a :: P) in *.
    assert (NF: forall b, In b P0 -> fresh bytes g b = false).
    { intros b J. destruct (fresh bytes g b) eqn:Q; [|reflexivity]. exfalso. assert (existsb (fresh bytes g) P0 = true) by (apply existsb_exists; eauto). congruence. }
    assert (V0: inv bytes entries g (P0 ++ [])) by now rewrite app_nil_r.
    destruct (visit_all_fine bytes entries F P0 g [] V0) as ([[g1 P1]|e] & E).
    + assert (B: forall b, In b P1 -> blen bytes <= b).
      { apply (stale_round bytes entries F P0 P0 g [] g1 P1 V0); auto. contradiction. }
      unfold P0 in E. unfold P0. cbn [discover]. fold (visit_all bytes (a :: P) g []). rewrite E. cbn [bind].
      destruct P1 as [|b P1]; [eexists; destruct fuel; reflexivity|]. cbn [discover]. rewrite (outside_round bytes (b :: P1) g1 [] B). cbn [bind].
      eexists. destruct fuel; reflexivity.
    + unfold P0 in E. unfold P0. cbn [discover]. rewrite E. cbn [bind]. eauto.
  - apply existsb_exists in FR as (b & I & FR). destruct fuel as [|fuel]; [lia|]. destruct P as [|a P]; [destruct I|]. set (P0 := a :: P) in *.
    assert (V0: inv bytes entries g (P0 ++ [])) by now rewrite app_nil_r.
    assert (A: Forall (fun e => 0 <= e) P0) by (apply Forall_forall; intros x J; exact (proj2 (i_work _ _ _ _ V x J))).
    destruct (visit_all_fine bytes entries F P0 g [] V0) as ([[g1 P1]|e] & E).
    + assert (V1: inv bytes entries g1 P1) by exact (visit_all_inv bytes entries F P0 g [] g1 P1 V0 E).
      assert (LT: (List.length (missing bytes g1) < List.length (missing bytes g))%nat).
      { apply andb_prop in FR as [F1 F2]. apply Z.ltb_lt in F1. rewrite Forall_forall in A. unfold missing. apply filter_lt with (y := b).
        - intros x _ X. apply negb_true_iff in X. apply negb_true_iff. destruct (contains_instr g x) eqn:Q; [|reflexivity].
          rewrite <- X. symmetry. eapply visit_all_grows; [exact F| |exact E|exact Q]. apply Forall_forall. exact A.
        - apply in_map_iff. exists (Z.to_nat b). specialize (A b I). cbn in A. split; [lia|]. apply in_seq. unfold blen in F1. lia.
        - exact F2.
        - apply negb_false_iff. eapply visit_all_visits; [exact F| |exact E|exact I|exact F1]. apply Forall_forall. exact A. }
      unfold P0 in E. unfold P0. cbn [discover]. rewrite E. cbn [bind]. apply (IH P1 g1 fuel V1); lia.
    + unfold P0 in E. unfold P0. cbn [discover]. rewrite E. cbn [bind]. eauto.
  - destruct fuel as [|[|fuel]]; [lia|lia|]. destruct P as [|a P]; [eexists; reflexivity|]. set (P0 := a :: P) in *.
    assert (NF: forall b, In b P0 -> fresh bytes g b = false).
    { intros b J. destruct (fresh bytes g b) eqn:Q; [|reflexivity]. exfalso. assert (existsb (fresh bytes g) P0 = true) by (apply existsb_exists; eauto). congruence. }
    assert (V0: inv bytes entries g (P0 ++ [])) by now rewrite app_nil_r.
    destruct (visit_all_fine bytes entries F P0 g [] V0) as ([[g1 P1]|e] & E).
    + assert (B: forall b, In b P1 -> blen bytes <= b).
      { apply (stale_round bytes entries F P0 P0 g [] g1 P1 V0); auto. contradiction. }
      unfold P0 in E. unfold P0. cbn [discover]. rewrite E. cbn [bind].
      destruct P1 as [|b P1]; [eexists; destruct fuel; reflexivity|]. cbn [discover]. rewrite (outside_round bytes (b :: P1) g1 [] B). cbn [bind].
      eexists. destruct fuel; reflexivity.
    + unfold P0 in E. unfold P0. cbn [discover]. rewrite E. cbn [bind]. eauto.
Qed.

Theorem build_ends bytes entries fuel : Forall is_byte bytes -> Forall (fun e => 0 <= e) entries ->
  (List.length bytes + 2 <= fuel)%nat -> exists r, build_instruction_graph fuel entries bytes = Ok r.
Proof.
  intros F H L. apply (discover_ends bytes entries F (List.length bytes)); [now apply inv_start| |exact L].
  unfold missing. eapply Nat.le_trans; [apply (filter_le _ (fun _ => true)); reflexivity|]. rewrite filter_length_le || idtac.
  assert (Q: forall l : list Z, filter (fun _ => true) l = l) by (induction l as [|x l IHl]; cbn; congruence).
  rewrite Q, map_length, seq_length. lia.
Qed.

Lemma discover_more bytes : forall fuel P g r, discover fuel bytes P g = Ok r -> forall k, discover (fuel + k) bytes P g = Ok r.
Proof.
  induction fuel as [|f IH]; intros P g r H k.
  - destruct P; cbn [discover] in H; [|discriminate]. destruct k; exact H.
  - destruct P as [|a P]; cbn [discover Nat.add] in *; [exact H|].
    destruct (visit_all bytes (a :: P) g []) as [[[g1 P1]|e]| | |]; cbn [bind] in *; try discriminate; auto.
Qed.
