(** A listing without overlaps whose labels are all defined assembles. *)
From Coq Require Import ZArith List String Ascii Bool Lia.
From Verif Require Import Base Expr Instr Ast Asm Printer SpecIsa SpecExpr SpecAsm AsmProofs AsmProofs2 AsmProofs4 AsmProofs5 AsmProofs6 AsmProofs7 AsmProofs8 CodecProofs CodecProofs2 ExprProofs Disasm SpecDisasm DisasmProofs DisasmProofs2 DisasmProofs3 DisasmProofs4 DisasmProofs5 DisasmProofs6 DisasmProofs7 DisasmProofs9.
Import ListNotations.
Local Opaque aliases psw_bits.
Open Scope string_scope.
Open Scope list_scope.
Open Scope Z_scope.

(** * Definitions of names *)

Definition defs (prog : list statement) : list string :=
  flat_map (fun s => match global_def s with Some x => [x] | None => [] end) prog.

Lemma defs_in prog k s x : nth_error prog k = Some s -> global_def s = Some x -> In x (defs prog).
Proof. intros K G. apply in_flat_map. exists s. split; [exact (nth_error_In _ _ K)|]. rewrite G. now left. Qed.

Lemma defs_once prog : NoDup (defs prog) -> forall i j s t x, nth_error prog i = Some s -> nth_error prog j = Some t ->
  global_def s = Some x -> global_def t = Some x -> i = j.
Proof.
  induction prog as [|u prog IH]; intros N i j s t x I J GS GT; [destruct i; discriminate|].
  assert (N': NoDup (defs prog)). { unfold defs in N. cbn [flat_map] in N. destruct (global_def u); cbn [app] in N; [now inversion N|exact N]. }
  assert (H: forall y, global_def u = Some y -> ~ In y (defs prog)). { intros y G. unfold defs in N. cbn [flat_map] in N. rewrite G in N. cbn [app] in N. now inversion N. }
  destruct i as [|i], j as [|j]; cbn [nth_error] in I, J; [reflexivity| | |f_equal; exact (IH N' i j s t x I J GS GT)].
  - injection I as ->. exfalso. apply (H x GS). exact (defs_in _ _ _ _ J GT).
  - injection J as ->. exfalso. apply (H x GT). exact (defs_in _ _ _ _ I GS).
Qed.

Definition labels_of (l : list dstatement) : list string :=
  flat_map (fun d => match d_statement d with SLabel n => [lower n] | _ => [] end) l.

Lemma labels_filter l : labels_of (filter is_code l) = labels_of l.
Proof.
  induction l as [|d l IH]; [reflexivity|]. cbn [filter]. unfold is_code at 1. unfold labels_of in *.
  destruct (d_statement d) eqn:S; cbn [flat_map]; rewrite S, ?IH; reflexivity.
Qed.

Lemma upto_nodup n : forall pos, NoDup (upto n pos).
Proof. induction n as [|n IH]; intros pos; cbn [upto]; constructor; auto. rewrite in_upto. lia. Qed.

Lemma nodup_single {A B : Type} (f : A -> list B) (h : A -> B) l : NoDup l -> (forall x, In x l -> f x = [] \/ f x = [h x]) ->
  (forall x y, In x l -> In y l -> h x = h y -> x = y) -> NoDup (flat_map f l).
Proof.
  induction 1 as [|x l X N IH]; intros S J; [constructor|]. cbn [flat_map].
  assert (R: NoDup (flat_map f l)) by (apply IH; intros; [apply S; now right|apply J; auto; now right]).
  destruct (S x (or_introl eq_refl)) as [-> | ->]; [exact R|]. cbn [app]. constructor; [|exact R].
  intros I. apply in_flat_map in I as (y & Y & I). destruct (S y (or_intror Y)) as [Q|Q]; rewrite Q in I; [destruct I|].
  destruct I as [I|[]]. apply J in I; [subst y; contradiction|now right|now left].
Qed.

Lemma flat_flat {A B C : Type} (f : A -> list B) (h : B -> list C) l : flat_map h (flat_map f l) = flat_map (fun x => flat_map h (f x)) l.
Proof. induction l as [|x l IH]; [reflexivity|]. cbn [flat_map]. now rewrite flat_map_app, IH. Qed.

Lemma nodup_app {A : Type} (a b : list A) : NoDup a -> NoDup b -> (forall x, In x a -> In x b -> False) -> NoDup (a ++ b).
Proof.
  induction 1 as [|x a X N IH]; intros B D; [exact B|]. cbn [app]. constructor.
  - intros I. apply in_app_or in I as [I|I]; [contradiction|]. exact (D x (or_introl eq_refl) I).
  - apply IH; [exact B|]. intros y Y. apply D. now right.
Qed.

Lemma sorted_names l x : In x (map (fun p : Z * string => lower (snd p)) (sorted_pairs l)) -> exists v n, In (v, n) l /\ x = lower n.
Proof. intros I. apply in_map_iff in I as ([v n] & <- & I). exists v, n. split; [exact (proj1 (sorted_in _ _) I)|reflexivity]. Qed.

Lemma sorted_alias l v n : In (v, n) l -> In (d_alias n (hex (wrap32 v))) (map (fun p : Z * string => d_alias (snd p) (hex (wrap32 (fst p)))) (sorted_pairs l)).
Proof. intros I. apply in_map_iff. exists (v, n). split; [reflexivity|exact (proj2 (sorted_in _ _) I)]. Qed.

Lemma tail_alias c v n : l_names c = build_names (l_graph c) -> In (v, n) table -> In (d_alias n (hex (wrap32 v))) (tail_part c).
Proof.
  intros N T. assert (NP: n_psw_bits (l_names c) = psw_bits) by (rewrite N; reflexivity).
  assert (NA: n_aliases (l_names c) = aliases) by (rewrite N; reflexivity). unfold tail_part. rewrite NP, NA, !in_app_iff.
  unfold table in T. apply in_app_or in T as [T|T]; [right; left|right; right; right]; exact (sorted_alias _ v n T).
Qed.

Lemma tail_names_nodup : NoDup (map (fun p : Z * string => lower (snd p)) (sorted_pairs psw_bits) ++ map (fun p : Z * string => lower (snd p)) (sorted_pairs aliases)).
Proof.
  set (x := map (fun p : Z * string => lower (snd p)) (sorted_pairs psw_bits) ++ map (fun p : Z * string => lower (snd p)) (sorted_pairs aliases)).
  replace x with (nodup string_dec x) by (vm_compute; reflexivity). apply NoDup_nodup.
Qed.

Lemma alias_defs l : defs (reread (map (fun p : Z * string => d_alias (snd p) (hex (wrap32 (fst p)))) l)) = map (fun p => lower (snd p)) l.
Proof. induction l as [|x l IH]; [reflexivity|]. cbn [map]. unfold reread, defs in *. cbn [map flat_map d_statement d_alias lowered global_def app]. f_equal. exact IH. Qed.

Lemma defs_app a b : defs (a ++ b) = defs a ++ defs b.
Proof. apply flat_map_app. Qed.

Lemma reread_app a b : reread (a ++ b) = reread a ++ reread b.
Proof. apply map_app. Qed.

Lemma tail_defs c : l_names c = build_names (l_graph c) -> defs (reread (tail_part c)) =
  map (fun p : Z * string => lower (snd p)) (sorted_pairs psw_bits) ++ map (fun p : Z * string => lower (snd p)) (sorted_pairs aliases).
Proof.
  intros N. unfold tail_part. rewrite !reread_app, !defs_app, !alias_defs.
  replace (n_psw_bits (l_names c)) with psw_bits by (rewrite N; reflexivity). replace (n_aliases (l_names c)) with aliases by (rewrite N; reflexivity). reflexivity.
Qed.

(** * Operands *)

Definition jump_kind (k : kind) : Prop := k = A12 \/ k = A16 \/ k = R8 \/ k = R16.

Lemma jump_operand (j : instr expr imode) k nm : In (k, inl (EName nm)) (combine (snd (key j)) (op_list j)) -> jump_kind k -> code_label j = Some nm.
Proof.
  intros I J. destruct j; cbn [key snd op_list combine In] in I;
    repeat match goal with H : _ \/ _ |- _ => destruct H as [H|H] end; try contradiction; try discriminate I;
    try (unfold jump_kind in J; injection I as <- _; exfalso; decompose [or] J; discriminate);
    try (injection I as -> ; subst; reflexivity); try (injection I as <- ->; reflexivity).
Qed.

(** The names of the listing have their values. *)
Definition known (get : string -> option Z) (next : Z) (ks : list kind) (os : list (expr + imode)) : Prop :=
  (forall v n, In (v, n) table -> get (lower n) = Some v) /\
  (forall k t, In (k, inl (EName (label_name t))) (combine ks os) -> jump_kind k -> 0 <= t < 18446744073709551616 -> 0 <= t < 65536 /\ get (lower (label_name t)) = Some t).

Definition lower_op (o : expr + imode) : expr + imode := match o with inl e => inl (lower_expr e) | inr m => inr m end.

Lemma table_fits pr kw (get : string -> option Z) n v : get (lower n) = Some v -> eval pr (mkEnv kw get) (lower_expr (EName n)) = Ok v.
Proof. intros G. cbn [lower_expr eval env_get env_kind]. rewrite lower_idem, G. reflexivity. Qed.

Lemma opnd_fits pr (get : string -> option Z) g next k x o : (forall v n, In (v, n) table -> get (lower n) = Some v) ->
  (forall t, o = inl (EName (label_name t)) -> jump_kind k -> 0 <= t < 18446744073709551616 -> 0 <= t < 65536 /\ get (lower (label_name t)) = Some t) ->
  0 <= next <= 65536 -> in_field k x -> opnd (build_names g) next k x o -> operand_rel pr get next k (lower_op o) x.
Proof.
  intros T J NX F O. destruct k; cbn [opnd] in O; unfold in_field in F; cbn in F.
  - subst o. exists x. split; [reflexivity|]. split; [|discriminate]. cbn [field_of kind_bits]. destruct (_ && _) eqn:Q; [reflexivity|].
    apply andb_false_iff in Q. rewrite Z.leb_gt, Z.ltb_ge in Q. lia.
  - subst o. exists x. split; [|split; [|discriminate]].
    + unfold mem_expr, build_names. cbn [n_aliases]. rewrite usize_small by lia. destruct (lookup x aliases) as [n|] eqn:L; [|reflexivity].
      apply table_fits. apply T. unfold table. apply in_or_app. right. exact (lookup_in _ _ _ L).
    + cbn [field_of kind_bits]. destruct (_ && _) eqn:Q; [reflexivity|]. apply andb_false_iff in Q. rewrite Z.leb_gt, Z.ltb_ge in Q. lia.
  - destruct O as (m & -> & M). split; [reflexivity|]. unfold mode, imode_from in M.
    destruct (x =? 0) eqn:X0; [apply Z.eqb_eq in X0; injection M as <-; lia|]. destruct (x =? 1) eqn:X1; [apply Z.eqb_eq in X1; injection M as <-; lia|].
    destruct (x =? 2) eqn:X2; [apply Z.eqb_eq in X2; injection M as <-; lia|]. destruct (x =? 3) eqn:X3; [apply Z.eqb_eq in X3; injection M as <-; lia|discriminate].
  - destruct O as (d & ->). exists x. split; [|split; [|discriminate]].
    + unfold bits_expr, build_names. cbn [n_psw_bits]. rewrite usize_small by lia. destruct (d =? 257); [destruct (lookup x psw_bits) as [n|] eqn:L|]; [|reflexivity|reflexivity].
      apply table_fits. apply T. unfold table. apply in_or_app. left. exact (lookup_in _ _ _ L).
    + cbn [field_of kind_bits]. destruct (_ && _) eqn:Q; [reflexivity|]. apply andb_false_iff in Q. rewrite Z.leb_gt, Z.ltb_ge in Q. lia.
  - subst o. destruct (J _ eq_refl (or_introl eq_refl) (page_address_range x next)) as [R G].
    exists (page_address x next). split; [now apply table_fits|]. split; [|discriminate].
    cbn [field_of]. replace ((0 <=? page_address x next) && (page_address x next <? 65536)) with true
      by (symmetry; apply andb_true_iff; rewrite Z.leb_le, Z.ltb_lt; lia).
    rewrite page_address_value by lia. pose proof (Z.mod_pos_bound (next / 4096) 16 ltac:(lia)). rewrite usize_small by lia.
    rewrite Z.add_comm, Z_div_plus_full, Z_mod_plus_full by lia. rewrite (Z.div_small x), (Z.mod_small x) by lia. rewrite Z.add_0_l, Z.eqb_refl. reflexivity.
  - destruct O as [-> | ->].
    + destruct (J _ eq_refl (or_intror (or_introl eq_refl)) (usize_range x)) as [R G]. exists x. rewrite usize_small in * by lia.
      split; [now apply table_fits|]. split; [|discriminate]. cbn [field_of kind_bits]. destruct (_ && _) eqn:Q; [reflexivity|].
      apply andb_false_iff in Q. rewrite Z.leb_gt, Z.ltb_ge in Q. lia.
    + exists x. rewrite usize_small, wrap32_small by lia. split; [reflexivity|]. split; [|discriminate]. cbn [field_of kind_bits]. destruct (_ && _) eqn:Q; [reflexivity|].
      apply andb_false_iff in Q. rewrite Z.leb_gt, Z.ltb_ge in Q. lia.
  - subst o. rewrite branch8_address in * by lia. destruct (J _ eq_refl (or_intror (or_intror (or_introl eq_refl))) (usize_range _)) as [R G].
    destruct (Z_lt_dec (next + x) 0) as [L|L]; [pose proof (usize_negative (next + x) ltac:(lia)); lia|]. rewrite usize_small in * by lia.
    exists (next + x). split; [now apply table_fits|]. split; [|discriminate]. cbn [field_of].
    replace ((0 <=? next + x) && (next + x <? 65536)) with true by (symmetry; apply andb_true_iff; rewrite Z.leb_le, Z.ltb_lt; lia).
    replace (next + x - next) with x by lia. destruct (_ && _) eqn:Q; [reflexivity|]. apply andb_false_iff in Q. rewrite Z.leb_gt, Z.ltb_ge in Q. lia.
  - subst o. rewrite branch16_address in * by lia. destruct (J _ eq_refl (or_intror (or_intror (or_intror eq_refl))) (usize_range _)) as [R G].
    destruct (Z_lt_dec (next - 1 + x) 0) as [L|L]; [pose proof (usize_negative (next - 1 + x) ltac:(lia)); lia|]. rewrite usize_small in * by lia.
    exists (next - 1 + x). split; [now apply table_fits|]. split; [|discriminate]. cbn [field_of].
    replace ((0 <=? next - 1 + x) && (next - 1 + x <? 65536)) with true by (symmetry; apply andb_true_iff; rewrite Z.leb_le, Z.ltb_lt; lia).
    replace (next - 1 + x - next + 1) with x by lia. destruct (_ && _) eqn:Q; [reflexivity|]. apply andb_false_iff in Q. rewrite Z.leb_gt, Z.ltb_ge in Q. lia.
Qed.

Lemma opnds_fit pr get g next ks xs os : 0 <= next <= 65536 -> Forall2 in_field ks xs -> opnds (build_names g) next ks xs os ->
  known get next ks os -> operands_rel pr get next ks (map lower_op os) xs.
Proof.
  intros NX F O. revert F. induction O as [|k x o ks xs os O1 O2 IH]; intros F [T J]; [constructor|]. inversion F; subst. cbn [map]. constructor.
  - apply (opnd_fits pr get g next k x o T); auto. intros t ->. apply J. now left.
  - apply IH; [assumption|]. split; [exact T|]. intros k' t I. apply J. now right.
Qed.

Section Success.
Variables (fuel : nat) (flag : bool) (entries bytes : list Z) (g : graph) (lifted : list (Z * instr expr imode)) (r : list dstatement).
Hypothesis F : Forall is_byte bytes.
Hypothesis M : moderate bytes.
Hypothesis E : Forall (fun e => 0 <= e) entries.
Hypothesis B : build_instruction_graph fuel entries bytes = Ok (inl g).
Hypothesis LI : lift_instrs g (build_names g) (g_instrs g) = Ok lifted.
Let c := mkListing flag entries bytes g lifted (build_names g).
Hypothesis EM : emit (S (List.length bytes)) c (fun _ => false) 0 = Ok r.
Let l := r ++ tail_part c.
Hypothesis AP : apart (fun i => size i) lifted.

Let Lines := lines flag entries bytes g lifted r EM.
Let Laid := laid_all fuel flag entries bytes g lifted r F M E B LI EM AP.

Lemma labels_nodup : NoDup (labels_of l).
Proof.
  pose proof (listing_code flag entries bytes g lifted r EM) as LC. cbv zeta in LC. fold c in LC. fold l in LC.
  rewrite <- labels_filter, LC. unfold labels_of. rewrite flat_flat.
  apply (nodup_single _ (fun p => lower (label_name p))); [apply upto_nodup| |].
  - intros p _. unfold code_at. cbn [l_lifted l_names n_labels build_names c]. destruct (lookup p lifted); [|now left].
    destruct (lookup p (compute_labels g)) as [n|] eqn:L; [|now left]. right. rewrite (labels_name g p n L). reflexivity.
  - intros p q P Q. rewrite in_upto in P, Q. unfold moderate in M. apply label_name_inj_lower; lia.
Qed.

Lemma body_defs : defs (reread r) = labels_of r.
Proof.
  pose proof (emit_shape c _ _ 0 r (Z.le_refl 0) EM) as S. clear -S. induction S as [|d r S _ IH]; [reflexivity|].
  unfold defs, reread, labels_of in *. cbn [map flat_map]. rewrite IH. f_equal. destruct S; try reflexivity.
  cbn [d_statement d_label lowered global_def]. match goal with H : lookup _ (n_labels _) = Some _ |- _ => pose proof (names_ok g _ _ H) as -> end.
  destruct (local_label_name p) as [-> _]. now rewrite lower_idem.
Qed.

Lemma tail_labels : labels_of (tail_part c) = [].
Proof. rewrite <- labels_filter, tail_code. reflexivity. Qed.

Lemma defs_nodup : NoDup (defs (reread l)).
Proof.
  pose proof labels_nodup as N. unfold l, labels_of in N. rewrite flat_map_app in N. fold (labels_of r) (labels_of (tail_part c)) in N. rewrite tail_labels, app_nil_r in N.
  unfold l. rewrite reread_app, defs_app, body_defs, (tail_defs c eq_refl).
  apply nodup_app; [exact N|exact tail_names_nodup|].
  intros x X Y. assert (P: String.prefix "label_" x = true).
  { unfold labels_of in X. apply in_flat_map in X as (d & D & X). pose proof (emit_shape c _ _ 0 r (Z.le_refl 0) EM) as S. rewrite Forall_forall in S. specialize (S _ D).
    destruct S; cbn [d_statement d_remark d_org d_label d_instr d_bytes] in X; try contradiction. destruct X as [<-|[]].
    match goal with H : lookup _ (n_labels _) = Some _ |- _ => pose proof (names_ok g _ _ H) as -> end. apply prefix_label. }
  assert (Q: exists v n, In (v, n) table /\ x = lower n).
  { apply in_app_or in Y as [Y|Y]; destruct (sorted_names _ _ Y) as (v & n & I & ->); exists v, n; (split; [|reflexivity]).
    - exact (in_or_app _ _ _ (or_introl I)).
    - exact (in_or_app _ _ _ (or_intror I)). }
  destruct Q as (v & n & T & ->). destruct (table_facts v n T) as (_ & K & _). congruence.
Qed.

Lemma not_local n k : nth_error (reread l) k = Some (SLabel n) -> is_local n = false /\ exists m, In m l /\ d_statement m = SLabel (label_name (after 0 (firstn k l))) /\ n = lower (label_name (after 0 (firstn k l))).
Proof.
  intros N. rewrite reread_nth in N. destruct (nth_error l k) as [d|] eqn:D; [|discriminate]. cbn [option_map] in N. injection N as N.
  pose proof (laid_nth l 0 k d Laid D) as LN. destruct (d_statement d) eqn:S; cbn [lowered] in N; try discriminate. injection N as <-.
  rewrite LN. split; [apply local_label_name|]. exists d. split; [exact (nth_error_In _ _ D)|]. rewrite S, LN. auto.
Qed.

Lemma none_twice x : ~ defined_twice (reread l) x.
Proof.
  intros [(i & j & s & t & NE & I & J & GS & GT)|(i & j & n & m & NE & I & J & L1 & _)].
  - exact (NE (defs_once _ defs_nodup i j s t x I J GS GT)).
  - destruct (not_local n i I) as [Q _]. congruence.
Qed.

Lemma env_exists pr k : exists get, env_at pr (reread l) k get.
Proof.
  exists (fun x => if is_local x then None else visible pr (reread l) (List.length (reread l)) x). split.
  - intros x ->. reflexivity.
  - intros x v X. rewrite X. split; [discriminate|]. intros (j & n & J & L & _). destruct (not_local n j J) as [Q _]. congruence.
Qed.

Lemma alias_known pr k get v n : env_at pr (reread l) k get -> In (v, n) table -> get (lower n) = Some v.
Proof.
  intros [EN _] T. destruct (table_facts v n T) as (V & _ & _ & L). rewrite (EN _ L).
  assert (I: In (d_alias n (hex (wrap32 v))) l).
  { unfold l. apply in_or_app. right. exact (tail_alias c v n eq_refl T). }
  apply In_nth_error in I as (i & I). assert (RN: nth_error (reread l) i = Some (SAlias n (hex (wrap32 v)))) by (rewrite reread_nth, I; reflexivity).
  rewrite (visible_var pr (reread l) i _ n (hex (wrap32 v)) RN eq_refl).
  - cbn. now rewrite CodecProofs.wrap32_small by lia.
  - intros j t m e' IJ J VD EQ. apply (none_twice (lower n)). left. exists i, j, (SAlias n (hex (wrap32 v))), t.
    split; [lia|]. split; [exact RN|]. split; [exact J|]. split; [reflexivity|]. rewrite <- EQ. exact (var_global _ _ _ VD).
  - apply nth_error_Some. rewrite RN. discriminate.
Qed.

Lemma label_known pr k get t : env_at pr (reread l) k get -> In (SLabel (label_name t)) (map d_statement l) -> 0 <= t < 18446744073709551616 ->
  0 <= t < blen bytes /\ get (lower (label_name t)) = Some t.
Proof.
  intros [EN _] I T. apply in_map_iff in I as (d & S & I). destruct (local_label_name t) as [L1 L2]. split.
  - destruct (Lines d I) as [H|[(u & ->)|[-> |(v & n & _ & ->)]]]; try discriminate S. destruct H as [| |p n N P| |]; try discriminate S.
    cbn [d_statement d_label] in S. injection S as S. cbn [l_names c] in N. rewrite (names_ok g p n N) in S. cbn [l_bytes c] in P. unfold moderate in M. unfold blen in *.
    apply label_name_inj in S; lia.
  - rewrite (EN _ L1). apply In_nth_error in I as (i & I). pose proof (laid_nth l 0 i d Laid I) as LN. rewrite S in LN.
    assert (RN: nth_error (reread l) i = Some (SLabel (lower (label_name t)))) by (rewrite reread_nth, I; cbn [option_map]; rewrite S; reflexivity).
    pose proof (global_label_visible pr (reread l) i _ none_twice RN L1 (List.length (reread l))) as G. rewrite lower_idem in G. rewrite G, reread_addr. f_equal.
    apply label_name_inj; auto. pose proof (addr_bounds fuel flag entries bytes g lifted r F M E B LI EM AP i) as AB. cbv zeta in AB. fold c in AB. fold l in AB.
    pose proof (end_small fuel flag entries bytes g lifted r F M E B LI EM AP) as ES. cbv zeta in ES. fold c in ES. fold l in ES. lia.
Qed.

Lemma numbers_only d s n e : In d l -> s = lowered (d_statement d) -> var_def s = Some (n, e) -> exists v m, In (v, m) table /\ e = hex (wrap32 v).
Proof.
  intros I -> V. destruct (Lines d I) as [H|[(u & ->)|[-> |(v & m & T & ->)]]]; try discriminate V; [destruct H; discriminate V|].
  cbn [d_statement d_alias lowered var_def] in V. injection V as <- <-. eauto.
Qed.

Lemma nth_line k s : nth_error (reread l) k = Some s -> exists d, nth_error l k = Some d /\ In d l /\ s = lowered (d_statement d).
Proof.
  intros N. rewrite reread_nth in N. destruct (nth_error l k) as [d|] eqn:D; [|discriminate]. cbn [option_map] in N. injection N as <-.
  exists d. split; [reflexivity|]. split; [exact (nth_error_In _ _ D)|reflexivity].
Qed.

Lemma emits_bytes pr get p chunk : Forall is_byte chunk -> emits pr get p (SDirective (DByte (map (fun b => BVExpr (hex b)) chunk))) chunk.
Proof.
  intros FC. cbn [emits]. exists (map (fun b => [b]) chunk). split.
  - induction FC as [|b t H FC IH]; [constructor|]. cbn [map]. constructor; [|exact IH]. exists b. split; [reflexivity|]. unfold is_byte in H. split; [lia|]. now rewrite Z.mod_small.
  - clear. induction chunk as [|b t IH]; [reflexivity|]. cbn [map List.concat app]. now f_equal.
Qed.

Lemma chunk_bytes p chunk : chunk = firstn (List.length chunk) (skipn (Z.to_nat p) bytes) -> Forall is_byte chunk.
Proof.
  intros ->. apply Forall_forall. intros x I. apply (proj1 (Forall_forall is_byte bytes) F).
  rewrite <- (firstn_skipn (Z.to_nat p) bytes). apply in_or_app. right. rewrite <- (firstn_skipn (List.length chunk)). apply in_or_app. now left.
Qed.

Lemma lifted_in p i : lookup p lifted = Some i -> In (SInstr i) (map d_statement l).
Proof. intros L. apply in_map_iff. exists (d_instr p i (arrival_comment flag g p)). split; [reflexivity|exact (lifted_line fuel flag entries bytes g lifted r F M E B LI EM p i L)]. Qed.

Lemma listing_well_formed pr : blen bytes <= 65536 -> labels_defined (map d_statement l) -> well_formed pr (reread l).
Proof.
  intros SM LD. split; [exact none_twice|]. split.
  { intros k s n e K V. destruct (nth_line k s K) as (d & _ & I & S). destruct (numbers_only d s n e I S V) as (v & m & _ & ->). eexists. reflexivity. }
  intros k s K. destruct (env_exists pr k) as (get & EN). destruct (nth_line k s K) as (d & N & I & ->). pose proof (laid_nth l 0 k d Laid N) as LN.
  exists get. rewrite reread_addr. destruct (Lines d I) as [H|[(u & ->)|[-> |(v & m & T & ->)]]].
  - destruct H as [t T|p P|p n NL P|p i L P|p chunk P1 P2 P3 P4]; cbn [d_statement d_remark d_org d_label d_instr d_bytes d_pos lowered l_bytes c] in *.
    + exists []. split; [exact EN|reflexivity].
    + exists []. split; [exact EN|]. cbn [emits]. split; [lia|reflexivity].
    + exists []. split; [exact EN|reflexivity].
    + cbn [l_lifted c] in L. destruct (lifted_stands fuel entries bytes g lifted F M E B LI p i L) as (j & J & LF & ST & SZ & P0 & PE & RG).
      injection LN as LN. rewrite <- LN. destruct ST as (pre & f & post & EQ & PL & FI & FK & FV & _).
      exists (form_bytes f (values j)). split; [exact EN|]. cbn [emits]. exists f, (values j). split; [exact FI|].
      assert (KE: key (relabel lower_expr i) = key j) by (rewrite relabel_key; exact (lift_key p g j _ i LF)).
      split; [congruence|]. split; [|reflexivity]. rewrite relabel_ops. 
      assert (DL: doc_length (relabel lower_expr i) = size j) by (rewrite SZ; rewrite <- size_doc; destruct i; reflexivity). rewrite DL.
      assert (KK: f_kinds f = snd (key j)) by (rewrite <- FK; reflexivity). rewrite KK.
      pose proof (size_bounds j) as SB.
      apply (opnds_fit pr get g (p + size j) _ _ (op_list i)); [lia|exact RG|exact (lift_ops p g j i J LF)|]. split.
      * intros v n. exact (alias_known pr k get v n EN).
      * intros kk t IC JK TR. rewrite <- (lift_key p g j _ i LF) in IC. pose proof (jump_operand i kk _ IC JK) as CL.
        destruct (label_known pr k get t EN (LD i _ (lifted_in p i L) CL) TR) as [Q1 Q2]. split; [lia|exact Q2].
    + exists chunk. split; [exact EN|]. apply emits_bytes. exact (chunk_bytes p chunk P4).
  - exists []. split; [exact EN|reflexivity].
  - exists []. split; [exact EN|]. cbn [d_statement d_cnop lowered emits]. unfold literal, hex. split; [eauto|]. split; [eauto|reflexivity].
  - exists []. split; [exact EN|reflexivity].
Qed.

(** Conversely the labels of a listing that assembles are defined. *)
Lemma listing_labels pr i nm : well_formed pr (reread l) -> In (SInstr i) (map d_statement l) -> code_label i = Some nm -> In (SLabel nm) (map d_statement l).
Proof.
  intros (_ & _ & WF) I CL. apply in_map_iff in I as (d & S & I). pose proof I as I0. apply In_nth_error in I as (k & K).
  assert (RN: nth_error (reread l) k = Some (SInstr (relabel lower_expr i))) by (rewrite reread_nth, K; cbn [option_map]; rewrite S; reflexivity).
  destruct (listing_label flag entries bytes g lifted r LI EM d i nm I0 S CL) as (a & i0 & t & _ & IA & JT & _ & ->).
  pose proof (jump_target_range a i0 t JT) as TR.
  destruct (WF k _ RN) as (get & bs & [EN _] & (f & vs & FI & FK & OR & _)).
  assert (EV: exists kw v, eval pr (mkEnv kw get) (EName (lower (label_name t))) = Ok v).
  { rewrite relabel_ops in OR. assert (KF: f_kinds f = snd (key i)) by (rewrite relabel_key in FK; rewrite <- FK; reflexivity). rewrite KF in OR.
    clear -OR CL. unfold code_label in CL. revert CL OR. generalize (snd (key i)) (op_list i). intros ks os.
    destruct (rev ks) as [|kk ks'] eqn:RK; [discriminate|]. destruct (rev os) as [|o os'] eqn:RO; [destruct kk; discriminate|].
    intros CL OR. assert (O: o = inl (EName (label_name t))) by (destruct kk; try discriminate; destruct o as [[]|]; try discriminate; congruence).
    assert (IO: In (inl (lower_expr (EName (label_name t)))) (map (fun o => match o with inl e => inl (lower_expr e) | inr m => @inr expr imode m end) os)).
    { apply in_map_iff. exists o. split; [now rewrite O|]. apply in_rev. rewrite RO. now left. }
    revert IO OR. generalize (map (fun o => match o with inl e => inl (lower_expr e) | inr m => @inr expr imode m end) os). intros os2 IO OR. clear -IO OR.
    revert IO. induction OR as [|k0 a0 o0 ks0 os0 vs0 R1 R2 IH2]; intros IO; [destruct IO|]. destruct IO as [IO|IO]; [|exact (IH2 IO)].
    rewrite IO in R1. destruct R1 as (v & EV & _). exists (kind_word k0), v. exact EV. }
  destruct EV as (kw & v & EV). cbn [eval env_get env_kind] in EV. rewrite lower_idem in EV. destruct (get (lower (label_name t))) as [w|] eqn:G; [|discriminate].
  destruct (local_label_name t) as [L1 L2]. rewrite (EN _ L1) in G. apply visible_inv in G as [(j & n & N & NL & NX & _)|(j & s & n & e & _ & N & VD & NX & _)].
  - destruct (not_local n j N) as [_ (m & MI & MS & ->)]. rewrite lower_idem in NX.
    assert (AT: after 0 (firstn j l) = t).
    { apply label_name_inj_lower; [|exact TR|exact NX]. pose proof (addr_bounds fuel flag entries bytes g lifted r F M E B LI EM AP j) as AB. cbv zeta in AB. fold c in AB. fold l in AB.
      pose proof (end_small fuel flag entries bytes g lifted r F M E B LI EM AP) as ES. cbv zeta in ES. fold c in ES. fold l in ES. lia. }
    rewrite AT in MS. apply in_map_iff. exists m. auto.
  - destruct (nth_line j s N) as (d' & _ & I' & S'). exfalso. destruct (Lines d' I') as [H|[(u & ->)|[-> |(x & m & T & ->)]]]; subst s; try discriminate VD; [destruct H; discriminate VD|].
    cbn [d_statement d_alias lowered var_def] in VD. injection VD as <- _. destruct (table_facts x m T) as (_ & P & _). rewrite NX, prefix_label in P. discriminate.
Qed.

Lemma simple_safe pr kw get e : (exists n, e = EName n) \/ (exists n b, e = ENumber n b) -> safe (eval pr (mkEnv kw get) e).
Proof.
  intros [(n & ->)|(n & b & ->)]; cbn [eval env_get env_kind]; [destruct (get (lower n))|]; split; discriminate.
Qed.

Lemma listing_outcome pr : ((exists out, assemble pr (reread l) = Ok out) /\ well_formed pr (reread l)) \/
  ((exists er, assemble pr (reread l) = Err er) /\ ~ well_formed pr (reread l)).
Proof.
  assert (AB: forall k, 0 <= addr (firstn k (reread l)) <= 1073743000).
  { intros k. rewrite reread_addr. pose proof (addr_bounds fuel flag entries bytes g lifted r F M E B LI EM AP k) as AB. cbv zeta in AB. fold c in AB. fold l in AB.
    pose proof (end_small fuel flag entries bytes g lifted r F M E B LI EM AP) as ES. cbv zeta in ES. fold c in ES. fold l in ES. lia. }
  apply assemble_complete.
  - exact (typed_all flag entries bytes g lifted r EM).
  - apply Forall_forall. intros s I. apply In_nth_error in I as (k & K). destruct (nth_line k s K) as (d & _ & I & ->).
    destruct (Lines d I) as [H|[(u & ->)|[-> |(v & m & T & ->)]]]; try exact Logic.I. destruct H; exact Logic.I.
  - apply Forall_forall. intros s I. apply In_nth_error in I as (k & K). destruct (nth_line k s K) as (d & _ & I & ->).
    destruct (d_statement d); cbn [lowered lower_label]; auto. apply lower_idem.
  - intros k. specialize (AB k). lia.
  - intros _ k a m K. rewrite !reread_addr. apply (laid_mono l 0 Laid). lia.
  - intros k s n e K V. destruct (nth_line k s K) as (d & _ & I & S). destruct (numbers_only d s n e I S V) as (v & m & _ & ->). apply simple_safe. right. unfold hex. eauto.
  - intros k s get e kw K _ I. apply simple_safe. destruct (nth_line k s K) as (d & _ & ID & ->).
    destruct (Lines d ID) as [H|[(u & ->)|[-> |(v & m & T & ->)]]]; try contradiction.
    destruct H as [t T|p P|p n NL P|p i L P|p chunk P1 P2 P3 P4]; cbn [d_statement d_remark d_org d_label d_instr d_bytes lowered stmt_exprs] in I; try contradiction.
    + cbn [l_lifted c] in L. destruct (lifted_at g lifted LI p i L) as (j & J & LF). pose proof (lift_ops p g j i J LF) as OP. rewrite relabel_ops in I.
      apply in_flat_map in I as (o & IO & IE). apply in_map_iff in IO as (o' & <- & IO).
      assert (Q: exists kk x, opnd (build_names g) (p + size j) kk x o').
      { clear -OP IO. induction OP as [|kk x o ks xs os O1 O2 IH]; [destruct IO|]. destruct IO as [<-|IO]; eauto. }
      destruct Q as (kk & x & Q). destruct o' as [e'|m]; [|destruct IE]. destruct IE as [<-|[]].
      destruct (opnd_simple _ _ _ _ _ Q) as [(n & ->)|(n & b & ->)]; cbn [lower_expr]; eauto.
    + apply in_flat_map in I as (b & IB & IE). apply in_map_iff in IB as (x & <- & _). destruct IE as [<-|[]]. right. unfold hex. eauto.
Qed.

Theorem listing_success pr : blen bytes <= 65536 -> ((exists out, assemble pr (reread l) = Ok out) <-> labels_defined (map d_statement l)).
Proof.
  intros SM. destruct (listing_outcome pr) as [[O W]|[(er & O) W]].
  - split; [|auto]. intros _ i nm. now apply (listing_labels pr).
  - split; [intros (out & X); congruence|]. intros LD. exfalso. apply W. now apply listing_well_formed.
Qed.
End Success.

Theorem listing_assembled fuel flag entries bytes l pr : Forall is_byte bytes -> moderate bytes -> Forall (fun e => 0 <= e) entries ->
  disassemble fuel flag entries bytes = Ok (inl l) -> no_overlap (map placed l) -> blen bytes <= 65536 ->
  ((exists out, assemble pr (reread l) = Ok out) <-> labels_defined (map d_statement l)).
Proof.
  intros F M E H N SM. destruct (disassemble_inv fuel flag entries bytes l H) as (g & lifted & r & B & LI & EM & ->).
  exact (listing_success fuel flag entries bytes g lifted r F M E B LI EM (apart_listing fuel flag entries bytes g lifted r F M E B LI EM N) pr SM).
Qed.
