(** The recorded jumps, and the comments made of them. *)
From Coq Require Import ZArith List String Ascii Bool Lia Sorted.
From Verif Require Import Base Expr Instr Ast Printer SpecIsa SpecExpr SpecAsm AsmProofs CodecProofs CodecProofs2 Disasm SpecDisasm DisasmProofs DisasmProofs2 DisasmProofs3 DisasmProofs4 DisasmProofs5 DisasmProofs7 DisasmProofs9 DisasmProofs11.
Import ListNotations.
Local Opaque aliases psw_bits.
Open Scope string_scope.
Open Scope list_scope.
Open Scope Z_scope.

(** * The recorded jumps are the steps of the discovered instructions *)

Record jinv (g : graph) : Prop := mkJinv {
  j_once : NoDup (g_jumps g);
  j_sound : forall a t, In (a, t) (g_jumps g) -> exists i, instr_at g a = Some i /\ In t (full a i);
  j_complete : forall a i t, instr_at g a = Some i -> In t (full a i) -> In (a, t) (g_jumps g) \/ (is_jmpf i = true /\ switch g a)
}.

Lemma jump_to_once g a t : NoDup (g_jumps g) -> NoDup (g_jumps (jump_to g a t)).
Proof.
  intros N. unfold jump_to. destruct (existsb _ _) eqn:E; [exact N|]. cbn [g_jumps]. constructor; [|exact N]. intros I.
  assert (C: existsb (pair_eqb (a, t)) (g_jumps g) = true) by (apply existsb_exists; exists (a, t); split; [exact I|now apply pair_eqb_iff]).
  congruence.
Qed.

Lemma jump_to_only g a t p : In p (g_jumps (jump_to g a t)) -> p = (a, t) \/ In p (g_jumps g).
Proof. unfold jump_to. destruct (existsb _ _); [auto|]. cbn [g_jumps In]. intuition. Qed.

Lemma jumps_once a ts : forall g, NoDup (g_jumps g) -> NoDup (g_jumps (fold_left (fun acc t => jump_to acc a t) ts g)).
Proof. induction ts as [|t ts IH]; intros g N; [exact N|]. cbn [fold_left]. apply IH. now apply jump_to_once. Qed.

Lemma jumps_only a ts : forall g p, In p (g_jumps (fold_left (fun acc t => jump_to acc a t) ts g)) -> (exists t, In t ts /\ p = (a, t)) \/ In p (g_jumps g).
Proof.
  induction ts as [|t ts IH]; intros g p H; [now right|]. cbn [fold_left] in H. apply IH in H as [(u & U & ->)|H].
  - left. exists u. split; [now right|reflexivity].
  - apply jump_to_only in H as [-> |H]; [|now right]. left. exists t. split; [now left|reflexivity].
Qed.

Lemma visit_jinv bytes entries a L P g g' P' : Forall is_byte bytes -> inv bytes entries g (a :: L ++ P) -> jinv g ->
  visit bytes a g P = Ok (inl (g', P')) -> jinv g'.
Proof.
  intros F V J H. destruct (i_work _ _ _ _ V a (or_introl eq_refl)) as [RA A0].
  destruct (visit_step bytes a g P _ F A0 H) as [[B [= -> ->]]|[(I & i & D & [= -> ->])|(_ & _ & [=])]]; [exact J|].
  assert (SAME: forall j, instr_at g a = Some j -> j = i) by (intros j K; destruct (i_decoded _ _ _ _ V _ _ K) as [_ D2]; congruence).
  constructor.
  - unfold visited, add_instr. cbn [g_jumps]. apply jumps_once. exact (j_once _ J).
  - intros b t K. unfold visited, add_instr in K. cbn [g_jumps] in K. apply jumps_only in K as [(u & U & [= -> ->])|K].
    + exists i. rewrite instr_at_visited, Z.eqb_refl. split; [reflexivity|]. rewrite targets_full in U. destruct (is_jmpf i && leaves g a); [destruct U|exact U].
    + destruct (j_sound _ J b t K) as (j & K1 & K2). rewrite instr_at_visited. destruct (b =? a) eqn:Q; [|eauto].
      apply Z.eqb_eq in Q. subst b. exists i. split; [reflexivity|]. now rewrite (SAME j K1) in K2.
  - intros b j t E T. rewrite instr_at_visited in E.
    assert (SW: forall b, switch g b -> switch (visited a i g) b).
    { intros c S. unfold switch in *. rewrite instr_at_visited. destruct (c - 2 =? a) eqn:Q; [|exact S]. apply Z.eqb_eq in Q. rewrite Q in S. f_equal. symmetry. now apply SAME. }
    destruct (b =? a) eqn:Q.
    + apply Z.eqb_eq in Q. injection E as <-. subst b. destruct (is_jmpf i && leaves g a) eqn:S.
      * right. apply andb_prop in S as [S1 S2]. split; [exact S1|]. apply (leaves_switch _ _ _ _ _ V) in S2 as [S2 S3]. auto.
      * left. unfold visited, add_instr. cbn [g_jumps]. apply jumps_add. rewrite targets_full, S. exact T.
    + destruct (j_complete _ J b j t E T) as [C|[C1 C2]]; [left|right; auto]. unfold visited, add_instr. cbn [g_jumps]. now apply jumps_keep.
Qed.

Lemma visit_all_jinv bytes entries : Forall is_byte bytes -> forall L g P g' P', inv bytes entries g (L ++ P) -> jinv g ->
  visit_all bytes L g P = Ok (inl (g', P')) -> jinv g'.
Proof.
  intros F. induction L as [|a L IH]; intros g P g' P' V J H; cbn [visit_all] in H; [injection H as <- <-; exact J|].
  destruct (visit bytes a g P) as [[[g1 P1]|e]| | |] eqn:E; cbn [bind] in H; try discriminate.
  apply (IH g1 P1 g' P'); [exact (visit_inv bytes entries a L P g g1 P1 F V E)|exact (visit_jinv bytes entries a L P g g1 P1 F V J E)|exact H].
Qed.

Lemma discover_jinv bytes entries : Forall is_byte bytes -> forall fuel P g g', inv bytes entries g P -> jinv g ->
  discover fuel bytes P g = Ok (inl g') -> jinv g'.
Proof.
  intros F. induction fuel as [|f IH]; intros P g g' V J H.
  - destruct P; cbn [discover] in H; [injection H as <-; exact J|discriminate].
  - destruct P as [|a P]; cbn [discover] in H; [injection H as <-; exact J|].
    destruct (visit_all bytes (a :: P) g []) as [[[g1 P1]|e]| | |] eqn:E; cbn [bind] in H; try discriminate.
    assert (V0: inv bytes entries g ((a :: P) ++ [])) by now rewrite app_nil_r.
    apply (IH P1 g1 g'); [exact (visit_all_inv bytes entries F (a :: P) g [] g1 P1 V0 E)|exact (visit_all_jinv bytes entries F (a :: P) g [] g1 P1 V0 J E)|exact H].
Qed.

Lemma built_jinv bytes entries fuel g : Forall is_byte bytes -> Forall (fun e => 0 <= e) entries ->
  build_instruction_graph fuel entries bytes = Ok (inl g) -> jinv g.
Proof.
  intros F E H. apply (discover_jinv bytes entries F fuel entries new_graph g (inv_start bytes entries E)); [|exact H].
  constructor; [constructor|intros a t []|intros a i t K; discriminate].
Qed.

(** * Sorting *)

Lemma insert_in x y l : In x (sort_insert y l) <-> x = y \/ In x l.
Proof.
  induction l as [|z l IH]; cbn [sort_insert In]; [intuition|]. destruct (y <=? z); cbn [In]; [intuition|]. rewrite IH. intuition.
Qed.

Lemma sort_in x l : In x (sort l) <-> In x l.
Proof. unfold sort. induction l as [|y l IH]; cbn [fold_right In]; [reflexivity|]. rewrite insert_in, IH. intuition. Qed.

Lemma insert_sorted x l : StronglySorted Z.lt l -> ~ In x l -> StronglySorted Z.lt (sort_insert x l).
Proof.
  induction 1 as [|y l S IH H]; intros N; cbn [sort_insert]; [repeat constructor|]. destruct (x <=? y) eqn:Q.
  - apply Z.leb_le in Q. assert (x < y) by (cbn [In] in N; lia). constructor; [now constructor|]. constructor; [assumption|].
    apply Forall_forall. intros z Z. apply (proj1 (Forall_forall _ _) H) in Z. lia.
  - apply Z.leb_gt in Q. constructor; [apply IH; cbn [In] in N; tauto|]. apply Forall_forall. intros z Z. apply insert_in in Z as [-> |Z]; [exact Q|].
    exact (proj1 (Forall_forall _ _) H z Z).
Qed.

Lemma sort_sorted l : NoDup l -> StronglySorted Z.lt (sort l).
Proof.
  unfold sort. induction 1 as [|x l N D IH]; cbn [fold_right]; [constructor|]. apply insert_sorted; [exact IH|]. intros I. apply N. exact (proj1 (sort_in x l) I).
Qed.

Lemma froms_nodup p (js : list (Z * Z)) : NoDup js -> NoDup (map fst (filter (fun x => snd x =? p) js)).
Proof.
  induction 1 as [|[a t] js N D IH]; cbn [filter map snd]; [constructor|]. destruct (t =? p) eqn:Q; [|exact IH]. cbn [map fst]. constructor; [|exact IH].
  intros I. apply in_map_iff in I as ([a' t'] & K & I). apply filter_In in I as [I T]. cbn [fst snd] in *. apply Z.eqb_eq in T, Q. subst. contradiction.
Qed.

Lemma froms_in p (js : list (Z * Z)) a : In a (map fst (filter (fun x => snd x =? p) js)) <-> In (a, p) js.
Proof.
  rewrite in_map_iff. split.
  - intros ([a' t] & <- & I). apply filter_In in I as [I T]. cbn [fst snd] in *. apply Z.eqb_eq in T. now subst.
  - intros I. exists (a, p). split; [reflexivity|]. apply filter_In. split; [exact I|]. apply Z.eqb_refl.
Qed.

Lemma sort_nil l : sort l = [] -> l = [].
Proof. destruct l as [|x l]; [reflexivity|]. intros H. assert (I: In x (sort (x :: l))) by (apply sort_in; now left). rewrite H in I. destruct I. Qed.

Lemma arrival_spec g p : NoDup (g_jumps g) -> exists froms, StronglySorted Z.lt froms /\
  arrival_comment true g p = match froms with [] => None | _ => Some ("Arrived from: " ++ String.concat ", " (map show_usize_hex froms))%string end /\
  (forall a, In a froms <-> In (a, p) (g_jumps g)).
Proof.
  intros N. exists (sort (map fst (filter (fun x => snd x =? p) (g_jumps g)))). split; [apply sort_sorted; now apply froms_nodup|]. split.
  - unfold arrival_comment, position_list. destruct (map fst _) as [|x l] eqn:Q; [reflexivity|]. destruct (sort (x :: l)) as [|y l'] eqn:K; [|reflexivity].
    apply sort_nil in K. discriminate.
  - intros a. rewrite sort_in. apply froms_in.
Qed.

(** * The whole listing *)

Section Listing.
Variables (fuel : nat) (flag : bool) (entries bytes : list Z) (l : list dstatement).
Hypotheses (F : Forall is_byte bytes) (M : moderate bytes) (E : Forall (fun e => 0 <= e) entries)
  (H : disassemble fuel flag entries bytes = Ok (inl l)).

Lemma listing_parts : exists g lifted r, 
  let c := mkListing flag entries bytes g lifted (build_names g) in
  l = r ++ tail_part c /\ emit (S (List.length bytes)) c (fun _ => false) 0 = Ok r /\ inv bytes entries g [] /\ jinv g /\
  (forall p i, In (Some p, SInstr i) (map placed l) <-> lookup p lifted = Some i) /\
  (forall p i, lookup p lifted = Some i -> 0 <= p < blen bytes /\ In (d_instr p i (arrival_comment flag g p)) l /\ 
     exists j, instr_at g p = Some j /\ stands bytes p j (p + doc_length i) /\ key j = key i) /\
  (forall p j, instr_at g p = Some j -> exists i, lookup p lifted = Some i) /\
  NoDup (map fst lifted) /\
  (forall d p i, In d l -> d_pos d = Some p -> d_statement d = SInstr i -> d = d_instr p i (arrival_comment flag g p)).
Proof.
  destruct (disassemble_inv fuel flag entries bytes l H) as (g & lifted & r & B & LI & EM & EQ). exists g, lifted, r. intros c. subst l.
  split; [reflexivity|]. split; [exact EM|]. split; [exact (built_inv bytes entries fuel g F E B)|]. split; [exact (built_jinv bytes entries fuel g F E B)|].
  assert (LL: forall p i, lookup p lifted = Some i -> In (d_instr p i (arrival_comment flag g p)) (r ++ tail_part c)).
  { intros p i L. exact (lifted_line fuel flag entries bytes g lifted r F M E B LI EM p i L). }
  assert (LB: forall d p i, In d (r ++ tail_part c) -> d_pos d = Some p -> d_statement d = SInstr i -> d = d_instr p i (arrival_comment flag g p) /\ lookup p lifted = Some i).
  { intros d p i I P S. destruct (listing_instr flag entries bytes g lifted r LI EM d i I S) as (q & j & -> & _ & L & _). cbn [d_instr d_pos] in P. injection P as ->. auto. }
  split; [|split; [|split; [|split]]].
  - intros p i. split.
    + intros I. apply in_map_iff in I as (d & D & I). unfold placed in D. injection D as D1 D2. exact (proj2 (LB d p i I D1 D2)).
    + intros L. exact (in_map placed _ _ (LL p i L)).
  - intros p i L. destruct (lifted_stands fuel entries bytes g lifted F M E B LI p i L) as (j & J & LF & ST & _ & P & Q & R). pose proof (size_bounds i).
    split; [lia|]. split; [exact (LL p i L)|]. exists j. split; [exact J|]. split; [|symmetry; exact (lift_key p g j _ i LF)].
    rewrite <- size_doc. exact ST.
  - intros p j J. pose proof (lift_lookup g (build_names g) _ _ LI p) as K. unfold instr_at in J. rewrite J in K. destruct K as (i & K1 & K2). exists i. assumption.
  - rewrite (lift_keys g _ _ _ LI). exact (i_keys _ _ _ _ (built_inv bytes entries fuel g F E B)).
  - intros d p i I P S. exact (proj1 (LB d p i I P S)).
Qed.
End Listing.
