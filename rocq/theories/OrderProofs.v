(** Permuting the entries of the hash maps does not change a listing or an icon. *)
From Coq Require Import ZArith List String Ascii Bool Lia Permutation Sorting.Sorted.
From Verif Require Import Base Expr Instr Ast Printer Img ImgProofs3 Disasm DisasmProofs DisasmProofs3 DisasmProofs12 Order SpecOrder.
Import ListNotations.
Open Scope string_scope.
Open Scope list_scope.
Open Scope Z_scope.

(** ** Maps *)

Definition same_map {A : Type} (l l' : list (Z * A)) : Prop := forall k, lookup k l = lookup k l'.

Lemma perm_lookup {A : Type} (l l' : list (Z * A)) : Permutation l l' -> NoDup (map fst l) -> same_map l l'.
Proof.
  induction 1 as [|[k v] l l' P IH|[k v] [k' v'] l|l l' l'' P1 IH1 P2 IH2]; intros N q.
  - reflexivity.
  - cbn [map fst] in N. apply NoDup_cons_iff in N as [_ N]. cbn [lookup]. now rewrite (IH N q).
  - cbn [map fst] in N. apply NoDup_cons_iff in N as [N _]. cbn [lookup]. destruct (Z.eqb_spec k q) as [->|]; [|reflexivity].
    destruct (Z.eqb_spec k' q) as [->|]; [|reflexivity]. exfalso. apply N. now left.
  - rewrite (IH1 N q). apply IH2. eapply Permutation_NoDup; [apply Permutation_map; exact P1|exact N].
Qed.

Lemma perm_existsb {A : Type} (f : A -> bool) l l' : Permutation l l' -> existsb f l = existsb f l'.
Proof.
  intros P. apply Bool.eq_true_iff_eq. rewrite !existsb_exists. split; intros (x & I & E); exists x; split; auto.
  - eapply Permutation_in; eauto.
  - eapply Permutation_in; [apply Permutation_sym; exact P|exact I].
Qed.

Lemma perm_filter {A : Type} (f : A -> bool) l l' : Permutation l l' -> Permutation (filter f l) (filter f l').
Proof.
  induction 1 as [|x l l' P IH|x y l|l l' l'' P1 IH1 P2 IH2]; cbn [filter].
  - constructor.
  - destruct (f x); auto.
  - destruct (f x), (f y); auto. apply perm_swap.
  - etransitivity; eauto.
Qed.

(** ** Sorting *)

Lemma sort_insert_comm x y l : sort_insert x (sort_insert y l) = sort_insert y (sort_insert x l).
Proof.
  induction l as [|z l IH].
  - cbn. destruct (Z.leb_spec x y), (Z.leb_spec y x); try lia; [|reflexivity|reflexivity]. assert (x = y) by lia. now subst.
  - cbn [sort_insert]. destruct (Z.leb_spec y z), (Z.leb_spec x z); cbn [sort_insert].
    + destruct (Z.leb_spec x y), (Z.leb_spec y x); try lia.
      * assert (x = y) by lia. now subst.
      * destruct (Z.leb_spec y z); [reflexivity|lia].
      * destruct (Z.leb_spec x z); [reflexivity|lia].
    + destruct (Z.leb_spec x y); [lia|]. destruct (Z.leb_spec x z); [lia|]. destruct (Z.leb_spec y z); [reflexivity|lia].
    + destruct (Z.leb_spec x z); [|lia]. destruct (Z.leb_spec y x); [lia|]. destruct (Z.leb_spec y z); [lia|reflexivity].
    + destruct (Z.leb_spec x z); [lia|]. destruct (Z.leb_spec y z); [lia|]. now rewrite IH.
Qed.

Lemma perm_sort l l' : Permutation l l' -> sort l = sort l'.
Proof.
  unfold sort. induction 1 as [|x l l' P IH|x y l|l l' l'' P1 IH1 P2 IH2]; cbn [fold_right].
  - reflexivity.
  - now rewrite IH.
  - apply sort_insert_comm.
  - congruence.
Qed.

Lemma sort_pair_comm x y l : fst x <> fst y -> sort_pair x (sort_pair y l) = sort_pair y (sort_pair x l).
Proof.
  intros N. induction l as [|z l IH].
  - cbn. destruct (Z.leb_spec (fst x) (fst y)), (Z.leb_spec (fst y) (fst x)); try lia; reflexivity.
  - cbn [sort_pair]. destruct (Z.leb_spec (fst y) (fst z)), (Z.leb_spec (fst x) (fst z)); cbn [sort_pair].
    + destruct (Z.leb_spec (fst x) (fst y)), (Z.leb_spec (fst y) (fst x)); try lia.
      * destruct (Z.leb_spec (fst y) (fst z)); [reflexivity|lia].
      * destruct (Z.leb_spec (fst x) (fst z)); [reflexivity|lia].
    + destruct (Z.leb_spec (fst x) (fst y)); [lia|]. destruct (Z.leb_spec (fst x) (fst z)); [lia|]. destruct (Z.leb_spec (fst y) (fst z)); [reflexivity|lia].
    + destruct (Z.leb_spec (fst x) (fst z)); [|lia]. destruct (Z.leb_spec (fst y) (fst x)); [lia|]. destruct (Z.leb_spec (fst y) (fst z)); [lia|reflexivity].
    + destruct (Z.leb_spec (fst x) (fst z)); [lia|]. destruct (Z.leb_spec (fst y) (fst z)); [lia|]. now rewrite IH.
Qed.

Lemma perm_sorted_pairs l l' : Permutation l l' -> NoDup (map fst l) -> sorted_pairs l = sorted_pairs l'.
Proof.
  unfold sorted_pairs. induction 1 as [|x l l' P IH|x y l|l l' l'' P1 IH1 P2 IH2]; intros N; cbn [fold_right].
  - reflexivity.
  - cbn [map] in N. apply NoDup_cons_iff in N as [_ N]. now rewrite IH.
  - cbn [map] in N. apply NoDup_cons_iff in N as [N _]. apply sort_pair_comm. intros E. apply N. left. congruence.
  - rewrite IH1 by exact N. apply IH2. eapply Permutation_NoDup; [apply Permutation_map; exact P1|exact N].
Qed.

(** ** Labels and lifting *)

Lemma labels_perm g l l' : Permutation l l' -> same_map (fold_left (label_of g) l []) (fold_left (label_of g) l' []).
Proof.
  intros P q. destruct (labels_fold g l []) as [A B]; [discriminate|]. destruct (labels_fold g l' []) as [A' B']; [discriminate|].
  assert (H : labelled g l q <-> labelled g l' q).
  { split; intros (a & i & I & K); exists a, i; split; auto; [eapply Permutation_in; eauto|].
    eapply Permutation_in; [apply Permutation_sym; exact P|exact I]. }
  specialize (B q). specialize (B' q).
  destruct (lookup q (fold_left (label_of g) l [])) as [n|] eqn:E, (lookup q (fold_left (label_of g) l' [])) as [n'|] eqn:E'.
  - now rewrite (A _ _ E), (A' _ _ E').
  - exfalso. destruct (proj1 B (ex_intro _ n eq_refl)) as [[m C]|C]; [discriminate|]. destruct (proj2 B' (or_intror (proj1 H C))) as [m D]. discriminate.
  - exfalso. destruct (proj1 B' (ex_intro _ n' eq_refl)) as [[m C]|C]; [discriminate|]. destruct (proj2 B (or_intror (proj2 H C))) as [m D]. discriminate.
  - reflexivity.
Qed.

Definition same_names (n n' : dnames) : Prop :=
  same_map (n_labels n) (n_labels n') /\ same_map (n_psw_bits n) (n_psw_bits n') /\ same_map (n_aliases n) (n_aliases n').

Lemma label_expr_same n n' a : same_names n n' -> label_expr n a = label_expr n' a.
Proof. intros (S & _). unfold label_expr. now rewrite S. Qed.

Lemma mem_expr_same n n' a : same_names n n' -> mem_expr n a = mem_expr n' a.
Proof. intros (_ & _ & S). unfold mem_expr. now rewrite S. Qed.

Lemma bits_expr_same n n' m a : same_names n n' -> bits_expr n m a = bits_expr n' m a.
Proof. intros (_ & S & _). unfold bits_expr. now rewrite S. Qed.

Lemma lift_same n n' pos g i : same_names n n' -> lift_instr pos g i n = lift_instr pos g i n'.
Proof.
  intros S. destruct i; cbn [lift_instr]; try reflexivity;
    repeat rewrite ?(mem_expr_same n n' _ S), ?(bits_expr_same n n' _ _ S), ?(label_expr_same n n' _ S); reflexivity.
Qed.

Lemma lifts_same n n' g l : same_names n n' -> lift_instrs g n l = lift_instrs g n' l.
Proof. intros S. induction l as [|[p i] l IH]; [reflexivity|]. cbn [lift_instrs]. now rewrite (lift_same n n' p g i S), IH. Qed.

Lemma mode_cases k : (exists m, mode k = Ok m) \/ mode k = Panic.
Proof. unfold mode. destruct (imode_from k); eauto. Qed.

Lemma lift_cases pos g i n : (exists j, lift_instr pos g i n = Ok j) \/ lift_instr pos g i n = Panic.
Proof.
  destruct i; cbn [lift_instr]; eauto;
    try (match goal with |- context [mode ?k] => destruct (mode_cases k) as [[m E]|E]; rewrite E; cbn [bind]; eauto end).
  destruct (leaves g pos); eauto.
Qed.

Lemma lifts_cases g n l : (exists r, lift_instrs g n l = Ok r) \/ lift_instrs g n l = Panic.
Proof.
  induction l as [|[p i] l IH]; cbn [lift_instrs]; [eauto|]. destruct (lift_cases p g i n) as [[j E]|E]; rewrite E; cbn [bind]; [|auto].
  destruct IH as [[r F]|F]; rewrite F; cbn [bind]; eauto.
Qed.

Lemma lifts_perm g n l l' : Permutation l l' ->
  (exists r r', lift_instrs g n l = Ok r /\ lift_instrs g n l' = Ok r' /\ Permutation r r') \/
  (lift_instrs g n l = Panic /\ lift_instrs g n l' = Panic).
Proof.
  induction 1 as [|[p i] l l' P IH|[p i] [q k] l|l l' l'' P1 IH1 P2 IH2].
  - left. exists [], []. auto.
  - cbn [lift_instrs]. destruct (lift_cases p g i n) as [[j E]|E]; rewrite E; cbn [bind]; [|auto].
    destruct IH as [(r & r' & -> & -> & R)|[-> ->]]; cbn [bind]; [|auto]. left. exists ((p, j) :: r), ((p, j) :: r'). auto.
  - cbn [lift_instrs]. destruct (lifts_cases g n l) as [[r R]|R], (lift_cases p g i n) as [[j E]|E], (lift_cases q g k n) as [[m F]|F];
      rewrite E, F; cbn [bind]; rewrite ?R; cbn [bind]; rewrite ?E, ?F, ?R; cbn [bind]; auto.
    left. exists ((q, m) :: (p, j) :: r), ((p, j) :: (q, m) :: r). repeat split. apply perm_swap.
  - destruct IH1 as [(r & r' & A & B & R)|[A B]], IH2 as [(s & s' & C & D & S)|[C D]]; try congruence.
    + left. exists r, s'. split; [exact A|]. split; [exact D|]. rewrite B in C. injection C as <-. etransitivity; eauto.
    + right. auto.
Qed.

Lemma lift_keys g n : forall l r, lift_instrs g n l = Ok r -> map fst r = map fst l.
Proof.
  induction l as [|[p i] l IH]; intros r; cbn [lift_instrs]; [now intros [= <-]|].
  destruct (lift_instr p g i n); cbn [bind]; try discriminate. destruct (lift_instrs g n l); cbn [bind]; try discriminate.
  intros [= <-]. cbn [map fst]. f_equal. now apply IH.
Qed.

(** ** The loop over the positions *)

Lemma masked_perm l l' p : Permutation l l' -> masked l p = masked l' p.
Proof. intros P. unfold masked. now apply perm_existsb. Qed.

Lemma overlaps_same l l' p : same_map l l' -> find_overlaps l p = find_overlaps l' p.
Proof.
  intros S. unfold find_overlaps. rewrite S. destruct (lookup p l') as [i|]; [|reflexivity]. rewrite S. f_equal.
  apply filter_ext. intros q. now rewrite S.
Qed.

Lemma arrival_perm flag g g' p : Permutation (g_jumps g) (g_jumps g') -> arrival_comment flag g p = arrival_comment flag g' p.
Proof.
  intros P. unfold arrival_comment. destruct flag; [|reflexivity].
  assert (Q : Permutation (map fst (filter (fun x => snd x =? p) (g_jumps g))) (map fst (filter (fun x => snd x =? p) (g_jumps g')))).
  { apply Permutation_map. now apply perm_filter. }
  destruct (map fst (filter (fun x => snd x =? p) (g_jumps g))) as [|a l] eqn:E, (map fst (filter (fun x => snd x =? p) (g_jumps g'))) as [|b m] eqn:F.
  - reflexivity.
  - apply Permutation_nil in Q. discriminate.
  - apply Permutation_sym, Permutation_nil in Q. discriminate.
  - now rewrite (perm_sort _ _ Q).
Qed.

Record alike (c c' : listing) : Prop := mkAlike {
  k_flag : l_flag c = l_flag c';
  k_entries : l_entries c = l_entries c';
  k_bytes : l_bytes c = l_bytes c';
  k_jumps : Permutation (g_jumps (l_graph c)) (g_jumps (l_graph c'));
  k_lifted : Permutation (l_lifted c) (l_lifted c');
  k_keys : NoDup (map fst (l_lifted c));
  k_names : same_names (l_names c) (l_names c');
  k_bits : sorted_pairs (n_psw_bits (l_names c)) = sorted_pairs (n_psw_bits (l_names c'));
  k_aliases : sorted_pairs (n_aliases (l_names c)) = sorted_pairs (n_aliases (l_names c'))
}.

Section Alike.
Context (c c' : listing) (K : alike c c').

Lemma alike_map : same_map (l_lifted c) (l_lifted c').
Proof. apply perm_lookup; apply K. Qed.

Lemma alike_mask p : masked (l_lifted c) p = masked (l_lifted c') p.
Proof. apply masked_perm, K. Qed.

Lemma alike_entry p : is_entry c p = is_entry c' p.
Proof. unfold is_entry. now rewrite (k_entries _ _ K). Qed.

Lemma alike_entry_part p : entry_part c p = entry_part c' p.
Proof. unfold entry_part. now rewrite alike_entry. Qed.

Lemma alike_instr_part w p i : instr_part c w p i = instr_part c' w p i.
Proof.
  unfold instr_part. rewrite alike_mask, alike_entry, (proj1 (k_names _ _ K) p), (overlaps_same _ _ p alike_map), (k_flag _ _ K),
    (arrival_perm (l_flag c') _ _ p (k_jumps _ _ K)). reflexivity.
Qed.

Lemma alike_data_part w p ch : data_part c w p ch = data_part c' w p ch.
Proof. unfold data_part. now rewrite alike_mask. Qed.

Lemma byte_range_ext m m' : (forall p, m p = m' p) -> forall bs p, byte_range m p bs = byte_range m' p bs.
Proof. intros H. induction bs as [|b t IH]; intros p; cbn [byte_range]; [reflexivity|]. now rewrite H, IH. Qed.

Lemma alike_emit fuel : forall w p, emit fuel c w p = emit fuel c' w p.
Proof.
  induction fuel as [|f IH]; intros w p; cbn [emit]; rewrite (k_bytes _ _ K); [reflexivity|].
  destruct (p <? blen (l_bytes c')); [|reflexivity]. rewrite alike_map. destruct (lookup p (l_lifted c')) as [i|].
  - now rewrite IH, alike_entry_part, alike_instr_part.
  - rewrite alike_mask. destruct (masked (l_lifted c') p); [now rewrite IH, alike_entry_part|].
    rewrite (byte_range_ext _ _ alike_mask). destruct (all_zeros _); [now rewrite IH, alike_entry_part|].
    now rewrite IH, alike_entry_part, alike_data_part.
Qed.

Lemma alike_tail : tail_part c = tail_part c'.
Proof. unfold tail_part. now rewrite (k_bytes _ _ K), (k_bits _ _ K), (k_aliases _ _ K). Qed.

End Alike.

Lemma bits_keys : NoDup (map fst psw_bits).
Proof. set (x := map fst psw_bits). replace x with (nodup Z.eq_dec x) by (vm_compute; reflexivity). apply NoDup_nodup. Qed.

Lemma aliases_keys : NoDup (map fst aliases).
Proof. set (x := map fst aliases). replace x with (nodup Z.eq_dec x) by (vm_compute; reflexivity). apply NoDup_nodup. Qed.

Local Opaque aliases psw_bits.

Lemma names_in_same o g : shuffles o -> same_names (build_names_in o g) (build_names g).
Proof.
  intros S. unfold build_names_in, build_names, compute_labels. repeat split; cbn [n_labels n_psw_bits n_aliases].
  - apply labels_perm, S.
  - intros k. symmetry. apply perm_lookup; [apply Permutation_sym, S|apply bits_keys].
  - intros k. symmetry. apply perm_lookup; [apply Permutation_sym, S|apply aliases_keys].
Qed.

Lemma listing_order o fuel flag entries bytes : shuffles o ->
  (forall g, build_instruction_graph fuel entries bytes = Ok (inl g) -> NoDup (map fst (g_instrs g))) ->
  disassemble_in o fuel flag entries bytes = disassemble fuel flag entries bytes.
Proof.
  intros S N. unfold disassemble_in, disassemble.
  destruct (build_instruction_graph fuel entries bytes) as [[g|e]| | |] eqn:E; cbn [bind]; try reflexivity.
  specialize (N g eq_refl). pose proof (names_in_same o g S) as M. rewrite (lifts_same _ _ g _ M).
  destruct (lifts_perm g (build_names g) _ _ (s_lift o S (g_instrs g))) as [(r & r' & -> & L & P)|[-> ->]]; cbn [bind]; [|reflexivity].
  rewrite L. cbn [bind].
  assert (K : alike (mkListing flag entries bytes (mkGraph (g_instrs g) (o_jumps o (g_jumps g))) (o_lifted o r) (build_names_in o g))
                    (mkListing flag entries bytes g r' (build_names g))).
  { constructor; cbn [l_flag l_entries l_bytes l_graph l_lifted l_names g_jumps]; auto.
    - apply S.
    - etransitivity; [apply S|exact P].
    - eapply Permutation_NoDup; [apply Permutation_map, Permutation_sym; etransitivity; [apply S|exact P]|].
      rewrite (lift_keys _ _ _ _ L). exact N.
    - unfold build_names_in, build_names. cbn [n_psw_bits]. symmetry. apply perm_sorted_pairs; [apply Permutation_sym, S|apply bits_keys].
    - unfold build_names_in, build_names. cbn [n_aliases]. symmetry. apply perm_sorted_pairs; [apply Permutation_sym, S|apply aliases_keys]. }
  rewrite (alike_emit _ _ K), (alike_tail _ _ K). reflexivity.
Qed.

(** The graph of any run has each position once. *)
Lemma add_keys g p i : NoDup (map fst (g_instrs g)) -> NoDup (map fst (g_instrs (add_instr g p i))).
Proof. intros N. unfold add_instr. cbn [g_instrs]. now apply insert_keys. Qed.

Lemma jumps_instrs a ts : forall g, g_instrs (fold_left (fun acc t => jump_to acc a t) ts g) = g_instrs g.
Proof. induction ts as [|t ts IH]; intros g; [reflexivity|]. cbn [fold_left]. rewrite IH. unfold jump_to. now destruct (existsb _ _). Qed.

Lemma visit_keys bytes p g P g' P' : visit bytes p g P = Ok (inl (g', P')) -> NoDup (map fst (g_instrs g)) -> NoDup (map fst (g_instrs g')).
Proof.
  unfold visit. destruct (p =? blen bytes); [now intros [= <- <-]|]. destruct (blen bytes <? p); [now intros [= <- <-]|].
  destruct (decode _) as [[i|]| | |]; cbn [bind]; try discriminate. intros [= <- <-] N. apply add_keys. now rewrite jumps_instrs.
Qed.

Lemma visit_all_keys bytes : forall L g P g' P', visit_all bytes L g P = Ok (inl (g', P')) -> NoDup (map fst (g_instrs g)) -> NoDup (map fst (g_instrs g')).
Proof.
  induction L as [|p L IH]; intros g P g' P'; cbn [visit_all]; [now intros [= <- <-]|].
  destruct (visit bytes p g P) as [[[g1 P1]|e]| | |] eqn:E; cbn [bind]; try discriminate. intros H N. eapply IH; [exact H|]. eapply visit_keys; eauto.
Qed.

Lemma discover_keys bytes : forall fuel P g g', discover fuel bytes P g = Ok (inl g') -> NoDup (map fst (g_instrs g)) -> NoDup (map fst (g_instrs g')).
Proof.
  induction fuel as [|f IH]; intros P g g'; cbn [discover]; destruct P as [|p P]; try discriminate; try now intros [= <-].
  destruct (visit_all bytes (p :: P) g []) as [[[g1 P1]|e]| | |] eqn:E; cbn [bind]; try discriminate. intros H N. eapply IH; [exact H|]. eapply visit_all_keys; eauto.
Qed.

Lemma built_keys fuel entries bytes g : build_instruction_graph fuel entries bytes = Ok (inl g) -> NoDup (map fst (g_instrs g)).
Proof. intros H. eapply discover_keys; [exact H|constructor]. Qed.

(** ** Palettes *)

Lemma set_nth_comm {A : Type} (a b : A) : forall l i j, i <> j ->
  match set_nth l i a with Some l' => set_nth l' j b | None => None end =
  match set_nth l j b with Some l' => set_nth l' i a | None => None end.
Proof.
  induction l as [|x l IH]; intros [|i] [|j] N; cbn [set_nth]; try reflexivity; try congruence.
  - destruct (set_nth l j b); reflexivity.
  - destruct (set_nth l i a); reflexivity.
  - specialize (IH i j ltac:(congruence)). destruct (set_nth l i a) as [l1|], (set_nth l j b) as [l2|]; cbn [set_nth]; try reflexivity.
    + now rewrite IH.
    + now rewrite IH.
    + now rewrite <- IH.
Qed.

Lemma write_comm {A : Type} (a b : A) l i j : i <> j ->
  bind (write_at l i a) (fun t => write_at t j b) = bind (write_at l j b) (fun t => write_at t i a).
Proof.
  intros N. unfold write_at. destruct (Z.ltb_spec i 0), (Z.ltb_spec j 0); cbn [bind].
  - reflexivity.
  - destruct (set_nth l (Z.to_nat j) b); reflexivity.
  - destruct (set_nth l (Z.to_nat i) a); reflexivity.
  - pose proof (set_nth_comm a b l (Z.to_nat i) (Z.to_nat j) ltac:(lia)) as C.
    destruct (set_nth l (Z.to_nat i) a), (set_nth l (Z.to_nat j) b); cbn [bind]; rewrite ?C; try reflexivity; now rewrite <- C.
Qed.

Lemma bind_assoc {A B C : Type} (x : outcome A) (f : A -> outcome B) (h : B -> outcome C) : bind (bind x f) h = bind x (fun a => bind (f a) h).
Proof. now destruct x. Qed.

Lemma fill_perm p p' : Permutation p p' -> NoDup (map snd p) -> forall table, fill_palette p table = fill_palette p' table.
Proof.
  induction 1 as [|[k v] l l' P IH|[k v] [k' v'] l|l l' l'' P1 IH1 P2 IH2]; intros N table.
  - reflexivity.
  - cbn [map snd] in N. apply NoDup_cons_iff in N as [_ N]. cbn [fill_palette]. destruct (write_at table v k); cbn [bind]; auto.
  - cbn [map snd] in N. apply NoDup_cons_iff in N as [N _]. cbn [fill_palette]. rewrite <- !bind_assoc, write_comm; [reflexivity|].
    intros ->. apply N. now left.
  - rewrite IH1 by exact N. apply IH2. eapply Permutation_NoDup; [apply Permutation_map; exact P1|exact N].
Qed.

Lemma good_below p : good p -> forall v, In v (map snd p) -> v < pal_len p.
Proof.
  induction 1 as [|c p G IH N]; intros v; [contradiction|]. rewrite pal_len_cons. cbn [map snd]. intros [<-|I]; [lia|]. specialize (IH v I). lia.
Qed.

Lemma good_indices p : good p -> NoDup (map snd p).
Proof.
  induction 1 as [|c p G IH N]; [constructor|]. cbn [map snd]. constructor; [|exact IH]. intros I. pose proof (good_below p G _ I). lia.
Qed.

Lemma to_icon_perm o i name : shuffles o -> image_to_icon_in o i (get_palette i) name = image_to_icon i (get_palette i) name.
Proof.
  intros S. unfold image_to_icon_in, image_to_icon.
  assert (F : forall t, fill_palette (o_palette o (get_palette i)) t = fill_palette (get_palette i) t).
  { intros t. symmetry. apply fill_perm; [apply Permutation_sym, S|]. apply good_indices, palette_good. }
  destruct (pal_len (get_palette i) <=? 16); [|destruct (pal_len (get_palette i) <=? 256)]; now rewrite ?F.
Qed.

Lemma icon_order o pics path speed eye : shuffles o -> to_icon_in o pics path speed eye = to_icon pics path speed eye.
Proof.
  intros S. unfold to_icon_in, to_icon. destruct (load_image pics path) as [l| | |]; cbn [bind]; try reflexivity.
  destruct (16 <? _); [reflexivity|]. destruct (negb _); [reflexivity|]. destruct eye as [e|].
  - destruct (load_image pics e) as [l'| | |]; cbn [bind]; try reflexivity. destruct (as_still l') as [s| | |]; cbn [bind]; try reflexivity.
    rewrite (to_icon_perm o _ path S). destruct (image_to_icon (scale_image 15 l) _ path); cbn [bind]; try reflexivity.
    destruct (negb _); [reflexivity|]. now rewrite (to_icon_perm o _ e S).
  - cbn [bind]. rewrite (to_icon_perm o _ path S). reflexivity.
Qed.
