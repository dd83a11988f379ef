(** The listing: totality, labels and instructions. *)
From Coq Require Import ZArith List String Ascii Bool Lia.
From Verif Require Import Base Expr Instr Ast Printer SpecIsa CodecProofs CodecProofs2 ExprProofs SpecLex PrintProofs Disasm SpecDisasm DisasmProofs DisasmProofs2.
Import ListNotations.
Open Scope string_scope.
Open Scope list_scope.
Open Scope Z_scope.

(** * Names of labels *)

Lemma digit_text_inj vs : forall ws, Forall (fun v => 0 <= v < 16) vs -> Forall (fun v => 0 <= v < 16) ws ->
  lower (text_of vs) = lower (text_of ws) -> vs = ws.
Proof.
  induction vs as [|v vs IH]; intros [|w ws] F G E; try discriminate; [reflexivity|].
  unfold text_of in E. cbn [map string_of_list_ascii lower] in E. injection E as E1 E2.
  pose proof (Forall_inv F) as F1. pose proof (Forall_inv G) as G1. cbv beta in F1, G1.
  f_equal; [|exact (IH ws (Forall_inv_tail F) (Forall_inv_tail G) E2)].
  assert (Q: forallb (fun v => forallb (fun w => negb (Ascii.eqb (lower_ascii (digit_char v)) (lower_ascii (digit_char w))) || (v =? w))
     [0; 1; 2; 3; 4; 5; 6; 7; 8; 9; 10; 11; 12; 13; 14; 15]) [0; 1; 2; 3; 4; 5; 6; 7; 8; 9; 10; 11; 12; 13; 14; 15] = true) by (vm_compute; reflexivity).
  rewrite forallb_forall in Q. specialize (Q v ltac:(cbn; lia)). rewrite forallb_forall in Q. specialize (Q w ltac:(cbn; lia)).
  rewrite E1, Ascii.eqb_refl in Q. cbn [negb orb] in Q. now apply Z.eqb_eq.
Qed.

Lemma hex_inj p q : 0 <= p < 18446744073709551616 -> 0 <= q < 18446744073709551616 -> lower (show_usize_hex p) = lower (show_usize_hex q) -> p = q.
Proof.
  intros P Q E. unfold show_usize_hex in E. destruct (padded_spec 16 ltac:(lia) 4 p ltac:(lia)) as (vs & E1 & A & _ & P1).
  destruct (padded_spec 16 ltac:(lia) 4 q ltac:(lia)) as (ws & E2 & B & _ & P2). rewrite E1, E2 in E.
  rewrite <- P1, <- P2. f_equal. now apply digit_text_inj.
Qed.

Lemma label_name_inj_lower p q : 0 <= p < 18446744073709551616 -> 0 <= q < 18446744073709551616 -> lower (label_name p) = lower (label_name q) -> p = q.
Proof.
  intros P Q E. apply hex_inj; auto. unfold label_name in E. cbn [String.append lower] in E. now injection E.
Qed.

Lemma label_name_inj p q : 0 <= p < 18446744073709551616 -> 0 <= q < 18446744073709551616 -> label_name p = label_name q -> p = q.
Proof. intros P Q E. apply label_name_inj_lower; auto. now rewrite E. Qed.

(** * Labels *)

(** The target of the jump operand, as the code computes it. *)
Definition jump_target (pos : Z) (i : instr Z Z) : option Z :=
  let next := pos + size i in
  match i with
  | Jmp a | Call a => Some (page_address a next)
  | Jmpf a | Callf a => Some (wrap_usize a)
  | Brf r | Callr r => Some (branch16 r next)
  | Br r | Bz r | Bnz r => Some (branch8 r next)
  | Bp _ _ r | Bpc _ _ r | Bn _ _ r => Some (branch8 r next)
  | Dbnz_d9 _ r => Some (branch8 r next)
  | Dbnz_Ri _ r => Some (branch8 r next)
  | Be_i8 _ r | Be_d9 _ r | Bne_i8 _ r | Bne_d9 _ r => Some (branch8 r next)
  | Be_Rj _ _ r => Some (branch8 r next)
  | Bne_Rj _ _ r => Some (branch8 r next)
  | _ => None
  end.

Lemma label_of_target g ls pos i : label_of g ls (pos, i) =
  match jump_target pos i with
  | Some t => if is_jmpf i && leaves g pos then ls else gen_label ls t
  | None => ls
  end.
Proof. destruct i; reflexivity. Qed.

Lemma jump_target_full pos i t : jump_target pos i = Some t -> In t (full pos i).
Proof. destruct i; try discriminate; intros [= <-]; unfold full; cbn [targets]; rewrite ?leaves_new; now left. Qed.

Lemma usize_range x : 0 <= wrap_usize x < 18446744073709551616.
Proof. apply Z.mod_pos_bound. lia. Qed.

Lemma page_address_range x n : 0 <= page_address x n < 18446744073709551616.
Proof.
  unfold page_address. set (v := Z.lor (Z.land n 61440) (Z.land (wrap_usize x) 4095)).
  assert (A: v = Z.land v (Z.ones 16)).
  { unfold v. rewrite Z.land_lor_distr_l, <- !Z.land_assoc. reflexivity. }
  rewrite Z.land_ones in A by lia. pose proof (Z.mod_pos_bound v (2 ^ 16) ltac:(lia)) as B. change (2 ^ 16) with 65536 in *. lia.
Qed.

Lemma jump_target_range pos i t : jump_target pos i = Some t -> 0 <= t < 18446744073709551616.
Proof.
  destruct i; try discriminate; intros [= <-]; first [apply page_address_range|apply usize_range].
Qed.

Definition labelled (g : graph) (l : list (Z * instr Z Z)) (t : Z) : Prop :=
  exists a i, In (a, i) l /\ jump_target a i = Some t /\ is_jmpf i && leaves g a = false.

Lemma gen_label_lookup ls t p : (forall q n, lookup q ls = Some n -> n = label_name q) ->
  lookup p (gen_label ls t) = if p =? t then Some (label_name t) else lookup p ls.
Proof.
  intros H. unfold gen_label. destruct (lookup t ls) as [n|] eqn:E.
  - destruct (p =? t) eqn:Q; [|reflexivity]. apply Z.eqb_eq in Q. subst. rewrite E. f_equal. now apply H.
  - destruct (p =? t) eqn:Q.
    + apply Z.eqb_eq in Q. subst. apply lookup_insert_eq.
    + apply Z.eqb_neq in Q. now apply lookup_insert_ne.
Qed.

Lemma labels_fold g : forall l ls, (forall q n, lookup q ls = Some n -> n = label_name q) ->
  (forall q n, lookup q (fold_left (label_of g) l ls) = Some n -> n = label_name q) /\
  (forall q, (exists n, lookup q (fold_left (label_of g) l ls) = Some n) <-> (exists n, lookup q ls = Some n) \/ labelled g l q).
Proof.
  induction l as [|[a i] l IH]; intros ls H.
  - split; [exact H|]. intros q. split; [auto|]. intros [K|(a & i & [] & _)]. exact K.
  - cbn [fold_left]. rewrite label_of_target. destruct (jump_target a i) as [t|] eqn:T; [destruct (is_jmpf i && leaves g a) eqn:L|].
    + destruct (IH ls H) as [A B]. split; [exact A|]. intros q. rewrite B. split.
      * intros [K|(b & j & I & K)]; [now left|right; exists b, j; split; [now right|exact K]].
      * intros [K|(b & j & [[= -> ->]|I] & K1 & K2)]; [now left|congruence|right; exists b, j; auto].
    + destruct (IH (gen_label ls t)) as [A B].
      * intros q n. rewrite gen_label_lookup by exact H. destruct (q =? t) eqn:Q; [apply Z.eqb_eq in Q; intros [= <-]; now subst|apply H].
      * split; [exact A|]. intros q. rewrite B, gen_label_lookup by exact H. split.
        -- intros [K|(b & j & I & K)]; [|right; exists b, j; split; [now right|exact K]]. destruct (q =? t) eqn:Q; [|now left].
           apply Z.eqb_eq in Q. subst q. right. exists a, i. split; [now left|auto].
        -- intros [K|(b & j & [[= -> ->]|I] & K1 & K2)].
           ++ left. destruct (q =? t); eauto.
           ++ left. rewrite T in K1. injection K1 as ->. rewrite Z.eqb_refl. eauto.
           ++ right. exists b, j. auto.
    + destruct (IH ls H) as [A B]. split; [exact A|]. intros q. rewrite B. split.
      * intros [K|(b & j & I & K)]; [now left|right; exists b, j; split; [now right|exact K]].
      * intros [K|(b & j & [[= -> ->]|I] & K1 & K2)]; [now left|congruence|right; exists b, j; auto].
Qed.

Lemma labels_name g q n : lookup q (compute_labels g) = Some n -> n = label_name q.
Proof. apply (labels_fold g (g_instrs g) []). discriminate. Qed.

Lemma labels_iff g q : (exists n, lookup q (compute_labels g) = Some n) <-> labelled g (g_instrs g) q.
Proof.
  unfold compute_labels. destruct (labels_fold g (g_instrs g) []) as [_ B]; [discriminate|]. rewrite B. split; [intros [[n [=]]|K]; exact K|auto].
Qed.

Lemma labels_at g q : labelled g (g_instrs g) q -> lookup q (compute_labels g) = Some (label_name q).
Proof. intros H. apply labels_iff in H as [n H]. rewrite H. f_equal. exact (labels_name g q n H). Qed.

(** * Lifting *)

Lemma lift_lookup g n : forall l r, lift_instrs g n l = Ok r -> forall p,
  match lookup p l with Some i => exists j, lift_instr p g i n = Ok j /\ lookup p r = Some j | None => lookup p r = None end.
Proof.
  induction l as [|[a i] l IH]; intros r H p; cbn [lift_instrs] in H; [injection H as <-; reflexivity|].
  destruct (lift_instr a g i n) as [j| | |] eqn:E; cbn [bind] in H; try discriminate.
  destruct (lift_instrs g n l) as [r'| | |] eqn:E2; cbn [bind] in H; try discriminate. injection H as <-.
  cbn [lookup]. destruct (a =? p) eqn:Q; [|exact (IH r' eq_refl p)]. apply Z.eqb_eq in Q. subst. eauto.
Qed.

Lemma mode_fine r : 0 <= r < 4 -> exists m, mode r = Ok m.
Proof.
  intros H. assert (Q: r = 0 \/ r = 1 \/ r = 2 \/ r = 3) by lia. destruct Q as [-> | [-> | [-> | ->]]]; eexists; reflexivity.
Qed.

Lemma lift_fine pos g i n : in_range i -> exists j, lift_instr pos g i n = Ok j.
Proof.
  intros R. destruct i; ranges R; cbn [lift_instr];
    repeat match goal with |- context [mode ?x] => let m := fresh "m" in destruct (mode_fine x) as [m ->]; [lia|]; cbn [bind] end;
    try destruct (leaves g pos); eauto.
Qed.

Lemma lift_all_fine g n : forall l, (forall a i, In (a, i) l -> in_range i) -> exists r, lift_instrs g n l = Ok r.
Proof.
  induction l as [|[a i] l IH]; intros H; cbn [lift_instrs]; [eauto|].
  destruct (lift_fine a g i n (H a i (or_introl eq_refl))) as [j ->]. cbn [bind].
  destruct IH as [r ->]; [intros b k I; exact (H b k (or_intror I))|]. cbn [bind]. eauto.
Qed.

Lemma lift_size pos g i n j : lift_instr pos g i n = Ok j -> size j = size i.
Proof.
  destruct i; cbn [lift_instr]; try destruct (leaves g pos); repeat match goal with |- context [mode ?x] => destruct (mode x) end;
    cbn [bind]; intros H; try discriminate; injection H as <-; reflexivity.
Qed.

(** * The shape of the listing *)

Lemma masked_at l p i : lookup p l = Some i -> masked l p = true.
Proof.
  intros H. apply lookup_in in H. unfold masked. apply existsb_exists. exists (p, i). split; [exact H|]. cbn [fst snd].
  pose proof (size_bounds i). apply andb_true_intro. split; [apply Z.leb_le; lia|apply Z.ltb_lt; lia].
Qed.

Lemma unmasked_lookup l p : masked l p = false -> lookup p l = None.
Proof. intros H. destruct (lookup p l) eqn:E; [|reflexivity]. rewrite (masked_at _ _ _ E) in H. discriminate. Qed.

Fixpoint upto (n : nat) (pos : Z) : list Z := match n with O => [] | S m => pos :: upto m (pos + 1) end.

Lemma upto_app n : forall m pos, upto (n + m) pos = upto n pos ++ upto m (pos + Z.of_nat n).
Proof.
  induction n as [|n IH]; intros m pos; cbn [Nat.add upto app]; [now rewrite Z.add_0_r|]. rewrite IH. do 3 f_equal. lia.
Qed.

Lemma in_upto n : forall pos p, In p (upto n pos) <-> pos <= p < pos + Z.of_nat n.
Proof.
  induction n as [|n IH]; intros pos p; cbn [upto In]; [lia|]. rewrite IH. lia.
Qed.

Lemma byte_range_mask mask : forall l pos k, (k < List.length (byte_range mask pos l))%nat -> mask (pos + Z.of_nat k) = false.
Proof.
  induction l as [|b l IH]; intros pos k H; cbn [byte_range List.length] in H; [lia|].
  destruct (mask pos) eqn:E; cbn [List.length] in H; [lia|]. destruct k as [|k]; [now rewrite Z.add_0_r|].
  specialize (IH (pos + 1) k ltac:(lia)). rewrite <- IH. f_equal. lia.
Qed.

Lemma byte_range_prefix mask : forall l pos, byte_range mask pos l = firstn (List.length (byte_range mask pos l)) l.
Proof.
  induction l as [|b l IH]; intros pos; cbn [byte_range]; [reflexivity|]. destruct (mask pos); [reflexivity|].
  cbn [List.length firstn]. now rewrite <- IH.
Qed.

(** The chunk at a position outside the instructions. *)
Definition chunk_at (c : listing) (pos : Z) : list Z :=
  read_chunk (byte_range (masked (l_lifted c)) pos (skipn (Z.to_nat pos) (l_bytes c))).

Lemma chunk_facts c pos : 0 <= pos < blen (l_bytes c) -> masked (l_lifted c) pos = false ->
  1 <= blen (chunk_at c pos) <= blen (l_bytes c) - pos /\
  (forall p, pos <= p < pos + blen (chunk_at c pos) -> masked (l_lifted c) p = false) /\
  chunk_at c pos = firstn (List.length (chunk_at c pos)) (skipn (Z.to_nat pos) (l_bytes c)).
Proof.
  intros P M. unfold chunk_at, read_chunk. set (mask := masked (l_lifted c)) in *. set (rest := skipn (Z.to_nat pos) (l_bytes c)).
  assert (LR: List.length rest = (List.length (l_bytes c) - Z.to_nat pos)%nat) by apply skipn_length.
  pose proof (byte_range_prefix mask rest pos) as B. set (br := byte_range mask pos rest) in *.
  assert (L1: (1 <= List.length br)%nat).
  { unfold br. destruct rest as [|b t]; [unfold blen in P; cbn in LR; lia|]. cbn [byte_range]. rewrite M. cbn. lia. }
  assert (L2: (List.length br <= List.length rest)%nat) by (rewrite B at 1; rewrite firstn_length; lia).
  assert (L3: List.length (firstn 16 br) = Nat.min 16 (List.length br)) by apply firstn_length.
  unfold blen in *. split; [lia|]. split.
  - intros p H. replace p with (pos + Z.of_nat (Z.to_nat (p - pos))) by lia. apply (byte_range_mask mask rest). fold br. lia.
  - rewrite L3. rewrite B at 1. rewrite firstn_firstn. reflexivity.
Qed.

Definition is_code (d : dstatement) : bool := match d_statement d with SLabel _ | SInstr _ => true | _ => false end.

Definition code_at (c : listing) (p : Z) : list dstatement :=
  match lookup p (l_lifted c) with
  | Some i =>
      (match lookup p (n_labels (l_names c)) with Some name => [d_label name] | None => [] end) ++
      [d_instr p i (arrival_comment (l_flag c) (l_graph c) p)]
  | None => []
  end.

Lemma entry_code c pos : filter is_code (entry_part c pos) = [].
Proof. unfold entry_part. destruct (is_entry c pos); reflexivity. Qed.

Lemma instr_code c w pos i : lookup pos (l_lifted c) = Some i -> filter is_code (instr_part c w pos i) = code_at c pos.
Proof.
  intros H. unfold instr_part, code_at. rewrite H, !filter_app.
  replace (filter is_code (if (0 <? pos) && negb (masked (l_lifted c) (pos - 1)) && negb (is_entry c pos)
     then d_remark "" :: (if w (pos - 1) then [] else [d_org pos]) else [])) with (@nil dstatement).
  2: { destruct ((0 <? pos) && negb (masked (l_lifted c) (pos - 1)) && negb (is_entry c pos)); [destruct (w (pos - 1))|]; reflexivity. }
  destruct (lookup pos (n_labels (l_names c))); destruct (find_overlaps (l_lifted c) pos); reflexivity.
Qed.

Lemma data_code c w pos chunk : filter is_code (data_part c w pos chunk) = [].
Proof.
  unfold data_part. rewrite !filter_app. destruct ((0 <? pos) && masked (l_lifted c) (pos - 1)); destruct ((0 <? pos) && negb (w (pos - 1)) && negb (masked (l_lifted c) (pos - 1))); reflexivity.
Qed.

Lemma tail_code c : filter is_code (tail_part c) = [].
Proof.
  unfold tail_part. rewrite !filter_app. assert (Q: forall l, filter is_code (map (fun p : Z * string => d_alias (snd p) (hex (wrap32 (fst p)))) l) = []).
  { induction l as [|x l IH]; [reflexivity|exact IH]. }
  rewrite !Q. reflexivity.
Qed.

Lemma code_none c n pos : (forall p, pos <= p < pos + Z.of_nat n -> lookup p (l_lifted c) = None) -> flat_map (code_at c) (upto n pos) = [].
Proof.
  intros H. assert (K: forall l, (forall p, In p l -> lookup p (l_lifted c) = None) -> flat_map (code_at c) l = []).
  { induction l as [|x l IH]; intros G; [reflexivity|]. cbn [flat_map]. rewrite (IH (fun p I => G p (or_intror I))). unfold code_at.
    now rewrite (G x (or_introl eq_refl)). }
  apply K. intros p I. apply H. now apply in_upto.
Qed.

Lemma emit_code c : forall f w pos r, 0 <= pos -> emit f c w pos = Ok r ->
  filter is_code r = flat_map (code_at c) (upto (Z.to_nat (blen (l_bytes c) - pos)) pos).
Proof.
  induction f as [|f IH]; intros w pos r P H; cbn [emit] in H; destruct (pos <? blen (l_bytes c)) eqn:E; try discriminate;
    try (injection H as <-; apply Z.ltb_ge in E; replace (Z.to_nat (blen (l_bytes c) - pos)) with 0%nat by lia; reflexivity).
  apply Z.ltb_lt in E.
  assert (ST: forall w' r', emit f c w' (pos + 1) = Ok r' -> code_at c pos ++ filter is_code r' = flat_map (code_at c) (upto (Z.to_nat (blen (l_bytes c) - pos)) pos)).
  { intros w' r' Q. rewrite (IH w' (pos + 1) r' ltac:(lia) Q). replace (Z.to_nat (blen (l_bytes c) - pos)) with (S (Z.to_nat (blen (l_bytes c) - (pos + 1)))) by lia. reflexivity. }
  destruct (lookup pos (l_lifted c)) as [i|] eqn:L.
  - destruct (emit f c w (pos + 1)) as [r'| | |] eqn:Q; cbn [bind] in H; try discriminate. injection H as <-.
    rewrite !filter_app, entry_code, (instr_code c w pos i L). exact (ST w r' Q).
  - assert (N: code_at c pos = []) by (unfold code_at; now rewrite L).
    destruct (masked (l_lifted c) pos) eqn:M.
    + destruct (emit f c w (pos + 1)) as [r'| | |] eqn:Q; cbn [bind] in H; try discriminate. injection H as <-.
      rewrite filter_app, entry_code. cbn [app]. rewrite <- (ST w r' Q), N. reflexivity.
    + cbv zeta in H. fold (chunk_at c pos) in H. destruct (chunk_facts c pos ltac:(lia) M) as (B & U & _).
      assert (SK: forall w' r', emit f c w' (pos + blen (chunk_at c pos)) = Ok r' -> filter is_code r' = flat_map (code_at c) (upto (Z.to_nat (blen (l_bytes c) - pos)) pos)).
      { intros w' r' Q. rewrite (IH w' (pos + blen (chunk_at c pos)) r' ltac:(lia) Q).
        replace (Z.to_nat (blen (l_bytes c) - pos)) with (Z.to_nat (blen (chunk_at c pos)) + Z.to_nat (blen (l_bytes c) - (pos + blen (chunk_at c pos))))%nat by lia.
        rewrite upto_app, flat_map_app, (code_none c (Z.to_nat (blen (chunk_at c pos))) pos); [|intros p I; apply unmasked_lookup, U; lia]. cbn [app]. do 2 f_equal. lia. }
      destruct (all_zeros (chunk_at c pos)).
      * destruct (emit f c w (pos + blen (chunk_at c pos))) as [r'| | |] eqn:Q; cbn [bind] in H; try discriminate. injection H as <-.
        rewrite filter_app, entry_code. exact (SK _ _ Q).
      * destruct (emit f c (mark w pos (blen (chunk_at c pos))) (pos + blen (chunk_at c pos))) as [r'| | |] eqn:Q; cbn [bind] in H; try discriminate. injection H as <-.
        rewrite !filter_app, entry_code, data_code. exact (SK _ _ Q).
Qed.

Lemma emit_fine c : forall f w pos, 0 <= pos -> (Z.to_nat (blen (l_bytes c) - pos) < f)%nat -> exists r, emit f c w pos = Ok r.
Proof.
  induction f as [|f IH]; intros w pos P H; [lia|]. cbn [emit]. destruct (pos <? blen (l_bytes c)) eqn:E; [|eauto]. apply Z.ltb_lt in E.
  destruct (lookup pos (l_lifted c)) as [i|] eqn:L.
  - destruct (IH w (pos + 1)) as [r ->]; [lia|lia|]. cbn [bind]. eauto.
  - destruct (masked (l_lifted c) pos) eqn:M; [destruct (IH w (pos + 1)) as [r ->]; [lia|lia|]; cbn [bind]; eauto|].
    cbv zeta. fold (chunk_at c pos). destruct (chunk_facts c pos ltac:(lia) M) as (B & _).
    destruct (all_zeros (chunk_at c pos)).
    + destruct (IH w (pos + blen (chunk_at c pos))) as [r ->]; [lia|lia|]. cbn [bind]. eauto.
    + destruct (IH (mark w pos (blen (chunk_at c pos))) (pos + blen (chunk_at c pos))) as [r ->]; [lia|lia|]. cbn [bind]. eauto.
Qed.

(** What a listing is made of. *)
Lemma disassemble_inv fuel flag entries bytes l : disassemble fuel flag entries bytes = Ok (inl l) ->
  exists g lifted r, build_instruction_graph fuel entries bytes = Ok (inl g) /\
    lift_instrs g (build_names g) (g_instrs g) = Ok lifted /\
    emit (S (List.length bytes)) (mkListing flag entries bytes g lifted (build_names g)) (fun _ => false) 0 = Ok r /\
    l = r ++ tail_part (mkListing flag entries bytes g lifted (build_names g)).
Proof.
  intros H. unfold disassemble in H. destruct (build_instruction_graph fuel entries bytes) as [[g|e]| | |]; cbn [bind] in H; try discriminate.
  cbv zeta in H. destruct (lift_instrs g (build_names g) (g_instrs g)) as [lifted| | |] eqn:E; cbn [bind] in H; try discriminate.
  destruct (emit _ _ _ _) as [r| | |] eqn:E2; cbn [bind] in H; try discriminate. injection H as <-. exists g, lifted, r. auto.
Qed.

Lemma inv_in_range bytes entries g W a i : Forall is_byte bytes -> inv bytes entries g W -> In (a, i) (g_instrs g) -> in_range i.
Proof.
  intros F V I. apply (in_lookup a i _ (i_keys _ _ _ _ V)) in I. destruct (i_decoded _ _ _ _ V a i I) as [IA D].
  destruct (stands_decode bytes a i _ F (decode_stands bytes a i F IA D)) as (_ & _ & _ & _ & R). exact R.
Qed.

Lemma disassemble_ends fuel flag entries bytes : Forall is_byte bytes -> Forall (fun e => 0 <= e) entries ->
  (List.length bytes + 2 <= fuel)%nat -> exists r, disassemble fuel flag entries bytes = Ok r.
Proof.
  intros F E L. unfold disassemble. destruct (build_ends bytes entries fuel F E L) as ([g|e] & H); rewrite H; cbn [bind]; [|eauto].
  pose proof (built_inv bytes entries fuel g F E H) as V. cbv zeta.
  destruct (lift_all_fine g (build_names g) (g_instrs g)) as [lifted ->]; [intros a i I; exact (inv_in_range bytes entries g [] a i F V I)|]. cbn [bind].
  set (c := mkListing flag entries bytes g lifted (build_names g)).
  destruct (emit_fine c (S (List.length bytes)) (fun _ => false) 0 ltac:(lia)) as [r ->]; [unfold blen; cbn [l_bytes c]; lia|]. cbn [bind]. eauto.
Qed.
