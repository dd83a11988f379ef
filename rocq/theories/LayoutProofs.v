(** Lemmas for C74. *)
From Coq Require Import ZArith List String Ascii Bool Lia Sorted.
From Verif Require Import Base Expr Instr Ast Printer SpecIsa SpecExpr SpecAsm Disasm SpecDisasm SpecLayout DisasmProofs DisasmProofs2 DisasmProofs3 DisasmProofs11.
Import ListNotations.
Local Opaque aliases psw_bits.
Open Scope string_scope.
Open Scope list_scope.
Open Scope Z_scope.

(** The loop as a relation. *)
Inductive pieces (c : listing) : Z -> list dstatement -> Prop :=
  | pc_end pos : blen (l_bytes c) <= pos -> pieces c pos []
  | pc_instr pos i w r : 0 <= pos < blen (l_bytes c) -> lookup pos (l_lifted c) = Some i -> pieces c (pos + 1) r ->
      pieces c pos (entry_part c pos ++ instr_part c w pos i ++ r)
  | pc_inside pos r : 0 <= pos < blen (l_bytes c) -> lookup pos (l_lifted c) = None -> pieces c (pos + 1) r -> pieces c pos (entry_part c pos ++ r)
  | pc_zeros pos r : 0 <= pos < blen (l_bytes c) -> masked (l_lifted c) pos = false -> pieces c (pos + blen (chunk_at c pos)) r ->
      pieces c pos (entry_part c pos ++ r)
  | pc_data pos w r : 0 <= pos < blen (l_bytes c) -> masked (l_lifted c) pos = false -> all_zeros (chunk_at c pos) = false ->
      pieces c (pos + blen (chunk_at c pos)) r -> pieces c pos (entry_part c pos ++ data_part c w pos (chunk_at c pos) ++ r).

Lemma emit_pieces c : forall f w pos r, 0 <= pos -> emit f c w pos = Ok r -> pieces c pos r.
Proof.
  induction f as [|f IH]; intros w pos r P H; cbn [emit] in H; (destruct (pos <? blen (l_bytes c)) eqn:E; [|injection H as <-; apply Z.ltb_ge in E; now constructor]); [discriminate|]. apply Z.ltb_lt in E.
  destruct (lookup pos (l_lifted c)) as [j|] eqn:LP.
  - destruct (emit f c w (pos + 1)) as [r'| | |] eqn:Q; cbn [bind] in H; try discriminate. injection H as <-. apply pc_instr; [lia|exact LP|]. refine (IH _ _ _ _ Q). lia.
  - destruct (masked (l_lifted c) pos) eqn:MK.
    + destruct (emit f c w (pos + 1)) as [r'| | |] eqn:Q; cbn [bind] in H; try discriminate. injection H as <-. apply pc_inside; [lia|exact LP|]. refine (IH _ _ _ _ Q). lia.
    + cbv zeta in H. fold (chunk_at c pos) in H. destruct (chunk_facts c pos ltac:(lia) MK) as (BB & _). destruct (all_zeros (chunk_at c pos)) eqn:AZ.
      * destruct (emit f c w (pos + blen (chunk_at c pos))) as [r'| | |] eqn:Q; cbn [bind] in H; try discriminate. injection H as <-.
        apply pc_zeros; [lia|exact MK|]. refine (IH _ _ _ _ Q). lia.
      * destruct (emit f c (mark w pos (blen (chunk_at c pos))) (pos + blen (chunk_at c pos))) as [r'| | |] eqn:Q; cbn [bind] in H; try discriminate. injection H as <-.
        apply pc_data; [lia|exact MK|exact AZ|]. refine (IH _ _ _ _ Q). lia.
Qed.

(** ** Marks *)

Lemma marked_skip a b : Forall (fun s => is_mark s = false) a -> marked (a ++ b) = marked b.
Proof. induction 1 as [|s a S A IH]; [reflexivity|]. cbn [app marked]. now rewrite S. Qed.

Lemma marked_entry c pos r : marked (map d_statement (entry_part c pos ++ r)) = (if is_entry c pos then [pos] else []) ++ marked (map d_statement r).
Proof. unfold entry_part. destruct (is_entry c pos); reflexivity. Qed.

Lemma instr_unmarked c w pos i : Forall (fun s => is_mark s = false) (map d_statement (instr_part c w pos i)).
Proof.
  unfold instr_part. rewrite !map_app, !Forall_app. split; [|split; [|split]].
  - destruct ((0 <? pos) && negb (masked (l_lifted c) (pos - 1)) && negb (is_entry c pos)); [destruct (w (pos - 1))|]; repeat constructor.
  - destruct (lookup pos (n_labels (l_names c))); repeat constructor.
  - destruct (find_overlaps (l_lifted c) pos); repeat constructor.
  - repeat constructor.
Qed.

Lemma data_unmarked c w pos ch : Forall (fun s => is_mark s = false) (map d_statement (data_part c w pos ch)).
Proof.
  unfold data_part. rewrite !map_app, !Forall_app. split; [|split].
  - destruct ((0 <? pos) && masked (l_lifted c) (pos - 1)); repeat constructor.
  - destruct ((0 <? pos) && negb (w (pos - 1)) && negb (masked (l_lifted c) (pos - 1))); repeat constructor.
  - repeat constructor.
Qed.

Lemma aliases_unmarked (m : list (Z * string)) : Forall (fun s => is_mark s = false) (map d_statement (map (fun p => d_alias (snd p) (hex (wrap32 (fst p)))) m)).
Proof. induction m as [|p m IH]; constructor; [reflexivity|exact IH]. Qed.

Lemma tail_unmarked c : Forall (fun s => is_mark s = false) (map d_statement (tail_part c)).
Proof.
  unfold tail_part. rewrite !map_app, !Forall_app. split; [repeat constructor|]. split; [apply aliases_unmarked|]. split; [repeat constructor|apply aliases_unmarked].
Qed.

Lemma pieces_marked c : (forall e, is_entry c e = true -> 0 <= e < blen (l_bytes c) -> exists i, lookup e (l_lifted c) = Some i) ->
  forall pos r, pieces c pos r -> 0 <= pos -> StronglySorted Z.lt (marked (map d_statement r)) /\
  forall e, In e (marked (map d_statement r)) <-> pos <= e < blen (l_bytes c) /\ is_entry c e = true.
Proof.
  intros ENT pos r H. 
  assert (STEP: forall pos r m, 0 <= pos < blen (l_bytes c) -> 0 < m -> (forall e, pos < e < pos + m -> is_entry c e = true -> e < blen (l_bytes c) -> False) ->
    StronglySorted Z.lt (marked (map d_statement r)) -> (forall e, In e (marked (map d_statement r)) <-> pos + m <= e < blen (l_bytes c) /\ is_entry c e = true) ->
    StronglySorted Z.lt ((if is_entry c pos then [pos] else []) ++ marked (map d_statement r)) /\
    (forall e, In e ((if is_entry c pos then [pos] else []) ++ marked (map d_statement r)) <-> pos <= e < blen (l_bytes c) /\ is_entry c e = true)).
  { clear. intros pos r m P M N S I. destruct (is_entry c pos) eqn:EP; cbn [app].
    - split.
      + constructor; [exact S|]. apply Forall_forall. intros e E. apply I in E. lia.
      + intros e. cbn [In]. rewrite I. split; [intros [<-|[K K2]]; [split; [lia|exact EP]|split; [lia|exact K2]]|].
        intros [K K2]. destruct (Z.eq_dec pos e) as [->|NE]; [now left|right]. split; [|exact K2]. destruct (Z_le_dec (pos + m) e) as [G|G]; [lia|].
        exfalso. apply (N e); auto; lia.
    - split; [exact S|]. intros e. rewrite I. split; [intros [K K2]; split; [lia|exact K2]|]. intros [K K2]. split; [|exact K2].
      destruct (Z.eq_dec pos e) as [->|NE]; [congruence|]. destruct (Z_le_dec (pos + m) e) as [G|G]; [lia|]. exfalso. apply (N e); auto; lia. }
  assert (CH: forall pos, 0 <= pos < blen (l_bytes c) -> masked (l_lifted c) pos = false -> 0 < blen (chunk_at c pos) /\
    forall e, pos < e < pos + blen (chunk_at c pos) -> is_entry c e = true -> e < blen (l_bytes c) -> False).
  { intros q Q MK. destruct (chunk_facts c q ltac:(lia) MK) as (BB & U & _). split; [lia|]. intros e E EN EB.
    destruct (ENT e EN ltac:(lia)) as (i & L). specialize (U e ltac:(lia)). apply unmasked_lookup in U. congruence. }
  induction H as [pos E|pos i w r P L H IH|pos r P L H IH|pos r P MK H IH|pos w r P MK AZ H IH]; intros P0.
  - split; [constructor|]. intros e. cbn. split; [intros []|lia].
  - rewrite marked_entry, map_app, (marked_skip _ _ (instr_unmarked c w pos i)). destruct (IH ltac:(lia)) as [I1 I2].
    apply (STEP pos r 1); auto; lia.
  - rewrite marked_entry. destruct (IH ltac:(lia)) as [I1 I2]. apply (STEP pos r 1); auto; lia.
  - rewrite marked_entry. destruct (CH pos P MK) as [C1 C2]. destruct (IH ltac:(lia)) as [I1 I2]. apply (STEP pos r (blen (chunk_at c pos))); auto.
  - rewrite marked_entry, map_app, (marked_skip _ _ (data_unmarked c w pos _)). destruct (CH pos P MK) as [C1 C2]. destruct (IH ltac:(lia)) as [I1 I2].
    apply (STEP pos r (blen (chunk_at c pos))); auto.
Qed.

(** The lines of an entry point. *)
Lemma pieces_entry c e i : is_entry c e = true -> lookup e (l_lifted c) = Some i -> forall pos r, pieces c pos r -> 0 <= pos <= e -> e < blen (l_bytes c) ->
  exists w a b, r = a ++ entry_part c e ++ instr_part c w e i ++ b.
Proof.
  intros EN L pos r H. induction H as [pos E|pos j w r P K H IH|pos r P K H IH|pos r P MK H IH|pos w r P MK AZ H IH]; intros P0 EB; [lia| | | |].
  - destruct (Z.eq_dec pos e) as [->|NE].
    + assert (j = i) by congruence. subst j. exists w, [], r. reflexivity.
    + destruct (IH ltac:(lia) EB) as (w' & a & b & ->). exists w', (entry_part c pos ++ instr_part c w pos j ++ a), b. now rewrite !app_assoc.
  - assert (pos <> e) by congruence. destruct (IH ltac:(lia) EB) as (w' & a & b & ->). exists w', (entry_part c pos ++ a), b. now rewrite !app_assoc.
  - destruct (chunk_facts c pos ltac:(lia) MK) as (BB & U & _).
    assert (pos + blen (chunk_at c pos) <= e).
    { destruct (Z_le_dec (pos + blen (chunk_at c pos)) e) as [G|G]; [exact G|]. exfalso. specialize (U e ltac:(lia)). apply unmasked_lookup in U. congruence. }
    destruct (IH ltac:(lia) EB) as (w' & a & b & ->). exists w', (entry_part c pos ++ a), b. now rewrite !app_assoc.
  - destruct (chunk_facts c pos ltac:(lia) MK) as (BB & U & _).
    assert (pos + blen (chunk_at c pos) <= e).
    { destruct (Z_le_dec (pos + blen (chunk_at c pos)) e) as [G|G]; [exact G|]. exfalso. specialize (U e ltac:(lia)). apply unmasked_lookup in U. congruence. }
    destruct (IH ltac:(lia) EB) as (w' & a & b & ->). exists w', (entry_part c pos ++ data_part c w pos (chunk_at c pos) ++ a), b. now rewrite !app_assoc.
Qed.

Lemma prefix_app a b : prefix a (a ++ b)%string = true.
Proof. induction a as [|x a IH]; [now destruct b|]. cbn. destruct (Ascii.ascii_dec x x); [exact IH|contradiction]. Qed.

Lemma instr_entry c w e i : is_entry c e = true -> exists m, instr_part c w e i = m ++ [d_instr e i (arrival_comment (l_flag c) (l_graph c) e)] /\
  Forall (fun d => d_pos d = None /\ between (d_statement d)) m.
Proof.
  intros E. unfold instr_part. rewrite E, andb_false_r. cbn [app]. eexists. split; [apply app_assoc|]. apply Forall_app. split.
  - destruct (lookup e (n_labels (l_names c))); repeat constructor.
  - destruct (find_overlaps (l_lifted c) e) as [|x o]; [constructor|]. constructor; [|constructor]. split; [reflexivity|]. cbn [d_remark d_statement between]. apply prefix_app.
Qed.

(** ** Data lines *)

Lemma range_stops m : forall bytes pos, let k := blen (byte_range m pos bytes) in k = blen bytes \/ k < blen bytes /\ m (pos + k) = true.
Proof.
  induction bytes as [|b t IH]; intros pos; cbn [byte_range]; cbv zeta; [now left|]. unfold blen in *. destruct (m pos) eqn:M.
  - right. cbn [List.length]. rewrite Z.add_0_r. split; [lia|exact M].
  - cbn [List.length]. destruct (IH (pos + 1)) as [K|[K1 K2]]; [left; lia|right]. split; [lia|]. rewrite <- K2. f_equal. lia.
Qed.

Lemma chunk_stops c pos : 0 <= pos < blen (l_bytes c) ->
  let k := blen (chunk_at c pos) in k <= 16 /\ (k = 16 \/ pos + k = blen (l_bytes c) \/ masked (l_lifted c) (pos + k) = true).
Proof.
  intros P. cbv zeta. unfold chunk_at, read_chunk. destruct (range_stops (masked (l_lifted c)) (skipn (Z.to_nat pos) (l_bytes c)) pos) as [K|[K1 K2]];
    set (br := byte_range _ _ _) in *; unfold blen in *; rewrite firstn_length; rewrite skipn_length in *.
  - split; [lia|]. destruct (Nat.le_gt_cases 16 (List.length br)); [left; lia|right; left; lia].
  - split; [lia|]. destruct (Nat.le_gt_cases 16 (List.length br)); [left; lia|right; right]. rewrite Nat.min_r by lia. exact K2.
Qed.

Lemma pieces_data c p items cm : forall pos r, pieces c pos r -> In (mkD (Some p) (SDirective (DByte items)) cm) r ->
  0 <= p < blen (l_bytes c) /\ masked (l_lifted c) p = false /\ all_zeros (chunk_at c p) = false /\ mkD (Some p) (SDirective (DByte items)) cm = d_bytes p (chunk_at c p).
Proof.
  assert (EP: forall pos, ~ In (mkD (Some p) (SDirective (DByte items)) cm) (entry_part c pos)).
  { intros pos I. unfold entry_part in I. destruct (is_entry c pos); [|destruct I]. repeat (destruct I as [I|I]; [discriminate I|]). destruct I. }
  assert (IP: forall w pos i, ~ In (mkD (Some p) (SDirective (DByte items)) cm) (instr_part c w pos i)).
  { intros w pos i I. unfold instr_part in I. rewrite !in_app_iff in I. destruct I as [I|[I|[I|I]]].
    - destruct ((0 <? pos) && negb (masked (l_lifted c) (pos - 1)) && negb (is_entry c pos)); [|destruct I]. destruct I as [I|I]; [discriminate|]. destruct (w (pos - 1)); [destruct I|]. destruct I as [I|[]]. discriminate.
    - destruct (lookup pos (n_labels (l_names c))); [|destruct I]. destruct I as [I|[]]. discriminate.
    - destruct (find_overlaps (l_lifted c) pos) as [|x o]; [destruct I|]. destruct I as [I|[]]. discriminate.
    - destruct I as [I|[]]. discriminate. }
  intros pos r H. induction H as [pos E|pos j w r P K H IH|pos r P K H IH|pos r P MK H IH|pos w r P MK AZ H IH]; intros I; rewrite ?in_app_iff in I.
  - destruct I.
  - destruct I as [I|[I|I]]; [destruct (EP _ I)|destruct (IP _ _ _ I)|exact (IH I)].
  - destruct I as [I|I]; [destruct (EP _ I)|exact (IH I)].
  - destruct I as [I|I]; [destruct (EP _ I)|exact (IH I)].
  - destruct I as [I|[I|I]]; [destruct (EP _ I)| |exact (IH I)]. unfold data_part in I. rewrite !in_app_iff in I. destruct I as [I|[I|I]].
    + destruct ((0 <? pos) && masked (l_lifted c) (pos - 1)); [|destruct I]. destruct I as [I|[]]. discriminate.
    + destruct ((0 <? pos) && negb (w (pos - 1)) && negb (masked (l_lifted c) (pos - 1))); [|destruct I]. destruct I as [I|[I|[]]]; discriminate.
    + destruct I as [I|[]]. assert (pos = p) by (unfold d_bytes in I; congruence). subst pos. auto.
Qed.

Lemma byte_shown b : 0 <= b < 256 -> shown_as b (byte_text b).
Proof.
  intros B. unfold byte_text. destruct (Z.leb_spec 32 b), (Z.leb_spec b 126); cbn [andb].
  1: { assert (N: Z.of_nat (nat_of_ascii (ascii_of_nat (Z.to_nat b))) = b) by (rewrite nat_ascii_embedding by lia; lia).
       pose proof (as_itself (ascii_of_nat (Z.to_nat b))) as S. rewrite N in S. apply S. unfold visible. lia. }
  all: destruct (Z.eqb_spec b 9) as [->|]; [constructor|]; destruct (Z.eqb_spec b 10) as [->|]; [constructor|]; destruct (Z.eqb_spec b 13) as [->|]; [constructor|];
    apply as_dot; unfold visible; lia.
Qed.

(** ** Positions *)

Lemma pieces_positions c : forall pos r, pieces c pos r -> Forall (fun d => match d_pos d with Some p => inside (l_bytes c) p | None => True end) r.
Proof.
  assert (EP: forall pos, 0 <= pos < blen (l_bytes c) -> Forall (fun d => match d_pos d with Some p => inside (l_bytes c) p | None => True end) (entry_part c pos)).
  { intros pos P. unfold entry_part. destruct (is_entry c pos); repeat constructor; exact P || (unfold inside, blen in *; cbn; lia). }
  intros pos r H. induction H as [pos E|pos j w r P K H IH|pos r P K H IH|pos r P MK H IH|pos w r P MK AZ H IH]; [constructor| | | |];
    apply Forall_app; (split; [now apply EP|]); try exact IH; apply Forall_app; (split; [|exact IH]); unfold inside, blen in *.
  - unfold instr_part. rewrite !Forall_app. split; [|split; [|split]].
    + destruct ((0 <? pos) && negb (masked (l_lifted c) (pos - 1)) && negb (is_entry c pos)); [destruct (w (pos - 1))|]; repeat constructor; lia.
    + destruct (lookup pos (n_labels (l_names c))); repeat constructor.
    + destruct (find_overlaps (l_lifted c) pos); repeat constructor.
    + repeat constructor; lia.
  - unfold data_part. rewrite !Forall_app. split; [|split].
    + destruct ((0 <? pos) && masked (l_lifted c) (pos - 1)); repeat constructor.
    + destruct ((0 <? pos) && negb (w (pos - 1)) && negb (masked (l_lifted c) (pos - 1))); repeat constructor; lia.
    + repeat constructor; lia.
Qed.

Lemma tail_positions c bytes : Forall (fun d => match d_pos d with Some p => inside bytes p | None => True end) (tail_part c).
Proof.
  assert (AL: forall m : list (Z * string), Forall (fun d => match d_pos d with Some p => inside bytes p | None => True end) (map (fun p => d_alias (snd p) (hex (wrap32 (fst p)))) m))
    by (induction m as [|p m IH]; constructor; [exact I|exact IH]).
  unfold tail_part. rewrite !Forall_app. split; [repeat constructor|]. split; [apply AL|]. split; [repeat constructor|apply AL].
Qed.
