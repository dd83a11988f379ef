(** The listing without overlaps: addresses and coverage. *)
From Coq Require Import ZArith List String Ascii Bool Lia.
From Verif Require Import Base Expr Instr Ast Printer SpecIsa SpecAsm AsmProofs CodecProofs CodecProofs2 Disasm SpecDisasm DisasmProofs DisasmProofs2 DisasmProofs3.
Import ListNotations.
Open Scope string_scope.
Open Scope list_scope.
Open Scope Z_scope.

(** Statements stand at the address they are listed for, and the counter never goes back. *)
Fixpoint laid (cur : Z) (l : list dstatement) : Prop :=
  match l with
  | [] => True
  | d :: t =>
      match d_statement d with
      | SInstr _ | SDirective (DByte _) => d_pos d = Some cur
      | SLabel n => n = label_name cur
      | _ => True
      end /\ cur <= advance cur (d_statement d) /\ laid (advance cur (d_statement d)) t
  end.

Definition after (cur : Z) (l : list dstatement) : Z := fold_left advance (map d_statement l) cur.

Lemma after_app cur a b : after cur (a ++ b) = after (after cur a) b.
Proof. unfold after. now rewrite map_app, fold_left_app. Qed.

Lemma laid_app a : forall cur b, laid cur (a ++ b) <-> laid cur a /\ laid (after cur a) b.
Proof.
  induction a as [|d a IH]; intros cur b; cbn [app laid]; [cbn; tauto|].
  rewrite IH. unfold after. cbn [map fold_left]. tauto.
Qed.

Lemma item_sum bytes : SpecAsm.sum (map item_length (map (fun b => BVExpr (hex b)) bytes)) = blen bytes.
Proof. unfold blen. induction bytes as [|b t IH]; [reflexivity|]. cbn [map SpecAsm.sum fold_right item_length List.length]. unfold SpecAsm.sum in IH. rewrite IH. lia. Qed.

(** The instructions do not overlap. *)
Definition apart {A : Type} (len : A -> Z) (l : list (Z * A)) : Prop :=
  forall p i q j, lookup p l = Some i -> lookup q l = Some j -> p < q -> p + len i <= q.

(** A statement that occupies an offset. *)
Definition spans (d : dstatement) (o : Z) : Prop :=
  (exists p j cmt, d = d_instr p j cmt /\ p <= o < p + size j) \/
  (exists p chunk, d = d_bytes p chunk /\ p <= o < p + blen chunk).

Section Emit.
Variable c : listing.
Hypothesis AP : apart (fun i => size i) (l_lifted c).
Hypothesis MI : forall p, masked (l_lifted c) p = true -> exists q i, lookup q (l_lifted c) = Some i /\ q <= p < q + size i.
Hypothesis FIT : forall p i, lookup p (l_lifted c) = Some i -> 0 <= p /\ p + size i <= blen (l_bytes c).
Hypothesis EN : forall p, is_entry c p = true -> p < blen (l_bytes c) -> exists i, lookup p (l_lifted c) = Some i.
Hypothesis NM : forall p n, lookup p (n_labels (l_names c)) = Some n -> n = label_name p.

Lemma no_entry p : p < blen (l_bytes c) -> lookup p (l_lifted c) = None -> entry_part c p = [].
Proof.
  intros P L. unfold entry_part. destruct (is_entry c p) eqn:E; [|reflexivity]. destruct (EN p E P) as [i Q]. congruence.
Qed.

(** Positions inside an instruction add nothing. *)
Lemma emit_skip : forall n f w q r, emit f c w q = Ok r -> q + Z.of_nat n <= blen (l_bytes c) ->
  (forall p, q <= p < q + Z.of_nat n -> lookup p (l_lifted c) = None /\ masked (l_lifted c) p = true) ->
  exists f', (f' <= f)%nat /\ emit f' c w (q + Z.of_nat n) = Ok r.
Proof.
  induction n as [|n IH]; intros f w q r H B K; [exists f; split; [lia|]; now rewrite Z.add_0_r|].
  destruct (K q ltac:(lia)) as [K1 K2]. assert (Q: q <? blen (l_bytes c) = true) by (apply Z.ltb_lt; lia).
  destruct f as [|f]; cbn [emit] in H; rewrite Q in H; [discriminate|]. rewrite K1, K2 in H.
  destruct (emit f c w (q + 1)) as [r'| | |] eqn:E; cbn [bind] in H; try discriminate. injection H as <-.
  rewrite (no_entry q) by (try apply Z.ltb_lt; assumption). cbn [app].
  destruct (IH f w (q + 1) r' E) as (f' & F' & R); [lia|intros p I; apply K; lia|].
  exists f'. split; [lia|]. rewrite <- R. f_equal. lia.
Qed.

Definition clear (pos : Z) : Prop := forall p i, lookup p (l_lifted c) = Some i -> p < pos -> p + size i <= pos.

Definition sync (w : Z -> bool) (pos cur : Z) : Prop :=
  cur = pos \/ (0 < pos /\ masked (l_lifted c) (pos - 1) = false /\ w (pos - 1) = false).

Lemma clear_mask pos : clear pos -> masked (l_lifted c) pos = true -> exists i, lookup pos (l_lifted c) = Some i.
Proof.
  intros C M. destruct (MI pos M) as (q & i & L & Q). destruct (Z.eq_dec q pos) as [->|N]; [eauto|]. specialize (C q i L). lia.
Qed.

Lemma instr_inside pos i : lookup pos (l_lifted c) = Some i -> forall p, pos + 1 <= p < pos + size i -> lookup p (l_lifted c) = None /\ masked (l_lifted c) p = true.
Proof.
  intros L p P. split.
  - destruct (lookup p (l_lifted c)) as [j|] eqn:E; [|reflexivity]. pose proof (AP pos i p j L E) as A; cbn beta in A; lia.
  - unfold masked. apply existsb_exists. exists (pos, i). split; [now apply lookup_in|]. cbn [fst snd].
    apply andb_true_intro. split; [apply Z.leb_le; lia|apply Z.ltb_lt; lia].
Qed.

Lemma clear_after pos i : clear pos -> lookup pos (l_lifted c) = Some i -> clear (pos + size i).
Proof.
  intros C L p j K P. pose proof (size_bounds i). destruct (Z_lt_dec p pos) as [A|A]; [specialize (C p j K A); lia|].
  destruct (Z.eq_dec p pos) as [->|N]; [assert (i = j) by congruence; subst; lia|]. pose proof (AP pos i p j L K) as AA; cbn beta in AA; lia.
Qed.

Lemma clear_chunk pos n : clear pos -> 0 <= n -> (forall p, pos <= p < pos + n -> masked (l_lifted c) p = false) -> clear (pos + n).
Proof.
  intros C N U p j K P. destruct (Z_lt_dec p pos) as [A|A]; [specialize (C p j K A); lia|].
  specialize (U p ltac:(lia)). rewrite (masked_at _ _ _ K) in U. discriminate.
Qed.

(** What stands before the bytes of an instruction or a chunk brings the counter to the position. *)
Lemma entry_laid pos cur : cur <= pos -> laid cur (entry_part c pos) /\ after cur (entry_part c pos) = if is_entry c pos then pos else cur.
Proof. intros H. unfold entry_part. destruct (is_entry c pos); cbn; repeat split; auto; lia. Qed.

Lemma lead_in w pos cur i : clear pos -> sync w pos cur -> cur <= pos -> lookup pos (l_lifted c) = Some i ->
  laid cur (entry_part c pos ++ instr_part c w pos i) /\ after cur (entry_part c pos ++ instr_part c w pos i) = pos + size i.
Proof.
  intros C S LE L. set (o := if (0 <? pos) && negb (masked (l_lifted c) (pos - 1)) && negb (is_entry c pos) then
     d_remark "" :: (if w (pos - 1) then [] else [d_org pos]) else []).
  set (cm := match find_overlaps (l_lifted c) pos with [] => [] | x => [d_remark ("Overlaps with: " ++ position_list x)%string] end).
  assert (CM: forall k, laid k cm /\ after k cm = k).
  { intros k. unfold cm. destruct (find_overlaps (l_lifted c) pos); cbn; auto using Z.le_refl. }
  assert (O: laid cur (entry_part c pos ++ o) /\ after cur (entry_part c pos ++ o) = pos).
  { rewrite laid_app, after_app. destruct (entry_laid pos cur LE) as [E1 E2]. rewrite E2. unfold o. destruct (is_entry c pos) eqn:IE.
    - rewrite andb_false_r. cbn. auto.
    - rewrite andb_true_r. destruct S as [->|(S1 & S2 & S3)].
      + destruct ((0 <? pos) && negb (masked (l_lifted c) (pos - 1))); [destruct (w (pos - 1))|]; cbn; repeat split; auto; lia.
      + rewrite S2, S3. replace (0 <? pos) with true by (symmetry; apply Z.ltb_lt; lia). cbn. repeat split; auto; lia. }
  destruct O as [O1 O2]. unfold instr_part. fold o. fold cm. rewrite app_assoc, laid_app, (after_app cur (entry_part c pos ++ o)), O2.
  assert (B: laid pos ((match lookup pos (n_labels (l_names c)) with Some name => [d_label name] | None => [] end) ++ cm ++ [d_instr pos i (arrival_comment (l_flag c) (l_graph c) pos)])
    /\ after pos ((match lookup pos (n_labels (l_names c)) with Some name => [d_label name] | None => [] end) ++ cm ++ [d_instr pos i (arrival_comment (l_flag c) (l_graph c) pos)]) = pos + size i).
  { rewrite laid_app, after_app. assert (X: after pos (match lookup pos (n_labels (l_names c)) with Some name => [d_label name] | None => [] end) = pos) by (destruct (lookup pos (n_labels (l_names c))); reflexivity).
    rewrite X, laid_app, after_app. destruct (CM pos) as [C1 C2]. rewrite C2. split; [split; [|split; [exact C1|]]|].
    - destruct (lookup pos (n_labels (l_names c))) as [n|] eqn:E; cbn; [split; [exact (NM pos n E)|split; [lia|exact I]]|exact I].
    - cbn [laid d_statement d_instr d_pos advance]. split; [reflexivity|]. pose proof (doc_length_pos i). split; [lia|exact I].
    - unfold after. cbn [map d_statement d_instr fold_left advance]. now rewrite size_doc. }
  destruct B as [B1 B2]. split; [split; [exact O1|exact B1]|exact B2].
Qed.

Lemma data_laid w pos cur chunk : sync w pos cur -> cur <= pos ->
  laid cur (data_part c w pos chunk) /\ after cur (data_part c w pos chunk) = pos + blen chunk.
Proof.
  intros S LE. unfold data_part.
  assert (T: forall k, k = pos -> laid k [d_bytes pos chunk] /\ after k [d_bytes pos chunk] = pos + blen chunk).
  { intros k ->. split; [cbn [laid d_statement d_bytes d_pos advance]; rewrite item_sum; unfold blen; split; [reflexivity|split; [lia|exact I]]|]. unfold after. cbn [map d_statement d_bytes fold_left advance]. now rewrite item_sum. }
  assert (RM: forall k b, laid k (if b : bool then [d_remark ""] else []) /\ after k (if b then [d_remark ""] else []) = k) by (intros k [|]; cbn; auto using Z.le_refl).
  destruct (RM cur ((0 <? pos) && masked (l_lifted c) (pos - 1))) as [R1 R2]. rewrite laid_app, after_app, R2.
  rewrite laid_app, after_app.
  destruct ((0 <? pos) && negb (w (pos - 1)) && negb (masked (l_lifted c) (pos - 1))) eqn:O.
  - destruct (T (after cur [d_remark ""; d_org pos]) eq_refl) as [T1 T2]. split; [split; [exact R1|split; [cbn; repeat split; auto; lia|exact T1]]|exact T2].
  - assert (cur = pos). { destruct S as [->|(S1 & S2 & S3)]; [reflexivity|]. rewrite S2, S3 in O. replace (0 <? pos) with true in O by (symmetry; apply Z.ltb_lt; lia). discriminate. }
    destruct (T (after cur []) ltac:(cbn; assumption)) as [T1 T2]. split; [split; [exact R1|split; [exact I|exact T1]]|exact T2].
Qed.

Lemma zeros_at chunk k b : all_zeros chunk = true -> get_at chunk k = Some b -> b = 0.
Proof.
  unfold all_zeros. rewrite forallb_forall. intros Z G. unfold get_at in G. destruct (k <? 0); [discriminate|].
  apply nth_error_In in G. now apply Z.eqb_eq, Z.
Qed.

Lemma chunk_get pos k : 0 <= pos -> 0 <= k < blen (chunk_at c pos) ->
  chunk_at c pos = firstn (List.length (chunk_at c pos)) (skipn (Z.to_nat pos) (l_bytes c)) ->
  get_at (chunk_at c pos) k = get_at (l_bytes c) (pos + k).
Proof.
  intros P K E. unfold get_at. replace (k <? 0) with false by (symmetry; apply Z.ltb_ge; lia).
  replace (pos + k <? 0) with false by (symmetry; apply Z.ltb_ge; lia). rewrite E.
  unfold blen in K. set (m := List.length (chunk_at c pos)) in *.
  assert (G: forall (l : list Z) a n m, (n < m)%nat -> nth_error (firstn m (skipn a l)) n = nth_error l (a + n)).
  { induction l as [|x l IH]; intros a n m' H.
    - rewrite skipn_nil, firstn_nil. destruct n, (a + _)%nat; reflexivity.
    - destruct a as [|a]; cbn [skipn Nat.add].
      + destruct n as [|n], m' as [|m']; cbn [firstn nth_error]; try lia; [reflexivity|]. exact (IH 0%nat n m' ltac:(lia)).
      + cbn [nth_error]. now apply IH. }
  rewrite G by lia. f_equal. lia.
Qed.

Theorem emit_laid : forall f w pos r cur, emit f c w pos = Ok r -> 0 <= cur <= pos -> pos <= blen (l_bytes c) -> clear pos -> sync w pos cur ->
  (forall p, w p = true -> p < pos) ->
  laid cur r /\ cur <= after cur r <= blen (l_bytes c) /\
  (forall o b, pos <= o -> get_at (l_bytes c) o = Some b -> b <> 0 -> exists d, In d r /\ spans d o).
Proof.
  induction f as [f IH] using lt_wf_ind. intros w pos r cur H CU PB C S W.
  destruct (pos <? blen (l_bytes c)) eqn:E.
  2: { apply Z.ltb_ge in E. assert (r = []) by (destruct f; cbn [emit] in H; replace (pos <? blen (l_bytes c)) with false in H by (symmetry; apply Z.ltb_ge; lia); congruence).
    subst r. split; [exact I|]. cbn. split; [lia|]. intros o b O G _. exfalso. unfold get_at in G. destruct (o <? 0) eqn:Q; [discriminate|].
    apply Z.ltb_ge in Q. assert (nth_error (l_bytes c) (Z.to_nat o) <> None) by congruence. apply nth_error_Some in H0. unfold blen in E. lia. }
  destruct f as [|f]; cbn [emit] in H; rewrite E in H; [discriminate|]. apply Z.ltb_lt in E.
  destruct (lookup pos (l_lifted c)) as [i|] eqn:L.
  - destruct (emit f c w (pos + 1)) as [r'| | |] eqn:Q; cbn [bind] in H; try discriminate. injection H as <-.
    pose proof (size_bounds i) as SB. destruct (FIT pos i L) as [_ FI].
    destruct (emit_skip (Z.to_nat (size i - 1)) f w (pos + 1) r' Q) as (f' & F' & R); [lia|intros p P; apply (instr_inside pos i L); lia|].
    replace (pos + 1 + Z.of_nat (Z.to_nat (size i - 1))) with (pos + size i) in R by lia.
    destruct (lead_in w pos cur i C S ltac:(lia) L) as [L1 L2].
    destruct (IH f' ltac:(lia) w (pos + size i) r' (pos + size i) R) as (I1 & I2 & I3); [lia|lia|now apply clear_after|now left|intros p P; specialize (W p P); lia|].
    rewrite app_assoc, laid_app, (after_app cur (entry_part c pos ++ instr_part c w pos i)), L2. split; [split; assumption|]. split; [lia|].
    intros o b O G N. destruct (Z_lt_dec o (pos + size i)) as [A|A].
    + exists (d_instr pos i (arrival_comment (l_flag c) (l_graph c) pos)). split.
      * apply in_or_app. left. apply in_or_app. right. unfold instr_part. rewrite !in_app_iff. right. right. right. now left.
      * left. exists pos, i, (arrival_comment (l_flag c) (l_graph c) pos). split; [reflexivity|lia].
    + destruct (I3 o b ltac:(lia) G N) as (d & D1 & D2). exists d. split; [apply in_or_app; now right|exact D2].
  - destruct (masked (l_lifted c) pos) eqn:M; [destruct (clear_mask pos C M) as [i K]; congruence|].
    cbv zeta in H. fold (chunk_at c pos) in H. destruct (chunk_facts c pos ltac:(lia) M) as (B & U & SG).
    rewrite (no_entry pos E L) in H. cbn [app] in H. set (n := blen (chunk_at c pos)) in *.
    destruct (all_zeros (chunk_at c pos)) eqn:AZ.
    + destruct (emit f c w (pos + n)) as [r'| | |] eqn:Q; cbn [bind] in H; try discriminate. injection H as <-.
      destruct (IH f ltac:(lia) w (pos + n) r' cur Q) as (I1 & I2 & I3); [lia|lia|apply clear_chunk; auto; lia| |intros p P; specialize (W p P); lia|].
      { right. split; [lia|]. split; [apply U; lia|]. destruct (w (pos + n - 1)) eqn:WE; [specialize (W _ WE); lia|reflexivity]. }
      split; [exact I1|]. split; [exact I2|]. intros o b O G N. destruct (Z_lt_dec o (pos + n)) as [A|A]; [|exact (I3 o b ltac:(lia) G N)].
      exfalso. apply N. apply (zeros_at (chunk_at c pos) (o - pos) b AZ). rewrite chunk_get; [|lia|lia|exact SG]. rewrite <- G. f_equal. lia.
    + destruct (emit f c (mark w pos n) (pos + n)) as [r'| | |] eqn:Q; cbn [bind] in H; try discriminate. injection H as <-.
      destruct (data_laid w pos cur (chunk_at c pos) S ltac:(lia)) as [D1 D2]. fold n in D2.
      destruct (IH f ltac:(lia) (mark w pos n) (pos + n) r' (pos + n) Q) as (I1 & I2 & I3); [lia|lia|apply clear_chunk; auto; lia|now left| |].
      { intros p P. unfold mark in P. apply orb_true_iff in P as [P|P]; [apply andb_true_iff in P as [_ P]; apply Z.ltb_lt in P; lia|]. specialize (W p P). lia. }
      rewrite laid_app, after_app, D2. split; [split; assumption|]. split; [lia|].
      intros o b O G N. destruct (Z_lt_dec o (pos + n)) as [A|A].
      * exists (d_bytes pos (chunk_at c pos)). split; [apply in_or_app; left; unfold data_part; rewrite !in_app_iff; right; right; now left|].
        right. exists pos, (chunk_at c pos). split; [reflexivity|]. fold n. lia.
      * destruct (I3 o b ltac:(lia) G N) as (d & D3 & D4). exists d. split; [apply in_or_app; now right|exact D4].
Qed.
End Emit.

(** ** The kinds of lines in a listing *)

Inductive shape (c : listing) : dstatement -> Prop :=
| sh_remark : forall t, t = "" \/ t = "Entry point" \/ (exists o, t = ("Overlaps with: " ++ position_list o)%string /\ Forall (fun p => 0 <= p) o) -> shape c (d_remark t)
| sh_org : forall p, 0 <= p < blen (l_bytes c) -> shape c (d_org p)
| sh_label : forall p n, lookup p (n_labels (l_names c)) = Some n -> 0 <= p < blen (l_bytes c) -> shape c (d_label n)
| sh_instr : forall p i, lookup p (l_lifted c) = Some i -> 0 <= p < blen (l_bytes c) -> shape c (d_instr p i (arrival_comment (l_flag c) (l_graph c) p))
| sh_bytes : forall p chunk, 0 <= p -> 1 <= blen chunk -> p + blen chunk <= blen (l_bytes c) ->
    chunk = firstn (List.length chunk) (skipn (Z.to_nat p) (l_bytes c)) -> shape c (d_bytes p chunk).

Lemma emit_shape c : forall f w pos r, 0 <= pos -> emit f c w pos = Ok r -> Forall (shape c) r.
Proof.
  induction f as [|f IH]; intros w pos r P H; cbn [emit] in H; destruct (pos <? blen (l_bytes c)) eqn:E; try discriminate; try (injection H as <-; constructor).
  apply Z.ltb_lt in E.
  assert (EP: Forall (shape c) (entry_part c pos)).
  { unfold entry_part. destruct (is_entry c pos); [|constructor]. apply Forall_cons; [apply sh_remark; auto|]. apply Forall_cons; [apply sh_remark; auto|]. repeat constructor; lia. }
  destruct (lookup pos (l_lifted c)) as [i|] eqn:L.
  - destruct (emit f c w (pos + 1)) as [r'| | |] eqn:Q; cbn [bind] in H; try discriminate. injection H as <-.
    apply Forall_app. split; [exact EP|]. apply Forall_app. split; [|refine (IH _ _ _ _ Q); lia].
    unfold instr_part. apply Forall_app. split; [|apply Forall_app; split; [|apply Forall_app; split]].
    + destruct ((0 <? pos) && negb (masked (l_lifted c) (pos - 1)) && negb (is_entry c pos)); [destruct (w (pos - 1))|]; repeat constructor; auto; lia.
    + destruct (lookup pos (n_labels (l_names c))) as [n|] eqn:N; repeat constructor. apply (sh_label c pos n N). lia.
    + assert (PO: Forall (fun p => 0 <= p) (find_overlaps (l_lifted c) pos)).
      { unfold find_overlaps. rewrite L. apply Forall_app. split.
        - destruct (1 <=? pos) eqn:Q1; [|constructor]. apply Z.leb_le in Q1. destruct (lookup (pos - 1) (l_lifted c)); [|constructor].
          match goal with |- context [if ?b then _ else _] => destruct b end; [|constructor]. apply Forall_cons; [lia|constructor].
        - apply Forall_forall. intros x I. apply filter_In in I as [I _]. apply in_map_iff in I as (k & <- & _). lia. }
      destruct (find_overlaps (l_lifted c) pos) as [|x o] eqn:FO; [constructor|]. apply Forall_cons; [|constructor]. apply sh_remark. right. right. eexists. split; [reflexivity|exact PO].
    + apply Forall_cons; [apply sh_instr; [exact L|lia]|constructor].
  - destruct (masked (l_lifted c) pos) eqn:M.
    + destruct (emit f c w (pos + 1)) as [r'| | |] eqn:Q; cbn [bind] in H; try discriminate. injection H as <-.
      apply Forall_app. split; [exact EP|refine (IH _ _ _ _ Q); lia].
    + cbv zeta in H. fold (chunk_at c pos) in H. destruct (chunk_facts c pos ltac:(lia) M) as (B & U & SG).
      destruct (all_zeros (chunk_at c pos)).
      * destruct (emit f c w (pos + blen (chunk_at c pos))) as [r'| | |] eqn:Q; cbn [bind] in H; try discriminate. injection H as <-.
        apply Forall_app. split; [exact EP|refine (IH _ _ _ _ Q); lia].
      * destruct (emit f c (mark w pos (blen (chunk_at c pos))) (pos + blen (chunk_at c pos))) as [r'| | |] eqn:Q; cbn [bind] in H; try discriminate. injection H as <-.
        apply Forall_app. split; [exact EP|]. apply Forall_app. split; [|refine (IH _ _ _ _ Q); lia]. unfold data_part.
        apply Forall_app. split; [|apply Forall_app; split].
        -- destruct ((0 <? pos) && masked (l_lifted c) (pos - 1)); repeat constructor; auto.
        -- destruct ((0 <? pos) && negb (w (pos - 1)) && negb (masked (l_lifted c) (pos - 1))); repeat constructor; auto; lia.
        -- apply Forall_cons; [apply sh_bytes; auto; lia|constructor].
Qed.
