(** The remarks on overlaps, and the data lines. *)
From Coq Require Import ZArith List String Ascii Bool Lia Sorted.
From Verif Require Import Base Expr Instr Ast Printer SpecIsa SpecExpr SpecAsm AsmProofs CodecProofs CodecProofs2 Disasm SpecDisasm DisasmProofs DisasmProofs2 DisasmProofs3 DisasmProofs4 DisasmProofs5 DisasmProofs7 DisasmProofs9.
Import ListNotations.
Local Opaque aliases psw_bits.
Open Scope string_scope.
Open Scope list_scope.
Open Scope Z_scope.

(** The lines of an instruction stand together in the listing. *)
Lemma emit_part c p i : lookup p (l_lifted c) = Some i -> forall f w pos r, 0 <= pos <= p -> p < blen (l_bytes c) -> emit f c w pos = Ok r ->
  exists w' a b, r = a ++ instr_part c w' p i ++ b.
Proof.
  intros L. induction f as [|f IH]; intros w pos r P B H; cbn [emit] in H; (destruct (pos <? blen (l_bytes c)) eqn:E; [|apply Z.ltb_ge in E; lia]); [discriminate|]. apply Z.ltb_lt in E.
  destruct (lookup pos (l_lifted c)) as [j|] eqn:LP.
  - destruct (emit f c w (pos + 1)) as [r'| | |] eqn:Q; cbn [bind] in H; try discriminate. injection H as <-. destruct (Z.eq_dec pos p) as [->|NE].
    + assert (j = i) by congruence. subst j. exists w, (entry_part c p), r'. reflexivity.
    + destruct (IH w (pos + 1) r' ltac:(lia) B Q) as (w' & a & b & ->). exists w', (entry_part c pos ++ instr_part c w pos j ++ a), b. now rewrite !app_assoc.
  - assert (NE: pos <> p) by congruence. destruct (masked (l_lifted c) pos) eqn:MK.
    + destruct (emit f c w (pos + 1)) as [r'| | |] eqn:Q; cbn [bind] in H; try discriminate. injection H as <-.
      destruct (IH w (pos + 1) r' ltac:(lia) B Q) as (w' & a & b & ->). exists w', (entry_part c pos ++ a), b. now rewrite !app_assoc.
    + cbv zeta in H. fold (chunk_at c pos) in H. destruct (chunk_facts c pos ltac:(lia) MK) as (BB & U & _).
      assert (LP2: pos + blen (chunk_at c pos) <= p).
      { destruct (Z_le_dec (pos + blen (chunk_at c pos)) p) as [K|K]; [exact K|]. exfalso. specialize (U p ltac:(lia)). apply unmasked_lookup in U. congruence. }
      destruct (all_zeros (chunk_at c pos)).
      * destruct (emit f c w (pos + blen (chunk_at c pos))) as [r'| | |] eqn:Q; cbn [bind] in H; try discriminate. injection H as <-.
        destruct (IH _ (pos + blen (chunk_at c pos)) r' ltac:(lia) B Q) as (w' & a & b & ->). exists w', (entry_part c pos ++ a), b. now rewrite !app_assoc.
      * destruct (emit f c (mark w pos (blen (chunk_at c pos))) (pos + blen (chunk_at c pos))) as [r'| | |] eqn:Q; cbn [bind] in H; try discriminate. injection H as <-.
        destruct (IH _ (pos + blen (chunk_at c pos)) r' ltac:(lia) B Q) as (w' & a & b & ->). exists w', (entry_part c pos ++ data_part c w pos (chunk_at c pos) ++ a), b. now rewrite !app_assoc.
Qed.

(** Remarks that begin with the words come from the lines of an instruction. *)
Lemma emit_remark c t : forall f w pos r, 0 <= pos -> emit f c w pos = Ok r -> In (d_remark ("Overlaps with: " ++ t)) r ->
  exists p i w' a b, r = a ++ instr_part c w' p i ++ b /\ lookup p (l_lifted c) = Some i /\ 0 <= p < blen (l_bytes c) /\
    find_overlaps (l_lifted c) p <> [] /\ ("Overlaps with: " ++ t = "Overlaps with: " ++ position_list (find_overlaps (l_lifted c) p))%string.
Proof.
  assert (EP: forall pos, ~ In (d_remark ("Overlaps with: " ++ t)) (entry_part c pos)).
  { intros pos I. unfold entry_part in I. destruct (is_entry c pos); [|destruct I]. repeat (destruct I as [I|I]; [discriminate I|]). destruct I. }
  assert (DP: forall w pos ch, ~ In (d_remark ("Overlaps with: " ++ t)) (data_part c w pos ch)).
  { intros w pos ch I. unfold data_part in I. rewrite !in_app_iff in I.
    destruct ((0 <? pos) && masked (l_lifted c) (pos - 1)); destruct ((0 <? pos) && negb (w (pos - 1)) && negb (masked (l_lifted c) (pos - 1)));
      cbn [In] in I; repeat (destruct I as [I|I]; try discriminate I; try contradiction). }
  induction f as [|f IH]; intros w pos r P H I; cbn [emit] in H; (destruct (pos <? blen (l_bytes c)) eqn:E; [|injection H as <-; destruct I]); [discriminate|]. apply Z.ltb_lt in E.
  destruct (lookup pos (l_lifted c)) as [j|] eqn:LP.
  - destruct (emit f c w (pos + 1)) as [r'| | |] eqn:Q; cbn [bind] in H; try discriminate. injection H as <-. rewrite !in_app_iff in I.
    destruct I as [I|[I|I]]; [destruct (EP _ I)| |].
    + exists pos, j, w, (entry_part c pos), r'. split; [reflexivity|]. split; [exact LP|]. split; [lia|].
      unfold instr_part in I. rewrite !in_app_iff in I. destruct I as [I|[I|[I|I]]].
      * destruct ((0 <? pos) && negb (masked (l_lifted c) (pos - 1)) && negb (is_entry c pos)); [|destruct I]. destruct I as [I|I]; [discriminate|]. destruct (w (pos - 1)); [destruct I|]. destruct I as [I|[]]. discriminate.
      * destruct (lookup pos (n_labels (l_names c))); [|destruct I]. destruct I as [I|[]]. discriminate.
      * destruct (find_overlaps (l_lifted c) pos) as [|x o]; [destruct I|]. destruct I as [I|[]]. split; [discriminate|]. unfold d_remark in I. congruence.
      * destruct I as [I|[]]. discriminate.
    + destruct (IH w (pos + 1) r' ltac:(lia) Q I) as (p & i & w' & a & b & -> & K). exists p, i, w', (entry_part c pos ++ instr_part c w pos j ++ a), b. split; [now rewrite !app_assoc|exact K].
  - destruct (masked (l_lifted c) pos) eqn:MK.
    + destruct (emit f c w (pos + 1)) as [r'| | |] eqn:Q; cbn [bind] in H; try discriminate. injection H as <-. rewrite !in_app_iff in I.
      destruct I as [I|I]; [destruct (EP _ I)|]. destruct (IH w (pos + 1) r' ltac:(lia) Q I) as (p & i & w' & a & b & -> & K). exists p, i, w', (entry_part c pos ++ a), b. split; [now rewrite !app_assoc|exact K].
    + cbv zeta in H. fold (chunk_at c pos) in H. destruct (chunk_facts c pos ltac:(lia) MK) as (BB & U & _). destruct (all_zeros (chunk_at c pos)).
      * destruct (emit f c w (pos + blen (chunk_at c pos))) as [r'| | |] eqn:Q; cbn [bind] in H; try discriminate. injection H as <-. rewrite !in_app_iff in I.
        destruct I as [I|I]; [destruct (EP _ I)|]. destruct (IH _ (pos + blen (chunk_at c pos)) r' ltac:(lia) Q I) as (p & i & w' & a & b & -> & K). exists p, i, w', (entry_part c pos ++ a), b. split; [now rewrite !app_assoc|exact K].
      * destruct (emit f c (mark w pos (blen (chunk_at c pos))) (pos + blen (chunk_at c pos))) as [r'| | |] eqn:Q; cbn [bind] in H; try discriminate. injection H as <-. rewrite !in_app_iff in I.
        destruct I as [I|[I|I]]; [destruct (EP _ I)|destruct (DP _ _ _ I)|].
        destruct (IH _ (pos + blen (chunk_at c pos)) r' ltac:(lia) Q I) as (p & i & w' & a & b & -> & K). exists p, i, w', (entry_part c pos ++ data_part c w pos (chunk_at c pos) ++ a), b. split; [now rewrite !app_assoc|exact K].
Qed.

Lemma find_forward l p i q : lookup p l = Some i -> (exists j, lookup q l = Some j) -> p < q < p + size i -> In q (find_overlaps l p).
Proof.
  intros L (j & J) Q. unfold find_overlaps. rewrite L. apply in_or_app. right. apply filter_In. rewrite J. split; [|reflexivity].
  apply in_map_iff. exists (Z.to_nat (q - p)). split; [lia|]. apply in_seq. lia.
Qed.

(** What the remark names: instructions that overlap with this one. *)
Lemma find_sound l p q : In q (find_overlaps l p) -> exists i j, lookup p l = Some i /\ lookup q l = Some j /\
  (p < q < p + size i \/ q < p < q + size j).
Proof.
  unfold find_overlaps. destruct (lookup p l) as [i|] eqn:L; [|intros []]. intros I. apply in_app_or in I as [I|I].
  - destruct (1 <=? p); [|destruct I]. destruct (lookup (p - 1) l) as [j|] eqn:J; [|destruct I]. destruct (p <=? size j + (p - 1) - 1) eqn:Q; [|destruct I].
    destruct I as [<-|[]]. apply Z.leb_le in Q. exists i, j. split; [reflexivity|]. split; [exact J|]. right. lia.
  - apply filter_In in I as [I J]. destruct (lookup q l) as [j|]; [|discriminate]. apply in_map_iff in I as (k & <- & K). apply in_seq in K. exists i, j.
    split; [reflexivity|]. split; [reflexivity|]. left. lia.
Qed.

(** * Data *)

Definition data (r : list dstatement) : list (Z * Z) := data_of (map placed r).

Lemma data_app a b : data (a ++ b) = data a ++ data b.
Proof. unfold data, data_of. rewrite map_app. apply flat_map_app. Qed.

Lemma entry_data c pos : data (entry_part c pos) = [].
Proof. unfold entry_part. destruct (is_entry c pos); reflexivity. Qed.

Lemma instr_data c w pos i : data (instr_part c w pos i) = [].
Proof.
  unfold instr_part. rewrite !data_app.
  destruct ((0 <? pos) && negb (masked (l_lifted c) (pos - 1)) && negb (is_entry c pos)); [destruct (w (pos - 1))|];
    destruct (lookup pos (n_labels (l_names c))); destruct (find_overlaps (l_lifted c) pos); reflexivity.
Qed.

Lemma part_data c w pos chunk : data (data_part c w pos chunk) = numbered pos (map (fun b => BVExpr (hex b)) chunk).
Proof.
  unfold data_part. rewrite !data_app. 
  destruct ((0 <? pos) && masked (l_lifted c) (pos - 1)); destruct ((0 <? pos) && negb (w (pos - 1)) && negb (masked (l_lifted c) (pos - 1)));
    unfold data, data_of; cbn [map placed d_pos d_statement d_bytes d_remark d_org flat_map app]; apply app_nil_r.
Qed.

Lemma tail_data c : data (tail_part c) = [].
Proof.
  unfold tail_part. rewrite !data_app. assert (Q: forall l, data (map (fun p : Z * string => d_alias (snd p) (hex (wrap32 (fst p)))) l) = []).
  { induction l as [|x l IH]; [reflexivity|exact IH]. }
  rewrite !Q. reflexivity.
Qed.

Lemma numbered_in chunk : forall p o b, In (o, b) (numbered p (map (fun b => BVExpr (hex b)) chunk)) <-> nth_error chunk (Z.to_nat (o - p)) = Some b /\ p <= o.
Proof.
  induction chunk as [|x t IH]; intros p o b; cbn [map numbered hex In].
  - destruct (Z.to_nat (o - p)); cbn; intuition discriminate.
  - rewrite IH. split.
    + intros [H|[H1 H2]].
      * injection H as <- <-. replace (Z.to_nat (p - p)) with 0%nat by lia. split; [reflexivity|lia].
      * replace (Z.to_nat (o - p)) with (S (Z.to_nat (o - (p + 1)))) by lia. split; [exact H1|lia].
    + intros [H1 H2]. destruct (Z.eq_dec o p) as [->|N].
      * left. replace (Z.to_nat (p - p)) with 0%nat in H1 by lia. cbn in H1. congruence.
      * right. replace (Z.to_nat (o - p)) with (S (Z.to_nat (o - (p + 1)))) in H1 by lia. split; [exact H1|lia].
Qed.

Lemma numbered_fst chunk : forall p, map fst (numbered p (map (fun b => BVExpr (hex b)) chunk)) = upto (List.length chunk) p.
Proof. induction chunk as [|x t IH]; intros p; cbn [map numbered hex upto List.length fst]; [reflexivity|]. f_equal. apply IH. Qed.

Lemma sorted_upto n : forall p, StronglySorted Z.lt (upto n p).
Proof. induction n as [|n IH]; intros p; cbn [upto]; constructor; auto. apply Forall_forall. intros x I. apply in_upto in I. lia. Qed.

Lemma sorted_app (a b : list Z) : StronglySorted Z.lt a -> StronglySorted Z.lt b -> (forall x y, In x a -> In y b -> x < y) -> StronglySorted Z.lt (a ++ b).
Proof.
  induction 1 as [|x a A IH H]; intros B C; [exact B|]. cbn [app]. constructor.
  - apply IH; [exact B|]. intros; apply C; auto. now right.
  - apply Forall_app. split; [exact H|]. apply Forall_forall. intros y Y. apply C; [now left|exact Y].
Qed.

Lemma slice_nth {A : Type} (l chunk : list A) k : chunk = firstn (List.length chunk) (skipn k l) ->
  forall j, (j < List.length chunk)%nat -> nth_error chunk j = nth_error l (k + j).
Proof.
  intros E j J. assert (S: skipn k l = chunk ++ skipn (List.length chunk) (skipn k l)) by (rewrite E at 1; symmetry; apply firstn_skipn).
  assert (K: (k < List.length l)%nat). { pose proof (skipn_length k l) as SL. rewrite S, app_length in SL. lia. }
  rewrite <- (firstn_skipn k l). rewrite nth_error_app2 by (rewrite firstn_length; lia). rewrite firstn_length.
  replace (k + j - Nat.min k (List.length l))%nat with j by lia. rewrite S. symmetry. now apply nth_error_app1.
Qed.

Lemma emit_data c : forall f w pos r, 0 <= pos -> emit f c w pos = Ok r ->
  StronglySorted Z.lt (map fst (data r)) /\
  (forall o b, In (o, b) (data r) -> pos <= o /\ masked (l_lifted c) o = false /\ nth_error (l_bytes c) (Z.to_nat o) = Some b) /\
  (forall o b, pos <= o -> masked (l_lifted c) o = false -> nth_error (l_bytes c) (Z.to_nat o) = Some b -> b <> 0 -> In (o, b) (data r)).
Proof.
  induction f as [|f IH]; intros w pos r P H; cbn [emit] in H; destruct (pos <? blen (l_bytes c)) eqn:E; try discriminate;
    try (injection H as <-; apply Z.ltb_ge in E; split; [constructor|]; split; [intros o b []|]; intros o b O _ N _; exfalso;
         assert (Z.to_nat o < List.length (l_bytes c))%nat by (apply nth_error_Some; congruence); unfold blen in E; lia).
  apply Z.ltb_lt in E. destruct (lookup pos (l_lifted c)) as [i|] eqn:L.
  - destruct (emit f c w (pos + 1)) as [r'| | |] eqn:Q; cbn [bind] in H; try discriminate. injection H as <-.
    rewrite !data_app, entry_data, instr_data. cbn [app]. destruct (IH w (pos + 1) r' ltac:(lia) Q) as (I1 & I2 & I3). split; [exact I1|]. split.
    + intros o b I. destruct (I2 o b I) as (A & K). split; [lia|exact K].
    + intros o b O U. apply I3; [|exact U]. destruct (Z.eq_dec o pos) as [->|N]; [|lia]. apply unmasked_lookup in U. congruence.
  - destruct (masked (l_lifted c) pos) eqn:M.
    + destruct (emit f c w (pos + 1)) as [r'| | |] eqn:Q; cbn [bind] in H; try discriminate. injection H as <-.
      rewrite !data_app, entry_data. cbn [app]. destruct (IH w (pos + 1) r' ltac:(lia) Q) as (I1 & I2 & I3). split; [exact I1|]. split.
      * intros o b I. destruct (I2 o b I) as (A & K). split; [lia|exact K].
      * intros o b O U. apply I3; [|exact U]. destruct (Z.eq_dec o pos) as [->|N]; [congruence|lia].
    + cbv zeta in H. fold (chunk_at c pos) in H. destruct (chunk_facts c pos ltac:(lia) M) as (B & U & CE).
      assert (CN: forall o, pos <= o < pos + blen (chunk_at c pos) -> nth_error (chunk_at c pos) (Z.to_nat (o - pos)) = nth_error (l_bytes c) (Z.to_nat o)).
      { intros o O. rewrite (slice_nth _ _ _ CE) by (unfold blen in O; lia). f_equal. lia. }
      destruct (all_zeros (chunk_at c pos)) eqn:AZ.
      * destruct (emit f c w (pos + blen (chunk_at c pos))) as [r'| | |] eqn:Q; cbn [bind] in H; try discriminate. injection H as <-.
        rewrite !data_app, entry_data. cbn [app]. destruct (IH _ (pos + blen (chunk_at c pos)) r' ltac:(lia) Q) as (I1 & I2 & I3). split; [exact I1|]. split.
        -- intros o b I. destruct (I2 o b I) as (A & K). split; [lia|exact K].
        -- intros o b O UM N NZ. destruct (Z_lt_dec o (pos + blen (chunk_at c pos))) as [LT|GE]; [|apply I3; auto; lia]. exfalso.
           rewrite <- CN in N by lia. apply nth_error_In in N. unfold all_zeros in AZ. apply forallb_forall with (x := b) in AZ; [|exact N]. apply Z.eqb_eq in AZ. congruence.
      * destruct (emit f c (mark w pos (blen (chunk_at c pos))) (pos + blen (chunk_at c pos))) as [r'| | |] eqn:Q; cbn [bind] in H; try discriminate. injection H as <-.
        rewrite !data_app, entry_data, part_data. cbn [app]. destruct (IH _ (pos + blen (chunk_at c pos)) r' ltac:(lia) Q) as (I1 & I2 & I3). split; [|split].
        -- rewrite map_app. apply sorted_app; [rewrite numbered_fst; apply sorted_upto|exact I1|].
           intros x y X Y. rewrite numbered_fst in X. apply in_upto in X. apply in_map_iff in Y as ([y' b] & <- & Y). apply I2 in Y. unfold blen in Y. cbn [fst]. lia.
        -- intros o b I. apply in_app_or in I as [I|I]; [|destruct (I2 o b I) as (A & K); split; [lia|exact K]].
           apply numbered_in in I as [N O]. assert (LT: o < pos + blen (chunk_at c pos)). { assert (Z.to_nat (o - pos) < List.length (chunk_at c pos))%nat by (apply nth_error_Some; congruence). unfold blen. lia. }
           split; [exact O|]. split; [apply U; lia|]. rewrite <- CN by lia. exact N.
        -- intros o b O UM N NZ. apply in_or_app. destruct (Z_lt_dec o (pos + blen (chunk_at c pos))) as [LT|GE]; [left|right; apply I3; auto; lia].
           apply numbered_in. split; [|exact O]. rewrite CN by lia. exact N.
Qed.
