(** Bit-level facts about the derive macro model (Bits.v). *)
From Coq Require Import ZArith List String Ascii Bool Lia.
From Verif Require Import Base Bits.
Import ListNotations.
Open Scope Z_scope.

Local Arguments Z.add : simpl never.
Local Arguments Z.sub : simpl never.
Local Arguments Z.pow : simpl never.
Local Arguments Z.leb : simpl never.
Local Arguments Z.ltb : simpl never.
Local Arguments Z.eqb : simpl never.

Lemma make_mask_bit n k :
  0 <= k -> Z.testbit (make_mask n) k = (k <? Z.of_nat (Z.to_nat n)).
Proof.
  intros Hk. unfold make_mask.
  induction (Z.to_nat n) as [|m IH].
  - simpl. rewrite Z.bits_0. destruct (Z.ltb_spec k 0); [lia|reflexivity].
  - rewrite seq_S, fold_left_app. simpl fold_left.
    rewrite Z.lor_spec, IH, Z.shiftl_spec by lia.
    destruct (Z.ltb_spec k (Z.of_nat m)) as [H|H].
    + rewrite (proj2 (Z.ltb_lt k (Z.of_nat (S m)))) by lia. reflexivity.
    + simpl orb. destruct (Z.ltb_spec k (Z.of_nat (S m))) as [H'|H'].
      * replace (k - Z.of_nat m) with 0 by lia. reflexivity.
      * apply Z.bits_above_log2; simpl; lia.
Qed.

Lemma to_u8_bit z k : 0 <= k -> Z.testbit (to_u8 z) k = (k <? 8) && Z.testbit z k.
Proof.
  intros. unfold to_u8. change 256 with (2 ^ 8).
  destruct (Z.ltb_spec k 8).
  - rewrite Z.mod_pow2_bits_low by lia. reflexivity.
  - rewrite Z.mod_pow2_bits_high by lia. reflexivity.
Qed.

Lemma to_u32_bit z k : 0 <= k -> Z.testbit (to_u32 z) k = (k <? 32) && Z.testbit z k.
Proof.
  intros. unfold to_u32. change 4294967296 with (2 ^ 32).
  destruct (Z.ltb_spec k 32).
  - rewrite Z.mod_pow2_bits_low by lia. reflexivity.
  - rewrite Z.mod_pow2_bits_high by lia. reflexivity.
Qed.

(** Bit [i] (from the low end) of a range. *)
Definition range_bit (r : range) (i : Z) : bit :=
  match r with
  | RLit v _ => BLit (Z.b2z (Z.testbit v i))
  | RRef n h l => BRef n (l + i)
  end.

Definition wf_range (r : range) : bool :=
  match r with
  | RLit v s => (0 <? s) && (0 <=? v) && (v <? 2 ^ s)
  | RRef n h l => (0 <=? l) && (l <=? h) && (h <? 32)
  end.

(** The bit at position [k] of a byte, [pos] being the first free position. *)
Fixpoint byte_bit (pos : Z) (rs : list range) (k : Z) : option bit :=
  match rs with
  | [] => None
  | r :: t =>
      if pos - range_size r <=? k then Some (range_bit r (k - (pos - range_size r)))
      else byte_bit (pos - range_size r) t k
  end.

Fixpoint wf_byte (pos : Z) (rs : list range) : bool :=
  match rs with
  | [] => pos =? 0
  | r :: t => wf_range r && (range_size r <=? pos) && wf_byte (pos - range_size r) t
  end.

Definition bit_val (args : list Z) (b : bit) : bool :=
  match b with
  | BLit v => v =? 1
  | BRef n i => Z.testbit (operand args n) i
  end.

Lemma wf_range_size r : wf_range r = true -> 0 < range_size r.
Proof.
  destruct r; simpl; intros H; rewrite !andb_true_iff, ?Z.ltb_lt, ?Z.leb_le in H; lia.
Qed.

Lemma small_bit v s k : 0 <= v < 2 ^ s -> 0 <= s <= k -> Z.testbit v k = false.
Proof.
  intros. destruct (Z.eq_dec v 0) as [->|]; [apply Z.bits_0|].
  apply Z.bits_above_log2; [lia|].
  apply Z.lt_le_trans with s; [|lia]. apply Z.log2_lt_pow2; lia.
Qed.

Lemma range_term_bit r pos args k :
  wf_range r = true -> range_size r <= pos <= 8 -> 0 <= k < 8 ->
  Z.testbit (range_term pos args r) k =
  (pos - range_size r <=? k) && (k <? pos) && bit_val args (range_bit r (k - (pos - range_size r))).
Proof.
  intros Hwf Hpos Hk.
  destruct r as [v s | n h l]; simpl in Hwf |- *;
    rewrite !andb_true_iff, ?Z.ltb_lt, ?Z.leb_le in Hwf.
  - simpl in Hpos. rewrite to_u8_bit by lia.
    rewrite (proj2 (Z.ltb_lt k 8)) by lia. simpl.
    rewrite Z.shiftl_spec by lia.
    replace (Z.b2z (Z.testbit v (k - (pos - s))) =? 1) with (Z.testbit v (k - (pos - s)))
      by (destruct (Z.testbit v (k - (pos - s))); reflexivity).
    destruct (Z.leb_spec (pos - s) k); destruct (Z.ltb_spec k pos); simpl; try reflexivity.
    + apply small_bit with s; lia.
    + apply Z.testbit_neg_r; lia.
    + apply Z.testbit_neg_r; lia.
  - simpl in Hpos. set (size := 1 + h - l) in *.
    set (m := Z.shiftl (make_mask size) (h + 1 - size)).
    assert (Hm : forall j, 0 <= j -> Z.testbit (Z.land m (to_u32 (operand args n))) j =
              (l <=? j) && (j <=? h) && Z.testbit (operand args n) j).
    { intros j Hj. rewrite Z.land_spec, to_u32_bit by lia. unfold m.
      rewrite Z.shiftl_spec by lia. replace (h + 1 - size) with l by (unfold size; lia).
      destruct (Z.leb_spec l j).
      - rewrite make_mask_bit by lia. rewrite Z2Nat.id by (unfold size; lia).
        replace (j - l <? size) with (j <=? h)
          by (apply eq_true_iff_eq; rewrite Z.leb_le, Z.ltb_lt; unfold size; lia).
        destruct (Z.leb_spec j h); simpl; [|reflexivity].
        rewrite (proj2 (Z.ltb_lt j 32)) by lia. reflexivity.
      - rewrite Z.testbit_neg_r by lia. reflexivity. }
    assert (Hgoal : forall j, j = k + (l - (pos - size)) -> 
       (if 0 <=? j then (l <=? j) && (j <=? h) && Z.testbit (operand args n) j else false) =
       (pos - size <=? k) && (k <? pos) && Z.testbit (operand args n) (l + (k - (pos - size)))).
    { intros j Hj. replace (l + (k - (pos - size))) with j by lia.
      destruct (Z.leb_spec 0 j).
      - replace (pos - size <=? k) with (l <=? j)
          by (apply eq_true_iff_eq; rewrite !Z.leb_le; lia).
        replace (k <? pos) with (j <=? h)
          by (apply eq_true_iff_eq; rewrite Z.leb_le, Z.ltb_lt; unfold size in *; lia).
        reflexivity.
      - destruct (Z.leb_spec (pos - size) k); [lia|reflexivity]. }
    rewrite <- (Hgoal _ eq_refl).
    destruct (Z.eqb_spec (l - (pos - size)) 0) as [E|E];
      [|destruct (Z.ltb_spec 0 (l - (pos - size)))].
    + rewrite to_u8_bit by lia. rewrite (proj2 (Z.ltb_lt k 8)) by lia. simpl.
      rewrite Hm by lia. rewrite E, Z.add_0_r.
      rewrite (proj2 (Z.leb_le 0 k)) by lia. reflexivity.
    + rewrite to_u8_bit by lia. rewrite (proj2 (Z.ltb_lt k 8)) by lia. simpl.
      rewrite Z.shiftr_spec by lia. rewrite Hm by lia.
      rewrite (proj2 (Z.leb_le 0 _)) by lia. reflexivity.
    + rewrite to_u8_bit by lia. rewrite (proj2 (Z.ltb_lt k 8)) by lia. simpl.
      rewrite to_u32_bit by lia. rewrite (proj2 (Z.ltb_lt k 32)) by lia. simpl.
      rewrite Z.shiftl_spec by lia. rewrite Z.abs_neq by lia.
      replace (k - - (l - (pos - size))) with (k + (l - (pos - size))) by lia.
      destruct (Z.leb_spec 0 (k + (l - (pos - size)))).
      * apply Hm; lia.
      * apply Z.testbit_neg_r; lia.
Qed.

Lemma encode_byte_bit rs : forall pos args k,
  wf_byte pos rs = true -> pos <= 8 -> 0 <= k < 8 ->
  Z.testbit (encode_byte pos args rs) k =
  (k <? pos) && match byte_bit pos rs k with Some b => bit_val args b | None => false end.
Proof.
  induction rs as [|r t IH]; intros pos args k Hwf Hpos Hk; simpl in *.
  - rewrite Z.bits_0. rewrite andb_false_r. reflexivity.
  - rewrite !andb_true_iff, Z.leb_le in Hwf. destruct Hwf as [[Hr Hs] Ht].
    pose proof (wf_range_size _ Hr).
    rewrite Z.lor_spec, range_term_bit, IH by (auto; lia).
    destruct (Z.leb_spec (pos - range_size r) k); destruct (Z.ltb_spec k pos);
      destruct (Z.ltb_spec k (pos - range_size r)); simpl; try lia; try reflexivity;
      rewrite ?orb_false_r; reflexivity.
Qed.

Lemma range_term_nonneg pos args r : 0 <= range_term pos args r < 256.
Proof.
  destruct r; simpl; unfold to_u8; [|destruct (_ =? 0); [|destruct (_ <? _)]];
    apply Z.mod_pos_bound; lia.
Qed.

Lemma lor_byte a b : 0 <= a < 256 -> 0 <= b < 256 -> 0 <= Z.lor a b < 256.
Proof.
  intros Ha Hb. split; [apply Z.lor_nonneg; lia|].
  destruct (Z.eq_dec (Z.lor a b) 0) as [->|]; [lia|].
  change 256 with (2 ^ 8). apply Z.log2_lt_pow2.
  - pose proof (proj2 (Z.lor_nonneg a b)). lia.
  - rewrite Z.log2_lor by lia.
    apply Z.max_lub_lt.
    + destruct (Z.eq_dec a 0) as [->|]; [simpl; lia|apply Z.log2_lt_pow2; simpl; lia].
    + destruct (Z.eq_dec b 0) as [->|]; [simpl; lia|apply Z.log2_lt_pow2; simpl; lia].
Qed.

Lemma encode_byte_range rs : forall pos args, 0 <= encode_byte pos args rs < 256.
Proof.
  induction rs as [|r t IH]; intros; simpl; [lia|].
  apply lor_byte; [apply range_term_nonneg|apply IH].
Qed.

(** ** Extraction *)

Lemma extract_term_bit byte pos h l j :
  0 <= l <= h -> 1 + h - l <= pos -> 0 <= j ->
  Z.testbit (extract_term byte pos h l) j =
  (l <=? j) && (j <=? h) && Z.testbit byte (j - l + (pos - (h + 1 - l))).
Proof.
  intros Hl Hp Hj. unfold extract_term.
  replace (h + 1 - (h + 1 - l)) with l by lia.
  rewrite Z.shiftl_spec by lia.
  destruct (Z.leb_spec l j); simpl.
  - rewrite Z.shiftr_spec by lia. rewrite Z.land_spec, Z.shiftl_spec by lia.
    rewrite make_mask_bit by lia. rewrite Z2Nat.id by lia.
    replace (j - l + (pos - (h + 1 - l)) - (pos - (h + 1 - l))) with (j - l) by lia.
    replace (j - l <? h + 1 - l) with (j <=? h)
      by (apply eq_true_iff_eq; rewrite Z.leb_le, Z.ltb_lt; lia).
    apply andb_comm.
  - apply Z.testbit_neg_r; lia.
Qed.

Lemma extract_byte_bit rs : forall name pos byte j,
  wf_byte pos rs = true -> 0 <= j ->
  (Z.testbit (extract_byte name pos byte rs) j = true <->
   exists k, 0 <= k < pos /\ byte_bit pos rs k = Some (BRef name j) /\ Z.testbit byte k = true).
Proof.
  induction rs as [|r t IH]; intros name pos byte j Hwf Hj; simpl in *.
  - rewrite Z.bits_0. split; [discriminate|]. intros (k & _ & H & _); discriminate.
  - rewrite !andb_true_iff, Z.leb_le in Hwf. destruct Hwf as [[Hr Hs] Ht].
    pose proof (wf_range_size _ Hr) as Hsz.
    assert (Hrest : forall b', (exists k, 0 <= k < pos - range_size r /\
         byte_bit (pos - range_size r) t k = Some b' /\ Z.testbit byte k = true) <->
      (exists k, 0 <= k < pos - range_size r /\
         (if pos - range_size r <=? k then Some (range_bit r (k - (pos - range_size r)))
          else byte_bit (pos - range_size r) t k) = Some b' /\ Z.testbit byte k = true)).
    { intros b'. split; intros (k & Hk & H & Hb); exists k; (split; [assumption|split; [|assumption]]);
      revert H; destruct (Z.leb_spec (pos - range_size r) k); try lia; auto. }
    destruct r as [v s | n h l].
    + rewrite IH by assumption.
      rewrite Hrest. split; intros (k & Hk & H & Hb); exists k.
      * split; [simpl in *; lia|auto].
      * revert H. destruct (Z.leb_spec (pos - range_size (RLit v s)) k); [discriminate|].
        intros. split; [lia|]. split; auto.
    + assert (Hw : 0 <= l <= h /\ h < 32).
      { simpl in Hr. rewrite !andb_true_iff, !Z.leb_le, Z.ltb_lt in Hr. lia. }
      simpl range_size in *. replace (h + 1 - l) with (1 + h - l) in * by lia.
      assert (Hsplit : (exists k, 0 <= k < pos /\
          (if pos - (1 + h - l) <=? k then Some (range_bit (RRef n h l) (k - (pos - (1 + h - l))))
           else byte_bit (pos - (1 + h - l)) t k) = Some (BRef name j) /\ Z.testbit byte k = true) <->
        ((n = name /\ l <= j <= h /\ Z.testbit byte (j - l + (pos - (1 + h - l))) = true) \/
         exists k, 0 <= k < pos - (1 + h - l) /\
           byte_bit (pos - (1 + h - l)) t k = Some (BRef name j) /\ Z.testbit byte k = true)).
      { split.
        - intros (k & Hk & H & Hb). destruct (Z.leb_spec (pos - (1 + h - l)) k).
          + left. simpl in H. injection H as Hn Hjk. subst name.
            split; [reflexivity|]. split; [lia|].
            replace (j - l + (pos - (1 + h - l))) with k by lia. assumption.
          + right. exists k. split; [lia|auto].
        - intros [(-> & Hlj & Hb) | (k & Hk & H & Hb)].
          + exists (j - l + (pos - (1 + h - l))). split; [lia|].
            rewrite (proj2 (Z.leb_le _ _)) by lia. split; [|assumption].
            simpl. do 2 f_equal. lia.
          + exists k. split; [lia|]. destruct (Z.leb_spec (pos - (1 + h - l)) k); [lia|auto]. }
      rewrite Hsplit. clear Hsplit.
      destruct (Ascii.eqb_spec n name) as [->|Hn].
      * rewrite Z.lor_spec, orb_true_iff, extract_term_bit by lia.
        rewrite IH by assumption. rewrite !andb_true_iff, !Z.leb_le.
        replace (h + 1 - l) with (1 + h - l) by lia.
        intuition.
      * rewrite IH by assumption. intuition.
Qed.

Lemma extract_byte_nonneg rs : forall name pos byte,
  wf_byte pos rs = true -> 0 <= byte -> 0 <= extract_byte name pos byte rs.
Proof.
  induction rs as [|r t IH]; intros name pos byte Hwf Hb; simpl in *; [lia|].
  rewrite !andb_true_iff, Z.leb_le in Hwf. destruct Hwf as [[Hr Hs] Ht].
  destruct r as [v s|n h l]; simpl in *.
  - apply IH; assumption.
  - replace (h + 1 - l) with (1 + h - l) by lia.
    destruct (Ascii.eqb n name); [|apply IH; assumption].
    apply Z.lor_nonneg. split; [|apply IH; assumption].
    unfold extract_term. apply Z.shiftl_nonneg, Z.shiftr_nonneg, Z.land_nonneg. left; assumption.
Qed.

Definition wf_bytes (rss : list (list range)) : bool := forallb (wf_byte 8) rss.

Lemma extract_bit rss : forall name bytes j,
  wf_bytes rss = true -> 0 <= j ->
  (Z.testbit (extract name rss bytes) j = true <->
   exists m rs b k, nth_error rss m = Some rs /\ nth_error bytes m = Some b /\ 0 <= k < 8 /\
     byte_bit 8 rs k = Some (BRef name j) /\ Z.testbit b k = true).
Proof.
  induction rss as [|rs rt IH]; intros name bytes j Hwf Hj; simpl in Hwf |- *.
  - rewrite Z.bits_0. split; [discriminate|]. intros (m & ? & ? & ? & H & _).
    destruct m; discriminate.
  - destruct bytes as [|b bt].
    + rewrite Z.bits_0. split; [discriminate|]. intros (m & ? & ? & ? & _ & H & _).
      destruct m; discriminate.
    + apply andb_true_iff in Hwf. destruct Hwf as [H1 H2].
      rewrite Z.lor_spec, orb_true_iff, extract_byte_bit, IH by assumption.
      split.
      * intros [(k & Hk & H & Hb) | (m & rs' & b' & k & E1 & E2 & Hk & H & Hb)].
        -- exists O, rs, b, k. simpl. auto 6.
        -- exists (S m), rs', b', k. simpl. auto 6.
      * intros (m & rs' & b' & k & E1 & E2 & Hk & H & Hb). destruct m; simpl in E1, E2.
        -- injection E1 as <-. injection E2 as <-. left. exists k; auto.
        -- right. exists m, rs', b', k. auto 6.
Qed.

Lemma extract_nonneg rss : forall name bytes,
  wf_bytes rss = true -> Forall (fun b => 0 <= b) bytes -> 0 <= extract name rss bytes.
Proof.
  induction rss as [|rs rt IH]; intros name bytes Hwf Hb; simpl in *; [lia|].
  destruct bytes as [|b bt]; [lia|].
  apply andb_true_iff in Hwf. destruct Hwf. inversion Hb; subst.
  apply Z.lor_nonneg. split; [apply extract_byte_nonneg; auto | apply IH; auto].
Qed.
