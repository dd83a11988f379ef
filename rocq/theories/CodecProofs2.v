(** Proofs about encoding and decoding, continued. *)
From Coq Require Import ZArith List String Ascii Bool Lia.
From Verif Require Import Base Expr Bits Instr SpecIsa BitsProofs CodecProofs.
Import ListNotations.
Open Scope list_scope.
Open Scope Z_scope.

Local Arguments Z.add : simpl never.
Local Arguments Z.sub : simpl never.
Local Arguments Z.mul : simpl never.
Local Arguments Z.pow : simpl never.
Local Arguments Z.modulo : simpl never.
Local Arguments Z.leb : simpl never.
Local Arguments Z.ltb : simpl never.
Local Arguments Z.eqb : simpl never.

(** ** Constructors and variants *)

Fixpoint fields (ks : list kind) (vs : list Z) : list Z :=
  match ks, vs with
  | k :: kt, v :: vt => v mod 2 ^ kind_bits k :: fields kt vt
  | _, _ => []
  end.

Definition variant_of {E J : Type} (i : instr E J) : variant :=
  match i with
  | Add_i8 _ => var_Add_i8
  | Add_d9 _ => var_Add_d9
  | Add_Ri _ => var_Add_Ri
  | Addc_i8 _ => var_Addc_i8
  | Addc_d9 _ => var_Addc_d9
  | Addc_Ri _ => var_Addc_Ri
  | Sub_i8 _ => var_Sub_i8
  | Sub_d9 _ => var_Sub_d9
  | Sub_Ri _ => var_Sub_Ri
  | Subc_i8 _ => var_Subc_i8
  | Subc_d9 _ => var_Subc_d9
  | Subc_Ri _ => var_Subc_Ri
  | Inc_d9 _ => var_Inc_d9
  | Inc_Ri _ => var_Inc_Ri
  | Dec_d9 _ => var_Dec_d9
  | Dec_Ri _ => var_Dec_Ri
  | Mul => var_Mul
  | Div => var_Div
  | And_i8 _ => var_And_i8
  | And_d9 _ => var_And_d9
  | And_Ri _ => var_And_Ri
  | Or_i8 _ => var_Or_i8
  | Or_d9 _ => var_Or_d9
  | Or_Ri _ => var_Or_Ri
  | Xor_i8 _ => var_Xor_i8
  | Xor_d9 _ => var_Xor_d9
  | Xor_Ri _ => var_Xor_Ri
  | Rol => var_Rol
  | Rolc => var_Rolc
  | Ror => var_Ror
  | Rorc => var_Rorc
  | Ld_d9 _ => var_Ld_d9
  | Ld_Ri _ => var_Ld_Ri
  | St_d9 _ => var_St_d9
  | St_Ri _ => var_St_Ri
  | Mov_d9 _ _ => var_Mov_d9
  | Mov_Rj _ _ => var_Mov_Rj
  | Ldc => var_Ldc
  | Push _ => var_Push
  | Pop _ => var_Pop
  | Xch_d9 _ => var_Xch_d9
  | Xch_Ri _ => var_Xch_Ri
  | Jmp _ => var_Jmp
  | Jmpf _ => var_Jmpf
  | Br _ => var_Br
  | Brf _ => var_Brf
  | Bz _ => var_Bz
  | Bnz _ => var_Bnz
  | Bp _ _ _ => var_Bp
  | Bpc _ _ _ => var_Bpc
  | Bn _ _ _ => var_Bn
  | Dbnz_d9 _ _ => var_Dbnz_d9
  | Dbnz_Ri _ _ => var_Dbnz_Ri
  | Be_i8 _ _ => var_Be_i8
  | Be_d9 _ _ => var_Be_d9
  | Be_Rj _ _ _ => var_Be_Rj
  | Bne_i8 _ _ => var_Bne_i8
  | Bne_d9 _ _ => var_Bne_d9
  | Bne_Rj _ _ _ => var_Bne_Rj
  | Call _ => var_Call
  | Callf _ => var_Callf
  | Callr _ => var_Callr
  | Ret => var_Ret
  | Reti => var_Reti
  | Clr1 _ _ => var_Clr1
  | Set1 _ _ => var_Set1
  | Not1 _ _ => var_Not1
  | Nop => var_Nop
  | Ldf => var_Ldf
  | Stf => var_Stf
  end.

Lemma variant_of_in {E J : Type} (i : instr E J) : In (variant_of i) variants.
Proof. destruct i; unfold variants; simpl variant_of; repeat (first [left; reflexivity | right]). Qed.

Lemma inst_variant (i : instr Z Z) : exists v e,
  In v variants /\ rep v = Some e /\ key e = key i /\ v_pattern v = pattern i /\
  v_arity v = List.length (operands i) /\ operands i = values i /\
  (in_range i -> exists r, v_make v (fields (snd (key i)) (values i)) = Some r /\ decode_from_raw r = i).
Proof.
  exists (variant_of i); pose proof (variant_of_in i) as Hin; revert Hin; destruct i; (intros Hin; eexists; split; [exact Hin|]; clear Hin; split; [reflexivity|]; split; [reflexivity|];
    split; [reflexivity|]; split; [reflexivity|]; split; [reflexivity|];
    unfold in_range, values; simpl; intros H;
    repeat match goal with H : Forall2 _ _ _ |- _ => inversion H; clear H; subst end;
    unfold in_field in *; simpl kind_bits in *; simpl kind_signed in *; cbv iota in *;
    eexists; split; [reflexivity|]; simpl;
    rewrite ?cast_s, ?cast_u, ?cast_u8 by (assumption || lia); reflexivity).
Qed.

Lemma field_w w x : 0 <= w <= 16 -> 0 <= x < 2 ^ w -> wrap32 x = x.
Proof. intros. pose proof (pow2_le w). apply wrap32_small. lia. Qed.

Lemma field_u8 w x : 0 <= w <= 8 -> 0 <= x < 2 ^ w -> to_u8 x = x.
Proof. intros Hw Hx. pose proof (cast_u8 w x Hw Hx) as H. rewrite Z.mod_small in H by lia. exact H. Qed.

Lemma field_mod w x : 0 <= x < 2 ^ w -> x mod 2 ^ w = x.
Proof. intros. apply Z.mod_small. lia. Qed.

(** What a variant builds from field values. *)
Lemma variant_make v e l : In v variants -> rep v = Some e ->
  Forall2 (fun k x => 0 <= x < 2 ^ kind_bits k) (snd (key e)) l ->
  exists r, v_make v l = Some r /\ key (decode_from_raw r) = key e /\
    pattern (decode_from_raw r) = v_pattern v /\ in_range (decode_from_raw r) /\
    Forall2 (fun kx y => y mod 2 ^ kind_bits (fst kx) = snd kx) (combine (snd (key e)) l)
            (operands (decode_from_raw r)).
Proof.
  intros Hin. revert e.
  pattern v.
  match goal with |- ?P v => enough (H : Forall P variants) by (exact (proj1 (Forall_forall _ _) H v Hin)) end.
  clear v Hin. unfold variants.
  repeat (apply Forall_cons;
   [ intros e He; injection He as <-; simpl snd; intros H;
    repeat match goal with H : Forall2 _ _ _ |- _ => inversion H; clear H; subst end;
    simpl kind_bits in *;
    repeat match goal with
    | H : 0 <= ?x < 2 ^ ?w |- _ =>
        lazymatch goal with H' : x mod 2 ^ w = x |- _ => fail | _ => idtac end;
        pose proof (field_mod w x H); pose proof (field_w w x ltac:(lia) H);
        try pose proof (field_u8 w x ltac:(lia) H)
    end;
    eexists; (split; [reflexivity|]); simpl decode_from_raw; (split; [reflexivity|]); (split; [reflexivity|]); split;
    [ unfold in_range, values; simpl; repeat constructor; unfold in_field; simpl kind_signed; simpl kind_bits;
      cbv iota; first [apply sext_range; lia | congruence | lia]
    | simpl; repeat constructor; simpl fst; simpl snd; simpl kind_bits; rewrite ?sext_mod by lia; congruence ] | ]).
  apply Forall_nil.
Qed.

(** ** The decoder *)

Lemma decode_cons b t : decode (b :: t) = Ok (option_map decode_from_raw (decode_arms variants (b :: t))).
Proof. reflexivity. Qed.

Local Opaque variants.

Lemma decode_arm_no v b0 t : opmatch v b0 = false -> decode_arm v (b0 :: t) = None.
Proof.
  unfold opmatch, rngs, decode_arm.
  destruct (parse_bit_pattern (v_pattern v)) as [[|r0 rt]|]; auto.
  intros ->. reflexivity.
Qed.

Lemma decode_arms_no vs b0 t : filter (fun v => opmatch v b0) vs = [] -> decode_arms vs (b0 :: t) = None.
Proof.
  induction vs as [|v vs IH]; simpl; auto.
  destruct (opmatch v b0) eqn:E; [discriminate|]. intros H.
  rewrite decode_arm_no by assumption. auto.
Qed.

Lemma decode_arms_unique vs b0 t v :
  List.length (filter (fun v => opmatch v b0) vs) = 1%nat -> In v vs -> opmatch v b0 = true ->
  decode_arms vs (b0 :: t) = match decode_arm v (b0 :: t) with Some r => r | None => None end.
Proof.
  induction vs as [|u vs IH]; simpl; [tauto|].
  intros Hl Hin Hm. destruct (opmatch u b0) eqn:E.
  - simpl in Hl. injection Hl as Hl. apply length_zero_iff_nil in Hl.
    assert (u = v).
    { destruct Hin as [|Hin]; auto. exfalso.
      assert (In v (filter (fun v => opmatch v b0) vs)) by (apply filter_In; auto).
      rewrite Hl in H. destruct H. }
    subst u. destruct (decode_arm v (b0 :: t)); auto. apply decode_arms_no. assumption.
  - destruct Hin as [->|Hin]; [congruence|].
    rewrite decode_arm_no by assumption. auto.
Qed.

Lemma the_match b0 : is_byte b0 -> exists v, In v variants /\ opmatch v b0 = true.
Proof.
  intros H. apply all_bytes_in in H. apply (proj1 (forallb_forall _ _) unique_match) in H.
  apply Nat.eqb_eq in H. destruct (filter (fun v => opmatch v b0) variants) as [|v l] eqn:E; [discriminate|].
  exists v. assert (In v (filter (fun v => opmatch v b0) variants)) by (rewrite E; left; auto).
  apply filter_In in H0. assumption.
Qed.

Lemma decode_arms_select b0 t v : is_byte b0 -> In v variants -> opmatch v b0 = true ->
  decode_arms variants (b0 :: t) = match decode_arm v (b0 :: t) with Some r => r | None => None end.
Proof.
  intros Hb Hin Hm. apply decode_arms_unique; auto.
  apply all_bytes_in in Hb. apply (proj1 (forallb_forall _ _) unique_match) in Hb.
  apply Nat.eqb_eq. assumption.
Qed.

Lemma decode_arm_yes v e r0 rt f b0 t : good_facts v e r0 rt f -> opmatch v b0 = true ->
  decode_arm v (b0 :: t) =
  if Nat.leb (List.length (r0 :: rt)) (List.length (b0 :: t))
  then Some (v_make v (map (fun n => extract (letter n) (r0 :: rt) (b0 :: t)) (seq 0 (v_arity v))))
  else None.
Proof.
  intros G Hm. unfold decode_arm, opmatch, rngs in *. rewrite (g_parse _ _ _ _ _ G) in *. rewrite Hm.
  pose proof (g_ar3 _ _ _ _ _ G) as H3.
  destruct (v_arity v) as [|[|[|[|n]]]] eqn:E; try lia; try reflexivity.
  rewrite (g_short _ _ _ _ _ G E). reflexivity.
Qed.

Lemma opmatch_lit v e r0 rt f b0 : good_facts v e r0 rt f -> is_byte b0 -> opmatch v b0 = lit_ok r0 b0.
Proof.
  intros G Hb. unfold opmatch, rngs. rewrite (g_parse _ _ _ _ _ G). apply (g_op _ _ _ _ _ G). assumption.
Qed.

Lemma encode_eq i v e r0 rt f : good_facts v e r0 rt f -> v_pattern v = pattern i ->
  encode i = encode_ranges (r0 :: rt) (operands i).
Proof. intros G E. unfold encode. rewrite <- E, (g_parse _ _ _ _ _ G). reflexivity. Qed.

Lemma lit_ok_encode v e r0 rt f args : good_facts v e r0 rt f -> lit_ok r0 (encode_byte 8 args r0) = true.
Proof.
  intros G. apply forallb_forall. intros k Hk. apply downto0_spec in Hk.
  pose proof (g_wf _ _ _ _ _ G) as Hwf. simpl in Hwf. apply andb_true_iff in Hwf. destruct Hwf as [Hwf _].
  assert (Hs : exists x, byte_bit 8 r0 k = Some x).
  { pose proof (g_op _ _ _ _ _ G) as Hop.
    destruct (existsb (fun b => existsb (Z.eqb b) (all_possible_opcodes r0)) all_bytes) eqn:Ex.
    - apply existsb_exists in Ex. destruct Ex as (b & Hb & H).
      unfold all_bytes in Hb. apply in_map_iff in Hb. destruct Hb as (n & <- & Hn). apply in_seq in Hn.
      rewrite Hop in H by (unfold is_byte; lia).
      apply byte_bit_some; auto. right. eauto.
    - (* a well-formed byte covers all positions *)
      clear -Hwf Hk. 
      assert (forall rs pos, wf_byte pos rs = true -> 0 <= k < pos -> exists x, byte_bit pos rs k = Some x).
      { induction rs as [|r t IH]; simpl; intros pos H Hp.
        - apply Z.eqb_eq in H. lia.
        - rewrite !andb_true_iff in H. destruct H as [[? ?] ?].
          destruct (Z.leb_spec (pos - range_size r) k); eauto. apply IH; auto. lia. }
      apply H; auto. }
  destruct Hs as [x Hx]. rewrite Hx. destruct x as [b|n j]; auto.
  rewrite encode_byte_bit by (auto; lia). rewrite (proj2 (Z.ltb_lt k 8)), Hx by lia. simpl.
  apply eqb_reflx.
Qed.

Lemma fields_map ks vs : List.length ks = List.length vs ->
  fields ks vs = map (fun n => match nth_error ks n with Some q => nth n vs 0 mod 2 ^ kind_bits q | None => 0 end)
                     (seq 0 (List.length ks)).
Proof.
  revert vs. induction ks as [|k ks IH]; intros [|v vs]; simpl; try discriminate; auto.
  intros H. injection H as H. f_equal. rewrite <- seq_shift, map_map. rewrite IH by assumption. reflexivity.
Qed.

Lemma values_length i : List.length (values i) = List.length (snd (key i)).
Proof. destruct i; reflexivity. Qed.

Lemma encode_bytes i : Forall is_byte (encode i).
Proof.
  unfold encode. destruct (parse_bit_pattern (pattern i)); [|constructor].
  apply Forall_forall. intros x Hx. apply in_map_iff in Hx. destruct Hx as (rs & <- & _).
  apply encode_byte_range.
Qed.

Lemma encode_length i : Z.of_nat (List.length (encode i)) = size i /\ 1 <= size i <= 3.
Proof.
  unfold encode, size. destruct i; vm_compute; repeat split; discriminate.
Qed.

Theorem decode_encode i rest : in_range i -> Forall is_byte rest ->
  decode (encode i ++ rest) = Ok (Some i).
Proof.
  intros Hr Hrest.
  destruct (inst_variant i) as (v & e & Hin & Hrep & Hkey & Hpat & Har & Hops & Hmk).
  destruct (good_spec v Hin) as (e' & r0 & rt & f & G).
  assert (e' = e) by (pose proof (g_rep _ _ _ _ _ G); congruence). subst e'.
  rewrite (encode_eq i _ _ _ _ _ G Hpat).
  set (bytes := encode_ranges (r0 :: rt) (operands i) ++ rest).
  assert (Hb : bytes = encode_byte 8 (operands i) r0 :: (encode_ranges rt (operands i) ++ rest)) by reflexivity.
  rewrite Hb, decode_cons.
  assert (Hm : opmatch v (encode_byte 8 (operands i) r0) = true).
  { rewrite (opmatch_lit _ _ _ _ _ _ G) by apply encode_byte_range. eapply lit_ok_encode; eauto. }
  rewrite (decode_arms_select _ _ v) by (auto; apply encode_byte_range).
  rewrite (decode_arm_yes _ _ _ _ _ _ _ G Hm).
  rewrite (proj2 (Nat.leb_le _ _))
    by (simpl; rewrite app_length; unfold encode_ranges; rewrite map_length; lia).
  rewrite <- Hb.
  destruct (Hmk Hr) as (r & Hr1 & Hr2).
  replace (map (fun n => extract (letter n) (r0 :: rt) bytes) (seq 0 (v_arity v)))
    with (fields (snd (key i)) (values i)).
  - rewrite Hr1. simpl. rewrite Hr2. reflexivity.
  - rewrite fields_map by (symmetry; apply values_length).
    rewrite (g_arity _ _ _ _ _ G), Hkey. apply map_ext_in. intros n Hn. apply in_seq in Hn.
    destruct (nth_error (snd (key i)) n) as [q|] eqn:Eq; [|apply nth_error_None in Eq; lia].
    pose proof (g_refs _ _ _ _ _ G) as Hok. rewrite Hkey in Hok.
    pose proof (g_arity _ _ _ _ _ G) as Ha. rewrite Hkey in Ha. pose proof (g_ar3 _ _ _ _ _ G).
    rewrite <- Hops. symmetry. unfold bytes. eapply extract_encode; eauto.
    + apply (g_wf _ _ _ _ _ G).
    + lia.
    + eapply Forall_impl; [|exact Hrest]. unfold is_byte. intros; lia.
Qed.

Lemma Forall2_len {A B : Type} (P : A -> B -> Prop) l m : Forall2 P l m -> List.length l = List.length m.
Proof. induction 1; simpl; congruence. Qed.

Lemma Forall2_map_seq {A : Type} (P : A -> Z -> Prop) ks g :
  (forall n k, nth_error ks n = Some k -> P k (g n)) -> Forall2 P ks (map g (seq 0 (List.length ks))).
Proof.
  revert g. induction ks as [|k ks IH]; intros g H; simpl; constructor.
  - apply (H O). reflexivity.
  - rewrite <- seq_shift, map_map. apply IH. intros n k' Hn. apply (H (S n)). assumption.
Qed.

Theorem decode_sound bytes i : Forall is_byte bytes -> decode bytes = Ok (Some i) ->
  in_range i /\ exists rest, bytes = encode i ++ rest.
Proof.
  intros Hbytes H. destruct bytes as [|b0 t]; [discriminate|].
  assert (Hb0 : is_byte b0) by (inversion Hbytes; auto).
  rewrite decode_cons in H. injection H as H.
  destruct (the_match b0 Hb0) as (v & Hin & Hm).
  rewrite (decode_arms_select _ _ v) in H by auto.
  destruct (good_spec v Hin) as (e & r0 & rt & f & G).
  rewrite (decode_arm_yes _ _ _ _ _ _ _ G Hm) in H.
  destruct (Nat.leb (List.length (r0 :: rt)) (List.length (b0 :: t))) eqn:Hl; [|discriminate].
  apply Nat.leb_le in Hl.
  pose proof (g_refs _ _ _ _ _ G) as Hok. pose proof (g_wf _ _ _ _ _ G) as Hwf.
  pose proof (g_ar3 _ _ _ _ _ G) as H3. pose proof (g_arity _ _ _ _ _ G) as Ha.
  assert (Hnn : Forall (fun b => 0 <= b) (b0 :: t)).
  { eapply Forall_impl; [|exact Hbytes]. unfold is_byte; intros; lia. }
  rewrite Ha in H.
  set (xs := map (fun n => extract (letter n) (r0 :: rt) (b0 :: t)) (seq 0 (List.length (snd (key e))))) in *.
  destruct (variant_make v e xs Hin (g_rep _ _ _ _ _ G)) as (r & Hr & Hkey & Hpat & Hrng & Hops).
  { apply Forall2_map_seq. intros n k Hk. eapply extract_bound; eauto.
    assert (n < List.length (snd (key e)))%nat by (apply nth_error_Some; congruence). lia. }
  rewrite Hr in H. simpl in H. injection H as <-. split; [assumption|].
  exists (skipn (List.length (r0 :: rt)) (b0 :: t)).
  rewrite (encode_eq _ _ _ _ _ _ G (eq_sym Hpat)).
  rewrite (encode_extract (snd (key e)) r0 rt _ (b0 :: t)); auto.
  - symmetry. apply firstn_skipn.
  - lia.
  - apply (g_nolit _ _ _ _ _ G).
  - intros b Hb. simpl in Hb. injection Hb as <-. rewrite <- (opmatch_lit _ _ _ _ _ _ G) by auto. assumption.
  - intros n q j Hq Hj.
    assert (Hn : (n < List.length (snd (key e)))%nat) by (apply nth_error_Some; congruence).
    assert (Hx : nth_error xs n = Some (extract (letter n) (r0 :: rt) (b0 :: t))).
    { unfold xs. rewrite nth_error_map. rewrite (nth_error_nth' _ O) by (rewrite seq_length; lia).
      rewrite seq_nth by lia. reflexivity. }
    assert (Hc : nth_error (combine (snd (key e)) xs) n = Some (q, extract (letter n) (r0 :: rt) (b0 :: t))).
    { revert Hq Hx. generalize (extract (letter n) (r0 :: rt) (b0 :: t)). clear. generalize xs. generalize (snd (key e)). intros ks ys ex. revert ks ys.
      induction n as [|n IH]; intros [|k ks] [|y ys]; simpl; try discriminate.
      - intros [= ->] [= ->]. reflexivity.
      - intros. apply IH; auto. }
    destruct (nth_error (operands (decode_from_raw r)) n) as [y|] eqn:Ey.
    + assert (Hy : y mod 2 ^ kind_bits q = extract (letter n) (r0 :: rt) (b0 :: t)).
      { revert Hc Ey Hops. generalize (extract (letter n) (r0 :: rt) (b0 :: t)). clear. intros ex. generalize (combine (snd (key e)) xs).
        generalize (operands (decode_from_raw r)).
        induction n as [|n IH]; intros [|o os] [|c cs]; simpl; try discriminate.
        - intros [= ->] [= ->] H. inversion H; subst. assumption.
        - intros. inversion Hops; subst. eapply IH; eauto. }
      rewrite (nth_error_nth _ _ 0 Ey). rewrite <- Hy. rewrite Z.mod_pow2_bits_low by lia. reflexivity.
    + exfalso. apply nth_error_None in Ey. apply Forall2_len in Hops.
      rewrite combine_length in Hops. unfold xs in Hops. rewrite map_length, seq_length in Hops. lia.
Qed.

(** ** Agreement with the reference table *)

Definition pbool (args : list Z) (b : pbit) : bool :=
  match b with P0 => false | P1 => true | PF k n => Z.testbit (nth k args 0) n end.

Lemma pbit_value_b2z args b : pbit_value args b = Z.b2z (pbool args b).
Proof. destruct b; reflexivity. Qed.

Lemma pbyte_snoc args l b : pbyte_value args (l ++ [b]) = 2 * pbyte_value args l + Z.b2z (pbool args b).
Proof. unfold pbyte_value. rewrite fold_left_app. simpl. rewrite pbit_value_b2z. reflexivity. Qed.

Lemma pbyte_bit args l : forall k, 0 <= k ->
  Z.testbit (pbyte_value args l) k =
  match nth_error (rev l) (Z.to_nat k) with Some b => pbool args b | None => false end.
Proof.
  induction l as [|b l IH] using rev_ind; intros k Hk.
  - unfold pbyte_value. simpl. rewrite Z.bits_0. destruct (Z.to_nat k); reflexivity.
  - rewrite pbyte_snoc, rev_app_distr. simpl.
    destruct (Z.eq_dec k 0) as [->|Hne].
    + rewrite Z.add_b2z_double_bit0 || rewrite Z.testbit_0_r. reflexivity.
    + replace k with (Z.succ (k - 1)) at 1 by lia.
      rewrite Z.testbit_succ_r by lia. rewrite IH by lia.
      replace (Z.to_nat k) with (S (Z.to_nat (k - 1))) by lia. reflexivity.
Qed.

Lemma pbyte_range args l : 0 <= pbyte_value args l < 2 ^ Z.of_nat (List.length l).
Proof.
  induction l as [|b l IH] using rev_ind.
  - unfold pbyte_value. simpl. lia.
  - rewrite pbyte_snoc, app_length. simpl List.length.
    replace (Z.of_nat (List.length l + 1)) with (Z.succ (Z.of_nat (List.length l))) by lia.
    rewrite Z.pow_succ_r by lia. destruct (pbool args b); simpl; lia.
Qed.

Lemma pbyte_encode rs args : wf_byte 8 rs = true ->
  pbyte_value args (map (fun k => to_pbit (byte_bit 8 rs k)) downto0) = encode_byte 8 args rs.
Proof.
  intros Hwf. apply (Z_bits_eq 8); try lia.
  - apply (pbyte_range args (map (fun k => to_pbit (byte_bit 8 rs k)) downto0)).
  - apply encode_byte_range.
  - intros k Hk. rewrite pbyte_bit by lia. rewrite encode_byte_bit by (auto; lia).
    rewrite (proj2 (Z.ltb_lt k 8)) by lia. simpl andb.
    replace (nth_error (rev (map (fun k => to_pbit (byte_bit 8 rs k)) downto0)) (Z.to_nat k))
      with (Some (to_pbit (byte_bit 8 rs k))).
    + destruct (byte_bit 8 rs k) as [[v|n j]|]; simpl; auto. destruct (v =? 1); reflexivity.
    + assert (k = 0 \/ k = 1 \/ k = 2 \/ k = 3 \/ k = 4 \/ k = 5 \/ k = 6 \/ k = 7) as
        [->|[->|[->|[->|[->|[->|[->| ->]]]]]]] by lia; reflexivity.
Qed.

Theorem encode_docs i : exists f, In f isa /\ (f_name f, f_kinds f) = key i /\
  encode i = form_bytes f (values i).
Proof.
  destruct (inst_variant i) as (v & e & Hin & Hrep & Hkey & Hpat & Har & Hops & Hmk).
  destruct (good_spec v Hin) as (e' & r0 & rt & f & G).
  assert (e' = e) by (pose proof (g_rep _ _ _ _ _ G); congruence). subst e'.
  exists f. pose proof (find_form_spec _ _ (g_form _ _ _ _ _ G)) as [H1 H2].
  split; [assumption|]. split; [congruence|].
  rewrite (encode_eq i _ _ _ _ _ G Hpat). unfold form_bytes. rewrite (g_bits _ _ _ _ _ G).
  unfold to_pbits. rewrite map_map. unfold encode_ranges. apply map_ext_in.
  intros rs Hrs. rewrite pbyte_encode.
  - rewrite Hops. reflexivity.
  - apply (proj1 (forallb_forall _ _) (g_wf _ _ _ _ _ G)). assumption.
Qed.

Theorem encode_prefix_free i j r s : in_range i -> in_range j -> Forall is_byte r -> Forall is_byte s ->
  encode i ++ r = encode j ++ s -> i = j /\ r = s.
Proof.
  intros Hi Hj Hr Hs E.
  pose proof (decode_encode i r Hi Hr) as H1. pose proof (decode_encode j s Hj Hs) as H2.
  rewrite E in H1. rewrite H1 in H2. injection H2 as ->. split; [reflexivity|].
  apply app_inv_head in E. assumption.
Qed.

(** ** Totality of the decoder *)

Definition matchesb (bits : list pbit) (b : Z) : bool :=
  forallb (fun k => match nth k bits P0 with
                    | P0 => negb (Z.testbit b (7 - Z.of_nat k))
                    | P1 => Z.testbit b (7 - Z.of_nat k)
                    | PF _ _ => true end) (seq 0 8).

Lemma matchesb_spec bits b : matchesb bits b = true <-> matches bits b.
Proof.
  unfold matchesb, matches. rewrite forallb_forall. split.
  - intros H k Hk. specialize (H k). rewrite in_seq in H. specialize (H ltac:(lia)).
    destruct (nth k bits P0); auto. apply negb_true_iff. assumption.
  - intros H k Hk. apply in_seq in Hk. specialize (H k ltac:(lia)).
    destruct (nth k bits P0); auto. apply negb_true_iff. assumption.
Qed.

Lemma unique_form :
  forallb (fun b => Nat.eqb (List.length (filter (fun f => matchesb (hd [] (f_bits f)) b) isa)) 1) all_bytes = true.
Proof. vm_compute. reflexivity. Qed.

Lemma matches_lit rs b : wf_byte 8 rs = true ->
  lit_ok rs b = true -> matches (map (fun k => to_pbit (byte_bit 8 rs k)) downto0) b.
Proof.
  intros Hwf H k Hk.
  assert (E : nth k (map (fun k => to_pbit (byte_bit 8 rs k)) downto0) P0 = to_pbit (byte_bit 8 rs (7 - Z.of_nat k))).
  { do 8 (destruct k as [|k]; [reflexivity|]). lia. }
  rewrite E. assert (Hin : In (7 - Z.of_nat k) downto0) by (apply downto0_spec; lia).
  apply (proj1 (forallb_forall _ _) H) in Hin.
  destruct (byte_bit 8 rs (7 - Z.of_nat k)) as [[v|n j]|]; simpl; try discriminate; auto.
  apply eqb_prop in Hin. destruct (v =? 1); assumption.
Qed.

Lemma singleton_eq {A : Type} (l : list A) a b : List.length l = 1%nat -> In a l -> In b l -> a = b.
Proof.
  destruct l as [|x [|? ?]]; simpl; try discriminate. intros _ [<-|[]] [<-|[]]. reflexivity.
Qed.

Local Opaque isa.

Theorem decode_total b t : is_byte b -> Forall is_byte t -> exists f, In f isa /\
  matches (hd [] (f_bits f)) b /\
  (forall f', In f' isa -> matches (hd [] (f_bits f')) b -> f' = f) /\
  ((List.length (b :: t) < List.length (f_bits f))%nat -> decode (b :: t) = Ok None) /\
  ((List.length (f_bits f) <= List.length (b :: t))%nat ->
     exists i, decode (b :: t) = Ok (Some i) /\ key i = (f_name f, f_kinds f)).
Proof.
  intros Hb Ht. destruct (the_match b Hb) as (v & Hin & Hm).
  destruct (good_spec v Hin) as (e & r0 & rt & f & G).
  pose proof (find_form_spec _ _ (g_form _ _ _ _ _ G)) as [H1 H2].
  assert (Hmf : matches (hd [] (f_bits f)) b).
  { rewrite (g_bits _ _ _ _ _ G). simpl hd. apply matches_lit.
    - pose proof (g_wf _ _ _ _ _ G) as H. simpl in H. apply andb_true_iff in H. apply H.
    - rewrite <- (opmatch_lit _ _ _ _ _ _ G) by assumption. assumption. }
  assert (Hlen : List.length (f_bits f) = List.length (r0 :: rt)).
  { rewrite (g_bits _ _ _ _ _ G). unfold to_pbits. apply map_length. }
  exists f. split; [assumption|]. split; [assumption|]. split.
  { intros f' Hin' Hm'. apply all_bytes_in in Hb.
    apply (proj1 (forallb_forall _ _) unique_form) in Hb. apply Nat.eqb_eq in Hb.
    assert (Ha : forall g, In g isa -> matches (hd [] (f_bits g)) b ->
                 In g (filter (fun f => matchesb (hd [] (f_bits f)) b) isa)).
    { intros g Hg Hgm. apply filter_In. split; auto. apply matchesb_spec. assumption. }
    pose proof (Ha f H1 Hmf). pose proof (Ha f' Hin' Hm').
    eapply singleton_eq; eauto. }
  rewrite Hlen. rewrite decode_cons, (decode_arms_select _ _ v) by auto.
  rewrite (decode_arm_yes _ _ _ _ _ _ _ G Hm). split.
  - intros Hl. rewrite (proj2 (Nat.leb_gt _ _)) by assumption. reflexivity.
  - intros Hl. rewrite (proj2 (Nat.leb_le _ _)) by assumption.
    destruct (variant_make v e (map (fun n => extract (letter n) (r0 :: rt) (b :: t)) (seq 0 (v_arity v))) Hin (g_rep _ _ _ _ _ G))
      as (r & Hr & Hkey & _).
    { pose proof (g_ar3 _ _ _ _ _ G) as H3. pose proof (g_arity _ _ _ _ _ G) as Ha. rewrite Ha.
      apply Forall2_map_seq. intros n k Hk. eapply extract_bound; eauto.
      - apply (g_wf _ _ _ _ _ G).
      - apply (g_refs _ _ _ _ _ G).
      - assert (n < List.length (snd (key e)))%nat by (apply nth_error_Some; congruence). lia.
      - assert (Forall is_byte (b :: t)) by (constructor; auto).
        eapply Forall_impl; [|exact H]. unfold is_byte; intros; lia. }
    rewrite Hr. simpl. eexists. split; [reflexivity|]. congruence.
Qed.
