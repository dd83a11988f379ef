(** Proofs about encoding and decoding. *)
From Coq Require Import ZArith List String Ascii Bool Lia.
From Verif Require Import Base Expr Bits Instr SpecIsa BitsProofs.
Import ListNotations.
Open Scope Z_scope.

Local Arguments Z.add : simpl never.
Local Arguments Z.sub : simpl never.
Local Arguments Z.mul : simpl never.
Local Arguments Z.pow : simpl never.
Local Arguments Z.modulo : simpl never.
Local Arguments Z.leb : simpl never.
Local Arguments Z.ltb : simpl never.
Local Arguments Z.eqb : simpl never.

(** ** Table checks, by computation *)

Definition all_bytes : list Z := map Z.of_nat (seq 0 256).

Lemma all_bytes_in b : is_byte b -> In b all_bytes.
Proof.
  intros H. unfold all_bytes. apply in_map_iff. exists (Z.to_nat b).
  unfold is_byte in H. split; [lia|]. apply in_seq. lia.
Qed.

Definition rngs (p : string) : list (list range) :=
  match parse_bit_pattern p with Some r => r | None => [] end.

Definition kind_eqb (a b : kind) : bool :=
  match a, b with
  | I8, I8 | D9, D9 | Ri, Ri | B3, B3 | A12, A12 | A16, A16 | R8, R8 | R16, R16 => true
  | _, _ => false
  end.

Lemma kind_eqb_eq a b : kind_eqb a b = true -> a = b.
Proof. destruct a, b; simpl; congruence. Qed.

Fixpoint list_eqb {A : Type} (eqb : A -> A -> bool) (l m : list A) : bool :=
  match l, m with
  | [], [] => true
  | a :: l', b :: m' => eqb a b && list_eqb eqb l' m'
  | _, _ => false
  end.

Lemma list_eqb_eq {A : Type} (eqb : A -> A -> bool) :
  (forall a b, eqb a b = true -> a = b) -> forall l m, list_eqb eqb l m = true -> l = m.
Proof.
  intros H. induction l as [|a l IH]; destruct m as [|b m]; simpl; try discriminate; auto.
  rewrite andb_true_iff. intros [H1 H2]. f_equal; auto.
Qed.

Definition pbit_eqb (a b : pbit) : bool :=
  match a, b with
  | P0, P0 => true
  | P1, P1 => true
  | PF k n, PF k' n' => Nat.eqb k k' && Z.eqb n n'
  | _, _ => false
  end.

Lemma pbit_eqb_eq a b : pbit_eqb a b = true -> a = b.
Proof.
  destruct a, b; simpl; try discriminate; auto.
  rewrite andb_true_iff, Nat.eqb_eq, Z.eqb_eq. intros [-> ->]. reflexivity.
Qed.

Definition to_pbit (b : option bit) : pbit :=
  match b with
  | Some (BLit v) => if v =? 1 then P1 else P0
  | Some (BRef n i) => PF (nat_of_ascii n - 97) i
  | None => P0
  end.

Definition downto0 : list Z := [7; 6; 5; 4; 3; 2; 1; 0].

Definition to_pbits (rss : list (list range)) : list (list pbit) :=
  map (fun rs => map (fun k => to_pbit (byte_bit 8 rs k)) downto0) rss.

(** A representative instruction of a variant. *)
Definition rep (v : variant) : option (instr Z Z) := v_make v (repeat 0 (v_arity v)).

Definition find_form (k : string * list kind) : option form :=
  find (fun f => String.eqb (f_name f) (fst k) && list_eqb kind_eqb (f_kinds f) (snd k)) isa.

Lemma find_form_spec k f : find_form k = Some f -> In f isa /\ (f_name f, f_kinds f) = k.
Proof.
  unfold find_form. intros H. destruct (find_some _ _ H) as [H1 H2]. split; [assumption|].
  rewrite andb_true_iff in H2. destruct H2 as [H2 H3]. apply String.eqb_eq in H2.
  apply (list_eqb_eq _ kind_eqb_eq) in H3. destruct k; simpl in *; congruence.
Qed.

(** Positions (byte, bit) of the references in a pattern. *)
Definition refs_of (rs : list range) : list (ascii * Z) :=
  flat_map (fun k => match byte_bit 8 rs k with Some (BRef n i) => [(n, i)] | _ => [] end) downto0.

Definition refs (rss : list (list range)) : list (ascii * Z) := flat_map refs_of rss.

Definition ref_eqb (a b : ascii * Z) : bool := Ascii.eqb (fst a) (fst b) && Z.eqb (snd a) (snd b).

Fixpoint nodupb (l : list (ascii * Z)) : bool :=
  match l with
  | [] => true
  | a :: t => negb (existsb (ref_eqb a) t) && nodupb t
  end.

Definition letter (n : nat) : ascii := ascii_of_nat (97 + n).

Definition zrange (n : Z) : list Z := map Z.of_nat (seq 0 (Z.to_nat n)).

(** The references are exactly bits [0 .. width-1] of each operand. *)
Definition refs_ok (ks : list kind) (rss : list (list range)) : bool :=
  nodupb (refs rss) &&
  forallb (fun r => match nth_error ks (nat_of_ascii (fst r) - 97) with
                    | Some k => (0 <=? snd r) && (snd r <? kind_bits k) &&
                                Ascii.eqb (fst r) (letter (nat_of_ascii (fst r) - 97))
                    | None => false end) (refs rss) &&
  forallb (fun n => match nth_error ks n with
                    | Some k => forallb (fun j => existsb (ref_eqb (letter n, j)) (refs rss)) (zrange (kind_bits k))
                    | None => false end) (seq 0 (List.length ks)).

(** The constant bits of the first byte agree with [b]. *)
Definition lit_ok (rs : list range) (b : Z) : bool :=
  forallb (fun k => match byte_bit 8 rs k with
                    | Some (BLit v) => Bool.eqb (Z.testbit b k) (v =? 1)
                    | Some _ => true
                    | None => false end) downto0.

Definition no_lit (rs : list range) : bool :=
  forallb (fun k => match byte_bit 8 rs k with Some (BRef _ _) => true | _ => false end) downto0.

Definition good (v : variant) : bool :=
  match rep v, parse_bit_pattern (v_pattern v) with
  | Some e, Some (r0 :: rt) =>
      wf_bytes (r0 :: rt) &&
      Nat.eqb (v_arity v) (List.length (snd (key e))) &&
      Nat.leb (v_arity v) 3 &&
      match find_form (key e) with
      | Some f => list_eqb (list_eqb pbit_eqb) (f_bits f) (to_pbits (r0 :: rt))
      | None => false
      end &&
      refs_ok (snd (key e)) (r0 :: rt) &&
      forallb (fun b => Bool.eqb (existsb (Z.eqb b) (all_possible_opcodes r0)) (lit_ok r0 b)) all_bytes &&
      forallb no_lit rt &&
      (negb (Nat.eqb (v_arity v) 0) || Nat.eqb (List.length rt) 0)
  | _, _ => false
  end.

Lemma all_good : forallb good variants = true.
Proof. vm_compute. reflexivity. Qed.

Definition opmatch (v : variant) (b : Z) : bool :=
  match rngs (v_pattern v) with
  | r0 :: _ => existsb (Z.eqb b) (all_possible_opcodes r0)
  | [] => false
  end.

(** The opcodes of each variant, listed once. *)
Definition opcodes_of (v : variant) : list Z := match rngs (v_pattern v) with r0 :: _ => all_possible_opcodes r0 | [] => [] end.
Definition opcode_table : list (list Z) := map opcodes_of variants.

Lemma unique_in_table :
  forallb (fun b => Nat.eqb (List.length (filter (existsb (Z.eqb b)) opcode_table)) 1) all_bytes = true.
Proof. vm_compute. reflexivity. Qed.

Lemma unique_match :
  forallb (fun b => Nat.eqb (List.length (filter (fun v => opmatch v b) variants)) 1) all_bytes = true.
Proof.
  rewrite <- unique_in_table. assert (L: forall b l, List.length (filter (fun v => opmatch v b) l) = List.length (filter (existsb (Z.eqb b)) (map opcodes_of l))).
  { intros b l. induction l as [|v l IH]; [reflexivity|]. cbn [filter map].
    assert (E: opmatch v b = existsb (Z.eqb b) (opcodes_of v)) by (unfold opmatch, opcodes_of; now destruct (rngs (v_pattern v))).
    rewrite E. destruct (existsb (Z.eqb b) (opcodes_of v)); cbn [List.length]; now rewrite IH. }
  induction all_bytes as [|b l IH]; [reflexivity|]. cbn [forallb]. now rewrite L, IH.
Qed.

(** ** Unpacking the checks *)

Record good_facts (v : variant) (e : instr Z Z) (r0 : list range) (rt : list (list range)) (f : form) : Prop :=
  mkGood {
    g_rep : rep v = Some e;
    g_parse : parse_bit_pattern (v_pattern v) = Some (r0 :: rt);
    g_wf : wf_bytes (r0 :: rt) = true;
    g_arity : v_arity v = List.length (snd (key e));
    g_ar3 : (v_arity v <= 3)%nat;
    g_form : find_form (key e) = Some f;
    g_bits : f_bits f = to_pbits (r0 :: rt);
    g_refs : refs_ok (snd (key e)) (r0 :: rt) = true;
    g_op : forall b, is_byte b -> existsb (Z.eqb b) (all_possible_opcodes r0) = lit_ok r0 b;
    g_nolit : forallb no_lit rt = true;
    g_short : v_arity v = O -> rt = []
  }.

Lemma good_spec v : In v variants -> exists e r0 rt f, good_facts v e r0 rt f.
Proof.
  intros Hin. pose proof (proj1 (forallb_forall _ _) all_good v Hin) as H.
  unfold good in H. destruct (rep v) as [e|] eqn:E1; [|discriminate].
  destruct (parse_bit_pattern (v_pattern v)) as [[|r0 rt]|] eqn:E2; try discriminate.
  rewrite !andb_true_iff in H.
  destruct H as [[[[[[[H1 H2] H3] H4] H5] H6] H7] H8].
  destruct (find_form (key e)) as [f|] eqn:E3; [|discriminate].
  exists e, r0, rt, f. constructor; auto.
  - apply Nat.eqb_eq; assumption.
  - apply Nat.leb_le; assumption.
  - apply (list_eqb_eq (list_eqb pbit_eqb)) in H4; auto.
    intros a b. apply list_eqb_eq. exact pbit_eqb_eq.
  - intros b Hb. apply all_bytes_in in Hb.
    apply (proj1 (forallb_forall _ _) H6) in Hb. apply eqb_prop in Hb. assumption.
  - intros E. rewrite E in H8. simpl in H8. apply Nat.eqb_eq in H8. destruct rt; [auto|discriminate].
Qed.

Lemma downto0_spec k : In k downto0 <-> 0 <= k < 8.
Proof.
  unfold downto0. simpl. lia.
Qed.

Lemma ref_eqb_eq a b : ref_eqb a b = true <-> a = b.
Proof.
  destruct a, b. unfold ref_eqb. simpl. rewrite andb_true_iff, Ascii.eqb_eq, Z.eqb_eq.
  split; [intros [-> ->]; auto | intros [= -> ->]; auto].
Qed.

Lemma in_refs_of rs n i :
  In (n, i) (refs_of rs) <-> exists k, 0 <= k < 8 /\ byte_bit 8 rs k = Some (BRef n i).
Proof.
  unfold refs_of. rewrite in_flat_map. split.
  - intros (k & Hk & H). apply downto0_spec in Hk. exists k. split; [assumption|].
    destruct (byte_bit 8 rs k) as [[|]|]; simpl in H; try tauto.
    destruct H as [H|[]]. injection H as -> ->. reflexivity.
  - intros (k & Hk & H). exists k. split; [apply downto0_spec; assumption|]. rewrite H. left; reflexivity.
Qed.

Lemma nodupb_spec l : nodupb l = true -> NoDup l.
Proof.
  induction l as [|a l IH]; simpl; [constructor|].
  rewrite andb_true_iff, negb_true_iff. intros [H1 H2]. constructor; auto.
  intros Hin. assert (existsb (ref_eqb a) l = true).
  { apply existsb_exists. exists a. split; auto. apply ref_eqb_eq; auto. }
  congruence.
Qed.

Lemma NoDup_flat_map_inj {A B : Type} (g : A -> list B) l : NoDup (flat_map g l) ->
  forall m m' a a' x, nth_error l m = Some a -> nth_error l m' = Some a' ->
    In x (g a) -> In x (g a') -> m = m'.
Proof.
  induction l as [|b l IH]; intros Hnd m m' a a' x E E' H H'; [destruct m; discriminate|].
  simpl in Hnd.
  assert (Hdis : forall y, In y (g b) -> ~ In y (flat_map g l)).
  { intros y Hy Hy'. revert Hnd Hy Hy'. generalize (flat_map g l).
    induction (g b) as [|z zs IHz]; intros L Hnd Hy Hy'; simpl in *; [tauto|].
    inversion Hnd; subst. destruct Hy as [->|Hy].
    - apply H2. apply in_or_app; auto.
    - eapply IHz; eauto. }
  assert (Hl : NoDup (flat_map g l)).
  { clear -Hnd. induction (g b) as [|z zs IHz]; simpl in *; [assumption|]. inversion Hnd; auto. }
  destruct m as [|m], m' as [|m']; simpl in E, E'; auto.
  - injection E as ->. exfalso. apply (Hdis _ H). apply in_flat_map. exists a'.
    split; auto. eapply nth_error_In; eauto.
  - injection E' as ->. exfalso. apply (Hdis _ H'). apply in_flat_map. exists a.
    split; auto. eapply nth_error_In; eauto.
  - f_equal. eapply IH; eauto.
Qed.

Lemma NoDup_app_l {A} (l m : list A) : NoDup (l ++ m) -> NoDup l.
Proof. induction l; simpl; intros H; [constructor|]. inversion H; subst. constructor; auto.
  intros Hin. apply H2. apply in_or_app; auto. Qed.

Lemma NoDup_app_r {A} (l m : list A) : NoDup (l ++ m) -> NoDup m.
Proof. induction l; simpl; intros H; auto. inversion H; auto. Qed.

Lemma NoDup_flat_map_part {A B : Type} (g : A -> list B) l a :
  NoDup (flat_map g l) -> In a l -> NoDup (g a).
Proof.
  induction l as [|b l IH]; simpl; [tauto|]. intros H [->|Hin].
  - eapply NoDup_app_l; eauto.
  - apply IH; auto. eapply NoDup_app_r; eauto.
Qed.

Lemma refs_of_unique rs n i k k' : NoDup (refs_of rs) ->
  0 <= k < 8 -> 0 <= k' < 8 -> byte_bit 8 rs k = Some (BRef n i) -> byte_bit 8 rs k' = Some (BRef n i) ->
  k = k'.
Proof.
  intros Hnd Hk Hk' E E'. unfold refs_of in Hnd.
  assert (Hn : forall q, 0 <= q < 8 -> nth_error downto0 (Z.to_nat (7 - q)) = Some q).
  { intros q Hq. assert (q = 0 \/ q = 1 \/ q = 2 \/ q = 3 \/ q = 4 \/ q = 5 \/ q = 6 \/ q = 7) as
      [->|[->|[->|[->|[->|[->|[->| ->]]]]]]] by lia; reflexivity. }
  pose proof (NoDup_flat_map_inj _ _ Hnd _ _ _ _ (n, i) (Hn k Hk) (Hn k' Hk')) as H.
  cbv beta in H. rewrite E, E' in H. specialize (H (or_introl eq_refl) (or_introl eq_refl)). lia.
Qed.

Lemma nth_error_zrange n j : 0 <= j < n -> In j (zrange n).
Proof.
  intros. unfold zrange. apply in_map_iff. exists (Z.to_nat j). split; [lia|]. apply in_seq. lia.
Qed.

(** ** Occurrences of operand bits *)

Definition occurs (rss : list (list range)) (n : ascii) (j : Z) (m : nat) (k : Z) : Prop :=
  exists rs, nth_error rss m = Some rs /\ 0 <= k < 8 /\ byte_bit 8 rs k = Some (BRef n j).

Lemma in_refs rss n j : In (n, j) (refs rss) <-> exists m k, occurs rss n j m k.
Proof.
  unfold refs. rewrite in_flat_map. split.
  - intros (rs & Hin & H). apply in_refs_of in H. destruct H as (k & Hk & H).
    apply In_nth_error in Hin. destruct Hin as (m & Hm). exists m, k, rs. auto.
  - intros (m & k & rs & Hm & Hk & H). exists rs. split; [eapply nth_error_In; eauto|].
    apply in_refs_of. eauto.
Qed.

Lemma occurs_unique ks rss n j m k m' k' : refs_ok ks rss = true ->
  occurs rss n j m k -> occurs rss n j m' k' -> m = m' /\ k = k'.
Proof.
  intros H (rs & Hm & Hk & E) (rs' & Hm' & Hk' & E').
  unfold refs_ok in H. rewrite !andb_true_iff in H. destruct H as [[H _] _].
  apply nodupb_spec in H. unfold refs in H.
  assert (m = m').
  { eapply (NoDup_flat_map_inj _ _ H _ _ _ _ (n, j)); eauto; apply in_refs_of; eauto. }
  subst m'. split; [reflexivity|]. rewrite Hm in Hm'. injection Hm' as <-.
  eapply refs_of_unique; eauto. eapply NoDup_flat_map_part; eauto. eapply nth_error_In; eauto.
Qed.

Lemma occurs_width ks rss n j m k : refs_ok ks rss = true -> occurs rss n j m k ->
  exists q, nth_error ks (nat_of_ascii n - 97) = Some q /\ 0 <= j < kind_bits q /\
            n = letter (nat_of_ascii n - 97).
Proof.
  intros H Ho. unfold refs_ok in H. rewrite !andb_true_iff in H. destruct H as [[_ H] _].
  assert (Hin : In (n, j) (refs rss)) by (apply in_refs; eauto).
  apply (proj1 (forallb_forall _ _) H) in Hin. simpl in Hin.
  destruct (nth_error ks (nat_of_ascii n - 97)) as [q|]; [|discriminate].
  rewrite !andb_true_iff, Z.leb_le, Z.ltb_lt, Ascii.eqb_eq in Hin.
  exists q. intuition.
Qed.

Lemma occurs_exists ks rss n q j : refs_ok ks rss = true ->
  nth_error ks n = Some q -> 0 <= j < kind_bits q -> exists m k, occurs rss (letter n) j m k.
Proof.
  intros H Hq Hj. unfold refs_ok in H. rewrite !andb_true_iff in H. destruct H as [_ H].
  assert (Hin : In n (seq 0 (List.length ks))).
  { apply in_seq. assert (n < List.length ks)%nat by (apply nth_error_Some; congruence). lia. }
  apply (proj1 (forallb_forall _ _) H) in Hin. rewrite Hq in Hin.
  assert (Hj' := nth_error_zrange _ _ Hj). apply (proj1 (forallb_forall _ _) Hin) in Hj'.
  apply existsb_exists in Hj'. destruct Hj' as (r & Hr & E). apply ref_eqb_eq in E. subst r.
  apply in_refs. assumption.
Qed.

Lemma letter_code n : (n <= 25)%nat -> (nat_of_ascii (letter n) - 97 = n)%nat.
Proof.
  intros. unfold letter. rewrite nat_ascii_embedding by lia. lia.
Qed.

(** ** Bit equality for non-negative bounded numbers *)

Lemma Z_bits_eq w a b : 0 <= a < 2 ^ w -> 0 <= b < 2 ^ w -> 0 <= w ->
  (forall j, 0 <= j < w -> Z.testbit a j = Z.testbit b j) -> a = b.
Proof.
  intros Ha Hb Hw H. apply Z.bits_inj'. intros j Hj.
  destruct (Z.lt_ge_cases j w); [apply H; lia|].
  rewrite !(small_bit _ w) by lia. reflexivity.
Qed.

Lemma small_by_bits w a : 0 <= a -> 0 <= w -> (forall j, w <= j -> Z.testbit a j = false) -> a < 2 ^ w.
Proof.
  intros Ha Hw H. destruct (Z.eq_dec a 0) as [->|]; [apply Z.pow_pos_nonneg; lia|].
  apply Z.log2_lt_pow2; [lia|].
  destruct (Z.lt_ge_cases (Z.log2 a) w); [assumption|].
  exfalso. pose proof (H _ H0) as E. rewrite Z.bit_log2 in E by lia. discriminate.
Qed.

Lemma kind_bits_pos k : 0 < kind_bits k.
Proof. destruct k; simpl; lia. Qed.

(** ** Extraction after encoding: operand modulo the field width *)

Lemma nth_error_encode rss args m rs rest : nth_error rss m = Some rs ->
  nth_error (encode_ranges rss args ++ rest) m = Some (encode_byte 8 args rs).
Proof.
  intros H. rewrite nth_error_app1.
  - unfold encode_ranges. rewrite nth_error_map, H. reflexivity.
  - unfold encode_ranges. rewrite map_length. apply nth_error_Some. congruence.
Qed.

Lemma extract_encode ks rss args rest n q :
  wf_bytes rss = true -> refs_ok ks rss = true -> nth_error ks n = Some q -> (n <= 25)%nat ->
  Forall (fun b => 0 <= b) rest ->
  extract (letter n) rss (encode_ranges rss args ++ rest) = nth n args 0 mod 2 ^ kind_bits q.
Proof.
  intros Hwf Hok Hq Hn Hrest. pose proof (kind_bits_pos q) as Hp.
  assert (Hnn : 0 <= extract (letter n) rss (encode_ranges rss args ++ rest)).
  { apply extract_nonneg; auto. apply Forall_app. split; [|assumption].
    unfold encode_ranges. apply Forall_forall. intros x Hx. apply in_map_iff in Hx.
    destruct Hx as (rs & <- & _). pose proof (encode_byte_range rs 8 args). lia. }
  assert (Hiff : forall j, 0 <= j ->
    (Z.testbit (extract (letter n) rss (encode_ranges rss args ++ rest)) j = true <->
     j < kind_bits q /\ Z.testbit (nth n args 0) j = true)).
  { intros j Hj. rewrite extract_bit by assumption. split.
    - intros (m & rs & b & k & E1 & E2 & Hk & E & Hb).
      assert (Ho : occurs rss (letter n) j m k) by (exists rs; auto).
      destruct (occurs_width _ _ _ _ _ _ Hok Ho) as (q' & Hq' & Hj' & _).
      rewrite letter_code in Hq' by assumption. rewrite Hq in Hq'. injection Hq' as <-.
      split; [lia|].
      rewrite (nth_error_encode _ _ _ _ _ E1) in E2. injection E2 as <-.
      rewrite encode_byte_bit in Hb; [|eapply (proj1 (forallb_forall _ _) Hwf); eapply nth_error_In; eauto|lia|lia].
      rewrite (proj2 (Z.ltb_lt k 8)), E in Hb by lia. simpl in Hb.
      unfold operand in Hb. rewrite letter_code in Hb by assumption. assumption.
    - intros [Hj' Hb]. destruct (occurs_exists _ _ _ _ j Hok Hq) as (m & k & rs & E1 & Hk & E); [lia|].
      exists m, rs, (encode_byte 8 args rs), k. split; [assumption|].
      split; [apply nth_error_encode; assumption|]. split; [assumption|]. split; [assumption|].
      rewrite encode_byte_bit; [|eapply (proj1 (forallb_forall _ _) Hwf); eapply nth_error_In; eauto|lia|lia].
      rewrite (proj2 (Z.ltb_lt k 8)), E by lia. simpl.
      unfold operand. rewrite letter_code by assumption. assumption. }
  apply Z.bits_inj'. intros j Hj.
  destruct (Z.lt_ge_cases j (kind_bits q)).
  - rewrite Z.mod_pow2_bits_low by lia. apply eq_true_iff_eq. rewrite Hiff by lia. intuition.
  - rewrite Z.mod_pow2_bits_high by lia. apply not_true_is_false. rewrite Hiff by lia. lia.
Qed.

(** Extraction gives a value that fits the field. *)
Lemma extract_bound ks rss bytes n q :
  wf_bytes rss = true -> refs_ok ks rss = true -> nth_error ks n = Some q -> (n <= 25)%nat ->
  Forall (fun b => 0 <= b) bytes ->
  0 <= extract (letter n) rss bytes < 2 ^ kind_bits q.
Proof.
  intros Hwf Hok Hq Hn Hb. pose proof (kind_bits_pos q).
  assert (0 <= extract (letter n) rss bytes) by (apply extract_nonneg; auto).
  split; [assumption|]. apply small_by_bits; try lia.
  intros j Hj. apply not_true_is_false. rewrite extract_bit by (auto; lia).
  intros (m & rs & b & k & E1 & E2 & Hk & E & _).
  assert (Ho : occurs rss (letter n) j m k) by (exists rs; auto).
  destruct (occurs_width _ _ _ _ _ _ Hok Ho) as (q' & Hq' & Hj' & _).
  rewrite letter_code in Hq' by assumption. rewrite Hq in Hq'. injection Hq' as <-. lia.
Qed.

(** ** Encoding what was extracted gives the bytes back *)

Lemma list_nth_ext {A : Type} (l : list A) : forall m,
  (forall n, nth_error l n = nth_error m n) -> l = m.
Proof.
  induction l as [|a l IH]; intros [|b m] H; auto.
  - specialize (H O). discriminate.
  - specialize (H O). discriminate.
  - pose proof (H O) as H0. simpl in H0. injection H0 as ->. f_equal. apply IH.
    intros n. apply (H (S n)).
Qed.

Lemma nth_firstn {A : Type} (l : list A) : forall n m, (m < n)%nat ->
  nth_error (firstn n l) m = nth_error l m.
Proof.
  induction l as [|a l IH]; intros [|n] [|m] H; simpl; auto; try lia. apply IH. lia.
Qed.

Lemma lit_ok_spec rs b k v : lit_ok rs b = true -> 0 <= k < 8 -> byte_bit 8 rs k = Some (BLit v) ->
  Z.testbit b k = (v =? 1).
Proof.
  intros H Hk E. unfold lit_ok in H.
  assert (Hin : In k downto0) by (apply downto0_spec; assumption).
  apply (proj1 (forallb_forall _ _) H) in Hin. rewrite E in Hin. apply eqb_prop in Hin. assumption.
Qed.

Lemma byte_bit_some rs k : no_lit rs = true \/ (exists b, lit_ok rs b = true) -> 0 <= k < 8 ->
  exists x, byte_bit 8 rs k = Some x.
Proof.
  intros H Hk. assert (Hin : In k downto0) by (apply downto0_spec; assumption).
  destruct H as [H|[b H]]; apply (proj1 (forallb_forall _ _) H) in Hin;
    destruct (byte_bit 8 rs k); eauto; discriminate.
Qed.

Lemma encode_extract ks r0 rt args bytes :
  wf_bytes (r0 :: rt) = true -> refs_ok ks (r0 :: rt) = true -> (List.length ks <= 25)%nat ->
  forallb no_lit rt = true ->
  Forall is_byte bytes -> (List.length (r0 :: rt) <= List.length bytes)%nat ->
  (forall b, nth_error bytes 0 = Some b -> lit_ok r0 b = true) ->
  (forall n q j, nth_error ks n = Some q -> 0 <= j < kind_bits q ->
      Z.testbit (nth n args 0) j = Z.testbit (extract (letter n) (r0 :: rt) bytes) j) ->
  encode_ranges (r0 :: rt) args = firstn (List.length (r0 :: rt)) bytes.
Proof.
  intros Hwf Hok Hlen Hnl Hbytes Hl Hlit Hargs. set (rss := r0 :: rt) in *.
  apply list_nth_ext. intros m.
  destruct (Nat.lt_ge_cases m (List.length rss)) as [Hm|Hm].
  2:{ rewrite (proj2 (nth_error_None _ _)) by (unfold encode_ranges; rewrite map_length; lia).
      rewrite (proj2 (nth_error_None _ _)) by (rewrite firstn_length; lia). reflexivity. }
  destruct (nth_error rss m) as [rs|] eqn:E1; [|apply nth_error_None in E1; lia].
  destruct (nth_error bytes m) as [b|] eqn:E2; [|apply nth_error_None in E2; lia].
  rewrite nth_firstn by assumption. rewrite E2.
  unfold encode_ranges. rewrite nth_error_map, E1. simpl. f_equal.
  assert (Hb : is_byte b) by (eapply Forall_forall; [exact Hbytes|]; eapply nth_error_In; eauto).
  assert (Hwfr : wf_byte 8 rs = true) by (eapply (proj1 (forallb_forall _ _) Hwf); eapply nth_error_In; eauto).
  apply (Z_bits_eq 8); try lia; [apply encode_byte_range|exact Hb|].
  intros k Hk. rewrite encode_byte_bit by (auto; lia).
  rewrite (proj2 (Z.ltb_lt k 8)) by lia. simpl.
  assert (Hsome : exists x, byte_bit 8 rs k = Some x).
  { apply byte_bit_some; [|assumption]. destruct m as [|m].
    - right. exists b. simpl in E1. injection E1 as <-. apply Hlit. assumption.
    - left. apply (proj1 (forallb_forall _ _) Hnl). eapply nth_error_In. exact E1. }
  destruct Hsome as [x Hx]. rewrite Hx. destruct x as [v|n j]; simpl.
  - destruct m as [|m].
    + simpl in E1. injection E1 as <-. symmetry. eapply lit_ok_spec; eauto.
    + exfalso. assert (In rs rt) by (eapply nth_error_In; exact E1).
      apply (proj1 (forallb_forall _ _) Hnl) in H.
      assert (Hin : In k downto0) by (apply downto0_spec; assumption).
      apply (proj1 (forallb_forall _ _) H) in Hin. rewrite Hx in Hin. discriminate.
  - assert (Ho : occurs rss n j m k) by (exists rs; auto).
    destruct (occurs_width _ _ _ _ _ _ Hok Ho) as (q & Hq & Hj & Hn).
    unfold operand. rewrite (Hargs _ _ _ Hq Hj). rewrite <- Hn.
    apply eq_true_iff_eq. rewrite extract_bit by (auto; lia). split.
    + intros (m' & rs' & b' & k' & F1 & F2 & Hk' & F & Hb').
      assert (Ho' : occurs rss n j m' k') by (exists rs'; auto).
      destruct (occurs_unique _ _ _ _ _ _ _ _ Hok Ho Ho'); subst m' k'. congruence.
    + intros Hbk. exists m, rs, b, k. auto 6.
Qed.

(** ** Casts *)

Lemma pow2_le w : 0 <= w <= 16 -> 1 <= 2 ^ w <= 65536.
Proof.
  intros. split.
  - change 1 with (2 ^ 0). apply Z.pow_le_mono_r; lia.
  - change 65536 with (2 ^ 16). apply Z.pow_le_mono_r; lia.
Qed.

Lemma wrap32_small x : -2147483648 <= x <= 2147483647 -> wrap32 x = x.
Proof. intros. unfold wrap32. rewrite Z.mod_small by lia. lia. Qed.

Lemma cast_u w x : 0 <= w <= 16 -> 0 <= x < 2 ^ w -> wrap32 (x mod 2 ^ w) = x.
Proof.
  intros Hw Hx. pose proof (pow2_le w Hw). rewrite Z.mod_small by lia. apply wrap32_small. lia.
Qed.

Lemma cast_u8 w x : 0 <= w <= 8 -> 0 <= x < 2 ^ w -> to_u8 (x mod 2 ^ w) = x.
Proof.
  intros Hw Hx. assert (2 ^ w <= 256) by (change 256 with (2 ^ 8); apply Z.pow_le_mono_r; lia).
  rewrite (Z.mod_small x) by lia. unfold to_u8. apply Z.mod_small. lia.
Qed.

Lemma sext_range w y : 1 <= w -> - 2 ^ (w - 1) <= sext w y < 2 ^ (w - 1).
Proof.
  intros Hw. unfold sext. assert (E : 2 ^ w = 2 * 2 ^ (w - 1)).
  { rewrite <- Z.pow_succ_r by lia. f_equal. lia. }
  assert (0 < 2 ^ (w - 1)) by (apply Z.pow_pos_nonneg; lia).
  pose proof (Z.mod_pos_bound y (2 ^ w)). destruct (Z.ltb_spec (y mod 2 ^ w) (2 ^ (w - 1))); lia.
Qed.

Lemma sext_mod w y : 1 <= w -> sext w y mod 2 ^ w = y mod 2 ^ w.
Proof.
  intros Hw. unfold sext. assert (0 < 2 ^ w) by (apply Z.pow_pos_nonneg; lia).
  destruct (_ <? _).
  - apply Z.mod_mod. lia.
  - rewrite Zminus_mod, Z_mod_same_full, Z.sub_0_r, !Z.mod_mod by lia. reflexivity.
Qed.

Lemma cast_s w x : 1 <= w <= 16 -> - 2 ^ (w - 1) <= x < 2 ^ (w - 1) -> sext w (wrap32 (x mod 2 ^ w)) = x.
Proof.
  intros Hw Hx. pose proof (pow2_le w ltac:(lia)).
  pose proof (Z.mod_pos_bound x (2 ^ w) ltac:(lia)).
  rewrite wrap32_small by lia. unfold sext. rewrite Z.mod_mod by lia.
  assert (E : 2 ^ w = 2 * 2 ^ (w - 1)).
  { rewrite <- Z.pow_succ_r by lia. f_equal. lia. }
  destruct (Z.lt_ge_cases x 0).
  - replace (x mod 2 ^ w) with (x + 2 ^ w) in *.
    + destruct (Z.ltb_spec (x + 2 ^ w) (2 ^ (w - 1))); lia.
    + symmetry. rewrite <- (Z.mod_add x 1), Z.mul_1_l by lia. apply Z.mod_small. lia.
  - rewrite Z.mod_small by lia. destruct (Z.ltb_spec x (2 ^ (w - 1))); lia.
Qed.

