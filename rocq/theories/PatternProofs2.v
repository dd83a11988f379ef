(** The derive macro on an arbitrary pattern: encoder, matcher and extractors. *)
From Coq Require Import ZArith List String Ascii Bool Lia.
From Verif Require Import Base Bits SpecIsa SpecPattern BitsProofs CodecProofs CodecProofs2 PatternProofs.
Import ListNotations.
Open Scope string_scope.
Open Scope list_scope.
Open Scope Z_scope.

Local Arguments Z.add : simpl never.
Local Arguments Z.sub : simpl never.
Local Arguments Z.mul : simpl never.
Local Arguments Z.pow : simpl never.
Local Arguments Z.leb : simpl never.
Local Arguments Z.ltb : simpl never.
Local Arguments Z.eqb : simpl never.

(** ** Which patterns are accepted *)

Lemma tb_lit l : Forall lit_bit (map tb l).
Proof. apply Forall_map, Forall_forall. intros [| |k n] _; cbn; auto. Qed.

Lemma chunk_some c : chunk_ok c -> exists r, chunk_to_range c = Some r.
Proof.
  intros [N [A|(n & hi & R)]]; (destruct c as [|b c]; [contradiction|]).
  - apply Forall_inv in A as [-> | ->]; cbn; eauto.
  - destruct (exists_last N) as (l & x & E). pose proof (R (List.length l) x) as X. rewrite E in X at 1.
    rewrite nth_error_app2, Nat.sub_diag in X by lia. specialize (X eq_refl).
    assert (L : List.last (b :: c) (BLit 0) = x) by (rewrite E; apply last_last).
    pose proof (R O b eq_refl) as B. unfold chunk_to_range. rewrite L, X, B. eauto.
Qed.

Lemma all_some_map {A B : Type} (f : A -> option B) l : (forall x, In x l -> exists y, f x = Some y) -> exists r, all_some (map f l) = Some r.
Proof.
  induction l as [|x l IH]; intros H; [exists []; reflexivity|]. destruct (H x (or_introl eq_refl)) as (y & E). destruct IH as (r & R); [intros z I; apply H; now right|].
  exists (y :: r). cbn [map all_some]. now rewrite E, R.
Qed.

Lemma ranges_some bits : Forall lit_bit bits -> exists rs, bits_to_range bits = Some rs.
Proof.
  intros K. unfold bits_to_range. apply all_some_map. intros c I. apply chunk_some.
  destruct (chunks_ok bits [] K (or_introl eq_refl)) as [C _]. rewrite Forall_forall in C. auto.
Qed.

Lemma eights_mod l bs : eights l bs -> (List.length l mod 8 = 0)%nat.
Proof.
  induction 1 as [|b l bs B E IH]; [reflexivity|]. rewrite app_length, B. replace (8 + List.length l)%nat with (List.length l + 1 * 8)%nat by lia.
  now rewrite Nat.mod_add.
Qed.

Lemma eights_exist : forall n l, List.length l = (n * 8)%nat -> exists bs, eights l bs.
Proof.
  induction n as [|n IH]; intros l L.
  - destruct l; [|discriminate]. exists []. constructor.
  - destruct (IH (skipn 8 l)) as (bs & E); [rewrite skipn_length; lia|]. exists (firstn 8 l :: bs).
    rewrite <- (firstn_skipn 8 l) at 1. constructor; [|exact E]. rewrite firstn_length. lia.
Qed.

Lemma group_eights l bs : eights l bs -> forall fuel, (List.length l <= fuel)%nat -> group8 fuel (map tb l) = map (map tb) bs.
Proof.
  induction 1 as [|b l bs B E IH]; intros fuel L.
  - destruct fuel; reflexivity.
  - rewrite app_length in L. destruct fuel as [|f]; [lia|]. cbn [group8]. rewrite map_app.
    assert (M : List.length (map tb b) = 8%nat) by now rewrite map_length.
    destruct (map tb b ++ map tb l) as [|x y] eqn:X; [apply (f_equal (@List.length _)) in X; rewrite app_length, M in X; discriminate|]. rewrite <- X.
    rewrite firstn_app, M, Nat.sub_diag, firstn_O, app_nil_r, firstn_all2 by lia.
    rewrite skipn_app, M, Nat.sub_diag, skipn_O, skipn_all2 by lia. cbn [app map]. f_equal. apply IH. lia.
Qed.

Lemma parse_accepts text : (exists rss, parse_bit_pattern text = Some rss) <-> exists l bs, spelled text l /\ eights l bs.
Proof.
  unfold parse_bit_pattern. split.
  - intros (rss & H). destruct (tokenize_bit_pattern text) as [toks|] eqn:T; [|discriminate].
    apply pattern_tokens in T as (l & S & ->). rewrite map_length in H. destruct (Nat.eqb_spec (List.length l mod 8) 0) as [M|]; [|discriminate].
    destruct (eights_exist (List.length l / 8) l) as (bs & E); [pose proof (Nat.div_mod_eq (List.length l) 8); lia|]. eauto.
  - intros (l & bs & S & E). rewrite (proj2 (pattern_tokens text (map tb l))) by eauto. rewrite map_length, (eights_mod l bs E). cbn [Nat.eqb].
    rewrite (group_eights l bs E) by lia. rewrite map_map. apply all_some_map. intros b _. apply ranges_some, tb_lit.
Qed.

(** ** The ranges of a pattern *)

Lemma tokens_fields s l : tokens s l -> forall k n, In (PF k n) l -> 0 <= n /\ (k < 26)%nat.
Proof.
  induction 1 as [|s l T IH|s l T IH|k c d n s l K D T IH]; intros k' n' I; [contradiction| | |].
  - destruct I as [I|I]; [discriminate|eauto].
  - destruct I as [I|I]; [discriminate|eauto].
  - destruct I as [I|I]; [|eauto]. injection I as <- <-. split; [eapply decimal_nonneg; eauto|].
    change 26%nat with (List.length alphabet). apply nth_error_Some. congruence.
Qed.

Lemma spelled_fields text l : spelled text l -> forall k n, In (PF k n) l -> 0 <= n /\ (k < 26)%nat.
Proof. intros (s & _ & T). now apply (tokens_fields s). Qed.

Lemma tb_ok l : bits32 l -> (forall k n, In (PF k n) l -> 0 <= n) -> Forall ok_bit (map tb l).
Proof. intros B N. apply Forall_map, Forall_forall. intros [| |k n] I; cbn; auto. split; [eapply N; eauto|eapply B; eauto]. Qed.

Definition layout8 (rs : list range) (b : list pbit) : Prop := List.length b = 8%nat /\ layout rs (map tb b).

Lemma ranges_of bs l : eights l bs -> Forall ok_bit (map tb l) -> exists rss,
  all_some (map bits_to_range (map (map tb) bs)) = Some rss /\ Forall2 layout8 rss bs.
Proof.
  induction 1 as [|b l bs B E IH]; intros K; [exists []; split; [reflexivity|constructor]|].
  rewrite map_app in K. apply Forall_app in K as [K1 K2]. destruct (IH K2) as (rss & R & F). destruct (bits_layout (map tb b) K1) as (rs & S & L).
  exists (rs :: rss). cbn [map all_some]. rewrite S, R. split; [reflexivity|]. constructor; [split; assumption|exact F].
Qed.

Lemma parse_layout text l bs : spelled text l -> eights l bs -> bits32 l ->
  exists rss, parse_bit_pattern text = Some rss /\ Forall2 layout8 rss bs.
Proof.
  intros S E B. destruct (ranges_of bs l E) as (rss & R & F); [apply tb_ok; [exact B|]; intros k n I; eapply spelled_fields; eauto|].
  exists rss. split; [|exact F]. unfold parse_bit_pattern. rewrite (proj2 (pattern_tokens text (map tb l))) by eauto.
  rewrite map_length, (eights_mod l bs E). cbn [Nat.eqb]. now rewrite (group_eights l bs E) by lia.
Qed.

Lemma layout_wf rs b : layout8 rs b -> wf_byte 8 rs = true.
Proof. intros [L [W _]]. unfold nlen in W. rewrite map_length, L in W. exact W. Qed.

Lemma layout_bit rs b k : layout8 rs b -> 0 <= k < 8 -> exists x, nth_error b (7 - Z.to_nat k) = Some x /\ byte_bit 8 rs k = Some (tb x).
Proof.
  intros [L [_ W]] K. unfold nlen in W. rewrite map_length, L in W. destruct (nth_error b (7 - Z.to_nat k)) as [x|] eqn:E.
  - exists x. split; [reflexivity|]. specialize (W (7 - Z.to_nat k)%nat (tb x)). rewrite nth_error_map, E in W. specialize (W eq_refl).
    replace (Z.of_nat 8 - 1 - Z.of_nat (7 - Z.to_nat k)) with k in W by lia. exact W.
  - apply nth_error_None in E. lia.
Qed.

(** ** The encoder *)

Lemma letter_index k : (k < 26)%nat -> (nat_of_ascii (nth k alphabet "a"%char) - 97 = k)%nat.
Proof. intros H. do 26 (destruct k as [|k]; [reflexivity|]). lia. Qed.

Lemma tb_val args x : (forall k n, x = PF k n -> (k < 26)%nat) -> bit_val args (tb x) = pbool args x.
Proof.
  intros H. destruct x as [| |k n]; try reflexivity. cbn [tb bit_val pbool]. unfold operand. now rewrite (letter_index k (H k n eq_refl)).
Qed.

Definition fields26 (b : list pbit) : Prop := forall k n, In (PF k n) b -> (k < 26)%nat.

Lemma nth_rev {A : Type} (b : list A) j : List.length b = 8%nat -> (j < 8)%nat -> nth_error (rev b) j = nth_error b (7 - j).
Proof.
  intros L J. do 8 (destruct b as [|? b]; [discriminate L|]). destruct b; [|discriminate L]. do 8 (destruct j as [|j]; [reflexivity|]). lia.
Qed.

Lemma encode_layout rs b args : layout8 rs b -> fields26 b -> encode_byte 8 args rs = pbyte_value args b.
Proof.
  intros L F. apply (Z_bits_eq 8); try lia.
  - apply encode_byte_range.
  - pose proof (pbyte_range args b) as R. destruct L as [L _]. rewrite L in R. exact R.
  - intros k Hk. rewrite pbyte_bit by lia. rewrite encode_byte_bit by (try lia; eapply layout_wf; eauto).
    destruct (layout_bit rs b k L Hk) as (x & X & ->). rewrite (proj2 (Z.ltb_lt k 8)) by lia. cbn [andb].
    rewrite nth_rev, X by (try apply L; lia). apply tb_val. intros k' n ->. eapply F. eapply nth_error_In; eauto.
Qed.

Lemma eights_in l bs b x : eights l bs -> In b bs -> In x b -> In x l.
Proof.
  induction 1 as [|b' l bs B E IH]; intros I J; [contradiction|]. apply in_app_iff. destruct I as [->|I]; auto.
Qed.

Lemma encode_pattern rss bs args : Forall2 layout8 rss bs -> Forall fields26 bs -> encode_ranges rss args = map (pbyte_value args) bs.
Proof.
  unfold encode_ranges. induction 1 as [|rs b rss bs L F IH]; intros H; [reflexivity|]. apply Forall_cons_iff in H as [H1 H2]. cbn [map]. f_equal; [now apply encode_layout|auto].
Qed.

(** ** The matcher *)

Lemma lor_place a b n : 0 <= n -> 0 <= b < 2 ^ n -> Z.lor (Z.shiftl a n) b = 2 ^ n * a + b.
Proof.
  intros N B. rewrite Z.shiftl_mul_pow2 by auto. rewrite (Z.mul_comm a).
  assert (L : Z.land (2 ^ n * a) b = 0).
  { apply Z.bits_inj'. intros i Hi. rewrite Z.land_spec, Z.bits_0. destruct (Z.lt_ge_cases i n).
    - rewrite Z.mul_comm, Z.mul_pow2_bits_low by lia. reflexivity.
    - rewrite andb_comm. now rewrite (small_bit b n i) by lia. }
  rewrite <- Z.lxor_lor by auto. now rewrite <- Z.add_nocarry_lxor by auto.
Qed.

Lemma combos n : forall x, In x (bit_combinations (S n)) <-> 0 <= x < 2 ^ Z.of_nat (S n).
Proof.
  induction n as [|n IH]; intros x.
  - cbn. change (2 ^ Z.of_nat 1) with 2. lia.
  - change (bit_combinations (S (S n))) with (flat_map (fun m => [Z.lor (Z.shiftl 1 (Z.of_nat (S n))) m; m]) (bit_combinations (S n))).
    rewrite in_flat_map. set (w := Z.of_nat (S n)) in *. assert (P : 0 < 2 ^ w) by (apply Z.pow_pos_nonneg; lia).
    replace (2 ^ Z.of_nat (S (S n))) with (2 * 2 ^ w) by (rewrite <- Z.pow_succ_r by lia; f_equal; lia). split.
    + intros (m & M & [E|[E|[]]]); apply IH in M; [rewrite lor_place in E by lia|]; lia.
    + intros X. destruct (Z.lt_ge_cases x (2 ^ w)).
      * exists x. split; [apply IH; lia|cbn; auto].
      * exists (x - 2 ^ w). split; [apply IH; lia|]. left. rewrite lor_place; lia.
Qed.

Lemma range_literals_in r x : wf_range r = true ->
  (In x (range_literals r) <-> 0 <= x < 2 ^ range_size r /\
     forall i v, 0 <= i < range_size r -> range_bit r i = BLit v -> Z.testbit x i = (v =? 1)).
Proof.
  destruct r as [v s|n h l]; cbn [wf_range range_size range_literals range_bit]; rewrite !andb_true_iff, ?Z.ltb_lt, ?Z.leb_le; intros H.
  - split.
    + intros [<-|[]]. split; [lia|]. intros i w I E. injection E as <-. destruct (Z.testbit v i); reflexivity.
    + intros [X B]. left. apply (Z_bits_eq s); try lia. intros i I. rewrite (B i _ I eq_refl). destruct (Z.testbit v i); reflexivity.
  - destruct (Z.to_nat (1 + h - l)) as [|m] eqn:E; [lia|]. rewrite combos, <- E, Z2Nat.id by lia. split; [|tauto].
    intros X. split; [exact X|]. discriminate.
Qed.

Lemma place_bits a b n : 0 <= n -> 0 <= b < 2 ^ n -> forall k, 0 <= k ->
  Z.testbit (2 ^ n * a + b) k = if k <? n then Z.testbit b k else Z.testbit a (k - n).
Proof.
  intros N B k K. rewrite <- lor_place, Z.lor_spec, Z.shiftl_spec by lia. destruct (Z.ltb_spec k n).
  - now rewrite Z.testbit_neg_r by lia.
  - now rewrite (small_bit b n k), orb_false_r by lia.
Qed.

Lemma opcodes_in rs : forall pos, wf_byte pos rs = true -> rs <> [] -> 0 <= pos <= 8 ->
  fst (combinations_to_bits rs) = pos /\
  forall b, In b (snd (combinations_to_bits rs)) <-> 0 <= b < 2 ^ pos /\
     forall k v, 0 <= k < pos -> byte_bit pos rs k = Some (BLit v) -> Z.testbit b k = (v =? 1).
Proof.
  induction rs as [|r t IH]; intros pos W N P; [contradiction|]. clear N.
  cbn [wf_byte] in W. rewrite !andb_true_iff, Z.leb_le in W. destruct W as [[R S] W]. pose proof (wf_range_size r R) as Z0.
  destruct t as [|r' t].
  - cbn [wf_byte] in W. apply Z.eqb_eq in W. assert (pos = range_size r) as -> by lia. cbn [combinations_to_bits fst snd]. split; [reflexivity|].
    intros b. rewrite range_literals_in by exact R. cbn [byte_bit]. rewrite Z.sub_diag. apply and_iff_compat_l. split; intros H k v K E.
    + rewrite (proj2 (Z.leb_le 0 k)) in E by lia. injection E as E. rewrite Z.sub_0_r in E. auto.
    + apply H; [exact K|]. now rewrite (proj2 (Z.leb_le 0 k)), Z.sub_0_r, E by lia.
  - set (T := r' :: t) in *. destruct (IH (pos - range_size r) W ltac:(discriminate) ltac:(lia)) as [F I].
    change (combinations_to_bits (r :: T)) with (let (size, bytes) := combinations_to_bits T in (size + range_size r,
       flat_map (fun num => map (fun b => to_u8 (Z.lor (Z.shiftl num size) b)) bytes) (range_literals r))).
    destruct (combinations_to_bits T) as [size bytes]. cbn [fst snd] in F, I |- *. subst size. split; [lia|]. intros b. rewrite in_flat_map.
    set (q := pos - range_size r) in *. assert (Q : 2 ^ pos = 2 ^ q * 2 ^ range_size r) by (rewrite <- Z.pow_add_r by lia; f_equal; lia).
    assert (P8 : 2 ^ pos <= 256) by (change 256 with (2 ^ 8); apply Z.pow_le_mono_r; lia).
    assert (Pq : 0 < 2 ^ q) by (apply Z.pow_pos_nonneg; lia). assert (Pr : 0 < 2 ^ range_size r) by (apply Z.pow_pos_nonneg; lia).
    cbn [byte_bit]. fold q. split.
    + intros (num & A & B). apply in_map_iff in B as (c & <- & C). apply I in C as [C1 C2]. apply range_literals_in in A as [A1 A2]; [|exact R].
      rewrite lor_place by lia. unfold to_u8. rewrite Z.mod_small by nia. split; [nia|]. intros k v K E. rewrite place_bits by lia.
      destruct (Z.leb_spec q k), (Z.ltb_spec k q); try lia.
      * injection E as E. apply A2; [lia|exact E].
      * apply C2; [lia|exact E].
    + intros [B1 B2]. exists (b / 2 ^ q). pose proof (Z.div_mod b (2 ^ q) ltac:(lia)) as D. pose proof (Z.mod_pos_bound b (2 ^ q) Pq) as M.
      assert (Dn : 0 <= b / 2 ^ q) by (apply Z.div_pos; lia). split.
      * apply range_literals_in; [exact R|]. split; [split; [exact Dn|apply Z.div_lt_upper_bound; lia]|].
        intros i v Hi E. rewrite Z.div_pow2_bits by lia. apply B2; [lia|]. rewrite (proj2 (Z.leb_le q (i + q))) by lia.
        replace (i + q - q) with i by lia. now rewrite E.
      * apply in_map_iff. exists (b mod 2 ^ q). split.
        -- rewrite lor_place by lia. rewrite <- D. unfold to_u8. apply Z.mod_small. lia.
        -- apply I. split; [exact M|]. intros k v K E. rewrite Z.mod_pow2_bits_low by lia. apply B2; [lia|].
           destruct (Z.leb_spec q k); [lia|exact E].
Qed.

Lemma opcodes_layout rs b x : layout8 rs b -> (In x (all_possible_opcodes rs) <-> is_byte x /\ matches b x).
Proof.
  intros L. unfold all_possible_opcodes, is_byte. assert (N : rs <> []) by (intros ->; apply layout_wf in L; discriminate).
  destruct (opcodes_in rs 8 (layout_wf _ _ L) N ltac:(lia)) as [_ ->]. change (2 ^ 8) with 256. apply and_iff_compat_l.
  unfold matches. split.
  - intros H k K. destruct (layout_bit rs b (7 - Z.of_nat k) L ltac:(lia)) as (y & Y & E).
    replace (7 - Z.to_nat (7 - Z.of_nat k))%nat with k in Y by lia. rewrite (nth_error_nth _ _ P0 Y).
    destruct y as [| |j n]; [| |exact Logic.I]; now apply (H (7 - Z.of_nat k)) in E; [|lia].
  - intros H k v K E. destruct (layout_bit rs b k L K) as (y & Y & E'). rewrite E' in E. injection E as E.
    specialize (H (7 - Z.to_nat k)%nat ltac:(lia)). rewrite (nth_error_nth _ _ P0 Y) in H.
    replace (7 - Z.of_nat (7 - Z.to_nat k)) with k in H by lia. destruct y; [| |discriminate]; injection E as <-; exact H.
Qed.

(** ** The extractors *)

Lemma wf_layouts rss bs : Forall2 layout8 rss bs -> wf_bytes rss = true.
Proof. induction 1 as [|rs b rss bs L F IH]; [reflexivity|]. cbn [wf_bytes forallb] in *. unfold wf_bytes in *. cbn [forallb]. now rewrite (layout_wf _ _ L), IH. Qed.

Lemma tb_ref x k n : (forall k n, x = PF k n -> (k < 26)%nat) -> (k < 26)%nat -> (tb x = BRef (nth k alphabet "a"%char) n <-> x = PF k n).
Proof.
  intros H K. split; [|intros ->; reflexivity]. destruct x as [| |k' n']; try discriminate. cbn [tb]. intros E0.
  assert (E : nth k' alphabet "a"%char = nth k alphabet "a"%char) by exact (f_equal (fun b => match b with BRef c _ => c | BLit _ => "a"%char end) E0).
  assert (E1 : n' = n) by exact (f_equal (fun b => match b with BRef _ i => i | BLit i => i end) E0).
  specialize (H k' n' eq_refl). f_equal; [|exact E1]. rewrite <- (letter_index k' H), <- (letter_index k K). now rewrite E.
Qed.

Lemma Forall2_nth {A B : Type} (R : A -> B -> Prop) la lb : Forall2 R la lb -> forall m b, nth_error lb m = Some b -> exists a, nth_error la m = Some a /\ R a b.
Proof. induction 1 as [|x y la lb H F IH]; intros [|m] b E; try discriminate; [injection E as <-; exists x; split; [reflexivity|exact H]|]. exact (IH m b E). Qed.

Lemma Forall2_nth' {A B : Type} (R : A -> B -> Prop) la lb : Forall2 R la lb -> forall m a, nth_error la m = Some a -> exists b, nth_error lb m = Some b /\ R a b.
Proof. induction 1 as [|x y la lb H F IH]; intros [|m] b E; try discriminate; [injection E as <-; exists y; split; [reflexivity|exact H]|]. exact (IH m b E). Qed.

Lemma extract_layout rss bs data k n : Forall2 layout8 rss bs -> Forall fields26 bs -> (k < 26)%nat -> 0 <= n ->
  (Z.testbit (extract (nth k alphabet "a"%char) rss data) n = true <->
   exists m b p x, nth_error bs m = Some b /\ nth_error b p = Some (PF k n) /\ nth_error data m = Some x /\ Z.testbit x (7 - Z.of_nat p) = true).
Proof.
  intros F N K Hn. rewrite extract_bit by (try lia; eapply wf_layouts; eauto). split.
  - intros (m & rs & x & i & A & B & C & D & E). destruct (Forall2_nth' _ _ _ F _ _ A) as (b & A' & L). exists m, b, (7 - Z.to_nat i)%nat, x.
    destruct (layout_bit rs b i L C) as (y & Y & T). rewrite D in T. injection T as T. symmetry in T.
    apply tb_ref in T; [|intros k' n' ->; eapply nth_error_In in A', Y; rewrite Forall_forall in N; exact (N _ A' _ _ Y)|exact K].
    subst y. repeat split; auto. replace (7 - Z.of_nat (7 - Z.to_nat i)) with i by lia. exact E.
  - intros (m & b & p & x & A & B & C & D). destruct (Forall2_nth _ _ _ F _ _ A) as (rs & A' & L).
    assert (P : (p < 8)%nat) by (destruct L as [<- _]; apply nth_error_Some; congruence).
    exists m, rs, x, (7 - Z.of_nat p). destruct (layout_bit rs b (7 - Z.of_nat p) L ltac:(lia)) as (y & Y & T).
    replace (7 - Z.to_nat (7 - Z.of_nat p))%nat with p in Y by lia. rewrite B in Y. injection Y as <-. repeat split; auto; lia.
Qed.

(** ** Encoding and extracting *)

Lemma eights_nth l bs : eights l bs -> forall m b p x, nth_error bs m = Some b -> nth_error b p = Some x -> nth_error l (8 * m + p) = Some x.
Proof.
  induction 1 as [|b0 l bs B E IH]; intros m b p x M P; [destruct m; discriminate|]. destruct m as [|m].
  - injection M as <-. cbn [Nat.mul Nat.add]. rewrite nth_error_app1; [exact P|]. apply nth_error_Some. congruence.
  - rewrite nth_error_app2 by lia. rewrite B. replace (8 * S m + p - 8)%nat with (8 * m + p)%nat by lia. eauto.
Qed.

Lemma eights_find l bs : eights l bs -> forall x, In x l -> exists m b p, nth_error bs m = Some b /\ nth_error b p = Some x.
Proof.
  induction 1 as [|b0 l bs B E IH]; intros x I; [contradiction|]. apply in_app_iff in I as [I|I].
  - apply In_nth_error in I as (p & P). exists 0%nat, b0, p. auto.
  - destruct (IH x I) as (m & b & p & M & P). exists (S m), b, p. auto.
Qed.

Lemma eights_len l bs : eights l bs -> Forall (fun b => List.length b = 8%nat) bs.
Proof. induction 1; constructor; auto. Qed.

Lemma value_bit args b p k n : List.length b = 8%nat -> nth_error b p = Some (PF k n) ->
  Z.testbit (pbyte_value args b) (7 - Z.of_nat p) = Z.testbit (nth k args 0) n.
Proof.
  intros L P. assert (H : (p < 8)%nat) by (rewrite <- L; apply nth_error_Some; congruence).
  rewrite pbyte_bit by lia. replace (Z.to_nat (7 - Z.of_nat p)) with (7 - p)%nat by lia.
  rewrite nth_rev by (auto; lia). replace (7 - (7 - p))%nat with p by lia. now rewrite P.
Qed.

Lemma extract_encoded rss l bs args rest k n : eights l bs -> Forall2 layout8 rss bs -> Forall fields26 bs -> (k < 26)%nat -> 0 <= n ->
  (Z.testbit (extract (nth k alphabet "a"%char) rss (map (pbyte_value args) bs ++ rest)) n = true <-> In (PF k n) l /\ Z.testbit (nth k args 0) n = true).
Proof.
  intros E F N K Hn. rewrite (extract_layout rss bs) by auto. pose proof (eights_len l bs E) as LN. rewrite Forall_forall in LN. split.
  - intros (m & b & p & x & M & P & X & T). split; [eapply nth_error_In, eights_nth; eauto|].
    rewrite nth_error_app1 in X by (rewrite map_length; apply nth_error_Some; congruence). rewrite nth_error_map, M in X. injection X as <-.
    rewrite <- T. symmetry. apply value_bit; [|exact P]. eapply LN, nth_error_In; eauto.
  - intros [I T]. destruct (eights_find l bs E _ I) as (m & b & p & M & P). exists m, b, p, (pbyte_value args b). repeat split; auto.
    + rewrite nth_error_app1 by (rewrite map_length; apply nth_error_Some; congruence). now rewrite nth_error_map, M.
    + rewrite <- T. apply value_bit; [|exact P]. eapply LN, nth_error_In; eauto.
Qed.

Lemma value_matches args b x : List.length b = 8%nat -> is_byte x -> matches b x ->
  (forall p k n, nth_error b p = Some (PF k n) -> Z.testbit (nth k args 0) n = Z.testbit x (7 - Z.of_nat p)) -> pbyte_value args b = x.
Proof.
  intros L B M H. apply (Z_bits_eq 8); try lia.
  - pose proof (pbyte_range args b) as R. rewrite L in R. exact R.
  - exact B.
  - intros k Hk. rewrite pbyte_bit by lia. rewrite nth_rev by (auto; lia).
    specialize (M (7 - Z.to_nat k)%nat ltac:(lia)). specialize (H (7 - Z.to_nat k)%nat).
    replace (7 - Z.of_nat (7 - Z.to_nat k)) with k in M, H by lia.
    destruct (nth_error b (7 - Z.to_nat k)) as [y|] eqn:Y; [|apply nth_error_None in Y; lia].
    rewrite (nth_error_nth _ _ P0 Y) in M. destruct y as [| |j n]; cbn [pbool]; [now rewrite M|now rewrite M|]. now apply H.
Qed.

Lemma encode_extracted rss l bs args data : eights l bs -> Forall2 layout8 rss bs -> Forall fields26 bs ->
  (forall k n, In (PF k n) l -> 0 <= n) -> named_once l ->
  Forall is_byte data -> Forall2 matches bs data ->
  (forall k n, In (PF k n) l -> nth k args 0 = extract (nth k alphabet "a"%char) rss data) ->
  map (pbyte_value args) bs = data.
Proof.
  intros E F N NN O B M A. pose proof (eights_len l bs E) as LN.
  assert (G : forall m b x, nth_error bs m = Some b -> nth_error data m = Some x -> is_byte x -> matches b x -> pbyte_value args b = x).
  { intros m b x Hb Hx Bx Mx. rewrite Forall_forall in LN. apply value_matches; auto; [eapply LN, nth_error_In; eauto|].
    intros p k n P. assert (I : In (PF k n) l) by (eapply nth_error_In, eights_nth; eauto).
    assert (K : (k < 26)%nat) by (rewrite Forall_forall in N; eapply (N b); eapply nth_error_In; eauto).
    rewrite (A k n I). apply eq_true_iff_eq. rewrite (extract_layout rss bs) by eauto. split.
    - intros (m' & b' & p' & x' & M' & P' & X' & T'). pose proof (O (8 * m + p)%nat (8 * m' + p')%nat k n
        ltac:(eapply eights_nth; eauto) ltac:(eapply eights_nth; eauto)) as Q.
      assert (p < 8 /\ p' < 8)%nat as [].
      { split; [rewrite <- (LN b) by (eapply nth_error_In; eauto)|rewrite <- (LN b') by (eapply nth_error_In; eauto)]; apply nth_error_Some; congruence. }
      assert (m' = m /\ p' = p) as [-> ->] by lia. rewrite Hx in X'. now injection X' as <-.
    - intros T. exists m, b, p, x. auto. }
  clear - B M G. revert G. induction M as [|b x bs data H M IH]; intros G; [reflexivity|]. apply Forall_cons_iff in B as [B1 B2]. cbn [map]. f_equal.
  - now apply (G O).
  - apply IH; [exact B2|]. intros m. exact (G (S m)).
Qed.

Lemma fields_of text l bs : spelled text l -> eights l bs -> Forall fields26 bs.
Proof. intros S E. apply Forall_forall. intros b I k n J. eapply spelled_fields; eauto. eapply eights_in; eauto. Qed.

Lemma extract_sign name rss bs data : Forall2 layout8 rss bs -> Forall is_byte data -> 0 <= extract name rss data.
Proof. intros F B. apply extract_nonneg; [eapply wf_layouts; eauto|]. eapply Forall_impl; [|exact B]. unfold is_byte. cbn. lia. Qed.
