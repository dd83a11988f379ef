(** Control-flow discovery against the specification. *)
From Coq Require Import ZArith List String Ascii Bool Lia.
From Verif Require Import Base Expr Instr Ast Printer SpecIsa CodecProofs CodecProofs2 ExprProofs Disasm SpecDisasm DisasmProofs.
Import ListNotations.
Open Scope string_scope.
Open Scope list_scope.
Open Scope Z_scope.

Lemma usize_small x : 0 <= x < 18446744073709551616 -> wrap_usize x = x.
Proof. intros H. unfold wrap_usize. apply Z.mod_small. exact H. Qed.

Lemma usize_negative x : - 2147483648 <= x < 0 -> 9223372036854775808 <= wrap_usize x.
Proof.
  intros H. unfold wrap_usize. rewrite <- (Z_mod_plus_full x 1 18446744073709551616). rewrite Z.mod_small; lia.
Qed.

Lemma branch8_address r next : - 128 <= r <= 127 -> 0 <= next <= 1073741830 -> branch8 r next = wrap_usize (next + r).
Proof. intros A B. unfold branch8. rewrite (wrap32_small next) by lia. rewrite wrap32_small by lia. f_equal. lia. Qed.

Lemma branch16_address r next : - 32768 <= r <= 32767 -> 0 <= next <= 1073741830 -> branch16 r next = wrap_usize (next - 1 + r).
Proof.
  intros A B. unfold branch16. rewrite (wrap32_small next) by lia. rewrite (wrap32_small (r + next)) by lia. rewrite wrap32_small by lia. f_equal. lia.
Qed.

Lemma page_address_value o next : 0 <= o <= 4095 -> page_address o next = wrap_usize ((next / 4096) mod 16 * 4096 + o).
Proof.
  intros A. unfold page_address. rewrite (usize_small o) by lia. rewrite land_f000, land_fff, (Z.mod_small o) by lia.
  pose proof (Z.mod_pos_bound (next / 4096) 16 ltac:(lia)) as B.
  rewrite usize_small by lia.
  rewrite (Z.add_nocarry_lxor ((next / 4096) mod 16 * 4096) o), <- (Z.lxor_lor _ o); try reflexivity.
  all: change 4096 with (2 ^ 12); rewrite <- Z.shiftl_mul_pow2 by lia; apply Z.bits_inj'; intros n N;
    rewrite Z.land_spec, Z.bits_0, Z.shiftl_spec by lia.
  all: destruct (Z_lt_dec n 12) as [L|L]; [rewrite Z.testbit_neg_r by lia; reflexivity|].
  all: rewrite andb_comm; replace (Z.testbit o n) with false; [reflexivity|];
    symmetry; rewrite <- (Z.mod_small o (2 ^ 12)) by (change (2 ^ 12) with 4096; lia); apply Z.mod_pow2_bits_high; lia.
Qed.

Lemma last_two {A : Type} (l : list A) xs x d : l = xs ++ [x] -> last l d = x.
Proof. intros ->. apply last_last. Qed.

(** What [goes] says of the instruction at [a]. *)
Definition step_to (i : instr Z Z) (next t : Z) : Prop :=
  (~ In (fst (key i)) no_fall_through /\ t = next) \/
  (snd (key i) <> [] /\ address (last (snd (key i)) I8) next (last (values i) 0) = Some t).

Lemma goes_iff bytes a t : Forall is_byte bytes ->
  goes bytes a t <-> exists i, inside bytes a /\ decode (skipn (Z.to_nat a) bytes) = Ok (Some i) /\ step_to i (a + size i) t.
Proof.
  intros F. split.
  - intros H. inversion H as [a0 i b S N|a0 i b ks k os o t0 S K V E]; subst.
    + destruct (stands_decode bytes a i t F S) as (I & D & B & _). exists i. split; [exact I|]. split; [exact D|]. left. auto.
    + destruct (stands_decode bytes a i b F S) as (I & D & B & _). exists i. split; [exact I|]. split; [exact D|]. right.
      split; [rewrite K; destruct ks; discriminate|]. rewrite (last_two _ _ _ I8 K), (last_two _ _ _ 0 V), <- B. exact E.
  - intros (i & I & D & [[N ->]|[N E]]).
    + eapply goes_on; [exact (decode_stands bytes a i F I D)|exact N].
    + assert (L: List.length (snd (key i)) = List.length (values i)).
      { destruct (stands_decode bytes a i _ F (decode_stands bytes a i F I D)) as (_ & _ & _ & _ & R). clear -R. induction R; cbn; congruence. }
      eapply (goes_to bytes a i _ (removelast (snd (key i))) (last (snd (key i)) I8) (removelast (values i)) (last (values i) 0)).
      * exact (decode_stands bytes a i F I D).
      * now apply app_removelast_last.
      * apply app_removelast_last. intros V. apply N. apply length_zero_iff_nil. rewrite L, V. reflexivity.
      * exact E.
Qed.

Ltac ranges R := unfold in_range, values in R; cbn [key snd op_list map strip] in R;
  repeat match goal with R : Forall2 in_field _ _ |- _ => inversion R; subst; clear R end;
  repeat match goal with H : in_field _ _ |- _ => unfold in_field in H; cbn in H end.

Lemma full_steps i next pos t : in_range i -> next = pos + size i -> 0 <= pos <= 1073741824 ->
  In t (full pos i) <-> exists u, step_to i next u /\ t = wrap_usize u.
Proof.
  intros R -> P. pose proof (size_bounds i) as S. set (next := pos + size i) in *.
  assert (NX: wrap_usize next = next) by (apply usize_small; lia).
  assert (B8: forall r, - 128 <= r <= 127 -> branch8 r next = wrap_usize (next + r)) by (intros; apply branch8_address; lia).
  assert (B16: forall r, - 32768 <= r <= 32767 -> branch16 r next = wrap_usize (next - 1 + r)) by (intros; apply branch16_address; lia).
  assert (PA: forall o, 0 <= o <= 4095 -> page_address o next = wrap_usize ((next / 4096) mod 16 * 4096 + o)) by (intros; now apply page_address_value).
  unfold full. split.
  - intros H. destruct i; cbn [targets] in H; rewrite ?leaves_new in H; fold next in H; cbn [In] in H;
      repeat match type of H with _ \/ _ => destruct H as [H|H] end; try contradiction; subst t.
    all: try (exists next; split; [left; split; [cbn; intuition discriminate|reflexivity]|symmetry; exact NX]).
    all: ranges R; eexists; (split; [right; split; [discriminate|cbn [key snd values last address]; reflexivity]|]).
    all: unfold values; cbn [op_list map strip last]; first [apply B8; lia|apply B16; lia|apply PA; lia|reflexivity].
  - intros (u & [[N ->]|[N E]] & ->).
    + rewrite NX. destruct i; cbn [targets]; rewrite ?leaves_new; fold next; cbn [In]; auto; exfalso; apply N; cbn; auto 10.
    + destruct i; unfold values in E; cbn [key snd op_list map strip last address] in E, N; try discriminate E; try congruence; injection E as <-; ranges R;
        cbn [targets]; rewrite ?leaves_new; fold next; rewrite ?B8, ?B16, ?PA by lia; cbn [In]; auto.
Qed.

Lemma full_goes bytes a i t : Forall is_byte bytes -> moderate bytes -> inside bytes a -> decode (skipn (Z.to_nat a) bytes) = Ok (Some i) ->
  (In t (full a i) <-> exists u, goes bytes a u /\ t = wrap_usize u).
Proof.
  intros F M I D. destruct (stands_decode bytes a i _ F (decode_stands bytes a i F I D)) as (_ & _ & _ & _ & R).
  rewrite (full_steps i (a + size i) a t R eq_refl) by (unfold inside, moderate in *; lia). split.
  - intros (u & S & E). exists u. split; [|exact E]. apply goes_iff; [exact F|]. exists i. auto.
  - intros (u & G & E). exists u. split; [|exact E]. apply goes_iff in G as (j & _ & D2 & S); [|exact F]. congruence.
Qed.

(** Targets stay near the binary. *)
Lemma step_bounds i next u : in_range i -> 0 <= next <= 1073741830 -> step_to i next u -> - 32769 <= u <= 1073774600.
Proof.
  intros R N [[_ ->]|[K E]]; [lia|]. pose proof (Z.mod_pos_bound (next / 4096) 16 ltac:(lia)).
  destruct i; unfold values in E; cbn [key snd op_list map strip last address] in E, K; try discriminate E; try congruence; injection E as <-; ranges R; lia.
Qed.

Lemma goes_bounds bytes a u : Forall is_byte bytes -> moderate bytes -> goes bytes a u -> inside bytes a /\ - 32769 <= u <= 1073774600.
Proof.
  intros F M G. apply goes_iff in G as (i & I & D & S); [|exact F]. split; [exact I|].
  destruct (stands_decode bytes a i _ F (decode_stands bytes a i F I D)) as (_ & _ & _ & _ & R).
  pose proof (size_bounds i). apply (step_bounds i (a + size i)); [exact R| |exact S]. unfold inside, moderate in *. lia.
Qed.

Lemma full_goes_inside bytes a i t : Forall is_byte bytes -> moderate bytes -> inside bytes a -> decode (skipn (Z.to_nat a) bytes) = Ok (Some i) ->
  inside bytes t -> (In t (full a i) <-> goes bytes a t).
Proof.
  intros F M I D T. rewrite (full_goes bytes a i t F M I D). unfold inside, moderate in *. split.
  - intros (u & G & E). destruct (goes_bounds bytes a u F M G) as [_ B]. destruct (Z_lt_dec u 0) as [L|L].
    + pose proof (usize_negative u ltac:(lia)). lia.
    + rewrite usize_small in E by lia. now subst.
  - intros G. exists t. split; [exact G|]. rewrite usize_small; [reflexivity|lia].
Qed.

Lemma treach_reach bytes entries a : Forall is_byte bytes -> moderate bytes -> treach bytes entries a -> inside bytes a ->
  reach (goes bytes) entries a.
Proof.
  intros F M H. induction H as [e I|a i t H IH I D J]; intros T; [now constructor|].
  apply reach_step with (a := a); [auto|]. apply (full_goes_inside bytes a i t F M I D T). exact J.
Qed.

Lemma built_inv bytes entries fuel g : Forall is_byte bytes -> Forall (fun e => 0 <= e) entries ->
  build_instruction_graph fuel entries bytes = Ok (inl g) -> inv bytes entries g [].
Proof. intros F E H. exact (discover_inv bytes entries F fuel entries new_graph g (inv_start bytes entries E) H). Qed.

Lemma built_closed bytes entries fuel g a i t : Forall is_byte bytes -> moderate bytes -> Forall (fun e => 0 <= e) entries ->
  build_instruction_graph fuel entries bytes = Ok (inl g) -> instr_at g a = Some i -> goes bytes a t -> inside bytes t ->
  contains_instr g t = true \/ (exists x, i = Jmpf x) /\ instr_at g (a - 2) = Some (Not1 269 0).
Proof.
  intros F M E H I G T. pose proof (built_inv bytes entries fuel g F E H) as V.
  destruct (i_decoded _ _ _ _ V a i I) as [IA D]. apply (full_goes_inside bytes a i t F M IA D T) in G.
  destruct (i_closed _ _ _ _ V a i t I G) as [[C|[[]|C]]|[C S]].
  - now left.
  - exfalso. unfold inside, blen in *. lia.
  - right. split; [|exact S]. destruct i; try discriminate C. eauto.
Qed.

Lemma switch_stands bytes entries g a x : Forall is_byte bytes -> inv bytes entries g [] -> instr_at g a = Some (Jmpf x) ->
  instr_at g (a - 2) = Some (Not1 269 0) -> memory_switch bytes (a - 2).
Proof.
  intros F V I J. destruct (i_decoded _ _ _ _ V _ _ I) as [I1 D1]. destruct (i_decoded _ _ _ _ V _ _ J) as [I2 D2].
  exists (a - 2 + 2), x, (a + 3). split; [exact (decode_stands bytes (a - 2) (Not1 269 0) F I2 D2)|].
  replace (a - 2 + 2) with a by lia. exact (decode_stands bytes a (Jmpf x) F I1 D1).
Qed.

Lemma built_complete bytes entries fuel g a : Forall is_byte bytes -> moderate bytes -> Forall (fun e => 0 <= e) entries ->
  build_instruction_graph fuel entries bytes = Ok (inl g) -> reach (goes_here bytes) entries a -> inside bytes a ->
  contains_instr g a = true.
Proof.
  intros F M E H R. pose proof (built_inv bytes entries fuel g F E H) as V. induction R as [e I|a t R IH [G N]]; intros T.
  - destruct (i_entries _ _ _ _ V e I) as [C|[[]|C]]; [exact C|]. exfalso. unfold inside, blen in *. lia.
  - destruct (goes_bounds bytes a t F M G) as [IA _]. specialize (IH IA). apply contains_iff in IH as (i & IH).
    destruct (built_closed bytes entries fuel g a i t F M E H IH G T) as [C|[[x ->] S]]; [exact C|].
    exfalso. apply N. exact (switch_stands bytes entries g a x F V IH S).
Qed.

Lemma reach_mono (p q : Z -> Z -> Prop) entries a : (forall x y, p x y -> q x y) -> reach p entries a -> reach q entries a.
Proof. intros H R. induction R as [e I|x y R IH S]; [now constructor|eapply reach_step; eauto]. Qed.

Lemma built_sound bytes entries fuel g a i : Forall is_byte bytes -> moderate bytes -> Forall (fun e => 0 <= e) entries ->
  build_instruction_graph fuel entries bytes = Ok (inl g) -> instr_at g a = Some i ->
  reach (goes bytes) entries a /\ inside bytes a /\ stands bytes a i (a + size i).
Proof.
  intros F M E H I. pose proof (built_inv bytes entries fuel g F E H) as V. destruct (i_decoded _ _ _ _ V a i I) as [IA D].
  split; [|split; [exact IA|exact (decode_stands bytes a i F IA D)]]. apply (treach_reach bytes entries a F M); [|exact IA].
  apply (i_reach _ _ _ _ V). apply contains_iff. eauto.
Qed.

Lemma built_error bytes entries fuel e : Forall is_byte bytes -> moderate bytes -> Forall (fun e => 0 <= e) entries ->
  build_instruction_graph fuel entries bytes = Ok (inr e) -> exists a, e = NoInstruction a (nth (Z.to_nat a) bytes 0) /\
    reach (goes bytes) entries a /\ inside bytes a /\ forall i b, ~ stands bytes a i b.
Proof.
  intros F M E H. destruct (discover_error bytes entries F fuel entries new_graph e (inv_start bytes entries E) H) as (a & -> & R & I & D).
  exists a. split; [reflexivity|]. split; [exact (treach_reach bytes entries a F M R I)|]. split; [exact I|].
  intros i b S. destruct (stands_decode bytes a i b F S) as (_ & D2 & _). congruence.
Qed.

Lemma long_enough bytes a : Forall is_byte bytes -> inside bytes a -> a + 3 <= Z.of_nat (List.length bytes) ->
  exists i, decode (skipn (Z.to_nat a) bytes) = Ok (Some i).
Proof.
  intros F [I0 I1] L. pose proof (skipn_bytes bytes (Z.to_nat a) F) as G. pose proof (skipn_length (Z.to_nat a) bytes) as K.
  destruct (skipn (Z.to_nat a) bytes) as [|b t]; [cbn in K; lia|]. inversion G as [|x y G1 G2]; subst.
  destruct (decode_total b t G1 G2) as (f & If & _ & _ & _ & H). destruct H as (i & D & _); [|eauto].
  assert (Q: forallb (fun f => (List.length (f_bits f) <=? 3)%nat) isa = true) by (vm_compute; reflexivity).
  rewrite forallb_forall in Q. specialize (Q f If). apply Nat.leb_le in Q. lia.
Qed.

(** * The worklist can grow without bound *)

(** [k] rounds of the outer loop of /repo/src/disasm.rs 926-958, with the worklist they leave. *)
Fixpoint rounds (k : nat) (bytes positions : list Z) (g : graph) : fallible (graph * list Z) :=
  match k with
  | O => Ok (inl (g, positions))
  | S k' =>
      let! r := visit_all bytes positions g [] in
      match r with inl (g', positions') => rounds k' bytes positions' g' | inr e => Ok (inr e) end
  end.

Lemma rounds_discover bytes : forall k f P g g' P', rounds k bytes P g = Ok (inl (g', P')) ->
  discover (k + f) bytes P g = discover f bytes P' g'.
Proof.
  induction k as [|k IH]; intros f P g g' P' H; cbn [rounds] in H; [now injection H as <- <-|].
  destruct P as [|a P]; cbn [Nat.add discover].
  - cbn [visit_all bind] in H. specialize (IH f [] g g' P' H). rewrite <- IH. now destruct (k + f)%nat.
  - destruct (visit_all bytes (a :: P) g []) as [[[g1 P1]|e]| | |]; cbn [bind] in *; try discriminate. exact (IH f P1 g1 g' P' H).
Qed.

Lemma rounds_app bytes : forall k m P g g' P', rounds k bytes P g = Ok (inl (g', P')) ->
  rounds (k + m) bytes P g = rounds m bytes P' g'.
Proof.
  induction k as [|k IH]; intros m P g g' P' H; cbn [rounds Nat.add] in *; [now injection H as <- <-|].
  destruct (visit_all bytes P g []) as [[[g1 P1]|e]| | |]; cbn [bind] in *; try discriminate. exact (IH m P1 g1 g' P' H).
Qed.

(** [n] branches [bz] to the next address. *)
Fixpoint branches (n : nat) : list Z := match n with O => [] | S m => 128 :: 0 :: branches m end.

Lemma branches_length n : List.length (branches n) = (2 * n)%nat.
Proof. induction n as [|n IH]; cbn [branches List.length]; lia. Qed.

Lemma branches_skip : forall k n, (k <= n)%nat -> skipn (2 * k) (branches n) = branches (n - k).
Proof.
  induction k as [|k IH]; intros n H; [cbn [Nat.mul skipn]; now rewrite Nat.sub_0_r|]. destruct n as [|n]; [lia|].
  replace (2 * S k)%nat with (S (S (2 * k))) by lia. cbn [branches skipn Nat.sub]. apply IH. lia.
Qed.

Lemma repeat_snoc {A : Type} (x : A) m : repeat x m ++ [x] = x :: repeat x m.
Proof. symmetry. apply repeat_cons. Qed.

Lemma branch_round n p : (2 * p < 1000000000) -> 0 <= p < Z.of_nat n -> forall m g P,
  (forall a, contains_instr g a = true -> a <= 2 * p) ->
  exists g', visit_all (branches n) (repeat (2 * p) m) g P = Ok (inl (g', P ++ repeat (2 * (p + 1)) (2 * m))) /\
    (forall a, contains_instr g' a = true -> a <= 2 * p).
Proof.
  intros SM B. induction m as [|m IH]; intros g P N.
  - exists g. cbn. rewrite app_nil_r. auto.
  - cbn [repeat visit_all].
    assert (L: blen (branches n) = 2 * Z.of_nat n) by (unfold blen; rewrite branches_length; lia).
    assert (V: visit (branches n) (2 * p) g P = Ok (inl (visited (2 * p) (Bz 0) g, P ++ [2 * (p + 1); 2 * (p + 1)]))).
    { unfold visit. rewrite L. replace (2 * p =? 2 * Z.of_nat n) with false by (symmetry; apply Z.eqb_neq; lia).
      replace (2 * Z.of_nat n <? 2 * p) with false by (symmetry; apply Z.ltb_ge; lia).
      replace (Z.to_nat (2 * p)) with (2 * Z.to_nat p)%nat by lia. rewrite branches_skip by lia.
      destruct (n - Z.to_nat p)%nat as [|k] eqn:Q; [lia|]. cbn [branches].
      replace (decode (128 :: 0 :: branches k)) with (Ok (Some (Bz 0 : instr Z Z))).
      2: { symmetry. exact (decode_encode (Bz 0) (branches k) ltac:(repeat constructor; discriminate) ltac:(clear; induction k; cbn; repeat constructor; assumption || discriminate)). }
      cbn [bind]. fold (visited (2 * p) (Bz 0) g). do 2 f_equal.
      change (targets (2 * p) (Bz 0) g) with [branch8 0 (2 * p + 2); 2 * p + 2].
      rewrite branch8_address by lia. rewrite usize_small by lia. replace (2 * p + 2 + 0) with (2 * (p + 1)) by lia. replace (2 * p + 2) with (2 * (p + 1)) by lia.
      cbn [filter]. assert (C: contains_instr (visited (2 * p) (Bz 0) g) (2 * (p + 1)) = false).
      { destruct (contains_instr (visited (2 * p) (Bz 0) g) (2 * (p + 1))) eqn:Q2; [|reflexivity]. apply visited_contains in Q2 as [Q2|Q2]; [lia|]. apply N in Q2. lia. }
      rewrite C. reflexivity. }
    rewrite V. cbn [bind]. destruct (IH (visited (2 * p) (Bz 0) g) (P ++ [2 * (p + 1); 2 * (p + 1)])) as (g' & E & N').
    + intros a C. apply visited_contains in C as [->|C]; [lia|auto].
    + exists g'. split; [|exact N']. rewrite E. do 2 f_equal. rewrite <- app_assoc. do 2 f_equal.
      replace (2 * S m)%nat with (S (S (2 * m))) by lia. reflexivity.
Qed.

Lemma branch_rounds n : (Z.of_nat n < 100000000) -> forall k, (k <= n)%nat -> exists g,
  rounds k (branches n) [0] new_graph = Ok (inl (g, repeat (2 * Z.of_nat k) (2 ^ k))) /\
  (forall a, contains_instr g a = true -> a <= 2 * Z.of_nat k - 2).
Proof.
  intros SM. induction k as [|k IH]; intros H.
  - exists new_graph. split; [reflexivity|]. discriminate.
  - destruct IH as (g & E & N); [lia|].
    destruct (branch_round n (Z.of_nat k) ltac:(lia) ltac:(lia) (2 ^ k)%nat g []) as (g' & E' & N').
    + intros a C. apply N in C. lia.
    + exists g'. split.
      * replace (S k) with (k + 1)%nat by lia. rewrite (rounds_app _ _ _ _ _ _ _ E). cbn [rounds]. rewrite E'. cbn [bind app].
        do 3 f_equal. replace (2 ^ (k + 1))%nat with (2 * 2 ^ k)%nat by (rewrite Nat.pow_add_r; cbn; lia). f_equal. lia.
      * intros a C. apply N' in C. lia.
Qed.
