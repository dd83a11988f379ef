(** Property C32: control-flow discovery of the disassembler.  Property C52: the work it takes.  Property
    C34: code labels are defined. *)
From Coq Require Import ZArith List String Ascii Bool Lia.
From Verif Require Import Base Expr Instr Ast Printer SpecIsa CodecProofs CodecProofs2 Disasm SpecDisasm DisasmProofs DisasmProofs2 DisasmProofs3 DisasmProofs4.
Import ListNotations.
Open Scope string_scope.
Open Scope list_scope.
Open Scope Z_scope.

(** * C32 *)

(** Discovery ends for every binary and every list of entry points, without a panic: after at most two
    rounds more than the binary has bytes. *)
Theorem C32_terminates : forall bytes entries fuel, Forall is_byte bytes -> Forall (fun e => 0 <= e) entries ->
  (List.length bytes + 2 <= fuel)%nat -> exists r, build_instruction_graph fuel entries bytes = Ok r.
Proof. exact build_ends. Qed.
Print Assumptions C32_terminates.

(** The result does not depend on the number of rounds allowed. *)
Theorem C32_one_result : forall bytes entries f1 f2 r1 r2, build_instruction_graph f1 entries bytes = Ok r1 ->
  build_instruction_graph f2 entries bytes = Ok r2 -> r1 = r2.
Proof.
  intros bytes entries f1 f2 r1 r2 H1 H2. apply (discover_more bytes f1 entries new_graph r1) with (k := f2) in H1.
  apply (discover_more bytes f2 entries new_graph r2) with (k := f1) in H2. rewrite Nat.add_comm in H2. congruence.
Qed.
Print Assumptions C32_one_result.

(** Every offset marked as an instruction is reachable from an entry point, and the instruction recorded
    for it is the one that stands there. *)
Theorem C32_sound : forall bytes entries fuel g a i, Forall is_byte bytes -> moderate bytes -> Forall (fun e => 0 <= e) entries ->
  build_instruction_graph fuel entries bytes = Ok (inl g) -> instr_at g a = Some i ->
  reach (goes bytes) entries a /\ inside bytes a /\ exists b, stands bytes a i b.
Proof.
  intros bytes entries fuel g a i F M E H I. destruct (built_sound bytes entries fuel g a i F M E H I) as (R & IA & S). eauto.
Qed.
Print Assumptions C32_sound.

(** Every offset of the binary reachable without a jump into another memory is marked. *)
Theorem C32_complete : forall bytes entries fuel g a, Forall is_byte bytes -> moderate bytes -> Forall (fun e => 0 <= e) entries ->
  build_instruction_graph fuel entries bytes = Ok (inl g) -> reach (goes_here bytes) entries a -> inside bytes a ->
  exists i, instr_at g a = Some i.
Proof.
  intros bytes entries fuel g a F M E H R I. apply contains_iff. exact (built_complete bytes entries fuel g a F M E H R I).
Qed.
Print Assumptions C32_complete.

(** From a marked offset every step into the binary leads to a marked offset, except from a [jmpf] behind a
    marked [not1 ext,0]. *)
Theorem C32_closed : forall bytes entries fuel g a i t, Forall is_byte bytes -> moderate bytes -> Forall (fun e => 0 <= e) entries ->
  build_instruction_graph fuel entries bytes = Ok (inl g) -> instr_at g a = Some i -> goes bytes a t -> inside bytes t ->
  (exists j, instr_at g t = Some j) \/ (exists x, i = Jmpf x) /\ instr_at g (a - 2) = Some (Not1 269 0).
Proof.
  intros bytes entries fuel g a i t F M E H I G T.
  destruct (built_closed bytes entries fuel g a i t F M E H I G T) as [C|C]; [left; now apply contains_iff|now right].
Qed.
Print Assumptions C32_closed.

(** In a binary without [not1 ext,0] followed by [jmpf], exactly the reachable offsets are marked. *)
Theorem C32_exact : forall bytes entries fuel g, Forall is_byte bytes -> moderate bytes -> Forall (fun e => 0 <= e) entries ->
  (forall a, ~ memory_switch bytes a) -> build_instruction_graph fuel entries bytes = Ok (inl g) ->
  forall a, (exists i, instr_at g a = Some i) <-> reach (goes bytes) entries a /\ inside bytes a.
Proof.
  intros bytes entries fuel g F M E N H a. split.
  - intros [i I]. destruct (built_sound bytes entries fuel g a i F M E H I) as (R & IA & _). auto.
  - intros [R I]. apply (C32_complete bytes entries fuel g a F M E H); [|exact I].
    apply (reach_mono (goes bytes)); [|exact R]. intros x y G. split; [exact G|apply N].
Qed.
Print Assumptions C32_exact.

(** If discovery fails, the position it reports is reachable, lies in the binary, holds the byte reported,
    and no instruction stands there; it is one of the last two bytes, as only a cut instruction cannot be
    decoded. *)
Theorem C32_failure : forall bytes entries fuel e, Forall is_byte bytes -> moderate bytes -> Forall (fun e => 0 <= e) entries ->
  build_instruction_graph fuel entries bytes = Ok (inr e) -> exists a x, e = NoInstruction a x /\
    nth_error bytes (Z.to_nat a) = Some x /\ reach (goes bytes) entries a /\ inside bytes a /\ (forall i b, ~ stands bytes a i b) /\
    Z.of_nat (List.length bytes) <= a + 2.
Proof.
  intros bytes entries fuel e F M E H. destruct (built_error bytes entries fuel e F M E H) as (a & -> & R & I & N).
  exists a, (nth (Z.to_nat a) bytes 0). split; [reflexivity|].
  split; [apply nth_error_nth'; unfold inside in I; lia|]. split; [exact R|]. split; [exact I|]. split; [exact N|].
  destruct (Z_le_dec (Z.of_nat (List.length bytes)) (a + 2)) as [L|L]; [exact L|]. exfalso.
  destruct (long_enough bytes a F I ltac:(lia)) as [i D]. exact (N _ _ (decode_stands bytes a i F I D)).
Qed.
Print Assumptions C32_failure.

(** Conversely, discovery fails if a position reachable without a jump into another memory holds no
    instruction. *)
Theorem C32_fails : forall bytes entries fuel a, Forall is_byte bytes -> moderate bytes -> Forall (fun e => 0 <= e) entries ->
  (List.length bytes + 2 <= fuel)%nat -> reach (goes_here bytes) entries a -> inside bytes a -> (forall i b, ~ stands bytes a i b) ->
  exists e, build_instruction_graph fuel entries bytes = Ok (inr e).
Proof.
  intros bytes entries fuel a F M E L R I N. destruct (build_ends bytes entries fuel F E L) as ([g|e] & H); [|eauto].
  exfalso. destruct (C32_complete bytes entries fuel g a F M E H R I) as [i J].
  destruct (built_sound bytes entries fuel g a i F M E H J) as (_ & _ & S). exact (N _ _ S).
Qed.
Print Assumptions C32_fails.

Local Ltac byte_list := repeat (apply Forall_cons; [unfold is_byte; lia|]); apply Forall_nil.
Local Ltac entry_list := repeat (apply Forall_cons; [lia|]); apply Forall_nil.

(** A loop that calls a subroutine; the data at offsets 5 and 7 is not marked. *)
Definition sample : list Z := [16; 4; 0; 1; 251; 255; 160; 255].

Example C32_case : sample = encode (Callr 4) ++ encode (Br (-5)) ++ [255] ++ encode Ret ++ [255] /\
  Forall is_byte sample /\ moderate sample /\ (forall a, ~ memory_switch sample a) /\
  exists g, build_instruction_graph 10 [0] sample = Ok (inl g) /\ instr_at g 0 = Some (Callr 4) /\
    instr_at g 3 = Some (Br (-5)) /\ instr_at g 6 = Some Ret /\
    forall a, instr_at g a <> None -> a = 0 \/ a = 3 \/ a = 6.
Proof.
  assert (F: Forall is_byte sample) by byte_list.
  split; [vm_compute; reflexivity|]. split; [exact F|]. split; [unfold moderate; cbn; lia|]. split.
  - intros a (b & x & c & S & _). destruct (stands_decode sample a _ b F S) as (I & D & _). unfold inside in I. cbn [List.length sample] in I.
    assert (Q: a = 0 \/ a = 1 \/ a = 2 \/ a = 3 \/ a = 4 \/ a = 5 \/ a = 6 \/ a = 7) by lia.
    repeat (destruct Q as [->|Q]; [vm_compute in D; discriminate|]). subst. vm_compute in D. discriminate.
  - eexists. split; [vm_compute; reflexivity|]. split; [reflexivity|]. split; [reflexivity|]. split; [reflexivity|].
    intros a H. unfold instr_at in H. cbn [g_instrs lookup] in H.
    destruct (3 =? a) eqn:E1; [apply Z.eqb_eq in E1; lia|]. destruct (6 =? a) eqn:E2; [apply Z.eqb_eq in E2; lia|].
    destruct (0 =? a) eqn:E3; [apply Z.eqb_eq in E3; lia|]. congruence.
Qed.

(** A cut instruction behind a branch. *)
Example C32_failure_case : build_instruction_graph 10 [0] [128; 1; 160; 33; 0] = Ok (inr (NoInstruction 3 33)) /\
  goes [128; 1; 160; 33; 0] 0 3.
Proof.
  split; [vm_compute; reflexivity|]. apply goes_iff; [byte_list|]. exists (Bz 1). split; [unfold inside; cbn; lia|].
  split; [vm_compute; reflexivity|]. right. split; [discriminate|reflexivity].
Qed.

(** As stated, without the exception for jumps into another memory, the property is false: behind
    [not1 ext,0] the target of a [jmpf] is not marked. *)
Theorem C32_memory_switch_refuted : exists bytes entries fuel g a, Forall is_byte bytes /\ moderate bytes /\
  build_instruction_graph fuel entries bytes = Ok (inl g) /\ reach (goes bytes) entries a /\ inside bytes a /\ instr_at g a = None.
Proof.
  exists [184; 13; 33; 0; 5; 160], [0], 10%nat. eexists. exists 5.
  assert (F: Forall is_byte [184; 13; 33; 0; 5; 160]) by byte_list.
  split; [exact F|]. split; [unfold moderate; cbn; lia|]. split; [vm_compute; reflexivity|]. split; [|split; [unfold inside; cbn; lia|reflexivity]].
  apply reach_step with (a := 2); [apply reach_step with (a := 0); [apply reach_entry; now left|]|].
  - apply goes_iff; [exact F|]. exists (Not1 269 0). split; [unfold inside; cbn; lia|]. split; [vm_compute; reflexivity|].
    left. split; [cbn; intuition discriminate|reflexivity].
  - apply goes_iff; [exact F|]. exists (Jmpf 5). split; [unfold inside; cbn; lia|]. split; [vm_compute; reflexivity|].
    right. split; [discriminate|reflexivity].
Qed.
Print Assumptions C32_memory_switch_refuted.

(** The program counter of the CPU has sixteen bits; discovery does not wrap around.  A relative branch
    from the start of a binary of 64 KiB to its end is not followed. *)
Theorem C32_wraparound_refuted : exists bytes entries fuel g a i b t, Forall is_byte bytes /\
  Z.of_nat (List.length bytes) = 65536 /\ build_instruction_graph fuel entries bytes = Ok (inl g) /\
  instr_at g a = Some i /\ stands bytes a i b /\ snd (key i) = [R8] /\
  cpu_target R8 b (hd 0 (values i)) = Some t /\ inside bytes t /\ instr_at g t = None.
Proof.
  set (bytes := [1; 251] ++ repeat 0 (Z.to_nat 65534)).
  assert (L: Z.of_nat (List.length bytes) = 65536).
  { unfold bytes. rewrite app_length, repeat_length. cbn [List.length]. rewrite Nat2Z.inj_add, Z2Nat.id by lia. reflexivity. }
  assert (F: Forall is_byte bytes).
  { unfold bytes. apply Forall_app. split; [byte_list|]. apply Forall_forall. intros x I. apply repeat_spec in I. subst. unfold is_byte. lia. }
  assert (M: moderate bytes) by (unfold moderate; lia).
  assert (D: decode (skipn (Z.to_nat 0) bytes) = Ok (Some (Br (-5)))).
  { change (skipn (Z.to_nat 0) bytes) with (encode (Br (-5)) ++ repeat 0 (Z.to_nat 65534)). apply decode_encode; [repeat constructor; discriminate|].
    apply Forall_forall. intros x I. apply repeat_spec in I. subst. unfold is_byte. lia. }
  assert (I0: inside bytes 0) by (unfold inside; lia).
  assert (R: forall a, reach (goes bytes) [0] a -> a = 0 \/ a = -3).
  { intros a R. induction R as [e I|a t R IH G]; [destruct I as [I|I]; [left; congruence|contradiction]|].
    apply goes_iff in G as (i & I & D2 & S); [|exact F]. destruct IH as [-> | ->]; [|unfold inside in I; lia].
    rewrite D in D2. injection D2 as <-. destruct S as [[S _]|[_ S]]; [exfalso; apply S; cbn; tauto|]. injection S as <-. right. reflexivity. }
  destruct (build_ends bytes [0] (List.length bytes + 2) F ltac:(entry_list) ltac:(lia)) as ([g|e] & H).
  - assert (J: exists i, instr_at g 0 = Some i) by (apply contains_iff; exact (built_complete bytes [0] _ g 0 F M ltac:(entry_list) H ltac:(apply reach_entry; now left) I0)).
    destruct J as [i J]. assert (i = Br (-5)).
    { destruct (i_decoded _ _ _ _ (built_inv bytes [0] _ g F ltac:(entry_list) H) 0 i J) as [_ D2]. congruence. }
    subst i. exists bytes, [0], (List.length bytes + 2)%nat, g, 0, (Br (-5)), 2, 65533.
    split; [exact F|]. split; [exact L|]. split; [exact H|]. split; [exact J|].
    split; [exact (decode_stands bytes 0 (Br (-5)) F I0 D)|]. split; [reflexivity|]. split; [reflexivity|]. split; [unfold inside; lia|].
    destruct (instr_at g 65533) as [j|] eqn:Q; [|reflexivity]. exfalso.
    destruct (built_sound bytes [0] _ g 65533 j F M ltac:(entry_list) H Q) as (R2 & _). apply R in R2. lia.
  - exfalso. destruct (built_error bytes [0] _ e F M ltac:(entry_list) H) as (a & _ & R2 & I & N). apply R in R2 as [-> | ->].
    + exact (N _ _ (decode_stands bytes 0 _ F I D)).
    + unfold inside in I. lia.
Qed.
Print Assumptions C32_wraparound_refuted.

(** For targets within the address space and the binary, [address] is where the CPU goes. *)
Theorem C32_cpu : forall k next o t, address k next o = Some t -> 0 <= t < 65536 -> cpu_target k next o = Some t.
Proof.
  intros k next o t. destruct k; cbn [address cpu_target]; intros [= <-] H; try reflexivity; rewrite Z.mod_small by exact H; reflexivity.
Qed.
Print Assumptions C32_cpu.

(** * C52 *)

(** The number of positions to visit is not bounded by any polynomial in the size of the binary: a position is
    queued once for each step leading to it in a round.  For [n] branches to the next address, the worklist has
    [2 ^ n] entries after [n] rounds. *)
Theorem C52_work_refuted : forall n, Z.of_nat n < 100000000 -> exists bytes g positions,
  List.length bytes = (2 * n)%nat /\ Forall is_byte bytes /\ rounds n bytes [0] new_graph = Ok (inl (g, positions)) /\
  List.length positions = (2 ^ n)%nat /\
  forall f, build_instruction_graph (n + f) [0] bytes = discover f bytes positions g.
Proof.
  intros n S. destruct (branch_rounds n S n (Nat.le_refl n)) as (g & E & _).
  exists (branches n), g, (repeat (2 * Z.of_nat n) (2 ^ n)). split; [apply branches_length|]. split.
  - clear. induction n as [|n IH]; [constructor|]. cbn [branches]. constructor; [unfold is_byte; lia|]. constructor; [unfold is_byte; lia|exact IH].
  - split; [exact E|]. split; [apply repeat_length|]. intros f. exact (rounds_discover _ n f [0] new_graph g _ E).
Qed.
Print Assumptions C52_work_refuted.

Example C52_case : exists g, rounds 3 [128; 0; 128; 0; 128; 0] [0] new_graph = Ok (inl (g, [6; 6; 6; 6; 6; 6; 6; 6])).
Proof. eexists. vm_compute. reflexivity. Qed.

(** * C34 *)

(** The disassembler always ends with a listing or an error, never in a panic. *)
Theorem C34_total : forall fuel flag entries bytes, Forall is_byte bytes -> Forall (fun e => 0 <= e) entries ->
  (List.length bytes + 2 <= fuel)%nat -> exists r, disassemble fuel flag entries bytes = Ok r.
Proof. exact disassemble_ends. Qed.
Print Assumptions C34_total.

(** Every instruction of the listing is the one that stands at its position.  If its jump operand is the
    name of a label and leads into the binary, the label is defined exactly once, before the instruction it
    leads to; if it leads elsewhere, the label is not defined at all. *)
Theorem C34_defined_once : forall fuel flag entries bytes l d j name, Forall is_byte bytes -> moderate bytes ->
  Forall (fun e => 0 <= e) entries -> disassemble fuel flag entries bytes = Ok (inl l) ->
  In d l -> d_statement d = SInstr j -> code_label j = Some name ->
  exists a i b t, d_pos d = Some a /\ stands bytes a i b /\ key i = key j /\ leads i b t /\
    (inside bytes t -> definitions name (map d_statement l) = 1%nat /\
       exists l1 l2 dt k, filter is_code l = l1 ++ d_label name :: dt :: l2 /\ d_pos dt = Some t /\ d_statement dt = SInstr k) /\
    (~ inside bytes t -> definitions name (map d_statement l) = 0%nat).
Proof.
  intros fuel flag entries bytes l d j name F M E H I S K. destruct (disassemble_inv _ _ _ _ _ H) as (g & lifted & r & B & LI & EM & ->).
  destruct (listing_instr flag entries bytes g lifted r LI EM d j I S) as (p & i0 & D & IA0 & L0 & LF).
  destruct (listing_label flag entries bytes g lifted r LI EM d j name I S K) as (a & i & t & P & IA & T & Q & ->).
  assert (a = p) by (rewrite D in P; cbn in P; congruence). subst p. assert (i0 = i) by congruence. subst i0.
  destruct (built_sound bytes entries fuel g a i F M E B IA) as (_ & IN & ST).
  destruct (stands_decode bytes a i _ F ST) as (_ & _ & _ & _ & R).
  assert (PB: 0 <= a <= 1073741824) by (unfold inside, moderate in *; lia).
  pose proof (proj1 (target_leads a i R PB t) T) as (u & LD & TU).
  destruct (same_target a i t u bytes F M IN ST LD TU) as (TI & TO & TB).
  destruct (label_inside fuel entries bytes g F E B a i t IA T Q) as [CI LB].
  pose proof (listing_count flag entries bytes g lifted r M EM t (jump_target_range a i t T)) as CN.
  exists a, i, (a + size i), u. split; [exact P|]. split; [exact ST|]. split; [symmetry; exact (lift_key a g i _ j LF)|]. split; [exact LD|]. split.
  - intros IU. specialize (TI IU). subst t. rewrite TI in *. assert (TL: u < blen bytes) by (unfold inside, blen in *; lia). specialize (CI TL). split.
    + rewrite CN. replace (u <? blen bytes) with true by (symmetry; apply Z.ltb_lt; exact TL).
      unfold has_label. cbn [l_lifted l_names n_labels build_names]. rewrite LB. apply contains_iff in CI as (k & CI).
      destruct (lifted_of g lifted LI u k CI) as (jj & -> & _). reflexivity.
    + destruct (listing_split fuel flag entries bytes g lifted r F E B LI EM u CI LB) as (l1 & l2 & k & EQ).
      exists l1, l2, (d_instr u k (arrival_comment flag g u)), k. split; [exact EQ|]. split; reflexivity.
  - intros NU. specialize (TO NU). rewrite CN. replace (t <? blen bytes) with false by (symmetry; apply Z.ltb_ge; exact TO). reflexivity.
Qed.
Print Assumptions C34_defined_once.

(** Every label that the listing defines is used: some instruction of the listing jumps to it. *)
Theorem C34_used : forall fuel flag entries bytes l d name, Forall is_byte bytes -> Forall (fun e => 0 <= e) entries ->
  disassemble fuel flag entries bytes = Ok (inl l) -> In d l -> d_statement d = SLabel name ->
  exists d' j, In d' l /\ d_statement d' = SInstr j /\ code_label j = Some name.
Proof.
  intros fuel flag entries bytes l d name F E H I S. destruct (disassemble_inv _ _ _ _ _ H) as (g & lifted & r & B & LI & EM & ->).
  pose proof (listing_code flag entries bytes g lifted r EM) as LC.
  assert (J: In d (filter is_code (r ++ tail_part (mkListing flag entries bytes g lifted (build_names g))))) by (apply filter_In; split; [exact I|unfold is_code; now rewrite S]).
  rewrite LC in J. apply in_flat_map in J as (p & _ & J). unfold code_at in J. cbn [l_lifted l_names n_labels build_names l_flag l_graph] in J.
  destruct (lookup p lifted) as [jp|]; [|destruct J]. apply in_app_or in J as [J|[<-|[]]]; [|discriminate].
  destruct (lookup p (compute_labels g)) as [n|] eqn:L; [|destruct J]. destruct J as [<-|[]]. cbn in S. injection S as ->.
  pose proof (labels_name g p name L) as ->. destruct (proj1 (labels_iff g p) (ex_intro _ _ L)) as (a & i & IA & T & Q).
  pose proof (built_inv bytes entries fuel g F E B) as V. apply (in_lookup a i _ (i_keys _ _ _ _ V)) in IA.
  destruct (lifted_of g lifted LI a i IA) as (j & J1 & J2). destruct (i_decoded _ _ _ _ V a i IA) as [IN _].
  exists (d_instr a j (arrival_comment flag g a)), j. split; [|split; [reflexivity|]].
  - assert (X: In (d_instr a j (arrival_comment flag g a)) (filter is_code (r ++ tail_part (mkListing flag entries bytes g lifted (build_names g))))).
    { rewrite LC. apply in_flat_map. exists a. split; [apply in_upto; unfold inside in IN; lia|]. unfold code_at. cbn [l_lifted l_names n_labels build_names l_flag l_graph].
      rewrite J1. apply in_or_app. right. now left. }
    apply filter_In in X. tauto.
  - rewrite (lift_code_label a g i (build_names g) j (names_ok g) J2), T, Q. exact L.
Qed.
Print Assumptions C34_used.

(** The claim without the condition on the target is false: a branch behind the end of the binary. *)
Theorem C34_outside_refuted : exists bytes l d j name, Forall is_byte bytes /\ moderate bytes /\
  disassemble 10 false [0] bytes = Ok (inl l) /\ In d l /\ d_statement d = SInstr j /\ code_label j = Some name /\
  definitions name (map d_statement l) = 0%nat.
Proof.
  exists [1; 5]. eexists. exists (d_instr 0 (Br (EName "label_0007")) None), (Br (EName "label_0007")), "label_0007".
  split; [byte_list|]. split; [unfold moderate; cbn; lia|]. split; [vm_compute; reflexivity|]. split; [|split; [reflexivity|]; split; [reflexivity|vm_compute; reflexivity]].
  do 3 right. now left.
Qed.
Print Assumptions C34_outside_refuted.

(** The sample: the labels of offset 0 and offset 6 are defined once. *)
Example C34_case : exists l d j, disassemble 10 false [0] sample = Ok (inl l) /\ In d l /\ d_pos d = Some 3 /\
  d_statement d = SInstr j /\ code_label j = Some "label_0000" /\
  definitions "label_0000" (map d_statement l) = 1%nat /\ definitions "label_0006" (map d_statement l) = 1%nat.
Proof.
  eexists. exists (d_instr 3 (Br (EName "label_0000")) None), (Br (EName "label_0000")).
  split; [vm_compute; reflexivity|]. split; [do 5 right; now left|]. split; [reflexivity|]. split; [reflexivity|]. split; [reflexivity|]. split; vm_compute; reflexivity.
Qed.
