(** Property C33: disassembling and assembling again reproduces the binary. *)
From Coq Require Import ZArith List String Ascii Bool Lia.
From Verif Require Import Base Expr Instr Ast Macro Asm Lexer Parser Printer Files CHeader Img Include.
From Verif Require Import SpecIsa SpecExpr SpecAsm SpecFiles AsmProofs4 Disasm SpecDisasm DisasmProofs DisasmProofs2 DisasmProofs3 DisasmProofs4 DisasmProofs7 DisasmProofs8 DisasmProofs9 DisasmProofs10 CodecProofs AsmProofs PropsDisasm.
Import ListNotations.
Open Scope string_scope.
Open Scope list_scope.
Open Scope Z_scope.

(** * The image of the listing *)

Lemma multiple_image (bytes out : list Z) e : 0 <= e <= Z.of_nat (List.length bytes) -> Z.of_nat (List.length bytes) mod 512 = 0 ->
  Z.of_nat (List.length out) = Z.of_nat (List.length bytes) mod 512 + round_up e 512 ->
  Z.of_nat (List.length out) mod 512 = 0 /\ (List.length out <= List.length bytes)%nat.
Proof.
  intros E D L. rewrite D in L. unfold round_up in L. pose proof (Z_mod_lt (- e) 512 ltac:(lia)). pose proof (Z_div_mod_eq_full (- e) 512).
  pose proof (Z_div_mod_eq_full (Z.of_nat (List.length bytes)) 512). split; [|lia].
  rewrite L. rewrite Z.add_0_l, Z.mul_comm. apply Z.mod_mul. lia.
Qed.

(** A binary is disassembled from some entry points, the listing is printed and saved in some file, and the
    file is assembled.  If no two of the discovered instructions overlap and the file assembles, then the
    image is the binary up to zeros at the end.  For a binary of full 512-byte blocks, as game files are, the
    image consists of full blocks too and is the binary without some of the zeros at its end. *)
Theorem C33_image : forall uuid pr fuel fuel2 flag entries bytes l v pics wd name out,
  Forall is_byte bytes -> moderate bytes -> Forall (fun e => 0 <= e) entries ->
  disassemble fuel flag entries bytes = Ok (inl l) ->
  no_overlap (map (fun d => (d_pos d, d_statement d)) l) ->
  is_absolute wd = true -> read_bytes v (join wd name) = Some (String.concat "" (map (show_dstatement false) l)) ->
  assemble_file uuid pr (S fuel2) v pics (new_files wd) name = Ok out ->
  same_image out bytes /\
  (Z.of_nat (List.length bytes) mod 512 = 0 -> Z.of_nat (List.length out) mod 512 = 0 /\ exists n, bytes = out ++ repeat 0 n).
Proof.
  intros uuid pr fuel fuel2 flag entries bytes l v pics wd name out F M E H N A R X.
  rewrite (listing_file uuid pr fuel fuel2 flag entries bytes l v pics wd name F M E H A R) in X.
  destruct (listing_image fuel flag entries bytes l pr out F M E H N X) as (I & e & Q & L). split.
  - eexists. eexists. exact I.
  - intros D. destruct (multiple_image bytes out e Q D L) as [K1 K2]. split; [exact K1|]. exists (List.length bytes - List.length out)%nat.
    rewrite I. replace (List.length out - List.length bytes)%nat with O by lia. cbn [repeat]. now rewrite app_nil_r.
Qed.
Print Assumptions C33_image.

(** The same for the disassemble command, whose entry points are fixed by the file type. *)
Theorem C33_command : forall uuid pr fuel fuel2 flag file_type bytes l text entries v pics wd name out,
  Forall is_byte bytes -> moderate bytes ->
  disassemble_cmd fuel false flag file_type bytes = Ok (inl text) ->
  entry_points_of file_type = Some entries -> disassemble fuel flag entries bytes = Ok (inl l) ->
  no_overlap (map (fun d => (d_pos d, d_statement d)) l) ->
  is_absolute wd = true -> read_bytes v (join wd name) = Some text ->
  assemble_file uuid pr (S fuel2) v pics (new_files wd) name = Ok out ->
  same_image out bytes /\
  (Z.of_nat (List.length bytes) mod 512 = 0 -> Z.of_nat (List.length out) mod 512 = 0 /\ exists n, bytes = out ++ repeat 0 n).
Proof.
  intros uuid pr fuel fuel2 flag file_type bytes l text entries v pics wd name out F M C EP H N A R X.
  unfold disassemble_cmd in C. rewrite EP, H in C. cbn [bind] in C. assert (T: text = String.concat "" (map (show_dstatement false) l)) by congruence.
  rewrite T in R. apply (C33_image uuid pr fuel fuel2 flag entries bytes l v pics wd name out); auto.
  unfold entry_points_of in EP. destruct (_ || _); [|destruct (String.eqb file_type "bios"); [|discriminate]];
    injection EP as <-; repeat constructor; lia.
Qed.
Print Assumptions C33_command.

(** * When the listing assembles *)

(** For a binary of up to 64 KiB, the address space of the CPU, whose instructions do not overlap, the listing
    assembles if and only if every label it jumps to is defined. *)
Theorem C33_assembles_iff : forall uuid pr fuel fuel2 flag entries bytes l v pics wd name,
  Forall is_byte bytes -> Z.of_nat (List.length bytes) <= 65536 -> Forall (fun e => 0 <= e) entries ->
  disassemble fuel flag entries bytes = Ok (inl l) ->
  no_overlap (map (fun d => (d_pos d, d_statement d)) l) ->
  is_absolute wd = true -> read_bytes v (join wd name) = Some (String.concat "" (map (show_dstatement false) l)) ->
  ((exists out, assemble_file uuid pr (S fuel2) v pics (new_files wd) name = Ok out) <-> labels_defined (map d_statement l)).
Proof.
  intros uuid pr fuel fuel2 flag entries bytes l v pics wd name F M E H N A R.
  assert (MO: moderate bytes) by (unfold moderate; lia).
  rewrite (listing_file uuid pr fuel fuel2 flag entries bytes l v pics wd name F MO E H A R).
  exact (listing_assembled fuel flag entries bytes l pr F MO E H N M).
Qed.
Print Assumptions C33_assembles_iff.

Lemma disassemble_build fuel flag entries bytes e : disassemble fuel flag entries bytes = Ok (inr e) -> build_instruction_graph fuel entries bytes = Ok (inr e).
Proof.
  unfold disassemble. destruct (build_instruction_graph fuel entries bytes) as [[g|e']| | |]; cbn [bind]; try discriminate.
  - destruct (lift_instrs _ _ _); cbn [bind]; try discriminate. destruct (emit _ _ _ _); cbn [bind]; discriminate.
  - intros H. congruence.
Qed.

Lemma listed_reached fuel flag entries bytes l p j : Forall is_byte bytes -> moderate bytes -> Forall (fun e => 0 <= e) entries ->
  disassemble fuel flag entries bytes = Ok (inl l) -> In (Some p, SInstr j) (map (fun d => (d_pos d, d_statement d)) l) ->
  reach (goes bytes) entries p /\ inside bytes p /\ exists i, stands bytes p i (p + doc_length j) /\ key i = key j.
Proof.
  intros F M E H I. apply in_map_iff in I as (d & D & I). destruct (disassemble_inv fuel flag entries bytes l H) as (g & lifted & r & B & LI & EM & ->).
  injection D as DP DS. destruct (listing_instr flag entries bytes g lifted r LI EM d j I DS) as (q & i & -> & IA & L & LF). cbn in DP. injection DP as ->.
  destruct (built_sound bytes entries fuel g p i F M E B IA) as (R & IN & ST). split; [exact R|]. split; [exact IN|]. exists i.
  rewrite <- (size_doc j). rewrite (lift_size p g i (build_names g) j LF). split; [exact ST|]. symmetry. exact (lift_key p g i _ j LF).
Qed.

(** The round trip in terms of the binary alone: if the code of a binary is in order, then it can be
    disassembled, the listing assembles, and the image is the binary. *)
Theorem C33_well_behaved : forall uuid pr fuel fuel2 flag entries bytes,
  Forall is_byte bytes -> Z.of_nat (List.length bytes) <= 65536 -> Forall (fun e => 0 <= e) entries ->
  (List.length bytes + 2 <= fuel)%nat -> well_behaved bytes entries ->
  exists l, disassemble fuel flag entries bytes = Ok (inl l) /\
    forall v pics wd name, is_absolute wd = true -> read_bytes v (join wd name) = Some (String.concat "" (map (show_dstatement false) l)) ->
    exists out, assemble_file uuid pr (S fuel2) v pics (new_files wd) name = Ok out /\ same_image out bytes /\
      (Z.of_nat (List.length bytes) mod 512 = 0 -> Z.of_nat (List.length out) mod 512 = 0 /\ exists n, bytes = out ++ repeat 0 n).
Proof.
  intros uuid pr fuel fuel2 flag entries bytes F M E FU W. assert (MO: moderate bytes) by (unfold moderate; lia).
  destruct (C34_total fuel flag entries bytes F E FU) as ([l|e] & H).
  2:{ exfalso. destruct (C32_failure bytes entries fuel e F MO E (disassemble_build _ _ _ _ _ H)) as (a & x & _ & _ & R & I & N & _).
      destruct (W a R I) as (i & b & S & _). exact (N i b S). }
  exists l. split; [exact H|]. intros v pics wd name A R.
  assert (N: no_overlap (map (fun d => (d_pos d, d_statement d)) l)).
  { intros p q i j P Q L. destruct (listed_reached _ _ _ _ _ _ _ F MO E H P) as (RP & IP & i0 & SP & _).
    destruct (listed_reached _ _ _ _ _ _ _ F MO E H Q) as (RQ & IQ & _). destruct (W p RP IP) as (i1 & b & SB & _ & O).
    specialize (O q RQ IQ L). destruct (stands_decode bytes p i0 _ F SP) as (_ & D0 & B0 & _). destruct (stands_decode bytes p i1 _ F SB) as (_ & D1 & B1 & _).
    rewrite D0 in D1. injection D1 as <-. lia. }
  assert (LD: labels_defined (map d_statement l)).
  { intros j nm I C. apply in_map_iff in I as (d & S & I).
    destruct (C34_defined_once fuel flag entries bytes l d j nm F MO E H I S C) as (a & i & b & t & P & ST & KE & LE & INS & _).
    assert (IP: In (Some a, SInstr j) (map (fun d => (d_pos d, d_statement d)) l)) by (apply in_map_iff; exists d; rewrite P, S; auto).
    destruct (listed_reached _ _ _ _ _ _ _ F MO E H IP) as (RA & IA & _). destruct (W a RA IA) as (i1 & b1 & S1 & J1 & _).
    destruct (stands_decode bytes a i _ F ST) as (_ & D0 & B0 & _). destruct (stands_decode bytes a i1 _ F S1) as (_ & D1 & B1 & _).
    rewrite D0 in D1. injection D1 as <-. rewrite B1, <- B0 in J1. destruct (INS (J1 t LE)) as [K _].
    unfold definitions in K. destruct (filter (is_label nm) (map d_statement l)) as [|s q] eqn:Q; [discriminate|].
    assert (X: In s (filter (is_label nm) (map d_statement l))) by (rewrite Q; now left). apply filter_In in X as [X1 X2].
    destruct s; try discriminate X2. cbn [is_label] in X2. apply String.eqb_eq in X2. now subst. }
  destruct (proj2 (C33_assembles_iff uuid pr fuel fuel2 flag entries bytes l v pics wd name F M E H N A R) LD) as (out & O).
  exists out. split; [exact O|]. exact (C33_image uuid pr fuel fuel2 flag entries bytes l v pics wd name out F MO E H N A R O).
Qed.
Print Assumptions C33_well_behaved.

(** * Cases *)

Local Definition disk (text : string) : fs :=
  mkFs (fun p => path_eqb p "/src/out.s") (fun p => path_eqb p "/src") (fun p => if path_eqb p "/src/out.s" then Some text else None).
Local Definition no_pics : pictures := fun _ => Err InvalidPath.
Local Definition text_of (l : list dstatement) : string := String.concat "" (map (show_dstatement false) l).
Local Definition again (l : list dstatement) : outcome (list Z) :=
  assemble_file (fun _ => "") Debug 1 (disk (text_of l)) no_pics (new_files "/src") "out.s".

Local Definition apart_check (l : list (option Z * statement)) : bool :=
  forallb (fun a => forallb (fun b => match a, b with
    | (Some p, SInstr i), (Some q, SInstr _) => negb (p <? q) || (p + doc_length i <=? q)
    | _, _ => true end) l) l.

Local Lemma apart_checked l : apart_check l = true -> no_overlap l.
Proof.
  intros H p q i j P Q L. apply forallb_forall with (x := (Some p, SInstr i)) in H; [|exact P].
  apply forallb_forall with (x := (Some q, SInstr j)) in H; [|exact Q]. cbv beta iota in H.
  apply orb_true_iff in H as [H|H]; [apply negb_true_iff, Z.ltb_ge in H; lia|now apply Z.leb_le].
Qed.

Local Ltac byte_list := repeat constructor; unfold is_byte; lia.

(** A call, a branch back to the start, a byte in between that is no code, and the end of the called routine. *)
Local Definition sample : list Z := [16; 4; 0; 1; 251; 255; 160; 255].

(** Its code is in order. *)
Example C33_well_behaved_case : well_behaved sample [0].
Proof.
  destruct C32_case as (_ & F & M & NS & g & B & I0 & I3 & I6 & ON).
  assert (EX: forall a, reach (goes sample) [0] a -> inside sample a -> a = 0 \/ a = 3 \/ a = 6).
  { intros a R I. apply ON. destruct (proj2 (C32_exact sample [0] 10 g F M ltac:(repeat constructor; lia) NS B a) (conj R I)) as (i & ->). discriminate. }
  assert (ST: forall a i, instr_at g a = Some i -> stands sample a i (a + size i)).
  { intros a i I. exact (proj2 (proj2 (built_sound sample [0] 10 g a i F M ltac:(repeat constructor; lia) B I))). }
  assert (LE: forall i b t, leads i b t -> forall ks k os o, snd (key i) = ks ++ [k] -> values i = os ++ [o] -> address k b o = Some t).
  { intros i b t (ks & k & os & o & K & V & A) ks' k' os' o' K' V'. rewrite K in K'. rewrite V in V'. apply app_inj_tail in K' as [_ <-]. apply app_inj_tail in V' as [_ <-]. exact A. }
  intros a R I. destruct (EX a R I) as [-> |[-> | ->]].
  - exists (Callr 4), 3. split; [exact (ST 0 _ I0)|]. split.
    + intros t L. specialize (LE _ _ _ L [] R16 [] 4 eq_refl eq_refl). cbn in LE. injection LE as <-. unfold inside. cbn. lia.
    + intros c RC IC L. destruct (EX c RC IC) as [-> |[-> | ->]]; lia.
  - exists (Br (-5)), 5. split; [exact (ST 3 _ I3)|]. split.
    + intros t L. specialize (LE _ _ _ L [] R8 [] (-5) eq_refl eq_refl). cbn in LE. injection LE as <-. unfold inside. cbn. lia.
    + intros c RC IC L. destruct (EX c RC IC) as [-> |[-> | ->]]; lia.
  - exists Ret, 7. split; [exact (ST 6 _ I6)|]. split.
    + intros t (ks & k & os & o & K & _). destruct ks; discriminate K.
    + intros c RC IC L. destruct (EX c RC IC) as [-> |[-> | ->]]; lia.
Qed.

(** The sample as one block: the image is the binary. *)
Example C33_case : exists l, Forall is_byte (sample ++ repeat 0 504) /\ moderate (sample ++ repeat 0 504) /\
  disassemble 20 false [0] (sample ++ repeat 0 504) = Ok (inl l) /\
  no_overlap (map (fun d => (d_pos d, d_statement d)) l) /\
  read_bytes (disk (text_of l)) (join "/src" "out.s") = Some (text_of l) /\
  again l = Ok (sample ++ repeat 0 504).
Proof.
  eexists. split; [byte_list|]. split; [vm_compute; discriminate|]. split; [vm_compute; reflexivity|].
  split; [apply apart_checked; vm_compute; reflexivity|]. split; [vm_compute; reflexivity|vm_compute; reflexivity].
Qed.

(** Blocks of zeros at the end of the binary are lost. *)
Theorem C33_same_length_refuted : exists bytes l out, Forall is_byte bytes /\ moderate bytes /\
  disassemble 20 false [0] bytes = Ok (inl l) /\ no_overlap (map (fun d => (d_pos d, d_statement d)) l) /\ again l = Ok out /\
  List.length bytes = 1024%nat /\ List.length out = 512%nat.
Proof.
  exists (sample ++ repeat 0 1016). eexists. eexists. split; [apply Forall_app; split; [byte_list|apply Forall_forall; intros x X; apply repeat_spec in X; subst x; unfold is_byte; lia]|]. split; [vm_compute; discriminate|]. split; [vm_compute; reflexivity|].
  split; [apply apart_checked; vm_compute; reflexivity|]. split; [vm_compute; reflexivity|]. split; vm_compute; reflexivity.
Qed.
Print Assumptions C33_same_length_refuted.

(** For a binary that is not made of full blocks the image is not padded to a multiple of 512 either. *)
Theorem C33_padding_refuted : exists bytes l out, Forall is_byte bytes /\ moderate bytes /\
  disassemble 20 false [0] bytes = Ok (inl l) /\ no_overlap (map (fun d => (d_pos d, d_statement d)) l) /\ again l = Ok out /\
  List.length bytes = 8%nat /\ List.length out = 520%nat.
Proof.
  exists sample. eexists. eexists. split; [byte_list|]. split; [vm_compute; discriminate|]. split; [vm_compute; reflexivity|].
  split; [apply apart_checked; vm_compute; reflexivity|]. split; [vm_compute; reflexivity|]. split; vm_compute; reflexivity.
Qed.
Print Assumptions C33_padding_refuted.

(** Without the condition on overlaps the claim is false: a branch into the operand of the next instruction. *)
Theorem C33_overlap_refuted : exists bytes l out, Forall is_byte bytes /\ moderate bytes /\
  disassemble 20 false [0] bytes = Ok (inl l) /\ again l = Ok out /\ ~ same_image out bytes.
Proof.
  exists [128; 1; 177; 0; 160]. eexists. eexists. split; [byte_list|]. split; [vm_compute; discriminate|]. split; [vm_compute; reflexivity|].
  split; [vm_compute; reflexivity|]. intros (m & n & E). apply (f_equal (fun l => nth 1 l 0)) in E. cbn in E. discriminate.
Qed.
Print Assumptions C33_overlap_refuted.

(** A listing need not assemble: a branch behind the end of the binary. *)
Theorem C33_outside_refuted : exists bytes l, Forall is_byte bytes /\ moderate bytes /\
  disassemble 20 false [0] bytes = Ok (inl l) /\ no_overlap (map (fun d => (d_pos d, d_statement d)) l) /\
  again l = Err (NameNotFound "Label" "label_0007").
Proof.
  exists [1; 5]. eexists. split; [byte_list|]. split; [vm_compute; discriminate|]. split; [vm_compute; reflexivity|].
  split; [apply apart_checked; vm_compute; reflexivity|vm_compute; reflexivity].
Qed.
Print Assumptions C33_outside_refuted.

(** The listing with positions is for reading only. *)
Theorem C33_positions_refuted : exists bytes l, disassemble 20 false [0] bytes = Ok (inl l) /\
  assemble_file (fun _ => "") Debug 1 (disk (String.concat "" (map (show_dstatement true) l))) no_pics (new_files "/src") "out.s" = Err UnexpectedToken.
Proof. exists sample. eexists. split; [vm_compute; reflexivity|]. vm_compute. reflexivity. Qed.
Print Assumptions C33_positions_refuted.
