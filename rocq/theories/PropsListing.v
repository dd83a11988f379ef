(** Properties C53 to C55: what a listing says about overlaps, data and arrivals. *)
From Coq Require Import ZArith List String Ascii Bool Lia Sorted.
From Verif Require Import Base Expr Instr Ast Printer SpecIsa SpecLex SpecExpr SpecAsm AsmProofs CodecProofs PrintProofs Disasm SpecDisasm DisasmProofs DisasmProofs2 DisasmProofs3 DisasmProofs9 DisasmProofs11 DisasmProofs12.
Import ListNotations.
Local Opaque aliases psw_bits.
Open Scope string_scope.
Open Scope list_scope.
Open Scope Z_scope.

Local Lemma hex_shown p : 0 <= p < 18446744073709551616 -> hex_of (show_usize_hex p) p.
Proof.
  intros P. destruct (PrintProofs.padded_spec 16 ltac:(lia) 4 p ltac:(lia)) as (vs & E & A & N & Q). unfold show_usize_hex. exists vs.
  split; [rewrite E; now apply text_some|]. split; [|exact Q].
  assert (L: forall vs, String.length (text_of vs) = List.length vs) by (clear; induction vs as [|v vs IH]; [reflexivity|cbn; f_equal; exact IH]).
  rewrite <- L, <- E. unfold pad_zeros. 
  assert (AP: forall a b, String.length (a ++ b)%string = (String.length a + String.length b)%nat) by (clear; induction a as [|x a IH]; intros b; [reflexivity|cbn; f_equal; apply IH]).
  rewrite AP.
  assert (Z: forall k, String.length (string_of_list_ascii (repeat "0"%char k)) = k) by (clear; induction k as [|k IH]; [reflexivity|cbn; f_equal; exact IH]).
  rewrite Z. lia.
Qed.

Local Lemma positions_shown ps : Forall (fun p => 0 <= p < 18446744073709551616) ps -> lists_positions (position_list ps) ps.
Proof.
  intros F. exists (map show_usize_hex ps). split; [reflexivity|]. induction F as [|p ps P F IH]; cbn [map]; constructor; [now apply hex_shown|exact IH].
Qed.

(** * C53: overlaps *)

Local Lemma part_split c w p i : find_overlaps (l_lifted c) p <> [] -> exists a, instr_part c w p i =
  a ++ [d_remark ("Overlaps with: " ++ position_list (find_overlaps (l_lifted c) p)); d_instr p i (arrival_comment (l_flag c) (l_graph c) p)].
Proof.
  intros N. unfold instr_part. destruct (find_overlaps (l_lifted c) p) as [|x o]; [congruence|].
  eexists (_ ++ _). rewrite <- app_assoc. reflexivity.
Qed.

Section C53.
Variables (fuel : nat) (flag : bool) (entries bytes : list Z) (l : list dstatement).
Hypotheses (F : Forall is_byte bytes) (M : moderate bytes) (E : Forall (fun e => 0 <= e) entries)
  (H : disassemble fuel flag entries bytes = Ok (inl l)).

Local Lemma overlaps_meaning g lifted r : 
  l = r ++ tail_part (mkListing flag entries bytes g lifted (build_names g)) ->
  (forall p i, In (Some p, SInstr i) (map placed l) <-> lookup p lifted = Some i) ->
  forall p q, In q (find_overlaps lifted p) -> overlapping (map placed l) p q.
Proof.
  intros _ LK p q I. apply find_sound in I as (i & j & P & Q & O). rewrite !size_doc in O. exists i, j.
  pose proof (doc_length_pos i). pose proof (doc_length_pos j).
  split; [now apply LK|]. split; [now apply LK|]. lia.
Qed.

Local Lemma reported_at p q : overlapping (map placed l) p q -> p < q -> exists l1 l2 i text o cm,
  l = l1 ++ [d_remark ("Overlaps with: " ++ text); d_instr p i cm] ++ l2 /\
  lists_positions text o /\ In q o /\ Forall (overlapping (map placed l) p) o.
Proof.
  intros (i & j & P & Q & _ & _ & LT) L. destruct (listing_parts fuel flag entries bytes l F M E H) as (g & lifted & r & EQ & EM & _ & _ & LK & LB & _).
  set (c := mkListing flag entries bytes g lifted (build_names g)) in *.
  apply LK in P, Q. destruct (LB p i P) as (PB & _). destruct (LB q j Q) as (QB & _).
  assert (FF: In q (find_overlaps lifted p)) by (apply (find_forward lifted p i q P); [eauto|rewrite size_doc; lia]).
  destruct (emit_part c p i P _ _ 0 r ltac:(lia) ltac:(cbn; lia) EM) as (w & a & b & R).
  destruct (part_split c w p i) as (a2 & PS). { cbn [l_lifted c]. intros K. rewrite K in FF. destruct FF. }
  rewrite PS in R. cbn [l_lifted l_flag l_graph c] in R.
  assert (OV: Forall (overlapping (map placed l) p) (find_overlaps lifted p)) by (apply Forall_forall; exact (overlaps_meaning g lifted r EQ LK p)).
  exists (a ++ a2), (b ++ tail_part c), i, (position_list (find_overlaps lifted p)), (find_overlaps lifted p), (arrival_comment flag g p).
  split; [rewrite EQ, R; now rewrite <- !app_assoc|]. split.
  - apply positions_shown. apply Forall_forall. intros x X. apply (proj1 (Forall_forall _ _) OV) in X. destruct X as (_ & k & _ & K & _). apply LK in K. destruct (LB x k K) as (XB & _).
    unfold moderate, blen in *. lia.
  - split; [exact FF|exact OV].
Qed.
End C53.

(** If an instruction of a listing begins within another one, the line of the other is preceded by a remark
    that gives its position, and every position the remark gives is that of an overlapping instruction. *)
Theorem C53_reported : forall fuel flag entries bytes l p q i j,
  Forall is_byte bytes -> moderate bytes -> Forall (fun e => 0 <= e) entries ->
  disassemble fuel flag entries bytes = Ok (inl l) ->
  In (Some p, SInstr i) (map (fun d => (d_pos d, d_statement d)) l) ->
  In (Some q, SInstr j) (map (fun d => (d_pos d, d_statement d)) l) -> p < q < p + doc_length i ->
  exists l1 l2 text ps cm, l = l1 ++ [mkD None (SComment ("Overlaps with: " ++ text)) None; mkD (Some p) (SInstr i) cm] ++ l2 /\
    lists_positions text ps /\ In q ps /\ Forall (overlapping (map (fun d => (d_pos d, d_statement d)) l) p) ps.
Proof.
  intros fuel flag entries bytes l p q i j F M E H P Q L. change (map (fun d => (d_pos d, d_statement d)) l) with (map placed l) in *.
  pose proof (doc_length_pos j).
  destruct (reported_at fuel flag entries bytes l F M E H p q) as (l1 & l2 & k & text & o & cm & EQ & K); [exists i, j; repeat split; auto; lia|lia|].
  destruct (listing_parts fuel flag entries bytes l F M E H) as (g & lifted & r & _ & _ & _ & _ & LK & _).
  assert (k = i).
  { assert (X: In (Some p, SInstr k) (map placed l)) by (rewrite EQ; rewrite !map_app, !in_app_iff; right; left; right; now left).
    apply LK in X, P. congruence. }
  subst k. exists l1, l2, text, o, cm. split; [exact EQ|exact K].
Qed.
Print Assumptions C53_reported.

(** Every such remark stands before an instruction and is about instructions that overlap with it. *)
Theorem C53_only : forall fuel flag entries bytes l text,
  Forall is_byte bytes -> moderate bytes -> Forall (fun e => 0 <= e) entries ->
  disassemble fuel flag entries bytes = Ok (inl l) -> In (mkD None (SComment ("Overlaps with: " ++ text)) None) l ->
  exists l1 l2 p i ps cm, l = l1 ++ [mkD None (SComment ("Overlaps with: " ++ text)) None; mkD (Some p) (SInstr i) cm] ++ l2 /\
    lists_positions text ps /\ ps <> [] /\ Forall (overlapping (map (fun d => (d_pos d, d_statement d)) l) p) ps.
Proof.
  intros fuel flag entries bytes l text F M E H I. change (map (fun d => (d_pos d, d_statement d)) l) with (map placed l).
  destruct (listing_parts fuel flag entries bytes l F M E H) as (g & lifted & r & EQ & EM & _ & _ & LK & LB & _).
  set (c := mkListing flag entries bytes g lifted (build_names g)) in *.
  assert (IR: In (d_remark ("Overlaps with: " ++ text)) r).
  { rewrite EQ in I. apply in_app_or in I as [I|I]; [exact I|]. exfalso. unfold tail_part in I. rewrite !in_app_iff in I.
    destruct I as [I|[I|[I|I]]].
    - repeat (destruct I as [I|I]; [discriminate I|]). destruct I.
    - destruct (DisasmProofs7.alias_in _ _ I) as (? & ? & _ & Q). discriminate.
    - destruct I as [I|[]]. discriminate I.
    - destruct (DisasmProofs7.alias_in _ _ I) as (? & ? & _ & Q). discriminate. }
  destruct (emit_remark c text _ _ 0 r ltac:(lia) EM IR) as (p & i & w & a & b & R & L & PB & NE & TX). cbn [l_lifted c] in *.
  destruct (part_split c w p i NE) as (a2 & PS). rewrite PS in R. cbn [l_lifted l_flag l_graph c] in R.
  assert (OV: Forall (overlapping (map placed l) p) (find_overlaps lifted p)) by (apply Forall_forall; exact (overlaps_meaning flag entries bytes l g lifted r EQ LK p)).
  exists (a ++ a2), (b ++ tail_part c), p, i, (find_overlaps lifted p), (arrival_comment flag g p).
  assert (TT: text = position_list (find_overlaps lifted p)) by (cbn in TX; injection TX as TX; exact TX).
  split; [rewrite TX, EQ, R; now rewrite <- !app_assoc|]. split; [|split; [exact NE|exact OV]].
  rewrite TT. apply positions_shown. apply Forall_forall. intros x X. apply (proj1 (Forall_forall _ _) OV) in X. destruct X as (_ & k & _ & K & _). apply LK in K.
  destruct (LB x k K) as (XB & _). unfold moderate, blen in *. lia.
Qed.
Print Assumptions C53_only.

(** A listing without such remarks has no overlaps. *)
Theorem C53_silent : forall fuel flag entries bytes l,
  Forall is_byte bytes -> moderate bytes -> Forall (fun e => 0 <= e) entries ->
  disassemble fuel flag entries bytes = Ok (inl l) ->
  (no_overlap (map (fun d => (d_pos d, d_statement d)) l) <-> forall text, ~ In (mkD None (SComment ("Overlaps with: " ++ text)) None) l).
Proof.
  intros fuel flag entries bytes l F M E H. split.
  - intros N text I. destruct (C53_only fuel flag entries bytes l text F M E H I) as (_ & _ & p & _ & [|q ps] & _ & _ & _ & NE & OV); [congruence|].
    apply Forall_inv in OV. destruct OV as (i & j & P & Q & D & L1 & L2).
    destruct (Z_lt_dec p q) as [L|L]; [specialize (N p q i j P Q L)|specialize (N q p j i Q P ltac:(lia))]; lia.
  - intros N p q i j P Q L. destruct (Z_le_dec (p + doc_length i) q) as [K|K]; [exact K|exfalso].
    destruct (C53_reported fuel flag entries bytes l p q i j F M E H P Q ltac:(lia)) as (l1 & l2 & text & ps & cm & EQ & _).
    apply (N text). rewrite EQ. apply in_or_app. right. now left.
Qed.
Print Assumptions C53_silent.

(** * C54: data *)

(** The data lines give bytes of the binary, in increasing order of their offsets; they never give a byte of an
    instruction, and a byte that belongs to no instruction is given unless it is zero. *)
Theorem C54_data : forall fuel flag entries bytes l,
  Forall is_byte bytes -> moderate bytes -> Forall (fun e => 0 <= e) entries ->
  disassemble fuel flag entries bytes = Ok (inl l) ->
  let lines := map (fun d => (d_pos d, d_statement d)) l in
  StronglySorted Z.lt (map fst (data_of lines)) /\
  (forall o b, In (o, b) (data_of lines) -> inside bytes o /\ nth (Z.to_nat o) bytes 0 = b /\ ~ code_offset lines o) /\
  (forall o, inside bytes o -> ~ code_offset lines o -> nth (Z.to_nat o) bytes 0 <> 0 -> In (o, nth (Z.to_nat o) bytes 0) (data_of lines)).
Proof.
  intros fuel flag entries bytes l F M E H lines. change lines with (map placed l). clear lines.
  destruct (listing_parts fuel flag entries bytes l F M E H) as (g & lifted & r & EQ & EM & _ & _ & LK & LB & _ & ND & _).
  set (c := mkListing flag entries bytes g lifted (build_names g)) in *.
  assert (MK: forall o, masked lifted o = true <-> code_offset (map placed l) o).
  { intros o. unfold masked. rewrite existsb_exists. split.
    - intros ([p i] & I & B). cbn [fst snd] in B. apply andb_prop in B as [B1 B2]. apply Z.leb_le in B1. apply Z.ltb_lt in B2. exists p, i. split.
      + apply LK. now apply in_lookup.
      + rewrite <- size_doc. lia.
    - intros (p & i & I & B). apply LK in I. exists (p, i). split; [now apply lookup_in|]. cbn [fst snd]. apply andb_true_intro. rewrite size_doc. split; [apply Z.leb_le|apply Z.ltb_lt]; lia. }
  assert (DD: data_of (map placed l) = data r).
  { change (data_of (map placed l)) with (data l). rewrite EQ, data_app, tail_data. apply app_nil_r. }
  rewrite DD. destruct (emit_data c _ _ 0 r ltac:(lia) EM) as (S1 & S2 & S3). cbn [l_lifted l_bytes c] in S2, S3. split; [exact S1|]. split.
  - intros o b I. destruct (S2 o b I) as (P & U & N). split; [|split].
    + assert (Z.to_nat o < List.length bytes)%nat by (apply nth_error_Some; congruence). unfold inside. lia.
    + now apply nth_error_nth.
    + intros C. apply MK in C. congruence.
  - intros o P C N. unfold inside in P. apply S3; [lia| |apply nth_error_nth'; lia|exact N].
    destruct (masked lifted o) eqn:Q; [|reflexivity]. apply MK in Q. contradiction.
Qed.
Print Assumptions C54_data.

(** * C55: arrivals *)

(** With the option on, an instruction of a listing carries a comment with the positions it is reached from, in
    increasing order; no comment if there are none.  Each position is that of an instruction of the listing from
    which control can go there.  All such positions are given, except perhaps those of jumps to the other
    memory. *)
Theorem C55_arrivals : forall fuel entries bytes l p i cm,
  Forall is_byte bytes -> moderate bytes -> Forall (fun e => 0 <= e) entries ->
  disassemble fuel true entries bytes = Ok (inl l) -> In (mkD (Some p) (SInstr i) cm) l ->
  let lines := map (fun d => (d_pos d, d_statement d)) l in
  exists ps, StronglySorted Z.lt ps /\
    (ps = [] /\ cm = None \/ ps <> [] /\ exists text, cm = Some ("Arrived from: " ++ text)%string /\ lists_positions text ps) /\
    (forall a, In a ps -> goes bytes a p /\ exists j, In (Some a, SInstr j) lines) /\
    (forall a j, In (Some a, SInstr j) lines -> goes_here bytes a p -> In a ps).
Proof.
  intros fuel entries bytes l p i cm F M E H I lines. change lines with (map placed l). clear lines.
  destruct (listing_parts fuel true entries bytes l F M E H) as (g & lifted & r & EQ & EM & V & J & LK & LB & LI & _ & LD).
  pose proof (LD _ p i I eq_refl eq_refl) as Q. apply (f_equal d_comment) in Q. cbn [d_instr d_comment] in Q.
  destruct (arrival_spec g p (j_once _ J)) as (froms & S & A & K). exists froms. split; [exact S|].
  assert (PI: inside bytes p).
  { assert (X: In (Some p, SInstr i) (map placed l)) by (apply in_map_iff; eexists; split; [|exact I]; reflexivity). apply LK in X. destruct (LB p i X) as (X1 & _). exact X1. }
  assert (SOUND: forall a, In a froms -> goes bytes a p /\ exists j, In (Some a, SInstr j) (map placed l)).
  { intros a X. apply K in X. destruct (j_sound _ J a p X) as (k & K1 & K2). destruct (i_decoded _ _ _ _ V a k K1) as [IA D]. split.
    - now apply (full_goes_inside bytes a k p F M IA D PI).
    - destruct (LI a k K1) as (j & L). exists j. now apply LK. }
  split; [|split; [exact SOUND|]].
  - rewrite Q, A. destruct froms as [|x o]; [left; auto|]. right. split; [discriminate|]. exists (position_list (x :: o)). split; [reflexivity|].
    apply positions_shown. apply Forall_forall. intros y Y. destruct (SOUND y Y) as (_ & j & X). apply LK in X. destruct (LB y j X) as (X1 & _). unfold moderate, blen in *. lia.
  - intros a j X [G N]. apply LK in X. destruct (LB a j X) as (AB & _ & k & K1 & _). apply K. destruct (i_decoded _ _ _ _ V a k K1) as [IA D].
    destruct (j_complete _ J a k p K1) as [C|[C1 C2]]; [|exact C|].
    + apply (full_goes_inside bytes a k p F M IA D PI). exact G.
    + exfalso. apply N. destruct k; try discriminate C1. exact (switch_stands bytes entries g a _ F V K1 C2).
Qed.
Print Assumptions C55_arrivals.

(** With the option off there are no such comments. *)
Theorem C55_off : forall fuel entries bytes l p i cm,
  Forall is_byte bytes -> moderate bytes -> Forall (fun e => 0 <= e) entries ->
  disassemble fuel false entries bytes = Ok (inl l) -> In (mkD (Some p) (SInstr i) cm) l -> cm = None.
Proof.
  intros fuel entries bytes l p i cm F M E H I. destruct (listing_parts fuel false entries bytes l F M E H) as (g & lifted & r & _ & _ & _ & _ & _ & _ & _ & _ & LD).
  pose proof (LD _ p i I eq_refl eq_refl) as Q. apply (f_equal d_comment) in Q. cbn [d_instr d_comment] in Q. exact Q.
Qed.
Print Assumptions C55_off.

(** * Cases *)

Local Ltac byte_list := repeat constructor; unfold is_byte; lia.
Local Ltac line n := apply (nth_error_In _ n); vm_compute; reflexivity.

(** A branch into the operand of the next instruction: both are remarked on. *)
Example C53_case : let bytes := [128; 1; 177; 0; 160] in exists l, Forall is_byte bytes /\ moderate bytes /\
  disassemble 20 true [0] bytes = Ok (inl l) /\
  In (Some 2, SInstr (Subc_i8 (hex 0))) (map (fun d => (d_pos d, d_statement d)) l) /\
  In (Some 3, SInstr Nop) (map (fun d => (d_pos d, d_statement d)) l) /\ 2 < 3 < 2 + doc_length (@Subc_i8 expr imode (hex 0)) /\
  nth_error l 4 = Some (mkD None (SComment "Overlaps with: 0003") None) /\
  nth_error l 7 = Some (mkD None (SComment "Overlaps with: 0002") None).
Proof.
  eexists. split; [byte_list|]. split; [vm_compute; discriminate|]. split; [vm_compute; reflexivity|]. split; [line 5%nat|]. split; [line 8%nat|].
  split; [vm_compute; split; reflexivity|]. split; vm_compute; reflexivity.
Qed.

(** A remark before the line of the instruction at [q]. *)
Local Fixpoint remarked (q : Z) (l : list dstatement) : bool :=
  match l with
  | [] => false
  | d :: t => (match d, t with
               | mkD None (SComment _) None, mkD (Some p) (SInstr _) _ :: _ => p =? q
               | _, _ => false
               end) || remarked q t
  end.

Local Lemma remarked_complete q l1 l2 t i cm : remarked q (l1 ++ [mkD None (SComment t) None; mkD (Some q) (SInstr i) cm] ++ l2) = true.
Proof.
  induction l1 as [|d l1 IH]; [cbn [app remarked]; now rewrite Z.eqb_refl|].
  change ((d :: l1) ++ [mkD None (SComment t) None; mkD (Some q) (SInstr i) cm] ++ l2) with (d :: (l1 ++ [mkD None (SComment t) None; mkD (Some q) (SInstr i) cm] ++ l2)).
  cbn [remarked]. rewrite IH. apply orb_true_r.
Qed.

(** Not every instruction that overlaps with another one has a remark: here the second one begins in the last of
    three bytes. *)
Theorem C53_both_refuted : exists bytes l p q, Forall is_byte bytes /\ moderate bytes /\ disassemble 20 true [0; 2] bytes = Ok (inl l) /\
  overlapping (map (fun d => (d_pos d, d_statement d)) l) p q /\ overlapping (map (fun d => (d_pos d, d_statement d)) l) q p /\
  forall l1 l2 t i cm, l <> l1 ++ [mkD None (SComment ("Overlaps with: " ++ t)) None; mkD (Some q) (SInstr i) cm] ++ l2.
Proof.
  exists [33; 0; 160]. eexists. exists 0, 2. split; [byte_list|]. split; [vm_compute; discriminate|]. split; [vm_compute; reflexivity|].
  split; [exists (Jmpf (EName "label_00A0")), Ret; split; [line 4%nat|]; split; [line 8%nat|]; vm_compute; split; [discriminate|split; reflexivity]|].
  split; [exists Ret, (Jmpf (EName "label_00A0")); split; [line 8%nat|]; split; [line 4%nat|]; vm_compute; split; [discriminate|split; reflexivity]|].
  intros l1 l2 t i cm Q. apply (f_equal (remarked 2)) in Q. rewrite remarked_complete in Q. vm_compute in Q. discriminate.
Qed.
Print Assumptions C53_both_refuted.

(** A call, a branch back to the start, a byte in between that is no code, and the end of the called routine,
    followed by zeros and some more data. *)
Example C54_case : let bytes := [16; 4; 0; 1; 251; 255; 160; 0; 0; 7] in exists l, Forall is_byte bytes /\ moderate bytes /\
  disassemble 20 true [0] bytes = Ok (inl l) /\
  data_of (map (fun d => (d_pos d, d_statement d)) l) = [(5, 255); (7, 0); (8, 0); (9, 7)] /\
  code_offset (map (fun d => (d_pos d, d_statement d)) l) 4.
Proof.
  eexists. split; [byte_list|]. split; [vm_compute; discriminate|]. split; [vm_compute; reflexivity|]. split; [vm_compute; reflexivity|].
  exists 3, (Br (EName "label_0000")). split; [line 5%nat|]. vm_compute. split; [discriminate|reflexivity].
Qed.

Local Definition within (o : Z) (x : option Z * statement) : bool :=
  match x with (Some p, SInstr i) => (p <=? o) && (o <? p + doc_length i) | _ => false end.

Local Lemma nowhere o l : existsb (within o) l = false -> ~ code_offset l o.
Proof.
  intros H (p & i & I & B). assert (X: existsb (within o) l = true).
  { apply existsb_exists. exists (Some p, SInstr i). split; [exact I|]. cbn [within]. apply andb_true_intro. split; [apply Z.leb_le|apply Z.ltb_lt]; lia. }
  congruence.
Qed.

(** Zeros are not always listed, so the data lines need not give all bytes between the instructions. *)
Theorem C54_all_refuted : exists bytes l o, Forall is_byte bytes /\ moderate bytes /\ disassemble 20 true [0] bytes = Ok (inl l) /\
  inside bytes o /\ ~ code_offset (map (fun d => (d_pos d, d_statement d)) l) o /\
  ~ In o (map fst (data_of (map (fun d => (d_pos d, d_statement d)) l))).
Proof.
  exists [160; 0; 0; 0]. eexists. exists 2. split; [byte_list|]. split; [vm_compute; discriminate|]. split; [vm_compute; reflexivity|].
  split; [vm_compute; split; [discriminate|reflexivity]|]. split; [|vm_compute; intros []].
  apply nowhere. vm_compute. reflexivity.
Qed.
Print Assumptions C54_all_refuted.

(** The loop of the sample, with the option on. *)
Example C55_case : let bytes := [128; 1; 177; 0; 160] in exists l, Forall is_byte bytes /\ moderate bytes /\
  disassemble 20 true [0] bytes = Ok (inl l) /\ In (mkD (Some 4) (SInstr Ret) (Some "Arrived from: 0002, 0003")) l /\
  In (mkD (Some 0) (SInstr (Bz (EName "label_0003"))) None) l.
Proof.
  eexists. split; [byte_list|]. split; [vm_compute; discriminate|]. split; [vm_compute; reflexivity|]. split; [line 9%nat|line 3%nat].
Qed.

(** Jumps to the other memory may or may not be given, and the order of the entry points decides: the
    instructions at 0 and 2 are such a jump to offset 5. *)
Theorem C55_order_refuted : exists bytes l1 l2, Forall is_byte bytes /\ moderate bytes /\
  disassemble 20 true [0; 2] bytes = Ok (inl l1) /\ disassemble 20 true [2; 0] bytes = Ok (inl l2) /\ memory_switch bytes 0 /\
  (forall i cm, ~ In (mkD (Some 5) (SInstr i) cm) l1) /\ In (mkD (Some 5) (SInstr Ret) (Some "Arrived from: 0002")) l2.
Proof.
  exists [184; 13; 33; 0; 5; 160]. eexists. eexists. split; [byte_list|]. split; [vm_compute; discriminate|]. split; [vm_compute; reflexivity|].
  split; [vm_compute; reflexivity|]. split; [|split; [|line 8%nat]].
  - exists 2, 5, 5. split; apply decode_stands; first [byte_list|vm_compute; split; [discriminate|reflexivity]|vm_compute; reflexivity].
  - intros i cm I. apply (in_map (fun d => (d_pos d, d_statement d))) in I. cbn [d_pos d_statement] in I. revert I.
    assert (G: forall ls, existsb (within 5) ls = false -> ~ In (Some 5, SInstr i) ls).
    { intros ls X I. apply (nowhere 5 ls X). exists 5, i. split; [exact I|]. pose proof (doc_length_pos i). lia. }
    apply G. vm_compute. reflexivity.
Qed.
Print Assumptions C55_order_refuted.
