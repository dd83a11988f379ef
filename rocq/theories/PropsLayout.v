(** Property C74: how a listing is laid out. *)
From Coq Require Import ZArith List String Ascii Bool Lia Sorted.
From Verif Require Import Base Expr Instr Ast Printer SpecIsa SpecLex SpecExpr SpecAsm Disasm SpecDisasm SpecLayout AsmProofs CodecProofs LexProofs PrintProofs
  DisasmProofs DisasmProofs2 DisasmProofs3 DisasmProofs9 DisasmProofs11 DisasmProofs12 LayoutProofs.
Import ListNotations.
Local Opaque aliases psw_bits.
Open Scope string_scope.
Open Scope list_scope.
Open Scope Z_scope.

Local Lemma entry_in c e : is_entry c e = true <-> In e (l_entries c).
Proof.
  unfold is_entry. rewrite existsb_exists. split.
  - intros (x & I & Q). apply Z.eqb_eq in Q. now subst x.
  - intros I. exists e. split; [exact I|apply Z.eqb_refl].
Qed.

Local Lemma slice_forall (P : Z -> Prop) n k l : Forall P l -> Forall P (firstn n (skipn k l)).
Proof.
  intros A. rewrite <- (firstn_skipn k l) in A. apply Forall_app in A as [_ A]. rewrite <- (firstn_skipn n (skipn k l)) in A. now apply Forall_app in A as [A _].
Qed.

Local Lemma marked_comment a x t : marked (a ++ SComment x :: t) = marked a ++ marked (SComment x :: t).
Proof.
  induction a as [|s a IH]; [reflexivity|]. cbn [app]. change (marked (s :: a ++ SComment x :: t)) with
    ((if is_mark s then [match a ++ SComment x :: t with SDirective (DOrg p) :: _ => p | _ => -1 end] else []) ++ marked (a ++ SComment x :: t)).
  rewrite IH, app_assoc. f_equal. cbn [marked]. f_equal. destruct (is_mark s); [|reflexivity]. now destruct a.
Qed.

Local Lemma tail_head c : exists x t, map d_statement (tail_part c) = SComment x :: t.
Proof. eexists. eexists. reflexivity. Qed.

Section Listing.
Variables (fuel : nat) (flag : bool) (entries bytes : list Z) (l : list dstatement).
Hypotheses (F : Forall is_byte bytes) (M : moderate bytes) (E : Forall (fun e => 0 <= e) entries)
  (H : disassemble fuel flag entries bytes = Ok (inl l)).

Local Lemma entries_lifted g (lifted : list (Z * instr expr imode)) : inv bytes entries g [] -> (forall p j, instr_at g p = Some j -> exists i, lookup p lifted = Some i) ->
  forall e, In e entries -> 0 <= e < blen bytes -> exists i, lookup e lifted = Some i.
Proof.
  intros V L e I B. destruct (i_entries _ _ _ _ V e I) as [C|[[]|C]]; [|lia]. apply contains_iff in C as (i & C). eauto.
Qed.

Local Lemma marks : StronglySorted Z.lt (marked (map d_statement l)) /\
  forall e, In e (marked (map d_statement l)) <-> In e entries /\ inside bytes e.
Proof.
  destruct (listing_parts fuel flag entries bytes l F M E H) as (g & lifted & r & EQ & EM & V & _ & _ & _ & LI & _).
  set (c := mkListing flag entries bytes g lifted (build_names g)) in *.
  assert (MM: marked (map d_statement l) = marked (map d_statement r)).
  { rewrite EQ, map_app. destruct (tail_head c) as (x & t & T). pose proof (tail_unmarked c) as U. rewrite T in U |- *. rewrite marked_comment.
    pose proof (marked_skip _ [] U) as K. rewrite app_nil_r in K. rewrite K. apply app_nil_r. }
  rewrite MM. destruct (pieces_marked c) with (pos := 0) (r := r) as [S I]; [|exact (emit_pieces c _ _ 0 r ltac:(lia) EM)|lia|].
  { intros e EN B. apply entry_in in EN. exact (entries_lifted g lifted V LI e EN B). }
  split; [exact S|]. intros e. rewrite I, entry_in. unfold inside, blen. cbn [l_bytes l_entries c]. tauto.
Qed.

Local Lemma entry_lines e : In e entries -> inside bytes e -> exists l1 m l2 i cm,
  l = l1 ++ [mkD None (SComment "") None; mkD None (SComment "Entry point") None; mkD (Some e) (SDirective (DOrg e)) None] ++ m ++ [mkD (Some e) (SInstr i) cm] ++ l2 /\
  Forall (fun d => d_pos d = None /\ between (d_statement d)) m.
Proof.
  intros I B. destruct (listing_parts fuel flag entries bytes l F M E H) as (g & lifted & r & EQ & EM & V & _ & _ & _ & LI & _).
  set (c := mkListing flag entries bytes g lifted (build_names g)) in *.
  destruct (entries_lifted g lifted V LI e I B) as (i & L). assert (EN: is_entry c e = true) by now apply entry_in.
  destruct (pieces_entry c e i EN L 0 r (emit_pieces c _ _ 0 r ltac:(lia) EM) ltac:(unfold inside in B; lia) ltac:(unfold inside in B; cbn; unfold blen; lia)) as (w & a & b & R).
  destruct (instr_entry c w e i EN) as (m & IP & FM). rewrite IP in R. unfold entry_part in R. rewrite EN in R.
  exists a, m, (b ++ tail_part c), i, (arrival_comment flag g e). split; [|exact FM]. rewrite EQ, R. rewrite <- !app_assoc. reflexivity.
Qed.

Local Lemma data_line p items cm : In (mkD (Some p) (SDirective (DByte items)) cm) l -> exists bs,
  items = map (fun b => BVExpr (ENumber b Hex)) bs /\ bs = firstn (List.length bs) (skipn (Z.to_nat p) bytes) /\
  (1 <= List.length bs <= 16)%nat /\ inside bytes p /\ p + Z.of_nat (List.length bs) <= Z.of_nat (List.length bytes) /\
  (List.length bs = 16%nat \/ p + Z.of_nat (List.length bs) = Z.of_nat (List.length bytes) \/
    code_offset (map (fun d => (d_pos d, d_statement d)) l) (p + Z.of_nat (List.length bs))) /\
  (exists b, In b bs /\ b <> 0) /\
  match cm with
  | None => Forall (fun b => ~ visible b) bs
  | Some t => Exists visible bs /\ exists ts, t = String.concat "" ts /\ Forall2 shown_as bs ts
  end.
Proof.
  intros I. destruct (listing_parts fuel flag entries bytes l F M E H) as (g & lifted & r & EQ & EM & _ & _ & LK & _ & _ & ND & _).
  set (c := mkListing flag entries bytes g lifted (build_names g)) in *.
  assert (IR: In (mkD (Some p) (SDirective (DByte items)) cm) r).
  { rewrite EQ in I. apply in_app_or in I as [I|I]; [exact I|]. exfalso. unfold tail_part in I. rewrite !in_app_iff in I.
    destruct I as [I|[I|[I|I]]].
    - repeat (destruct I as [I|I]; [discriminate I|]). destruct I.
    - destruct (DisasmProofs7.alias_in _ _ I) as (? & ? & _ & Q). discriminate.
    - destruct I as [I|[]]. discriminate I.
    - destruct (DisasmProofs7.alias_in _ _ I) as (? & ? & _ & Q). discriminate. }
  destruct (pieces_data c p items cm 0 r (emit_pieces c _ _ 0 r ltac:(lia) EM) IR) as (B & MK & AZ & Q).
  destruct (chunk_facts c p B MK) as (C1 & C2 & C3). destruct (chunk_stops c p B) as (C4 & C5). cbn [l_bytes l_lifted c] in *.
  unfold d_bytes in Q. injection Q as -> CM. exists (chunk_at c p). unfold blen in *. split; [reflexivity|]. split; [exact C3|]. split; [lia|].
  split; [unfold inside; lia|]. split; [lia|]. split; [|split].
  - destruct C5 as [C5|[C5|C5]]; [left; lia|right; left; lia|right; right]. unfold masked in C5. apply existsb_exists in C5 as ([q i] & QI & K).
    cbn [fst snd] in K. apply andb_prop in K as [K1 K2]. apply Z.leb_le in K1. apply Z.ltb_lt in K2. exists q, i. split; [|rewrite <- size_doc; lia].
    apply LK. now apply in_lookup.
  - destruct (existsb (fun b => negb (b =? 0)) (chunk_at c p)) eqn:NZ.
    + apply existsb_exists in NZ as (b & IB & N). exists b. split; [exact IB|]. apply Bool.negb_true_iff, Z.eqb_neq in N. exact N.
    + exfalso. assert (X: all_zeros (chunk_at c p) = true); [|congruence]. apply forallb_forall. intros b IB.
      destruct (b =? 0) eqn:N; [reflexivity|]. rewrite <- NZ. apply existsb_exists. exists b. now rewrite N.
  - assert (VS: forall b, (32 <=? b) && (b <=? 126) = true <-> visible b) by (intros b; unfold visible; rewrite andb_true_iff, !Z.leb_le; tauto).
    destruct (existsb (fun b => (32 <=? b) && (b <=? 126)) (chunk_at c p)) eqn:X; subst cm.
    + split.
      * apply existsb_exists in X as (b & IB & N). apply Exists_exists. exists b. split; [exact IB|now apply VS].
      * exists (map byte_text (chunk_at c p)). split; [reflexivity|].
        assert (BB: Forall is_byte (chunk_at c p)) by (rewrite C3; exact (slice_forall is_byte _ _ bytes F)).
        clear - BB. induction BB as [|b bs B BB IH]; constructor; [apply byte_shown; exact B|exact IH].
    + apply Forall_forall. intros b IB V. apply VS in V. assert (K: existsb (fun b => (32 <=? b) && (b <=? 126)) (chunk_at c p) = true); [|congruence].
      apply existsb_exists. eauto.
Qed.
End Listing.

(** The marks in a listing name the entry points inside the binary, each once and in increasing order. *)
Theorem C74_marks : forall fuel flag entries bytes l,
  Forall is_byte bytes -> moderate bytes -> Forall (fun e => 0 <= e) entries -> disassemble fuel flag entries bytes = Ok (inl l) ->
  StronglySorted Z.lt (marked (map d_statement l)) /\ forall e, In e (marked (map d_statement l)) <-> In e entries /\ inside bytes e.
Proof. exact marks. Qed.
Print Assumptions C74_marks.

(** After the mark of an entry point stands its instruction, with no more than its label and a remark on overlaps before it. *)
Theorem C74_entry : forall fuel flag entries bytes l,
  Forall is_byte bytes -> moderate bytes -> Forall (fun e => 0 <= e) entries -> disassemble fuel flag entries bytes = Ok (inl l) ->
  forall e, In e entries -> inside bytes e -> exists l1 m l2 i cm,
    l = l1 ++ [mkD None (SComment "") None; mkD None (SComment "Entry point") None; mkD (Some e) (SDirective (DOrg e)) None] ++ m ++
        [mkD (Some e) (SInstr i) cm] ++ l2 /\
    Forall (fun d => d_pos d = None /\ between (d_statement d)) m.
Proof. exact entry_lines. Qed.
Print Assumptions C74_entry.

(** A data line gives 16 bytes, or fewer before code or the end of the binary; they are the bytes of the binary there and not all
    zero; the remark beside it shows them one by one, and is left out exactly if there is nothing to see. *)
Theorem C74_data : forall fuel flag entries bytes l,
  Forall is_byte bytes -> moderate bytes -> Forall (fun e => 0 <= e) entries -> disassemble fuel flag entries bytes = Ok (inl l) ->
  forall p items cm, In (mkD (Some p) (SDirective (DByte items)) cm) l -> exists bs,
    items = map (fun b => BVExpr (ENumber b Hex)) bs /\ bs = firstn (List.length bs) (skipn (Z.to_nat p) bytes) /\
    (1 <= List.length bs <= 16)%nat /\ inside bytes p /\ p + Z.of_nat (List.length bs) <= Z.of_nat (List.length bytes) /\
    (List.length bs = 16%nat \/ p + Z.of_nat (List.length bs) = Z.of_nat (List.length bytes) \/
      code_offset (map (fun d => (d_pos d, d_statement d)) l) (p + Z.of_nat (List.length bs))) /\
    (exists b, In b bs /\ b <> 0) /\
    match cm with
    | None => Forall (fun b => ~ visible b) bs
    | Some t => Exists visible bs /\ exists ts, t = String.concat "" ts /\ Forall2 shown_as bs ts
    end.
Proof. exact data_line. Qed.
Print Assumptions C74_data.

Local Lemma hex_shown p : 0 <= p < 18446744073709551616 -> hex_of (show_usize_hex p) p.
Proof.
  intros P. destruct (PrintProofs.padded_spec 16 ltac:(lia) 4 p ltac:(lia)) as (vs & E & A & N & Q). unfold show_usize_hex. exists vs.
  split; [rewrite E; now apply text_some|]. split; [|exact Q].
  assert (L: forall vs, String.length (text_of vs) = List.length vs) by (clear; induction vs as [|v vs IH]; [reflexivity|cbn; f_equal; exact IH]).
  rewrite <- L, <- E. unfold pad_zeros.
  assert (AP: forall a b, String.length (a ++ b)%string = (String.length a + String.length b)%nat) by (clear; induction a as [|x a IH]; intros b; [reflexivity|cbn; f_equal; apply IH]).
  rewrite AP.
  assert (Z: forall k, String.length (string_of_list_ascii (repeat "0"%char k)) = k) by (clear; induction k as [|k IH]; [reflexivity|cbn; f_equal; exact IH]).
  rewrite Z. lia.
Qed.

(** With positions each line begins with the offset of its statement, in hexadecimal, or with blanks if it has none; apart from that
    the text is the one without positions, where each line holds a statement and the remark on it. *)
Theorem C74_positions : forall fuel flag file_type bytes t1 t2, Forall is_byte bytes -> moderate bytes ->
  disassemble_cmd fuel true flag file_type bytes = Ok (inl t1) -> disassemble_cmd fuel false flag file_type bytes = Ok (inl t2) ->
  exists entries l rows, entry_points_of file_type = Some entries /\ disassemble fuel flag entries bytes = Ok (inl l) /\
    t1 = String.concat "" (map (fun r => fst r ++ "| " ++ snd r ++ String "010" "")%string rows) /\
    t2 = String.concat "" (map (fun r => snd r ++ String "010" "")%string rows) /\
    Forall2 (fun r d =>
      snd r = (show_statement (d_statement d) ++ match d_comment d with Some c => " ; " ++ c | None => "" end)%string /\
      match d_pos d with Some p => hex_of (fst r) p /\ inside bytes p | None => fst r = "    " end) rows l.
Proof.
  intros fuel flag file_type bytes t1 t2 F M H1 H2. unfold disassemble_cmd in *. destruct (entry_points_of file_type) as [entries|] eqn:EP; [|discriminate].
  destruct (disassemble fuel flag entries bytes) as [[l|e]| | |] eqn:D; cbn [bind] in H1, H2; try discriminate. injection H1 as <-. injection H2 as <-.
  exists entries, l. exists (map (fun d => (match d_pos d with Some p => show_usize_hex p | None => "    " end,
    show_statement (d_statement d) ++ match d_comment d with Some c => " ; " ++ c | None => "" end)%string) l).
  split; [reflexivity|]. split; [exact D|]. rewrite !map_map. cbn [fst snd].
  assert (PO: Forall (fun d => match d_pos d with Some p => inside bytes p | None => True end) l).
  { destruct (disassemble_inv fuel flag entries bytes l D) as (g & lifted & r & _ & _ & EM & ->). apply Forall_app. split.
    - exact (pieces_positions (mkListing flag entries bytes g lifted (build_names g)) 0 r (emit_pieces _ _ _ 0 r ltac:(lia) EM)).
    - apply tail_positions. }
  split; [|split].
  - f_equal. apply map_ext. intros d. unfold show_dstatement, newline. destruct (d_pos d); rewrite ?app_assoc_s; reflexivity.
  - f_equal. apply map_ext. intros d. unfold show_dstatement, newline. cbn [append]. now rewrite app_assoc_s.
  - clear - PO M. induction PO as [|d l P PO IH]; cbn [map]; constructor; [|exact IH]. cbn [fst snd]. split; [reflexivity|].
    destruct (d_pos d) as [p|]; [|reflexivity]. split; [|exact P]. apply hex_shown. unfold moderate, inside in *. lia.
Qed.
Print Assumptions C74_positions.

(** A jump to offset 18 over sixteen bytes of data; the entry points of the command, three of which are outside. *)
Definition laid_out : list Z := [0x01; 0x10; 72; 105; 33; 9; 10; 0; 200; 13; 0; 0; 0; 0; 0; 0; 0; 1; 0xA0].

Example C74_case : Forall is_byte laid_out /\ moderate laid_out /\ exists l, disassemble 30 false [18; 0; 40] laid_out = Ok (inl l) /\
  marked (map d_statement l) = [0; 18] /\
  In (mkD (Some 2) (SDirective (DByte (map (fun b => BVExpr (ENumber b Hex)) (firstn 16 (skipn 2 laid_out))))) (Some "Hi!\t\n..\r........")) l.
Proof.
  split; [unfold laid_out, is_byte; repeat constructor; lia|]. split; [unfold moderate; cbn; lia|].
  eexists. split; [vm_compute; reflexivity|]. split; [vm_compute; reflexivity|]. do 5 right. left. reflexivity.
Qed.

Example C74_positions_case : exists t1 t2, disassemble_cmd 30 true false "game" [0x02; 0x20; 0xA0] = Ok (inl t1) /\
  disassemble_cmd 30 false false "game" [0x02; 0x20; 0xA0] = Ok (inl t2) /\
  prefix ("    | " ++ String "010" ("    |   ;; Entry point" ++ String "010" ("0000|   .org 0" ++ String "010" ("0000|   ld    $20" ++ String "010" "0002|   ret")))) t1 = true /\
  prefix (String "010" ("  ;; Entry point" ++ String "010" ("  .org 0" ++ String "010" ("  ld    $20" ++ String "010" "  ret")))) t2 = true.
Proof. eexists. eexists. split; [vm_compute; reflexivity|]. split; [vm_compute; reflexivity|]. split; vm_compute; reflexivity. Qed.
