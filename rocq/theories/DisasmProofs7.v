(** The image of a listing without overlaps. *)
From Coq Require Import ZArith List String Ascii Bool Lia.
From Verif Require Import Base Expr Instr Ast Asm Printer SpecIsa SpecExpr SpecAsm AsmProofs AsmProofs2 AsmProofs4 AsmProofs5 AsmProofs6 AsmProofs7 AsmProofs8 CodecProofs CodecProofs2 ExprProofs Disasm SpecDisasm DisasmProofs DisasmProofs2 DisasmProofs3 DisasmProofs4 DisasmProofs5 DisasmProofs6.
Import ListNotations.
Local Opaque aliases psw_bits.
Open Scope string_scope.
Open Scope list_scope.
Open Scope Z_scope.

Lemma lift_keys g n : forall l r, lift_instrs g n l = Ok r -> map fst r = map fst l.
Proof.
  induction l as [|[a i] l IH]; intros r H; cbn [lift_instrs] in H; [injection H as <-; reflexivity|].
  destruct (lift_instr a g i n) as [j| | |]; cbn [bind] in H; try discriminate.
  destruct (lift_instrs g n l) as [r'| | |]; cbn [bind] in H; try discriminate. injection H as <-. cbn [map fst]. f_equal. auto.
Qed.

Lemma alias_lines l : forall cur, laid cur (map (fun p : Z * string => d_alias (snd p) (hex (wrap32 (fst p)))) l) /\
  after cur (map (fun p : Z * string => d_alias (snd p) (hex (wrap32 (fst p)))) l) = cur.
Proof.
  induction l as [|x l IH]; intros cur; [cbn; auto|]. destruct (IH cur) as [I1 I2]. split.
  - cbn [map laid d_statement d_alias advance]. split; [exact I|]. split; [lia|exact I1].
  - exact I2.
Qed.

Lemma tail_laid c cur : 0 <= cur -> laid cur (tail_part c) /\ after cur (tail_part c) = blen (l_bytes c) mod 512 + round_up cur 512.
Proof.
  intros C. unfold tail_part. pose proof (Z.mod_pos_bound (blen (l_bytes c)) 512 ltac:(lia)) as M.
  assert (W: wrap32 (blen (l_bytes c) mod 512) = blen (l_bytes c) mod 512) by (apply CodecProofs.wrap32_small; lia).
  pose proof (round_up_bounds cur 512 ltac:(lia)) as R.
  set (al := map (fun p : Z * string => d_alias (snd p) (hex (wrap32 (fst p)))) (sorted_pairs (n_psw_bits (l_names c)))).
  set (am := map (fun p : Z * string => d_alias (snd p) (hex (wrap32 (fst p)))) (sorted_pairs (n_aliases (l_names c)))).
  assert (H: laid cur [d_remark (newline ++ "Pad size of binary"); d_cnop (blen (l_bytes c) mod 512) 512; d_remark (newline ++ "PSW bits")] /\
    after cur [d_remark (newline ++ "Pad size of binary"); d_cnop (blen (l_bytes c) mod 512) 512; d_remark (newline ++ "PSW bits")] = blen (l_bytes c) mod 512 + round_up cur 512).
  { split.
    - cbn [laid d_statement d_remark d_cnop advance hex]. rewrite W. change (wrap32 512) with 512. cbn [Z.eqb]. repeat split; lia.
    - unfold after. cbn [map fold_left d_statement d_remark d_cnop advance hex]. rewrite W. reflexivity. }
  destruct H as [H1 H2]. set (e := blen (l_bytes c) mod 512 + round_up cur 512) in *.
  destruct (alias_lines (sorted_pairs (n_psw_bits (l_names c))) e) as [A1 A2]. fold al in A1, A2.
  destruct (alias_lines (sorted_pairs (n_aliases (l_names c))) e) as [B1 B2]. fold am in B1, B2.
  assert (R1: laid e [d_remark (newline ++ "Special Function Registers")] /\ after e [d_remark (newline ++ "Special Function Registers")] = e) by (cbn; split; [repeat split; lia|reflexivity]).
  destruct R1 as [R1 R2]. rewrite laid_app, (after_app cur), H2. rewrite laid_app, (after_app e), A2. rewrite laid_app, (after_app e), R2. auto.
Qed.

Lemma alias_in l d : In d (map (fun p : Z * string => d_alias (snd p) (hex (wrap32 (fst p)))) (sorted_pairs l)) ->
  exists v n, In (v, n) l /\ d = d_alias n (hex (wrap32 v)).
Proof. intros I. apply in_map_iff in I as ([v n] & <- & I). exists v, n. split; [exact (proj1 (sorted_in _ _) I)|reflexivity]. Qed.

(** Lines of the end of the listing. *)
Lemma tail_lines c d : l_names c = build_names (l_graph c) -> In d (tail_part c) ->
  (exists t, d = d_remark t) \/ d = d_cnop (blen (l_bytes c) mod 512) 512 \/ (exists v n, In (v, n) table /\ d = d_alias n (hex (wrap32 v))).
Proof.
  intros N. assert (NP: n_psw_bits (l_names c) = psw_bits) by (rewrite N; reflexivity).
  assert (NA: n_aliases (l_names c) = aliases) by (rewrite N; reflexivity). unfold tail_part. rewrite !in_app_iff.
  intros [I|[I|[I|I]]].
  - destruct I as [<-|[<-|[<-|[]]]]; eauto.
  - apply alias_in in I as (v & n & I & ->). rewrite NP in I. right. right. exists v, n. split; [exact (in_or_app _ _ _ (or_introl I))|reflexivity].
  - destruct I as [<-|[]]. eauto.
  - apply alias_in in I as (v & n & I & ->). rewrite NA in I. right. right. exists v, n. split; [exact (in_or_app _ _ _ (or_intror I))|reflexivity].
Qed.

Lemma byte_items pr get chunk bs : Forall is_byte chunk -> emits pr get 0 (SDirective (DByte (map (fun b => BVExpr (hex b)) chunk))) bs -> bs = chunk.
Proof.
  cbn [emits]. intros F (ll & H & ->). revert ll H. induction F as [|b t B F IH]; intros ll H; cbn [map] in H; inversion H; subst; [reflexivity|].
  cbn [List.concat]. rewrite (IH l' ltac:(assumption)). cbn [item_bytes] in *. match goal with H : exists v, _ |- _ => destruct H as (v & E & _ & ->) end.
  cbn in E. injection E as <-. unfold is_byte in B. rewrite Z.mod_small by lia. reflexivity.
Qed.

Section Image.
Variables (fuel : nat) (flag : bool) (entries bytes : list Z) (g : graph) (lifted : list (Z * instr expr imode)) (r : list dstatement).
Hypothesis F : Forall is_byte bytes.
Hypothesis M : moderate bytes.
Hypothesis E : Forall (fun e => 0 <= e) entries.
Hypothesis B : build_instruction_graph fuel entries bytes = Ok (inl g).
Hypothesis LI : lift_instrs g (build_names g) (g_instrs g) = Ok lifted.
Let c := mkListing flag entries bytes g lifted (build_names g).
Hypothesis EM : emit (S (List.length bytes)) c (fun _ => false) 0 = Ok r.
Let l := r ++ tail_part c.
Hypothesis AP : apart (fun i => size i) lifted.

Lemma lifted_stands p j : lookup p lifted = Some j -> exists i, instr_at g p = Some i /\ lift_instr p g i (build_names g) = Ok j /\
  stands bytes p i (p + size j) /\ size i = size j /\ 0 <= p /\ p + size j <= blen bytes /\ in_range i.
Proof.
  intros L. destruct (lifted_at g lifted LI p j L) as (i & I & LF). exists i. split; [exact I|]. split; [exact LF|].
  pose proof (lift_size p g i (build_names g) j LF) as S. destruct (built_sound bytes entries fuel g p i F M E B I) as (_ & IN & ST).
  destruct (stands_decode bytes p i _ F ST) as (_ & _ & _ & BL & R). unfold inside in IN. rewrite S. auto with zarith.
Qed.

Lemma laid_body : laid 0 r /\ 0 <= after 0 r <= blen bytes /\
  (forall o b, 0 <= o -> get_at bytes o = Some b -> b <> 0 -> exists d, In d r /\ spans d o).
Proof.
  refine (emit_laid c AP _ _ _ _ _ _ 0 r 0 EM _ _ _ _ _).
  - intros p MK. unfold masked in MK. apply existsb_exists in MK as ([q j] & I & Q). cbn [fst snd] in Q.
    apply andb_true_iff in Q as [Q1 Q2]. exists q, j. split; [|apply Z.leb_le in Q1; apply Z.ltb_lt in Q2; lia].
    apply in_lookup; [|exact I]. cbn [l_lifted c]. rewrite (lift_keys _ _ _ _ LI). exact (i_keys _ _ _ _ (built_inv bytes entries fuel g F E B)).
  - intros p j L. destruct (lifted_stands p j L) as (i & _ & _ & _ & _ & P & Q & _). cbn [l_bytes c]. auto.
  - intros p IE P. unfold is_entry in IE. apply existsb_exists in IE as (x & I & Q). apply Z.eqb_eq in Q. subst x. cbn [l_entries l_bytes c] in *.
    destruct (i_entries _ _ _ _ (built_inv bytes entries fuel g F E B) p I) as [C|[[]|C]]; [|lia].
    apply contains_iff in C as (i & C). destruct (lifted_of g lifted LI p i C) as (j & J & _). eauto.
  - exact (names_ok g).
  - lia.
  - cbn [l_bytes c]. unfold blen. lia.
  - intros p j L P. destruct (lifted_stands p j L) as (i & _ & _ & _ & _ & Q & _). lia.
  - now left.
  - discriminate.
Qed.

Lemma laid_all : laid 0 l.
Proof.
  destruct laid_body as (H1 & H2 & _). unfold l. rewrite laid_app. split; [exact H1|]. apply tail_laid. lia.
Qed.

Lemma end_all : after 0 l = blen bytes mod 512 + round_up (after 0 r) 512.
Proof. destruct laid_body as (H1 & H2 & _). unfold l. rewrite after_app. now apply tail_laid. Qed.

Lemma end_small : after 0 l <= 1073743000.
Proof.
  rewrite end_all. destruct laid_body as (_ & H & _). pose proof (Z.mod_pos_bound (blen bytes) 512 ltac:(lia)).
  pose proof (round_up_bounds (after 0 r) 512 ltac:(lia)). unfold moderate in M. unfold blen in *. lia.
Qed.

Lemma addr_bounds k : 0 <= after 0 (firstn k l) <= after 0 l.
Proof.
  split.
  - exact (laid_mono l 0 laid_all 0%nat k ltac:(lia)).
  - rewrite <- (firstn_all l) at 2. destruct (Nat.le_gt_cases k (List.length l)) as [K|K]; [exact (laid_mono l 0 laid_all _ _ K)|].
    rewrite (firstn_all2 l (n := k)) by lia. rewrite firstn_all. lia.
Qed.

(** The lines of the whole listing. *)
Lemma lines d : In d l -> shape c d \/ (exists t, d = d_remark t) \/ d = d_cnop (blen bytes mod 512) 512 \/ (exists v n, In (v, n) table /\ d = d_alias n (hex (wrap32 v))).
Proof.
  intros I. unfold l in I. apply in_app_or in I as [I|I].
  - left. pose proof (emit_shape c _ _ 0 r (Z.le_refl 0) EM) as S. rewrite Forall_forall in S. auto.
  - right. exact (tail_lines c d eq_refl I).
Qed.

Lemma typed_all : Forall typed (reread l).
Proof.
  apply Forall_forall. intros s I. unfold reread in I. apply in_map_iff in I as (d & <- & I). destruct (lines d I) as [S|[(t & ->)|[->|(v & n & T & ->)]]].
  - destruct S; cbn [d_statement d_remark d_org d_label d_instr d_bytes lowered typed]; try exact Logic.I; [lia|].
    cbn [l_names c] in *. match goal with H : lookup _ (n_labels _) = Some _ |- _ => pose proof (names_ok g _ _ H) as -> end. discriminate.
  - exact Logic.I.
  - cbn [d_statement d_cnop lowered typed hex]. pose proof (Z.mod_pos_bound (blen bytes) 512 ltac:(lia)).
    rewrite CodecProofs.wrap32_small by lia. change (wrap32 512) with 512. lia.
  - exact Logic.I.
Qed.

Lemma small_all : cnop_small (reread l).
Proof. intros k a m _. rewrite reread_addr. pose proof (addr_bounds (S k)). pose proof end_small. lia. Qed.

Variables (pr : profile) (out : list Z).
Hypothesis AS : assemble pr (reread l) = Ok out.

Lemma names_all k get : env_at pr (reread l) k get -> names_mean get.
Proof.
  intros [EN _] x v X G. rewrite (EN x X) in G. apply visible_inv in G as [(j & n & N & NL & NX & NV)|(j & s & n & e & _ & N & VD & NX & EV)].
  - left. rewrite reread_nth in N. destruct (nth_error l j) as [d|] eqn:D; [|discriminate]. cbn [option_map] in N. injection N as N.
    pose proof (laid_nth l 0 j d laid_all D) as LN. destruct (d_statement d) as [| | | | | |]; cbn [lowered] in N; try discriminate. injection N as <-.
    rewrite reread_addr in NV. rewrite <- NV in LN. pose proof (addr_bounds j) as AB. pose proof end_small. split; [lia|].
    rewrite <- NX, lower_idem, LN. reflexivity.
  - right. rewrite reread_nth in N. destruct (nth_error l j) as [d|] eqn:D; [|discriminate]. cbn [option_map] in N. injection N as <-.
    apply nth_error_In in D. destruct (lines d D) as [S|[(t & ->)|[->|(w & m & T & ->)]]]; try discriminate VD; [destruct S; discriminate VD|].
    cbn [d_statement d_alias lowered var_def] in VD. injection VD as <- <-. cbn in EV. destruct (table_facts w m T) as [WR _].
    rewrite CodecProofs.wrap32_small in EV by lia. injection EV as <-. exists m. auto.
Qed.

(** Every chunk agrees with the binary. *)
Lemma chunk_agrees chunks k bs i b : chunks_of pr (reread l) chunks -> nth_error chunks k = Some bs -> get_at bs i = Some b ->
  get_at bytes (addr (firstn k (reread l)) + i) = Some b.
Proof.
  intros [CL CH] K G. assert (NK: nth_error (reread l) k <> None).
  { apply nth_error_Some. rewrite <- CL. apply nth_error_Some. congruence. }
  destruct (nth_error (reread l) k) as [s|] eqn:N; [|congruence]. destruct (CH k s bs N K) as (get & EN & EB).
  pose proof (names_all k get EN) as NM. rewrite reread_nth in N. destruct (nth_error l k) as [d|] eqn:D; [|discriminate].
  cbn [option_map] in N. injection N as <-. pose proof (laid_nth l 0 k d laid_all D) as LN. rewrite reread_addr in *.
  apply nth_error_In in D. assert (NB: bs <> []) by (intros ->; rewrite get_at_out in G; [discriminate|cbn; lia]).
  destruct (lines d D) as [S|[(t & ->)|[->|(v & n & T & ->)]]].
  - destruct S; cbn [d_statement d_remark d_org d_label d_instr d_bytes d_pos lowered] in *; try (cbn [emits] in EB; exfalso; apply NB; tauto).
    + injection LN as LN. rewrite <- LN in EB |- *. match goal with H : lookup p _ = Some _ |- _ => destruct (lifted_stands p _ H) as (j & J & LF & ST & SZ & P0 & P1 & RG) end.
      cbn [emits] in EB. destruct EB as (f & vs & FI & FK & OR & ->). rewrite relabel_ops in OR.
      destruct ST as (pre & f' & post & EQ & PL & FI' & FK' & _ & _).
      assert (KE: key (relabel lower_expr i0) = key j) by (rewrite relabel_key; exact (lift_key p g j _ i0 LF)).
      assert (f' = f) by (apply form_key_unique; auto; congruence). subst f'.
      assert (VE: vs = values j).
      { pose proof (lift_ops p g j i0 J LF) as OPS. pose proof (size_bounds j). unfold moderate in M. unfold blen in P1.
        assert (DL: doc_length (relabel lower_expr i0) = size j) by (rewrite SZ; rewrite <- size_doc; destruct i0; reflexivity).
        rewrite DL in OR. assert (KK: f_kinds f = snd (key j)) by (rewrite <- KE, <- FK; reflexivity). rewrite KK in OR.
        exact (opnds_values pr get g (p + size j) NM ltac:(lia) (snd (key j)) (values j) (op_list i0) RG OPS vs OR). }
      subst vs. rewrite EQ, PL. apply get_at_app_r. now apply get_at_app_l.
    + injection LN as LN. rewrite <- LN in EB |- *.
      assert (FC: Forall is_byte chunk).
      { match goal with H : chunk = firstn _ _ |- _ => rewrite H end. apply Forall_forall. intros x I. rewrite Forall_forall in F. apply F. cbn [l_bytes c] in I.
        rewrite <- (firstn_skipn (Z.to_nat p) bytes). apply in_or_app. right. rewrite <- (firstn_skipn (List.length chunk)). apply in_or_app. now left. }
      pose proof (byte_items pr get chunk bs FC EB) as ->.
      match goal with H : chunk = firstn _ _ |- _ => rename H into CE end. cbn [l_bytes c] in CE.
      assert (ZP: AsmProofs.zlen (firstn (Z.to_nat p) bytes) = p) by (unfold AsmProofs.zlen; rewrite firstn_length; cbn [l_bytes c] in *; unfold blen in *; lia).
      rewrite <- (firstn_skipn (Z.to_nat p) bytes). rewrite <- ZP at 3.
      apply get_at_app_r. rewrite <- (firstn_skipn (List.length chunk) (skipn (Z.to_nat p) bytes)). apply get_at_app_l. rewrite <- CE. exact G.
  - cbn [d_statement d_remark lowered emits] in EB. contradiction.
  - cbn [d_statement d_cnop lowered emits] in EB. exfalso. apply NB. tauto.
  - cbn [d_statement d_alias lowered emits] in EB. contradiction.
Qed.

(** Every byte of the binary that is not zero is covered. *)
Lemma chunk_covers chunks o b : chunks_of pr (reread l) chunks -> get_at bytes o = Some b -> b <> 0 ->
  exists k x, covers (reread l) chunks k o x.
Proof.
  intros CO G NZ. destruct CO as [CL CH]. destruct laid_body as (_ & _ & CV). destruct (CV o b ltac:(apply get_at_range in G; lia) G NZ) as (d & D & SP).
  assert (DL: In d l) by (unfold l; apply in_or_app; now left). apply In_nth_error in DL as (k & K).
  assert (KC: nth_error chunks k <> None). { apply nth_error_Some. rewrite CL. apply nth_error_Some. rewrite reread_nth, K. discriminate. }
  destruct (nth_error chunks k) as [bs|] eqn:NC; [|congruence].
  pose proof (reread_nth l k) as RN. rewrite K in RN. cbn [option_map] in RN. destruct (CH k _ bs RN NC) as (get & EN & EB).
  pose proof (laid_nth l 0 k d laid_all K) as LN. rewrite reread_addr in EB.
  assert (Q: 0 <= o - after 0 (firstn k l) < AsmProofs.zlen bs).
  { destruct SP as [(p & j & cm & -> & P)|(p & chunk & -> & P)]; cbn [d_statement d_instr d_bytes d_pos lowered] in *; injection LN as LN; rewrite <- LN in EB |- *.
    - cbn [emits] in EB. destruct EB as (f & vs & FI & FK & OR & ->). unfold AsmProofs.zlen. rewrite form_bytes_length.
      rewrite <- (doc_length_form f (relabel lower_expr j) FI FK). replace (doc_length (relabel lower_expr j)) with (size j); [lia|].
      rewrite <- size_doc. destruct j; reflexivity.
    - assert (LB: AsmProofs.zlen bs = blen chunk); [|lia].
      cbn [emits] in EB. destruct EB as (ll & FA & ->). clear -FA. unfold AsmProofs.zlen, blen. revert ll FA. induction chunk as [|x t IH]; intros ll FA; cbn [map] in FA; inversion FA; subst; [reflexivity|].
      cbn [List.concat item_bytes] in *. match goal with H : exists v, _ |- _ => destruct H as (v & _ & _ & ->) end. cbn [app List.length]. specialize (IH l' ltac:(assumption)). lia. }
  unfold AsmProofs.zlen in Q. destruct (get_at_some bs (o - after 0 (firstn k l)) Q) as (x & X). exists k, x. exists bs. split; [exact NC|]. now rewrite reread_addr.
Qed.

Theorem image_agrees :
  (forall o, 0 <= o < Z.of_nat (List.length out) -> get_at out o = match get_at bytes o with Some b => Some b | None => Some 0 end) /\
  (forall o b, get_at bytes o = Some b -> b <> 0 -> o < Z.of_nat (List.length out)) /\
  Z.of_nat (List.length out) = blen bytes mod 512 + round_up (after 0 r) 512.
Proof.
  destruct (assemble_sound pr (reread l) out typed_all (fun _ => small_all) AS) as (LEN & (chunks & CO & IB) & _).
  assert (LO: Z.of_nat (List.length out) = after 0 l).
  { unfold AsmProofs.zlen in LEN. rewrite LEN. apply Z.le_antisymm.
    - destruct (top_reached (reread l)) as (k & ->). rewrite reread_addr. apply addr_bounds.
    - rewrite <- (firstn_all l) at 1. rewrite <- reread_addr. apply top_bound. }
  assert (CB: forall k o x, covers (reread l) chunks k o x -> get_at bytes o = Some x).
  { intros k o x (bs & K & G). pose proof (chunk_agrees chunks k bs _ x CO K G) as A. rewrite <- A. f_equal. lia. }
  split; [|split].
  - intros o O. destruct (IB o O) as (b & G & [(k & CK & _)|(-> & NC)]).
    + rewrite (CB k o b CK). exact G.
    + rewrite G. destruct (get_at bytes o) as [x|] eqn:X; [|reflexivity]. destruct (Z.eq_dec x 0) as [->|NZ]; [reflexivity|].
      destruct (chunk_covers chunks o x CO X NZ) as (k & y & C). exfalso. exact (NC k y C).
  - intros o b G NZ. destruct (chunk_covers chunks o b CO G NZ) as (k & x & C). pose proof C as (bs & K & GB). apply get_at_range in GB.
    destruct CO as [CL CH]. assert (NK: nth_error (reread l) k <> None). { apply nth_error_Some. rewrite <- CL. apply nth_error_Some. congruence. }
    destruct (nth_error (reread l) k) as [s|] eqn:N; [|congruence]. destruct (CH k s bs N K) as (get & EN & EB).
    pose proof (emits_advance pr get _ s bs EB) as EL. pose proof (addr_S k (reread l) s N) as AD.
    assert (TB: addr (firstn (S k) (reread l)) <= Z.of_nat (List.length out)). { unfold AsmProofs.zlen in LEN. rewrite LEN. apply top_bound. }
    rewrite AD in TB. unfold AsmProofs.zlen in EL. set (q := addr (firstn k (reread l))) in *. clearbody q. clear -GB EL TB.
    destruct s as [[]| | | | | |]; try (subst bs; cbn in GB; lia); rewrite EL in TB; lia.
  - rewrite LO. exact end_all.
Qed.
End Image.
