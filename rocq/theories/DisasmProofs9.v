(** The lines of a listing can be read back; a listing without overlaps assembles to the binary. *)
From Coq Require Import ZArith List String Ascii Bool Lia.
From Verif Require Import Base Expr Instr Ast Macro Asm Lexer Parser Printer Files CHeader Img Include.
From Verif Require Import SpecIsa SpecExpr SpecAsm SpecLex LexProofs LexProofs3 LexProofs6 SpecParse SpecLine SpecPrint PrintProofs PrintProofs2 PrintProofs3 PrintProofs4 ExpandProofs.
From Verif Require Import AsmProofs AsmProofs4 CodecProofs CodecProofs2 Disasm SpecDisasm DisasmProofs DisasmProofs2 DisasmProofs3 DisasmProofs4 DisasmProofs5 DisasmProofs6 DisasmProofs7 DisasmProofs8.
Import ListNotations.
Open Scope string_scope.
Open Scope list_scope.
Open Scope Z_scope.

(** * Expressions *)

Definition identb (w : string) : bool := match w with EmptyString => false | String c t => ident_start c && allb ident_char t end.

Lemma identb_ok w : identb w = true -> identifier w.
Proof.
  destruct w as [|c t]; [discriminate|]. cbn [identb identifier]. rewrite andb_true_iff. intros [H1 H2]. split; [now apply name_start_iff|].
  clear c H1. induction t as [|c t IH]; [exact Logic.I|]. cbn [allb all_chars] in *. apply andb_true_iff in H2 as [H1 H2]. split; [now apply name_char_iff|auto].
Qed.

Definition good_name (n : string) : Prop := allb cleanb n = true /\ plain_name (lower n) /\ lower n <> "equ".

Definition good_expr (e : expr) : Prop := (exists n, e = EName n /\ good_name n) \/ (exists n, e = hex n /\ 0 <= n <= 2147483647).

Lemma table_good v n : In (v, n) table -> good_name n /\ lower n = n /\ ~ In n directive_names.
Proof.
  intros I. assert (Q: forallb (fun p => allb cleanb (snd p) && identb (snd p) && String.eqb (lower (snd p)) (snd p) && negb (String.eqb (snd p) "equ") && negb (existsb (String.eqb (snd p)) directive_names)) table = true) by (vm_compute; reflexivity).
  rewrite forallb_forall in Q. specialize (Q _ I). cbn [snd] in Q. rewrite !andb_true_iff, !negb_true_iff, String.eqb_eq, String.eqb_neq in Q.
  destruct Q as ((((Q1 & Q2) & Q3) & Q4) & Q5). split; [|split; [exact Q3|]].
  - split; [exact Q1|]. unfold plain_name. rewrite !Q3. split; [split; [now apply identb_ok|reflexivity]|exact Q4].
  - intros J. assert (existsb (String.eqb n) directive_names = true) by (apply existsb_exists; exists n; split; [exact J|apply String.eqb_refl]). congruence.
Qed.

Lemma label_good t : good_name (label_name t).
Proof.
  unfold good_name, label_name, show_usize_hex. split; [|split; [split|]].
  - rewrite allb_app, hex_all by (vm_compute; reflexivity). reflexivity.
  - apply identb_ok. cbn [append lower identb allb]. rewrite lower_all, hex_all by (vm_compute; reflexivity). vm_compute. reflexivity.
  - apply lower_idem.
  - discriminate.
Qed.

Lemma opnd_good g next k x e : in_field k x -> opnd (build_names g) next k x (inl e) -> good_expr e.
Proof.
  intros F. destruct k; cbn [opnd]; unfold in_field in F; cbn in F.
  - intros H; apply inl_inj in H; subst e. right. exists x. split; [reflexivity|lia].
  - intros H; apply inl_inj in H; subst e. unfold mem_expr. change (n_aliases (build_names g)) with aliases. destruct (lookup (wrap_usize x) aliases) as [n|] eqn:L.
    + left. exists n. split; [reflexivity|]. apply (table_good (wrap_usize x)). unfold table. apply in_or_app. right. exact (lookup_in _ _ _ L).
    + right. exists x. split; [reflexivity|lia].
  - intros (m & H & _). discriminate H.
  - intros (d & H); apply inl_inj in H; subst e. unfold bits_expr. change (n_psw_bits (build_names g)) with psw_bits. destruct (d =? 257); [destruct (lookup (wrap_usize x) psw_bits) as [n|] eqn:L|].
    + left. exists n. split; [reflexivity|]. apply (table_good (wrap_usize x)). unfold table. apply in_or_app. left. exact (lookup_in _ _ _ L).
    + right. exists x. split; [reflexivity|lia].
    + right. exists x. split; [reflexivity|lia].
  - intros H; apply inl_inj in H; subst e. left. eexists. split; [reflexivity|apply label_good].
  - intros [H|H]; apply inl_inj in H; subst e; [left; eexists; split; [reflexivity|apply label_good]|]. right. eexists. split; [reflexivity|].
    rewrite usize_small by lia. rewrite CodecProofs.wrap32_small by lia. lia.
  - intros H; apply inl_inj in H; subst e. left. eexists. split; [reflexivity|apply label_good].
  - intros H; apply inl_inj in H; subst e. left. eexists. split; [reflexivity|apply label_good].
Qed.

Definition good_operand (o : expr + imode) : Prop := match o with inl e => good_expr e | inr _ => True end.

Lemma opnds_good g next : forall ks xs os, opnds (build_names g) next ks xs os -> Forall2 in_field ks xs ->
  List.length ks = List.length os /\ Forall good_operand os.
Proof.
  induction 1 as [|k x o ks xs os O1 O2 IH]; intros F; [split; [reflexivity|constructor]|]. inversion F; subst.
  destruct IH as [IH1 IH2]; [assumption|]. split; [cbn; congruence|]. constructor; [|exact IH2]. destruct o as [e|m]; [|exact Logic.I]. eapply opnd_good; eauto.
Qed.

Lemma number_clean n : allb cleanb (show_expr (hex n)) = true.
Proof.
  cbn [show_expr hex show_number]. unfold show_radix. destruct (n <=? 255); cbn [append allb]; rewrite hex_all by (vm_compute; reflexivity); reflexivity.
Qed.

Lemma expr_alike e : good_expr e -> alike (show_expr e) (show_expr (lower_expr e)).
Proof. intros [(n & -> & H & _)|(n & -> & _)]; [now apply alike_lower|]. apply alike_refl, number_clean. Qed.

Lemma expr_printable e : good_expr e -> printable (lower_expr e) /\ (forall n, lower_expr e <> EMacroArg n) /\ ~ opens_with_equ (lower_expr e).
Proof.
  intros [(n & -> & _ & P & Q)|(n & -> & R)]; cbn [lower_expr hex].
  - split; [split; [exact P|exact Logic.I]|]. split; [discriminate|]. intros [H|(x & H)]; [congruence|]. cbn in H. intuition discriminate.
  - split; [split; [exact R|discriminate]|]. split; [discriminate|]. intros [H|(x & H)]; [discriminate|]. cbn in H. intuition discriminate.
Qed.

(** * Instructions *)

Lemma imode_alike m : alike (show_imode m) (show_imode m).
Proof. destruct m; apply alike_refl; reflexivity. Qed.

Lemma instr_alike j : Forall good_operand (op_list j) -> alike (show_statement (SInstr j)) (show_statement (SInstr (relabel lower_expr j))).
Proof.
  intros F. cbn [show_statement]. apply (alike_app "  " "  "); [apply alike_refl; reflexivity|].
  destruct j; cbn [op_list] in F; repeat match goal with H : Forall _ (_ :: _) |- _ => inversion H; subst; clear H end; cbn [good_operand] in *;
    cbn [relabel show_instr];
    repeat first [apply expr_alike; assumption | apply imode_alike | apply alike_refl; reflexivity | apply alike_app].
Qed.

Lemma instr_printable j : List.length (snd (key j)) = List.length (op_list j) -> Forall good_operand (op_list j) ->
  printable_statement (SInstr (relabel lower_expr j)).
Proof.
  intros L F. cbn [printable_statement]. split.
  - unfold printable_instr. rewrite relabel_key, relabel_ops. revert L. generalize (snd (key j)). induction F as [|o os O F IH]; intros [|k ks] L; try discriminate L; cbn [map]; [constructor|].
    constructor; [|apply IH; cbn in L; congruence]. destruct o as [e|m]; [|exact Logic.I]. destruct (expr_printable e O) as (P & Q & _). cbn [printable_operand]. auto.
  - intros (k & ks & e & os & A & B & C & D). rewrite relabel_ops in C. destruct F as [|o os' O F]; [discriminate|]. cbn [map] in C. injection C as C _.
    destruct o as [e'|m]; [|discriminate]. injection C as C. subst e. destruct (expr_printable e' O) as (_ & _ & Q). contradiction.
Qed.

(** * Other lines *)

Lemma positions_tame o : allb tameb (position_list o) = true.
Proof.
  unfold position_list. induction o as [|p o IH]; [reflexivity|]. cbn [map]. assert (H: allb tameb (show_usize_hex p) = true) by (apply hex_all; vm_compute; reflexivity).
  destruct o as [|q o]; cbn [map String.concat] in *; [exact H|]. rewrite !allb_app, H. cbn [andb allb]. rewrite IH. reflexivity.
Qed.

Lemma arrival_tame flag g p cm : arrival_comment flag g p = Some cm -> allb tameb cm = true.
Proof.
  unfold arrival_comment. destruct flag; [|discriminate]. destruct (map fst _) as [|a l]; [discriminate|]. intros H.
  assert (Q: cm = ("Arrived from: " ++ position_list (sort (a :: l)))%string) by congruence. rewrite Q, allb_app, positions_tame. reflexivity.
Qed.

Lemma byte_text_tame b : is_byte b -> allb tameb (byte_text b) = true.
Proof.
  intros B. unfold byte_text. destruct ((32 <=? b) && (b <=? 126)) eqn:R.
  - apply andb_true_iff in R as [R1 R2]. apply Z.leb_le in R1, R2. cbn [allb]. rewrite andb_true_r. unfold tameb, Files.in_range.
    rewrite Ascii.nat_ascii_embedding by lia. rewrite !andb_true_iff, !negb_true_iff, !Ascii.eqb_neq, !Nat.leb_le.
    repeat split; try lia; intros Q; apply (f_equal nat_of_ascii) in Q; rewrite Ascii.nat_ascii_embedding in Q by lia; cbn in Q; lia.
  - destruct (b =? 9); [reflexivity|]. destruct (b =? 10); [reflexivity|]. destruct (b =? 13); reflexivity.
Qed.

Lemma bytes_tame chunk : Forall is_byte chunk -> allb tameb (String.concat "" (map byte_text chunk)) = true.
Proof.
  induction 1 as [|b t B F IH]; [reflexivity|]. cbn [map]. rewrite concat_cons, allb_app, byte_text_tame, IH by exact B. reflexivity.
Qed.

Lemma org_good p : 0 <= p <= 2147483647 -> good_line (d_org p).
Proof.
  intros P. apply gl_plain; try reflexivity; [|exact P]. cbn [d_org d_statement lowered show_statement show_directive]. apply alike_refl.
  destruct (p =? 0) eqn:Q; [apply Z.eqb_eq in Q; subst; reflexivity|]. rewrite allb_app. unfold show_usize_hex. rewrite hex_all by (vm_compute; reflexivity). reflexivity.
Qed.

Lemma label_line_good t : good_line (d_label (label_name t)).
Proof.
  destruct (label_good t) as (C & P & _). apply gl_plain; try reflexivity; [|exact P]. cbn [d_label d_statement lowered show_statement].
  apply alike_app; [now apply alike_lower|]. apply alike_refl. reflexivity.
Qed.

Lemma cnop_good n : good_line (d_cnop (n mod 512) 512).
Proof.
  pose proof (Z.mod_pos_bound n 512 ltac:(lia)) as R. apply gl_plain; try reflexivity; cbn [d_cnop d_statement lowered show_statement show_directive].
  - apply alike_refl. rewrite !allb_app, !number_clean. reflexivity.
  - cbn [printable_statement printable_directive]. rewrite CodecProofs.wrap32_small by lia. split; (split; [|discriminate]); cbn; lia.
Qed.

Lemma alias_good v n : In (v, n) table -> good_line (d_alias n (hex (wrap32 v))).
Proof.
  intros I. destruct (table_good v n I) as ((C & P & _) & L & D). destruct (table_facts v n I) as (R & _). rewrite L in P.
  apply gl_plain; try reflexivity; cbn [d_alias d_statement lowered show_statement].
  - apply alike_refl. rewrite !allb_app, number_clean, C. reflexivity.
  - cbn [printable_statement]. split; [exact P|]. split; [exact D|]. rewrite CodecProofs.wrap32_small by lia. split; [|discriminate]. cbn. lia.
Qed.

Lemma bytes_good p chunk : Forall is_byte chunk -> chunk <> [] -> good_line (d_bytes p chunk).
Proof.
  intros F N.
  assert (A: alike (show_statement (d_statement (d_bytes p chunk))) (show_statement (lowered (d_statement (d_bytes p chunk))))).
  { cbn [d_bytes d_statement lowered show_statement show_directive]. apply alike_refl. rewrite allb_app. change (allb cleanb "  .byte ") with true. cbn [andb]. clear F. unfold show_list. destruct chunk as [|b t]; [reflexivity|].
    cbn [map show_byte_value]. rewrite allb_app, number_clean. cbn [andb]. clear N. induction t as [|c t IH]; [reflexivity|].
    cbn [map show_byte_value]. rewrite concat_cons, !allb_app, number_clean, IH. reflexivity. }
  assert (P: printable_statement (lowered (d_statement (d_bytes p chunk)))).
  { cbn [d_bytes d_statement lowered printable_statement printable_directive]. split; [destruct chunk; [congruence|discriminate]|].
    apply Forall_map. eapply Forall_impl; [|exact F]. intros b B. unfold is_byte in B. cbn [printable_item]. split; [cbn; lia|discriminate]. }
  destruct (d_comment (d_bytes p chunk)) as [cm|] eqn:C; [|now apply gl_plain].
  apply (gl_noted _ cm); auto; [|right; eexists; reflexivity]. cbn [d_bytes d_comment] in C. destruct (existsb _ chunk); [|discriminate]. injection C as <-. now apply bytes_tame.
Qed.

(** * Whole listings *)

Lemma get_at_next (x : Z) l o : 0 <= o -> get_at (x :: l) (1 + o) = get_at l o.
Proof. intros H. rewrite get_at_cons. destruct (Z.eqb_spec (1 + o) 0); [lia|]. f_equal. lia. Qed.

Lemma same_extended (out bytes : list Z) :
  (forall o, 0 <= o < Z.of_nat (List.length out) -> get_at out o = match get_at bytes o with Some b => Some b | None => Some 0 end) ->
  (forall o b, get_at bytes o = Some b -> b <> 0 -> o < Z.of_nat (List.length out)) ->
  out ++ repeat 0 (List.length bytes - List.length out) = bytes ++ repeat 0 (List.length out - List.length bytes).
Proof.
  revert bytes. induction out as [|x out IH]; intros bytes H1 H2.
  - cbn [List.length app Nat.sub repeat]. rewrite app_nil_r, Nat.sub_0_r. induction bytes as [|b bytes IH]; [reflexivity|]. cbn [List.length repeat].
    assert (b = 0). { destruct (Z.eq_dec b 0) as [E|E]; [exact E|]. specialize (H2 0 b eq_refl E). cbn in H2. lia. } subst b. f_equal. apply IH.
    + intros o O. cbn in O. lia.
    + intros o b G N. pose proof (get_at_range _ _ _ G) as R. specialize (H2 (1 + o) b). rewrite get_at_next in H2 by lia. specialize (H2 G N). cbn [List.length] in *. lia.
  - assert (K: forall o, 0 <= o < Z.of_nat (List.length out) -> get_at out o = match get_at (tl bytes) o with Some b => Some b | None => Some 0 end).
    { intros o O. specialize (H1 (1 + o) ltac:(cbn [List.length]; lia)). rewrite get_at_next in H1 by lia. rewrite H1. destruct bytes as [|b bytes]; [|cbn [tl]; now rewrite get_at_next by lia].
      cbn [tl]. rewrite !get_at_out by (cbn; lia). reflexivity. }
    assert (K2: forall o b, get_at (tl bytes) o = Some b -> b <> 0 -> o < Z.of_nat (List.length out)).
    { intros o b G N. pose proof (get_at_range _ _ _ G) as R. destruct bytes as [|y bytes]; [cbn [tl] in G; rewrite get_at_out in G by (cbn; lia); discriminate|]. cbn [tl] in G.
      specialize (H2 (1 + o) b). rewrite get_at_next in H2 by lia. specialize (H2 G N). cbn [List.length] in H2. lia. }
    specialize (IH (tl bytes) K K2). specialize (H1 0 ltac:(cbn [List.length]; lia)). destruct bytes as [|b bytes]; cbn [tl List.length app Nat.sub repeat] in *.
    + cbn in H1. injection H1 as ->. f_equal. rewrite Nat.sub_0_r in IH. exact IH.
    + cbn in H1. injection H1 as ->. f_equal. exact IH.
Qed.

Definition placed (d : dstatement) : option Z * statement := (d_pos d, d_statement d).

Section Whole.
Variables (fuel : nat) (flag : bool) (entries bytes : list Z) (g : graph) (lifted : list (Z * instr expr imode)) (r : list dstatement).
Hypothesis F : Forall is_byte bytes.
Hypothesis M : moderate bytes.
Hypothesis E : Forall (fun e => 0 <= e) entries.
Hypothesis B : build_instruction_graph fuel entries bytes = Ok (inl g).
Hypothesis LI : lift_instrs g (build_names g) (g_instrs g) = Ok lifted.
Let c := mkListing flag entries bytes g lifted (build_names g).
Hypothesis EM : emit (S (List.length bytes)) c (fun _ => false) 0 = Ok r.
Let l := r ++ tail_part c.

Lemma listing_good : Forall good_line l.
Proof.
  apply Forall_forall. intros d I. destruct (lines flag entries bytes g lifted r EM d I) as [S|[(t & ->)|[-> |(v & n & T & ->)]]].
  all: try (now apply alias_good). all: try apply cnop_good.
  - destruct S as [t T|p P|p n N P|p i L P|p chunk P1 P2 P3 P4]; cbn [l_bytes l_names l_lifted l_flag l_graph c] in *.
    + apply gl_remark. destruct T as [-> |[-> |(o & -> & _)]]; [now left|right; left; reflexivity|]. right. left. rewrite allb_app, positions_tame. reflexivity.
    + apply org_good. unfold moderate in M. unfold blen in P. lia.
    + rewrite (names_ok g p n N). apply label_line_good.
    + destruct (lifted_stands fuel entries bytes g lifted F M E B LI p i L) as (j & J & LF & _ & _ & _ & _ & R).
      destruct (opnds_good g _ _ _ _ (lift_ops p g j i J LF) R) as [LN G]. rewrite <- (lift_key p g j _ i LF) in LN.
      destruct (arrival_comment flag g p) as [cm|] eqn:C.
      * apply (gl_noted _ cm); [reflexivity|exact (arrival_tame _ _ _ _ C)|left; eexists; reflexivity|now apply instr_alike|now apply instr_printable].
      * apply gl_plain; [reflexivity|reflexivity|now apply instr_alike|now apply instr_printable].
    + apply bytes_good.
      * rewrite P4. apply Forall_forall. intros x X. rewrite Forall_forall in F. apply F.
        rewrite <- (firstn_skipn (Z.to_nat p) bytes). apply in_or_app. right. rewrite <- (firstn_skipn (List.length chunk)). apply in_or_app. now left.
      * intros ->. cbn in P2. lia.
  - unfold l in I. apply in_app_or in I as [I|I].
    + pose proof (emit_shape c _ _ 0 r (Z.le_refl 0) EM) as S. rewrite Forall_forall in S. specialize (S _ I). inversion S as [t' T| | | |]; subst.
      apply gl_remark. destruct T as [-> |[-> |(o & -> & _)]]; [now left|right; left; reflexivity|]. right. left. rewrite allb_app, positions_tame. reflexivity.
    + unfold tail_part in I. rewrite !in_app_iff in I. destruct I as [I|[I|[I|I]]].
      * destruct I as [I|[I|[I|[]]]]; try discriminate I; injection I as <-; apply gl_remark; right; right; eexists; (split; [reflexivity|reflexivity]).
      * destruct (alias_in _ _ I) as (? & ? & _ & Q). discriminate.
      * destruct I as [I|[]]. injection I as <-. apply gl_remark; right; right; eexists; (split; [reflexivity|reflexivity]).
      * destruct (alias_in _ _ I) as (? & ? & _ & Q). discriminate.
Qed.

Lemma lifted_line p i : lookup p lifted = Some i -> In (d_instr p i (arrival_comment flag g p)) l.
Proof.
  intros L. destruct (lifted_stands fuel entries bytes g lifted F M E B LI p i L) as (j & _ & _ & _ & _ & P & Q & _). pose proof (size_bounds i) as SB.
  assert (I: In (d_instr p i (arrival_comment flag g p)) (filter is_code l)).
  { pose proof (listing_code flag entries bytes g lifted r EM) as LC. cbv zeta in LC. fold c in LC. fold l in LC. rewrite LC. apply in_flat_map. exists p. split.
    - apply in_upto. unfold blen in Q. lia.
    - unfold code_at. cbn [l_lifted c]. rewrite L. apply in_or_app. right. now left. }
  apply filter_In in I. tauto.
Qed.

Lemma apart_listing : no_overlap (map placed l) -> apart (fun i => size i) lifted.
Proof.
  intros N p i q j P Q L. rewrite size_doc. refine (N p q i j _ _ L); [exact (in_map placed _ _ (lifted_line p i P))|exact (in_map placed _ _ (lifted_line q j Q))].
Qed.
End Whole.

Theorem listing_image fuel flag entries bytes l pr out : Forall is_byte bytes -> moderate bytes -> Forall (fun e => 0 <= e) entries ->
  disassemble fuel flag entries bytes = Ok (inl l) -> no_overlap (map placed l) -> assemble pr (reread l) = Ok out ->
  out ++ repeat 0 (List.length bytes - List.length out) = bytes ++ repeat 0 (List.length out - List.length bytes) /\
  exists e, 0 <= e <= Z.of_nat (List.length bytes) /\ Z.of_nat (List.length out) = Z.of_nat (List.length bytes) mod 512 + round_up e 512.
Proof.
  intros F M E H N A. destruct (disassemble_inv fuel flag entries bytes l H) as (g & lifted & r & B & LI & EM & ->).
  pose proof (apart_listing fuel flag entries bytes g lifted r F M E B LI EM N) as AP.
  destruct (image_agrees fuel flag entries bytes g lifted r F M E B LI EM AP pr out A) as (H1 & H2 & H3).
  split; [now apply same_extended|]. exists (after 0 r). destruct (laid_body fuel flag entries bytes g lifted r F M E B LI EM AP) as (_ & Q & _). split; [exact Q|exact H3].
Qed.

Theorem listing_file uuid pr fuel fuel2 flag entries bytes l v pics wd name : Forall is_byte bytes -> moderate bytes -> Forall (fun e => 0 <= e) entries ->
  disassemble fuel flag entries bytes = Ok (inl l) -> is_absolute wd = true -> read_bytes v (join wd name) = Some (text_of_list l) ->
  assemble_file uuid pr (S fuel2) v pics (new_files wd) name = assemble pr (reread l).
Proof.
  intros F M E H A R. apply listing_assembles; auto. destruct (disassemble_inv fuel flag entries bytes l H) as (g & lifted & r & B & LI & EM & ->).
  exact (listing_good fuel flag entries bytes g lifted r F M E B LI EM).
Qed.
