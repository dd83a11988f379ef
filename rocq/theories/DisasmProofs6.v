(** A listing without overlaps assembles to the binary. *)
From Coq Require Import ZArith List String Ascii Bool Lia.
From Verif Require Import Base Expr Instr Ast Asm Printer SpecIsa SpecExpr SpecAsm AsmProofs AsmProofs2 AsmProofs4 AsmProofs6 AsmProofs7 AsmProofs8 CodecProofs CodecProofs2 ExprProofs SpecLex LexProofs Disasm SpecDisasm DisasmProofs DisasmProofs2 DisasmProofs3 DisasmProofs4 DisasmProofs5.
Import ListNotations.
Open Scope string_scope.
Open Scope list_scope.
Open Scope Z_scope.

(** * Names in lower case *)

Definition relabel {E F J : Type} (f : E -> F) (i : instr E J) : instr F J :=
  match i with
  | Add_i8 a => Add_i8 (f a)
  | Add_d9 a => Add_d9 (f a)
  | Add_Ri a => Add_Ri a
  | Addc_i8 a => Addc_i8 (f a)
  | Addc_d9 a => Addc_d9 (f a)
  | Addc_Ri a => Addc_Ri a
  | Sub_i8 a => Sub_i8 (f a)
  | Sub_d9 a => Sub_d9 (f a)
  | Sub_Ri a => Sub_Ri a
  | Subc_i8 a => Subc_i8 (f a)
  | Subc_d9 a => Subc_d9 (f a)
  | Subc_Ri a => Subc_Ri a
  | Inc_d9 a => Inc_d9 (f a)
  | Inc_Ri a => Inc_Ri a
  | Dec_d9 a => Dec_d9 (f a)
  | Dec_Ri a => Dec_Ri a
  | Mul => Mul
  | Div => Div
  | And_i8 a => And_i8 (f a)
  | And_d9 a => And_d9 (f a)
  | And_Ri a => And_Ri a
  | Or_i8 a => Or_i8 (f a)
  | Or_d9 a => Or_d9 (f a)
  | Or_Ri a => Or_Ri a
  | Xor_i8 a => Xor_i8 (f a)
  | Xor_d9 a => Xor_d9 (f a)
  | Xor_Ri a => Xor_Ri a
  | Rol => Rol
  | Rolc => Rolc
  | Ror => Ror
  | Rorc => Rorc
  | Ld_d9 a => Ld_d9 (f a)
  | Ld_Ri a => Ld_Ri a
  | St_d9 a => St_d9 (f a)
  | St_Ri a => St_Ri a
  | Mov_d9 a b => Mov_d9 (f a) (f b)
  | Mov_Rj a b => Mov_Rj (f a) b
  | Ldc => Ldc
  | Push a => Push (f a)
  | Pop a => Pop (f a)
  | Xch_d9 a => Xch_d9 (f a)
  | Xch_Ri a => Xch_Ri a
  | Jmp a => Jmp (f a)
  | Jmpf a => Jmpf (f a)
  | Br a => Br (f a)
  | Brf a => Brf (f a)
  | Bz a => Bz (f a)
  | Bnz a => Bnz (f a)
  | Bp a b c => Bp (f a) (f b) (f c)
  | Bpc a b c => Bpc (f a) (f b) (f c)
  | Bn a b c => Bn (f a) (f b) (f c)
  | Dbnz_d9 a b => Dbnz_d9 (f a) (f b)
  | Dbnz_Ri a b => Dbnz_Ri a (f b)
  | Be_i8 a b => Be_i8 (f a) (f b)
  | Be_d9 a b => Be_d9 (f a) (f b)
  | Be_Rj a b c => Be_Rj a (f b) (f c)
  | Bne_i8 a b => Bne_i8 (f a) (f b)
  | Bne_d9 a b => Bne_d9 (f a) (f b)
  | Bne_Rj a b c => Bne_Rj a (f b) (f c)
  | Call a => Call (f a)
  | Callf a => Callf (f a)
  | Callr a => Callr (f a)
  | Ret => Ret
  | Reti => Reti
  | Clr1 a b => Clr1 (f a) (f b)
  | Set1 a b => Set1 (f a) (f b)
  | Not1 a b => Not1 (f a) (f b)
  | Nop => Nop
  | Ldf => Ldf
  | Stf => Stf
  end.

Lemma relabel_key {E F J : Type} (f : E -> F) (i : instr E J) : key (relabel f i) = key i.
Proof. destruct i; reflexivity. Qed.

Lemma relabel_ops {E F J : Type} (f : E -> F) (i : instr E J) :
  op_list (relabel f i) = map (fun o => match o with inl e => inl (f e) | inr m => inr m end) (op_list i).
Proof. destruct i; reflexivity. Qed.

Definition lower_expr (e : expr) : expr := match e with EName n => EName (lower n) | _ => e end.

(** How a statement of the listing is read back: names are in lower case. *)
Definition lowered (s : statement) : statement :=
  match s with
  | SLabel n => SLabel (lower n)
  | SInstr i => SInstr (relabel lower_expr i)
  | _ => s
  end.

Lemma lowered_advance p s : advance p (lowered s) = advance p s.
Proof. destruct s; try reflexivity. cbn [lowered advance]. unfold doc_length. now rewrite relabel_key. Qed.

Lemma lower_expr_eval pr k get e v : (exists n, e = EName n) \/ (exists n r, e = ENumber n r) ->
  eval pr (mkEnv k get) (lower_expr e) = Ok v -> eval pr (mkEnv k get) e = Ok v.
Proof.
  intros [(n & ->)|(n & r & ->)]; cbn [lower_expr]; [|auto]. cbn [eval env_get env_kind]. rewrite lower_idem.
  destruct (get (lower n)); auto. discriminate.
Qed.

(** * Addresses *)

Definition reread (l : list dstatement) : list statement := map (fun d => lowered (d_statement d)) l.

Lemma reread_after l : forall cur, fold_left advance (reread l) cur = after cur l.
Proof.
  unfold after, reread. induction l as [|d l IH]; intros cur; [reflexivity|]. cbn [map fold_left]. now rewrite lowered_advance, IH.
Qed.

Lemma reread_addr l k : addr (firstn k (reread l)) = after 0 (firstn k l).
Proof. unfold reread. rewrite firstn_map. apply (reread_after (firstn k l)). Qed.

Lemma reread_nth l k : nth_error (reread l) k = option_map (fun d => lowered (d_statement d)) (nth_error l k).
Proof. apply nth_error_map. Qed.

Lemma laid_nth l : forall cur k d, laid cur l -> nth_error l k = Some d ->
  match d_statement d with
  | SInstr _ | SDirective (DByte _) => d_pos d = Some (after cur (firstn k l))
  | SLabel n => n = label_name (after cur (firstn k l))
  | _ => True
  end.
Proof.
  induction l as [|x l IH]; intros cur k d H N; [destruct k; discriminate|]. cbn [laid] in H. destruct H as (H1 & H2 & H3).
  destruct k as [|k]; cbn [nth_error] in N; [injection N as ->; exact H1|]. exact (IH _ k d H3 N).
Qed.

Lemma laid_mono l : forall cur, laid cur l -> forall j k, (j <= k)%nat -> after cur (firstn j l) <= after cur (firstn k l).
Proof.
  induction l as [|x l IH]; intros cur H j k J; [rewrite !firstn_nil; lia|]. cbn [laid] in H. destruct H as (H1 & H2 & H3).
  destruct k as [|k]; [replace j with 0%nat by lia; lia|]. destruct j as [|j].
  - cbn [firstn]. change (after cur []) with cur. change (after cur (x :: firstn k l)) with (after (advance cur (d_statement x)) (firstn k l)).
    specialize (IH _ H3 0%nat k ltac:(lia)). cbn [firstn] in IH. change (after (advance cur (d_statement x)) []) with (advance cur (d_statement x)) in IH. lia.
  - exact (IH _ H3 j k ltac:(lia)).
Qed.

(** * The names defined at the end of the listing *)

Definition table : list (Z * string) := psw_bits ++ aliases.

Lemma table_names : NoDup (map (fun p => lower (snd p)) table).
Proof.
  replace (map (fun p => lower (snd p)) table) with (nodup string_dec (map (fun p => lower (snd p)) table)) by (vm_compute; reflexivity).
  apply NoDup_nodup.
Qed.

Lemma table_value v n v' n' : In (v, n) table -> In (v', n') table -> lower n = lower n' -> v = v'.
Proof.
  intros A B E. pose proof (nodup_map_inj (fun p => lower (snd p)) table (v, n) (v', n') table_names A B E). congruence.
Qed.

Lemma table_facts v n : In (v, n) table -> 0 <= v < 512 /\ String.prefix "label_" (lower n) = false /\ is_local n = false /\ is_local (lower n) = false.
Proof.
  intros I. assert (Q: forallb (fun p => (0 <=? fst p) && (fst p <? 512) && negb (String.prefix "label_" (lower (snd p))) && negb (is_local (snd p)) && negb (is_local (lower (snd p)))) table = true) by (vm_compute; reflexivity).
  rewrite forallb_forall in Q. specialize (Q _ I). cbn [fst snd] in Q. rewrite !andb_true_iff, !negb_true_iff, Z.leb_le, Z.ltb_lt in Q. tauto.
Qed.

Lemma prefix_label t : String.prefix "label_" (lower (label_name t)) = true.
Proof. unfold label_name. generalize (show_usize_hex t). intros [|a s]; reflexivity. Qed.

Lemma local_label_name t : is_local (lower (label_name t)) = false /\ is_local (label_name t) = false.
Proof. unfold label_name. cbn [String.append lower]. split; reflexivity. Qed.

Lemma sort_pair_in x y l : In x (sort_pair y l) <-> x = y \/ In x l.
Proof.
  induction l as [|z l IH]; cbn [sort_pair]; [cbn; intuition congruence|]. destruct (fst y <=? fst z); [cbn; intuition congruence|].
  cbn [In]. rewrite IH. intuition congruence.
Qed.

Lemma sorted_in x l : In x (sorted_pairs l) <-> In x l.
Proof. unfold sorted_pairs. induction l as [|y l IH]; [reflexivity|]. cbn [fold_right]. rewrite sort_pair_in, IH. cbn. intuition congruence. Qed.

(** * Operands *)

(** The operand listed for the value [x] of an operand of kind [k]. *)
Definition opnd (n : dnames) (next : Z) (k : kind) (x : Z) (o : expr + imode) : Prop :=
  match k with
  | I8 => o = inl (hex x)
  | D9 => o = inl (mem_expr n x)
  | B3 => exists d, o = inl (bits_expr n d x)
  | Ri => exists m, o = inr m /\ mode x = Ok m
  | A12 => o = inl (EName (label_name (page_address x next)))
  | A16 => o = inl (EName (label_name (wrap_usize x))) \/ o = inl (hex (wrap32 (wrap_usize x)))
  | R8 => o = inl (EName (label_name (branch8 x next)))
  | R16 => o = inl (EName (label_name (branch16 x next)))
  end.

Inductive opnds (n : dnames) (next : Z) : list kind -> list Z -> list (expr + imode) -> Prop :=
| os_nil : opnds n next [] [] []
| os_cons k x o ks xs os : opnd n next k x o -> opnds n next ks xs os -> opnds n next (k :: ks) (x :: xs) (o :: os).

Lemma lift_ops p g i j : instr_at g p = Some i -> lift_instr p g i (build_names g) = Ok j ->
  opnds (build_names g) (p + size i) (snd (key i)) (values i) (op_list j).
Proof.
  intros I H. assert (LE: forall t, jump_target p i = Some t -> is_jmpf i && leaves g p = false -> label_expr (build_names g) t = EName (label_name t)).
  { intros t T Q. unfold label_expr, build_names. cbn [n_labels]. rewrite labels_at; [reflexivity|]. exists p, i. split; [exact (lookup_in _ _ _ I)|auto]. }
  clear I. unfold values.
  destruct i; cbn [lift_instr] in H; try (rewrite (LE _ eq_refl eq_refl) in H);
    repeat match type of H with context [mode ?x] => destruct (mode x) eqn:?; cbn [bind] in H; try discriminate H end.
  all: try (destruct (leaves g p) eqn:L); try (injection H as <-; cbn [key snd op_list map strip];
    repeat (apply os_cons; [solve [cbn [opnd]; eauto]|]); apply os_nil).
  rewrite (LE _ eq_refl eq_refl) in H. injection H as <-. cbn [key snd op_list map strip].
  apply os_cons; [|apply os_nil]. left. reflexivity.
Qed.

(** What names can mean in the listing. *)
Definition names_mean (get : string -> option Z) : Prop :=
  forall x v, is_local x = false -> get x = Some v ->
    (0 <= v < 18446744073709551616 /\ x = lower (label_name v)) \/ (exists n, In (v, n) table /\ x = lower n).

Lemma label_means pr kw get t v : names_mean get -> 0 <= t < 18446744073709551616 ->
  eval pr (mkEnv kw get) (EName (label_name t)) = Ok v -> v = t.
Proof.
  intros N T H. cbn [eval env_get env_kind] in H. destruct (get (lower (label_name t))) as [w|] eqn:G; [|discriminate]. injection H as ->.
  destruct (N _ _ (proj1 (local_label_name t)) G) as [[V E]|(n & I & E)].
  - symmetry. now apply label_name_inj_lower.
  - exfalso. destruct (table_facts v n I) as (_ & P & _). rewrite <- E, prefix_label in P. discriminate.
Qed.

Lemma table_means pr kw get t n v : names_mean get -> In (t, n) table -> eval pr (mkEnv kw get) (EName n) = Ok v -> v = t.
Proof.
  intros N I H. cbn [eval env_get env_kind] in H. destruct (get (lower n)) as [w|] eqn:G; [|discriminate]. injection H as ->.
  destruct (table_facts t n I) as (_ & P & L1 & L). destruct (N _ _ L G) as [[V E]|(m & J & E)].
  - rewrite E, prefix_label in P. discriminate.
  - exact (table_value v m t n J I (eq_sym E)).
Qed.

Lemma mem_means pr kw get g x v : names_mean get -> 0 <= x < 512 -> eval pr (mkEnv kw get) (mem_expr (build_names g) x) = Ok v -> v = x.
Proof.
  intros N X. unfold mem_expr, build_names. cbn [n_aliases]. rewrite usize_small by lia. destruct (lookup x aliases) as [n|] eqn:L.
  - apply table_means; [exact N|]. unfold table. apply in_or_app. right. exact (lookup_in _ _ _ L).
  - cbn. congruence.
Qed.

Lemma bits_means pr kw get g d x v : names_mean get -> 0 <= x < 8 -> eval pr (mkEnv kw get) (bits_expr (build_names g) d x) = Ok v -> v = x.
Proof.
  intros N X. unfold bits_expr, build_names. cbn [n_psw_bits]. rewrite usize_small by lia. destruct (d =? 257); [destruct (lookup x psw_bits) as [n|] eqn:L|].
  - apply table_means; [exact N|]. unfold table. apply in_or_app. left. exact (lookup_in _ _ _ L).
  - cbn. congruence.
  - cbn. congruence.
Qed.

Lemma opnd_value pr get g next k x o v : names_mean get -> 0 <= next <= 1073741830 -> in_field k x ->
  opnd (build_names g) next k x o -> operand_rel pr get next k o v -> v = x.
Proof.
  intros N NX F O R. destruct k; cbn [opnd] in O; unfold in_field in F; cbn in F.
  - subst o. destruct R as (w & E & Q & _). cbn in E. injection E as <-. cbn [field_of] in Q. destruct (_ && _); congruence.
  - subst o. destruct R as (w & E & Q & _). apply (mem_means pr _ get g x w N ltac:(lia)) in E. subst w. cbn [field_of] in Q. destruct (_ && _); congruence.
  - destruct O as (m & -> & M). destruct R as [_ ->]. unfold mode, imode_from in M.
    destruct (x =? 0) eqn:X0; [apply Z.eqb_eq in X0; injection M as <-; lia|]. destruct (x =? 1) eqn:X1; [apply Z.eqb_eq in X1; injection M as <-; lia|].
    destruct (x =? 2) eqn:X2; [apply Z.eqb_eq in X2; injection M as <-; lia|]. destruct (x =? 3) eqn:X3; [apply Z.eqb_eq in X3; injection M as <-; lia|discriminate].
  - destruct O as (d & ->). destruct R as (w & E & Q & _). apply (bits_means pr _ get g d x w N ltac:(lia)) in E. subst w. cbn [field_of] in Q. destruct (_ && _); congruence.
  - subst o. destruct R as (w & E & Q & _). apply (label_means pr _ get _ w N (page_address_range x next)) in E. subst w.
    cbn [field_of] in Q. destruct ((0 <=? page_address x next) && (page_address x next <? 65536)); [|discriminate].
    destruct (page_address x next / 4096 =? next / 4096 mod 16); [|discriminate]. injection Q as <-.
    rewrite page_address_value by lia. pose proof (Z.mod_pos_bound (next / 4096) 16 ltac:(lia)). rewrite usize_small by lia.
    rewrite Z.add_comm, Z_mod_plus_full. apply Z.mod_small. lia.
  - destruct O as [-> | ->]; destruct R as (w & E & Q & _).
    + apply (label_means pr _ get _ w N (usize_range x)) in E. subst w. rewrite usize_small in Q by lia. cbn [field_of] in Q. destruct (_ && _); congruence.
    + cbn in E. injection E as <-. rewrite usize_small, wrap32_small in Q by lia. cbn [field_of] in Q. destruct (_ && _); congruence.
  - subst o. destruct R as (w & E & Q & _). rewrite branch8_address in E by lia. apply (label_means pr _ get _ w N (usize_range _)) in E. subst w.
    cbn [field_of] in Q. destruct ((0 <=? wrap_usize (next + x)) && (wrap_usize (next + x) <? 65536)) eqn:B; [|discriminate].
    apply andb_true_iff in B as [_ B]. apply Z.ltb_lt in B. destruct (_ && _); [|discriminate]. injection Q as <-.
    destruct (Z_lt_dec (next + x) 0) as [L|L]; [pose proof (usize_negative (next + x) ltac:(lia)); lia|]. rewrite usize_small by lia. lia.
  - subst o. destruct R as (w & E & Q & _). rewrite branch16_address in E by lia. apply (label_means pr _ get _ w N (usize_range _)) in E. subst w.
    cbn [field_of] in Q. destruct ((0 <=? wrap_usize (next - 1 + x)) && (wrap_usize (next - 1 + x) <? 65536)) eqn:B; [|discriminate].
    apply andb_true_iff in B as [_ B]. apply Z.ltb_lt in B. destruct (_ && _); [|discriminate]. injection Q as <-.
    destruct (Z_lt_dec (next - 1 + x) 0) as [L|L]; [pose proof (usize_negative (next - 1 + x) ltac:(lia)); lia|]. rewrite usize_small by lia. lia.
Qed.

Lemma inl_inj {A B : Type} (x y : A) : @inl A B x = inl y -> x = y.
Proof. congruence. Qed.

(** Operands of the listing are names or numbers. *)
Lemma opnd_simple g next k x e : opnd (build_names g) next k x (inl e) -> (exists n, e = EName n) \/ (exists n r, e = ENumber n r).
Proof.
  destruct k; cbn [opnd].
  - intros H; apply inl_inj in H; subst e. right. unfold hex. eauto.
  - intros H; apply inl_inj in H; subst e. unfold mem_expr. destruct (lookup _ _); [left|right]; unfold hex; eauto.
  - intros (m & H & _). discriminate H.
  - intros (d & H); apply inl_inj in H; subst e. unfold bits_expr. destruct (d =? 257); [destruct (lookup _ _); [left|right]|right]; unfold hex; eauto.
  - intros H; apply inl_inj in H; subst e. left. eauto.
  - intros [H|H]; apply inl_inj in H; subst e; [left|right]; unfold hex; eauto.
  - intros H; apply inl_inj in H; subst e. left. eauto.
  - intros H; apply inl_inj in H; subst e. left. eauto.
Qed.

Lemma opnds_values pr get g next : names_mean get -> 0 <= next <= 1073741830 -> forall ks xs os, Forall2 in_field ks xs ->
  opnds (build_names g) next ks xs os -> forall vs,
  operands_rel pr get next ks (map (fun o => match o with inl e => inl (lower_expr e) | inr m => inr m end) os) vs -> vs = xs.
Proof.
  intros N NX ks xs os F O. revert F. induction O as [|k x o ks xs os O1 O2 IH]; intros F vs R; cbn [map] in R; inversion R; subst; [reflexivity|].
  inversion F; subst. f_equal; [|apply IH; assumption].
  apply (opnd_value pr get g next k x o o0 N NX); [assumption|exact O1|]. destruct o as [e|m]; [|assumption].
  cbn [operand_rel] in *. match goal with H : exists v, _ |- _ => destruct H as (v & H & Q) end. exists v. split; [|exact Q].
  apply lower_expr_eval; [exact (opnd_simple _ _ _ _ _ O1)|assumption].
Qed.
