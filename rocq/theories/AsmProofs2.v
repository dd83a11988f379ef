(** Lemmas about operand evaluation in any profile and the emission of single statements. *)
From Coq Require Import ZArith List String Ascii Bool Lia.
From Verif Require Import Base Expr Bits Instr Ast Asm SpecIsa SpecExpr SpecAsm ExprProofs CodecProofs CodecProofs2 AsmProofs.
Import ListNotations.
Open Scope string_scope.
Open Scope list_scope.
Open Scope Z_scope.

Local Arguments Z.add : simpl never.
Local Arguments Z.sub : simpl never.
Local Arguments Z.mul : simpl never.
Local Arguments Z.opp : simpl never.
Local Arguments Z.div : simpl never.
Local Arguments Z.pow : simpl never.
Local Arguments Z.modulo : simpl never.
Local Arguments Z.land : simpl never.
Local Arguments Z.shiftr : simpl never.
Local Arguments Z.leb : simpl never.
Local Arguments Z.ltb : simpl never.
Local Arguments Z.eqb : simpl never.
Local Arguments Z.max : simpl never.
Local Arguments Z.of_nat : simpl never.
Local Arguments Z.to_nat : simpl never.

Lemma eval_bits_eq pr kw get w e : 0 <= w -> eval_bits pr (mkEnv kw get) w e =
  let! v := eval pr (mkEnv kw get) e in of_sum (if (0 <=? v) && (v <? 2 ^ w) then inl v else inr (NumOutOfRange w v)).
Proof.
  intros Hw. unfold eval_bits. destruct (eval pr (mkEnv kw get) e) as [v| | |]; simpl; auto.
  rewrite shiftr_range by assumption. destruct ((0 <=? v) && (v <? 2 ^ w)); reflexivity.
Qed.

Lemma eval12_eq pr kw get next e : 0 <= next -> eval12 pr (mkEnv kw get) next e =
  let! v := eval pr (mkEnv kw get) e in of_sum (field_of A12 next v).
Proof.
  intros Hn. destruct (eval pr (mkEnv kw get) e) as [v| | |] eqn:E;
    try (unfold eval12, eval_bits; rewrite E; reflexivity).
  pose proof (eval12_sem pr "" (fun _ => Some v) next (EName "") Hn eq_refl) as S.
  cbn [sem bind lower] in *. rewrite <- S.
  unfold eval12, eval_bits. rewrite E. reflexivity.
Qed.

Lemma rel8_eq pr kw get next e : 0 <= next < 2147483648 -> rel8 pr (mkEnv kw get) next e =
  let! v := eval pr (mkEnv kw get) e in of_sum (field_of R8 next v).
Proof.
  intros Hn. destruct (eval pr (mkEnv kw get) e) as [v| | |] eqn:E;
    try (unfold rel8; rewrite E; reflexivity).
  pose proof (rel8_sem pr "" (fun _ => Some v) next (EName "") Hn eq_refl) as S.
  cbn [sem bind lower] in *. rewrite <- S.
  unfold rel8. rewrite E. reflexivity.
Qed.

Lemma rel16_eq pr kw get next e : 0 <= next < 2147483648 -> rel16 pr (mkEnv kw get) next e =
  let! v := eval pr (mkEnv kw get) e in of_sum (field_of R16 next v).
Proof.
  intros Hn. destruct (eval pr (mkEnv kw get) e) as [v| | |] eqn:E;
    try (unfold rel16; rewrite E; reflexivity).
  pose proof (rel16_sem pr "" (fun _ => Some v) next (EName "") Hn eq_refl) as S.
  cbn [sem bind lower] in *. rewrite <- S.
  unfold rel16. rewrite E. reflexivity.
Qed.

(** Operand fields, or the outcome of the first operand that has none. *)
Definition field_run (pr : profile) (get : string -> option Z) (next : Z) (k : kind) (a : expr + imode) : outcome Z :=
  match a with
  | inr m => Ok (imode_index m)
  | inl e => let! v := eval pr (mkEnv (kind_word k) get) e in of_sum (field_of k next v)
  end.

Fixpoint fields_run (pr : profile) (get : string -> option Z) (next : Z) (ks : list kind) (os : list (expr + imode))
  : outcome (list Z) :=
  match ks, os with
  | k :: kt, a :: at_ =>
      let! v := field_run pr get next k a in
      let! vs := fields_run pr get next kt at_ in
      Ok (v :: vs)
  | _, _ => Ok []
  end.

Lemma eval_instr_run pr next label ns lo i :
  mget (locals ns) label = Some lo -> 0 <= next < 2147483648 ->
  match fields_run pr (names_get (globals ns) lo) next (snd (key i)) (op_list i) with
  | Ok vs => exists j, eval_instr pr next label ns i = Ok j /\ key j = key i /\ values j = vs
  | Err e => eval_instr pr next label ns i = Err e
  | Panic => eval_instr pr next label ns i = Panic
  | Diverge => eval_instr pr next label ns i = Diverge
  end.
Proof.
  intros Hlo Hn. set (get := names_get (globals ns) lo) in *.
  unfold eval_instr, as_env. rewrite Hlo. fold get. cbn [bind].
  destruct i; cbn [op_list key snd fields_run field_run kind_word];
    repeat match goal with
    | |- context [eval_bits pr (mkEnv ?kw get) ?w ?e] => rewrite (eval_bits_eq pr kw get w e ltac:(lia))
    | |- context [rel8 pr (mkEnv ?kw get) next ?e] => rewrite (rel8_eq pr kw get next e ltac:(lia))
    | |- context [rel16 pr (mkEnv ?kw get) next ?e] => rewrite (rel16_eq pr kw get next e ltac:(lia))
    | |- context [eval12 pr (mkEnv ?kw get) next ?e] => rewrite (eval12_eq pr kw get next e ltac:(lia))
    end;
    cbn [field_of kind_bits bind];
    repeat (match goal with
    | |- context [bind (eval pr ?en ?e) _] => destruct (eval pr en e)
    | |- context [of_sum (if ?c then _ else _)] => destruct c
    end; cbn [of_sum bind]);
    try reflexivity; try (eexists; split; [reflexivity|split; reflexivity]).
Qed.

Lemma key_kinds {E I : Type} (i : instr E I) : List.length (snd (key i)) = List.length (op_list i).
Proof. destruct i; reflexivity. Qed.

Lemma fields_run_ok pr get next ks os vs :
  operands_rel pr get next ks os vs -> fields_run pr get next ks os = Ok vs.
Proof.
  induction 1 as [|k a o ks os vs H _ IH]; simpl; auto.
  destruct a as [e|m]; simpl in *.
  - destruct H as (v & -> & Hf & _). simpl. rewrite Hf. simpl. rewrite IH. reflexivity.
  - destruct H as [_ ->]. rewrite IH. destruct m; reflexivity.
Qed.

Lemma fields_run_safe pr get next ks os :
  (forall e kw, In (inl e) os -> safe (eval pr (mkEnv kw get) e)) -> safe (fields_run pr get next ks os).
Proof.
  revert ks. induction os as [|a os IH]; intros [|k ks] H; simpl; auto with safe.
  apply safe_bind.
  - destruct a as [e|m]; simpl; auto with safe. apply safe_bind.
    + apply H. left. reflexivity.
    + intros v _. destruct (field_of k next v); simpl; auto with safe.
  - intros v _. apply safe_bind; [|intros; auto with safe]. apply IH. intros e kw Hin. apply H. right. exact Hin.
Qed.

Lemma operands_rel_ext pr get get' next ks os vs : (forall x, get x = get' x) ->
  operands_rel pr get next ks os vs -> operands_rel pr get' next ks os vs.
Proof.
  intros Hx. induction 1 as [|k a o ks os vs H _ IH]; constructor; auto.
  destruct a as [e|m]; simpl in *; auto. destruct H as (v & Hv & H). exists v. split; auto.
  rewrite <- Hv. symmetry. apply eval_ext. assumption.
Qed.

Lemma Forall2_imp {A B : Type} (P Q : A -> B -> Prop) l m :
  (forall a b, P a b -> Q a b) -> Forall2 P l m -> Forall2 Q l m.
Proof. intros H. induction 1; constructor; auto. Qed.

Lemma emits_ext pr get get' p s bs : (forall x, get x = get' x) -> emits pr get p s bs -> emits pr get' p s bs.
Proof.
  intros Hx. destruct s as [d| |i| | | |]; simpl; auto.
  - destruct d; simpl; auto.
    + intros (l & H & ->). exists l. split; auto. revert H. apply Forall2_imp. intros [e|s] b; simpl; auto.
      intros (v & Hv & H). exists v. split; auto. rewrite <- Hv. symmetry. apply eval_ext. assumption.
    + intros (l & H & ->). exists l. split; auto. revert H. apply Forall2_imp. intros e b.
      intros (v & Hv & H). exists v. split; auto. rewrite <- Hv. symmetry. apply eval_ext. assumption.
  - intros (f & vs & Hf & Hk & Ho & ->). exists f, vs. repeat split; auto. eapply operands_rel_ext; eauto.
Qed.

(** ** Emission of data *)

Lemma byte_range v : ((v <? -128) || (255 <? v)) = false <-> -128 <= v <= 255.
Proof. rewrite orb_false_iff, !Z.ltb_ge. lia. Qed.
Lemma word_range v : ((v <? -32768) || (65535 <? v)) = false <-> -32768 <= v <= 65535.
Proof. rewrite orb_false_iff, !Z.ltb_ge. lia. Qed.

Lemma word_parts v : [Z.land (Z.land v 65535) 255; Z.land (Z.shiftr (Z.land v 65535) 8) 255] = [v mod 256; v / 256 mod 256].
Proof.
  rewrite !land_255. change 65535 with (Z.ones 16). rewrite Z.land_ones by lia.
  rewrite Z.shiftr_div_pow2 by lia. change (2 ^ 16) with (256 * 256). change (2 ^ 8) with 256.
  rewrite Z.rem_mul_r by lia. f_equal; [|f_equal].
  - rewrite Z.mul_comm, Z.mod_add by lia. apply Z.mod_mod. lia.
  - rewrite Z.mul_comm, Z.div_add by lia. rewrite (Z.div_small (v mod 256)) by (apply Z.mod_pos_bound; lia).
    rewrite Z.add_0_l. apply Z.mod_mod. lia.
Qed.

Lemma emit_items_inv pr get items : forall out p out' p',
  emit_items pr (mkEnv "Name" get) items out p = Ok (out', p') ->
  exists l, Forall2 (item_bytes pr get) items l /\ emit pr (List.concat l) out p = Ok (out', p').
Proof.
  induction items as [|b t IH]; intros out p out' p'; cbn [emit_items].
  - intros H. exists []. split; [constructor|exact H].
  - intros H. apply bind_ok in H. destruct H as ([o1 p1] & H1 & H2).
    apply IH in H2. destruct H2 as (l & Hl & He).
    destruct b as [e|s]; simpl in H1.
    + apply bind_ok in H1. destruct H1 as (v & Hv & H1).
      destruct ((v <? -128) || (255 <? v)) eqn:R; [discriminate|]. apply byte_range in R.
      rewrite land_255 in H1. exists ([v mod 256] :: l). split.
      * constructor; auto. exists v. auto.
      * cbn [List.concat]. rewrite emit_app. cbn [emit] in *. rewrite H1. exact He.
    + exists (s :: l). split; [constructor; [reflexivity|exact Hl]|].
      cbn [List.concat]. rewrite emit_app, H1. exact He.
Qed.

Lemma emit_items_eq pr get items l out p : Forall2 (item_bytes pr get) items l ->
  emit_items pr (mkEnv "Name" get) items out p = emit pr (List.concat l) out p.
Proof.
  intros H. revert out p. induction H as [|b bs t l Hb Hl IH]; intros out p; [reflexivity|].
  cbn [emit_items List.concat]. rewrite emit_app.
  assert (E : emit_item pr (mkEnv "Name" get) b out p = emit pr bs out p).
  { destruct b as [e|s]; simpl in *.
    - destruct Hb as (v & -> & R & ->). simpl. apply byte_range in R. rewrite R, land_255. reflexivity.
    - subst. reflexivity. }
  rewrite E. destruct (emit pr bs out p) as [[o1 p1]| | |]; simpl; auto.
Qed.

Lemma emit_words_inv pr get ws : forall out p out' p',
  emit_words pr (mkEnv "Name" get) ws out p = Ok (out', p') ->
  exists l, Forall2 (word_bytes pr get) ws l /\ emit pr (List.concat l) out p = Ok (out', p').
Proof.
  induction ws as [|e t IH]; intros out p out' p'; cbn [emit_words].
  - intros H. exists []. split; [constructor|exact H].
  - intros H. apply bind_ok in H. destruct H as (v & Hv & H).
    destruct ((v <? -32768) || (65535 <? v)) eqn:R; [discriminate|]. apply word_range in R.
    apply bind_ok in H. destruct H as ([o1 p1] & H1 & H2). rewrite word_parts in H1.
    apply IH in H2. destruct H2 as (l & Hl & He).
    exists ([v mod 256; v / 256 mod 256] :: l). split.
    + constructor; auto. exists v. auto.
    + cbn [List.concat]. rewrite emit_app, H1. exact He.
Qed.

Lemma emit_words_eq pr get ws l out p : Forall2 (word_bytes pr get) ws l ->
  emit_words pr (mkEnv "Name" get) ws out p = emit pr (List.concat l) out p.
Proof.
  intros H. revert out p. induction H as [|e bs t l Hb Hl IH]; intros out p; [reflexivity|].
  cbn [emit_words List.concat]. rewrite emit_app.
  destruct Hb as (v & -> & R & ->). cbn [bind]. apply word_range in R. rewrite R, word_parts.
  destruct (emit pr [v mod 256; v / 256 mod 256] out p) as [[o1 p1]| | |]; simpl; auto.
Qed.

Lemma items_len pr get items l : Forall2 (item_bytes pr get) items l ->
  zlen (List.concat l) = SpecAsm.sum (map item_length items).
Proof.
  induction 1 as [|b bs t l Hb Hl IH]; simpl; [reflexivity|]. rewrite zlen_app, IH. unfold SpecAsm.sum. f_equal.
  destruct b as [e|s]; simpl in *.
  - destruct Hb as (v & _ & _ & ->). reflexivity.
  - subst. reflexivity.
Qed.

Lemma words_len pr get ws l : Forall2 (word_bytes pr get) ws l ->
  zlen (List.concat l) = 2 * zlen ws.
Proof.
  induction 1 as [|b bs t l Hb Hl IH]; simpl; [reflexivity|]. rewrite zlen_app, IH, zlen_cons.
  destruct Hb as (v & _ & _ & ->). rewrite !zlen_cons, zlen_nil. lia.
Qed.

Lemma padded_len pad n s bs : padded pad n s bs -> zlen bs = n.
Proof.
  intros [H ->]. rewrite zlen_app. unfold zlen. rewrite repeat_length. lia.
Qed.

Lemma form_len f vs : zlen (form_bytes f vs) = Z.of_nat (List.length (f_bits f)).
Proof. unfold zlen, form_bytes. rewrite map_length. reflexivity. Qed.

Lemma isa_keys : forall f g, In f isa -> In g isa -> (f_name f, f_kinds f) = (f_name g, f_kinds g) ->
  List.length (f_bits f) = List.length (f_bits g).
Proof.
  assert (H : forallb (fun f => forallb (fun g =>
    if key_eq_dec (f_name f, f_kinds f) (f_name g, f_kinds g)
    then Nat.eqb (List.length (f_bits f)) (List.length (f_bits g)) else true) isa) isa = true)
    by (vm_compute; reflexivity).
  intros f g Hf Hg E. pose proof (proj1 (forallb_forall _ _) H f Hf) as H1.
  pose proof (proj1 (forallb_forall _ _) H1 g Hg) as H2. cbv beta in H2.
  destruct (key_eq_dec (f_name f, f_kinds f) (f_name g, f_kinds g)); [|contradiction].
  apply Nat.eqb_eq. assumption.
Qed.

Lemma doc_length_form f i : In f isa -> (f_name f, f_kinds f) = key i -> doc_length i = Z.of_nat (List.length (f_bits f)).
Proof.
  intros Hin Hk. unfold doc_length.
  destruct (find (fun f0 => if key_eq_dec (f_name f0, f_kinds f0) (key i) then true else false) isa) as [g|] eqn:F.
  - apply find_some in F. destruct F as [Hg E].
    destruct (key_eq_dec (f_name g, f_kinds g) (key i)); [|discriminate].
    f_equal. apply isa_keys; auto. congruence.
  - pose proof (find_none _ _ F f Hin) as N. cbv beta in N.
    destruct (key_eq_dec (f_name f, f_kinds f) (key i)); [discriminate|contradiction].
Qed.

(** C44: what is emitted has the size used for the layout. *)
Lemma emits_advance pr get p s bs : emits pr get p s bs ->
  match s with
  | SDirective (DOrg _) | SDirective (DCnop _ _) => bs = []
  | _ => advance p s = p + zlen bs
  end.
Proof.
  destruct s as [d| |i| | | |]; simpl; try (intros ->; rewrite zlen_nil; lia); try tauto.
  - destruct d; simpl; try tauto.
    + intros (l & H & ->). rewrite (items_len _ _ _ _ H). lia.
    + intros (l & H & ->). rewrite (words_len _ _ _ _ H). reflexivity.
    + intros H. rewrite (padded_len _ _ _ _ H). lia.
    + intros H. rewrite (padded_len _ _ _ _ H). lia.
  - intros (f & vs & Hf & Hk & Ho & ->). rewrite form_len, (doc_length_form f i) by assumption. lia.
Qed.
