(** Errors of the passes of the assembler point at what is wrong. *)
From Coq Require Import ZArith List String Ascii Bool Lia.
From Verif Require Import Base Expr Bits Instr Ast Asm Span SpanAsm SpecSpan SpecIsa SpecExpr SpecAsm SpecBlame.
From Verif Require Import ExprProofs AsmProofs AsmProofs2 AsmProofs3 AsmProofs4 AsmProofs5 AsmProofs6 SpanProofs SpanProofs2 SpanProofs3 SpanAsmProofs.
Import ListNotations.
Open Scope string_scope.
Open Scope list_scope.
Open Scope Z_scope.

Local Arguments Z.add : simpl never.
Local Arguments Z.sub : simpl never.
Local Arguments Z.mul : simpl never.
Local Arguments Z.opp : simpl never.
Local Arguments Z.div : simpl never.
Local Arguments Z.pow : simpl never.
Local Arguments Z.modulo : simpl never.
Local Arguments Z.land : simpl never.
Local Arguments Z.shiftr : simpl never.
Local Arguments Z.leb : simpl never.
Local Arguments Z.ltb : simpl never.
Local Arguments Z.eqb : simpl never.
Local Arguments Z.max : simpl never.
Local Arguments Z.of_nat : simpl never.
Local Arguments Z.to_nat : simpl never.

(** * Operands *)

Definition place_sum (s : pspan) (x : Z + error) : placed Z := match x with inl v => POk v | inr e => PErr e [s] end.

Lemma place_of_sum : forall y s z, (forall e at_, y = PErr e at_ -> at_ = [s]) -> unplaced idf y = of_sum z -> y = place_sum s z.
Proof. intros [v|e at_| |] s [w|f] P E; cbn in *; try discriminate; injection E as ->; auto. now rewrite (P _ _ eq_refl). Qed.


Lemma no_place_err : forall {A : Type} (x : outcome A) e at_, no_place x = PErr e at_ -> x = Err e.
Proof. intros A [a|e1| |] e at_ H; try discriminate. now injection H as <- _. Qed.

Ltac places :=
  repeat match goal with
  | |- pbind (no_place (chk32 ?pr ?z)) _ = PErr _ _ -> _ =>
    let E := fresh in let F := fresh in destruct (chk32 pr z) eqn:E; cbn [no_place pbind]; [|intros F; now apply chk32_no_err in E|intros F; discriminate F|intros F; discriminate F]
  | |- (if ?c then _ else _) = PErr _ _ -> _ => destruct c
  | |- PErr _ _ = PErr _ _ -> _ => intros [= _ <-]; reflexivity
  | |- POk _ = PErr _ _ -> _ => discriminate
  end.

Lemma bits_eq_s : forall pr kw get w x, 0 <= w -> eval_bits_s pr (mkEnv kw get) w x =
  let? v := eval_s pr (mkEnv kw get) x in place_sum (span_of x) (if (0 <=? v) && (v <? 2 ^ w) then inl v else inr (NumOutOfRange w v)).
Proof.
  intros pr kw get w x Hw. unfold eval_bits_s. destruct (eval_s pr (mkEnv kw get) x) as [v| | |]; cbn [pbind]; auto.
  rewrite shiftr_range by assumption. destruct ((0 <=? v) && (v <? 2 ^ w)); reflexivity.
Qed.

Lemma eval12_eq_s : forall pr kw get next x, 0 <= next -> eval12_s pr (mkEnv kw get) next x =
  let? v := eval_s pr (mkEnv kw get) x in place_sum (span_of x) (field_of A12 next v).
Proof.
  intros pr kw get next x Hn. unfold eval12_s, eval_bits_s. destruct (eval_s pr (mkEnv kw get) x) as [v| | |]; cbn [pbind]; auto.
  apply place_of_sum.
  - intros e at_. destruct (negb _); cbn [pbind]; places.
  - assert (E := eval12_eq pr "" (fun _ => Some v) next (EName "") Hn). cbn [eval env_get bind] in E. rewrite <- E. unfold eval12, eval_bits.
    cbn [eval env_get bind]. destruct (negb (Z.shiftr v 16 =? 0)); cbn [pbind bind unplaced]; [reflexivity|]. now destruct (negb _).
Qed.

Lemma rel8_eq_s : forall pr kw get next x, 0 <= next < 2147483648 -> rel8_s pr (mkEnv kw get) next x =
  let? v := eval_s pr (mkEnv kw get) x in place_sum (span_of x) (field_of R8 next v).
Proof.
  intros pr kw get next x Hn. unfold rel8_s. destruct (eval_s pr (mkEnv kw get) x) as [v| | |]; cbn [pbind]; auto.
  apply place_of_sum.
  - intros e at_. places.
  - assert (E := rel8_eq pr "" (fun _ => Some v) next (EName "") Hn). cbn [eval env_get bind] in E. rewrite <- E. unfold rel8.
    cbn [eval env_get bind]. destruct (_ && _); [|reflexivity]. destruct (chk32 _ _); cbn [no_place pbind bind]; try reflexivity. now destruct (_ && _).
Qed.

Lemma rel16_eq_s : forall pr kw get next x, 0 <= next < 2147483648 -> rel16_s pr (mkEnv kw get) next x =
  let? v := eval_s pr (mkEnv kw get) x in place_sum (span_of x) (field_of R16 next v).
Proof.
  intros pr kw get next x Hn. unfold rel16_s. destruct (eval_s pr (mkEnv kw get) x) as [v| | |]; cbn [pbind]; auto.
  apply place_of_sum.
  - intros e at_. places.
  - assert (E := rel16_eq pr "" (fun _ => Some v) next (EName "") Hn). cbn [eval env_get bind] in E. rewrite <- E. unfold rel16.
    cbn [eval env_get bind]. destruct (_ && _); [|reflexivity]. destruct (chk32 _ _); cbn [no_place pbind bind]; try reflexivity.
    destruct (chk32 _ _); cbn [no_place pbind bind]; try reflexivity. now destruct (_ && _).
Qed.

Definition field_s (pr : profile) (get : string -> option Z) (next : Z) (k : kind) (a : sexpr + imode) : placed Z :=
  match a with
  | inr m => POk (imode_index m)
  | inl x => let? v := eval_s pr (mkEnv (kind_word k) get) x in place_sum (span_of x) (field_of k next v)
  end.

Fixpoint fields_s (pr : profile) (get : string -> option Z) (next : Z) (ks : list kind) (os : list (sexpr + imode))
  : placed (list Z) :=
  match ks, os with
  | k :: kt, a :: at_ =>
      let? v := field_s pr get next k a in
      let? vs := fields_s pr get next kt at_ in
      POk (v :: vs)
  | _, _ => POk []
  end.

Lemma eval_instr_s_run : forall pr next label ns lo i e at_,
  mget (locals ns) label = Some lo -> 0 <= next < 2147483648 -> eval_instr_s pr next label ns i = PErr e at_ ->
  fields_s pr (names_get (globals ns) lo) next (snd (key i)) (op_list i) = PErr e at_.
Proof.
  intros pr next label ns lo i e at_ Hlo Hn. set (get := names_get (globals ns) lo) in *.
  unfold eval_instr_s, as_env. rewrite Hlo. fold get. cbn [no_place pbind].
  destruct i; cbn [op_list key snd fields_s field_s kind_word];
    repeat match goal with
    | |- context [eval_bits_s pr (mkEnv ?kw get) ?w ?e] => rewrite (bits_eq_s pr kw get w e ltac:(lia))
    | |- context [rel8_s pr (mkEnv ?kw get) next ?e] => rewrite (rel8_eq_s pr kw get next e ltac:(lia))
    | |- context [rel16_s pr (mkEnv ?kw get) next ?e] => rewrite (rel16_eq_s pr kw get next e ltac:(lia))
    | |- context [eval12_s pr (mkEnv ?kw get) next ?e] => rewrite (eval12_eq_s pr kw get next e ltac:(lia))
    end;
    cbn [field_of kind_bits pbind];
    repeat (match goal with
    | |- context [pbind (eval_s pr ?en ?e) _] => destruct (eval_s pr en e)
    | |- context [place_sum _ (if ?c then _ else _)] => destruct c
    end; cbn [place_sum pbind]);
    try discriminate; auto; intros [= <- <-]; reflexivity.
Qed.

(** A field is there whenever the operand gives one. *)
Lemma field_rel : forall pr get next k a o, (forall m, a = inr m -> k = Ri) -> (forall x, a = inl x -> k <> Ri) ->
  field_s pr get next k a = POk o -> operand_rel pr get next k (erase_op a) o.
Proof.
  intros pr get next k [x|m] o HM HX H; cbn [field_s erase_op operand_rel] in *.
  - assert (S := eval_same pr (mkEnv (kind_word k) get) x). destruct (eval_s pr (mkEnv (kind_word k) get) x) as [v| | |]; try discriminate.
    cbn [pbind unplaced] in *. exists v. split; [now rewrite <- S|]. destruct (field_of k next v); [|discriminate]. injection H as ->. split; [reflexivity|now apply (HX x)].
  - injection H as <-. split; [now apply (HM m)|]. now destruct m.
Qed.

(** Kinds and operands fit together. *)
Definition fit (k : kind) (a : sexpr + imode) : Prop := match a with inl _ => k <> Ri | inr _ => k = Ri end.

Lemma kinds_fit : forall i : instr sexpr imode, Forall2 fit (snd (key i)) (op_list i).
Proof. destruct i; cbn [key op_list snd]; repeat constructor; cbn; try discriminate; try reflexivity. Qed.

Lemma fields_wrong : forall pr get next ks os, Forall2 fit ks os -> forall e at_, fields_s pr get next ks os = PErr e at_ ->
  exists ks1 k ks2 os1 x os2 vs, ks = ks1 ++ k :: ks2 /\ os = os1 ++ inl x :: os2 /\
    operands_rel pr get next ks1 (map erase_op os1) vs /\
    (eval_s pr (mkEnv (kind_word k) get) x = PErr e at_ \/
     exists v, eval_s pr (mkEnv (kind_word k) get) x = POk v /\ field_of k next v = inr e /\ at_ = [span_of x]).
Proof.
  intros pr get next ks os F. induction F as [|k a ks os KA F IH]; intros e at_ H; [discriminate|]. cbn [fields_s] in H.
  destruct (field_s pr get next k a) as [v|e1 at1| |] eqn:E; cbn [pbind] in H; try discriminate.
  - destruct (fields_s pr get next ks os) as [vs|e2 at2| |] eqn:E2; try discriminate. cbn [pbind] in H. injection H as -> ->.
    destruct (IH _ _ eq_refl) as (ks1 & k1 & ks2 & os1 & x & os2 & vs & -> & -> & R & X).
    exists (k :: ks1), k1, ks2, (a :: os1), x, os2, (v :: vs). split; [reflexivity|]. split; [reflexivity|]. split; [|exact X].
    cbn [map]. constructor; [|exact R]. apply field_rel; auto; intros; subst; exact KA.
  - injection H as -> ->. destruct a as [x|m]; [|discriminate].
    exists [], k, ks, [], x, os, []. split; [reflexivity|]. split; [reflexivity|]. split; [constructor|].
    cbn [field_s] in E. destruct (eval_s pr (mkEnv (kind_word k) get) x) as [v| | |] eqn:V; cbn [pbind] in E; try discriminate.
    + right. exists v. split; [reflexivity|]. destruct (field_of k next v); [discriminate|]. cbn in E. now injection E as -> <-.
    + left. exact E.
Qed.

(** * What never fails *)

Definition silent {A : Type} (x : outcome A) : Prop := forall e, x <> Err e.

Lemma silent_place : forall {A : Type} (x : outcome A) e at_, silent x -> no_place x <> PErr e at_.
Proof. intros A x e at_ H F. apply no_place_err in F. now apply H in F. Qed.

Lemma silent_bind : forall {A B : Type} (x : outcome A) (k : A -> placed B) e at_, silent x -> pbind (no_place x) k = PErr e at_ ->
  exists a, x = Ok a /\ k a = PErr e at_.
Proof. intros A B [a|e1| |] k e at_ S H; cbn in H; try discriminate; [eauto|]. now destruct (S e1). Qed.

Lemma silent_32 : forall pr z, silent (chk32 pr z). Proof. intros pr z e. apply chk32_no_err. Qed.

Lemma silent_usize : forall pr z, silent (chk_usize pr z).
Proof. intros pr z e H. unfold chk_usize in H. destruct (fits_usize z); [discriminate|]. destruct pr; discriminate. Qed.

Lemma silent_env : forall ns kw label, silent (as_env ns kw label).
Proof. intros ns kw label e H. unfold as_env in H. destruct (mget (locals ns) label); discriminate. Qed.

Lemma silent_vec : forall n, silent (zero_vec n).
Proof. intros n e H. unfold zero_vec in H. destruct (_ <? n); discriminate. Qed.

Lemma silent_emit : forall pr bs out pos, silent (emit pr bs out pos).
Proof.
  intros pr bs. induction bs as [|b bs IH]; intros out pos e H; cbn [emit] in H; [discriminate|].
  unfold write_at in H. destruct (pos <? 0); cbn [bind] in H; [discriminate|]. destruct (set_nth _ _ _); cbn [bind] in H; [|discriminate].
  destruct (chk_usize pr (pos + 1)) as [p|e1| |] eqn:E; cbn [bind] in H; try discriminate; [now apply IH in H|now apply silent_usize in E].
Qed.

Lemma rounds_inv : forall {S0 R : Type} (step : S0 -> S0 + R) (P : R -> Prop), (forall s r, step s = inr r -> P r) ->
  forall n s r, rounds step n s = inr r -> P r.
Proof.
  intros S0 R step P HP n. induction n as [q IH|q IH|]; intros s r H; cbn [rounds] in H.
  - destruct (step s) as [s1|r1] eqn:E; [|injection H as <-; eauto].
    destruct (rounds step q s1) as [s2|r2] eqn:E2; [now apply IH in H|]. injection H as <-. now apply IH in E2.
  - destruct (rounds step q s) as [s2|r2] eqn:E2; [now apply IH in H|]. injection H as <-. now apply IH in E2.
  - now apply HP in H.
Qed.

Lemma silent_cnop : forall pr pos m, silent (cnop_loop pr pos m).
Proof.
  intros pr pos m e. unfold cnop_loop. destruct (rounds _ _ _) as [x|x] eqn:E; [discriminate|].
  apply (rounds_inv _ (fun r => r <> Err e)) in E; [exact E|]. clear E.
  intros s r. unfold cnop_step. destruct (pos <=? s); [now intros [= <-]|]. destruct (chk32 pr (s + m)); now intros [= <-].
Qed.

Lemma silent_loc : forall {A : Type} (x : outcome A), silent x -> forall e, x = Err e -> False.
Proof. intros A x S e H. now apply (S e). Qed.

(** * Alignments *)

Lemma cnop_expr_wrong : forall x e at_, eval_cnop_expr_s x = PErr e at_ -> e = MustBeLiteralNumber /\ at_ = [span_of x] /\ ~ literal (erase x).
Proof. intros x e at_ H. destruct x; cbn in H; try discriminate; injection H as <- <-; (split; [reflexivity|]; split; [reflexivity|]; intros (n1 & r1 & F); cbn in F; try discriminate F; destruct op; discriminate F). Qed.

Lemma cnop_expr_right : forall x v, eval_cnop_expr_s x = POk v -> literal (erase x).
Proof. intros x v H. destruct x; cbn in H; try discriminate. now eexists _, _. Qed.

Definition misaligned (d : sdirective) (e : error) (at_ : list pspan) : Prop :=
  e = MustBeLiteralNumber /\ exists s a m, d = SDCnop s a m /\
    ((~ literal (erase a) /\ at_ = [span_of a]) \/ (literal (erase a) /\ ~ literal (erase m) /\ at_ = [span_of m])).

Lemma dir_size_wrong : forall pr d p e at_, dir_size_s pr d p = PErr e at_ -> misaligned d e at_.
Proof.
  intros pr d p e at_ H. destruct d as [s items|s loc|s ws|s n bs|s n bs|s t path|s a m]; cbn [dir_size_s] in H; try discriminate.
  - now apply silent_place in H; [|apply silent_32].
  - unfold eval_cnop_s in H. destruct (eval_cnop_expr_s a) as [va|e1 at1| |] eqn:A; cbn [pbind] in H; try discriminate.
    + destruct (eval_cnop_expr_s m) as [vm|e2 at2| |] eqn:M; cbn [pbind] in H; try discriminate.
      * exfalso. destruct (vm =? 0); cbn [pbind] in H.
        -- now apply silent_place in H; [|apply silent_32].
        -- destruct (cnop_loop pr p vm) as [mult|e3| |] eqn:C; cbn [no_place pbind] in H; try discriminate.
           ++ apply silent_bind in H; [|apply silent_32]. destruct H as (q & _ & H). now apply silent_place in H; [|apply silent_32].
           ++ now apply silent_cnop in C.
      * injection H as -> ->. apply cnop_expr_wrong in M. destruct M as (-> & -> & M). split; [reflexivity|].
        exists s, a, m. split; [reflexivity|]. right. split; [eapply cnop_expr_right; eauto|]. auto.
    + injection H as -> ->. apply cnop_expr_wrong in A. destruct A as (-> & -> & A). split; [reflexivity|].
      exists s, a, m. split; [reflexivity|]. left. auto.
Qed.

Lemma misaligned_blamed : forall pr l d e at_, In (SSDirective d) l -> misaligned d e at_ -> faulty pr l e at_.
Proof.
  intros pr l d e at_ I (-> & s & a & m & -> & [(A & ->)|(A & M & ->)]); [eapply faulty_offset|eapply faulty_alignment]; eauto.
Qed.

(** * Names *)

Lemma plainly_app : forall a b, plainly (a ++ b) = plainly a ++ plainly b. Proof. intros. apply map_app. Qed.

Lemma plainly_length : forall l, List.length (plainly l) = List.length l. Proof. intros. apply map_length. Qed.

Lemma scope_pre : forall a b j, (j <= List.length a)%nat -> scope_no (plainly (a ++ b)) j = scope_no (plainly a) j.
Proof. intros a b j H. unfold scope_no. rewrite plainly_app, firstn_pre; [reflexivity|]. now rewrite plainly_length. Qed.

Lemma scope_next : forall a s, scope_no (plainly (a ++ [s])) (List.length (a ++ [s])) =
  (scope_no (plainly a) (List.length a) + (if global_label (erase_statement s) then 1 else 0))%nat.
Proof.
  intros a s. unfold scope_no. rewrite <- (plainly_length a), <- (plainly_length (a ++ [s])), !firstn_all, plainly_app, filter_app, app_length.
  cbn [plainly map filter]. now destruct (global_label (erase_statement s)).
Qed.

Lemma nth_pre : forall {A : Type} (a b : list A) j x, nth_error a j = Some x -> nth_error (a ++ b) j = Some x /\ (j < List.length a)%nat.
Proof. intros A a b j x H. assert (L : (j < List.length a)%nat) by (apply nth_error_Some; congruence). split; auto. now rewrite nth_error_app1. Qed.

Definition label_inv (done : list sstatement) (st : lab_state_s) : Prop :=
  (forall x v, mget (ls_globals st) x = Some v -> exists j m, nth_error done j = Some (SSLabel (fst v) m) /\ lower m = x /\ is_local m = false) /\
  (forall x v, mget (ls_local st) x = Some v -> exists j m, nth_error done j = Some (SSLabel (fst v) m) /\ lower m = x /\ is_local m = true /\
     scope_no (plainly done) j = scope_no (plainly done) (List.length done)).

Lemma add_found : forall x v m, match add_name_s x v m with
  | POk m2 => forall y w, mget m2 y = Some w -> (y = x /\ w = v) \/ mget m y = Some w
  | PErr e at_ => e = NameAlreadyExists x /\ exists w, mget m x = Some w /\ at_ = [fst v; fst w]
  | _ => False
  end.
Proof.
  intros x v m. unfold add_name_s. destruct (mget m x) as [w|] eqn:E.
  - split; [reflexivity|]. exists w. auto.
  - intros y w. unfold minsert. cbn [mget]. destruct (String.eqb y x) eqn:Q; [|auto]. apply String.eqb_eq in Q. intros [= ->]. auto.
Qed.

Lemma label_inv_skip : forall done s st p, label_inv done st -> global_label (erase_statement s) = false ->
  label_inv (done ++ [s]) (mkLabS (ls_globals st) (ls_locals st) (ls_local st) (ls_current st) p).
Proof.
  intros done s st p (G & L) N. split; cbn [ls_globals ls_local]; intros x v H.
  - destruct (G x v H) as (j & m & J & X). exists j, m. split; [now apply nth_pre|]. exact X.
  - destruct (L x v H) as (j & m & J & M & IL & S0). exists j, m. destruct (nth_pre done [s] j _ J) as (J2 & LT). split; [exact J2|]. split; [exact M|]. split; [exact IL|].
    rewrite scope_next, N, scope_pre by lia. rewrite S0. lia.
Qed.

Lemma label_step_inv : forall pr done s st st2, label_inv done st -> label_step_s pr s st = POk st2 -> label_inv (done ++ [s]) st2.
Proof.
  intros pr done s st st2 I H.
  assert (Same : st2 = st -> global_label (erase_statement s) = false -> label_inv (done ++ [s]) st2).
  { intros -> N. apply (label_inv_skip done s _ (ls_pos st)) in I; [|exact N]. now destruct st. }
  destruct s as [d|sp n|sp i|sp n x|sp n x|t|sp n args]; cbn [label_step_s] in H.
  - destruct (dir_size_s pr d (ls_pos st)) as [k| | |]; cbn [pbind] in H; try discriminate.
    destruct (chk32 pr (ls_pos st + k)); cbn [no_place pbind] in H; try discriminate. injection H as <-. now apply label_inv_skip.
  - destruct (is_local n) eqn:IL.
    + assert (A := add_found (lower n) (sp, ls_pos st) (ls_local st)). destruct (add_name_s (lower n) (sp, ls_pos st) (ls_local st)) as [lo| | |]; try contradiction; [|discriminate].
      cbn [pbind] in H. injection H as <-. destruct I as (G & L). split; cbn [ls_globals ls_local].
      * intros x v H. destruct (G x v H) as (j & m & J & X). exists j, m. split; [now apply nth_pre|]. exact X.
      * intros x v H. destruct (A x v H) as [(-> & ->)|H2].
        -- exists (List.length done), n. split; [apply nth_mid|]. split; [reflexivity|]. split; [exact IL|].
           rewrite scope_next. cbn [erase_statement global_label]. rewrite IL. cbn [negb]. rewrite scope_pre by lia. lia.
        -- destruct (L x v H2) as (j & m & J & M & IM & S0). exists j, m. destruct (nth_pre done [SSLabel sp n] j _ J) as (J2 & LT).
           split; [exact J2|]. split; [exact M|]. split; [exact IM|]. rewrite scope_next. cbn [erase_statement global_label]. rewrite IL. cbn [negb]. rewrite scope_pre by lia. lia.
    + assert (A := add_found (lower n) (sp, ls_pos st) (ls_globals st)). destruct (add_name_s (lower n) (sp, ls_pos st) (ls_globals st)) as [gl| | |]; try contradiction; [|discriminate].
      cbn [pbind] in H. injection H as <-. destruct I as (G & L). split; cbn [ls_globals ls_local].
      * intros x v H. destruct (A x v H) as [(-> & ->)|H2].
        -- exists (List.length done), n. split; [apply nth_mid|]. auto.
        -- destruct (G x v H2) as (j & m & J & X). exists j, m. split; [now apply nth_pre|]. exact X.
      * intros x v H. discriminate H.
  - destruct (chk32 pr (ls_pos st + wrap32 (size i))); cbn [no_place pbind] in H; try discriminate. injection H as <-. now apply label_inv_skip.
  - injection H as <-. now apply Same.
  - injection H as <-. now apply Same.
  - injection H as <-. now apply Same.
  - discriminate.
Qed.

Lemma label_loop_app_s : forall pr a b st, label_loop_s pr (a ++ b) st = let? st2 := label_loop_s pr a st in label_loop_s pr b st2.
Proof. intros pr a b. induction a as [|s a IH]; intros st; cbn [app label_loop_s]; [reflexivity|]. destruct (label_step_s pr s st); cbn [pbind]; auto. Qed.

Lemma label_loop_inv : forall pr l st, label_loop_s pr l (mkLabS [] [] [] "" 0) = POk st -> label_inv l st.
Proof.
  intros pr l. induction l as [|s l IH] using rev_ind; intros st H.
  - injection H as <-. split; intros x v F; discriminate F.
  - rewrite label_loop_app_s in H. destruct (label_loop_s pr l (mkLabS [] [] [] "" 0)) as [st1| | |]; cbn [pbind] in H; try discriminate.
    cbn [label_loop_s] in H. destruct (label_step_s pr s st1) as [st2| | |] eqn:E; cbn [pbind] in H; try discriminate. injection H as <-.
    eapply label_step_inv; [apply IH; reflexivity|exact E].
Qed.

Lemma label_loop_err : forall pr l st e at_, label_loop_s pr l st = PErr e at_ -> exists pre s post st2,
  l = pre ++ s :: post /\ label_loop_s pr pre st = POk st2 /\ label_step_s pr s st2 = PErr e at_.
Proof.
  intros pr l. induction l as [|s l IH]; intros st e at_ H; cbn [label_loop_s] in H; [discriminate|].
  destruct (label_step_s pr s st) as [st1|e1 at1| |] eqn:E; cbn [pbind] in H; try discriminate.
  - destruct (IH _ _ _ H) as (pre & s2 & post & st2 & -> & P & Q). exists (s :: pre), s2, post, st2. split; [reflexivity|]. split; [|exact Q].
    cbn [label_loop_s]. now rewrite E.
  - injection H as -> ->. exists [], s, l, st. auto.
Qed.

Lemma labels_blamed : forall pr l e at_, compute_labels_s pr l = PErr e at_ -> faulty pr l e at_.
Proof.
  intros pr l e at_ H. unfold compute_labels_s in H. destruct (label_loop_s pr l (mkLabS [] [] [] "" 0)) as [st|e1 at1| |] eqn:E; cbn [pbind] in H; try discriminate.
  injection H as -> ->. destruct (label_loop_err _ _ _ _ _ E) as (pre & s & post & st & -> & P & Q).
  destruct (label_loop_inv _ _ _ P) as (G & L).
  assert (IN : In s (pre ++ s :: post)) by (apply in_elt).
  destruct s as [d|sp n|sp i|sp n x|sp n x|t|sp n args]; cbn [label_step_s] in Q; try discriminate.
  - destruct (dir_size_s pr d (ls_pos st)) as [k|e1 at1| |] eqn:D; cbn [pbind] in Q; try discriminate.
    + exfalso. apply silent_bind in Q; [|apply silent_32]. destruct Q as (q & _ & Q). discriminate Q.
    + injection Q as -> ->. apply dir_size_wrong in D. eapply misaligned_blamed; eauto.
  - destruct (is_local n) eqn:IL.
    + assert (A := add_found (lower n) (sp, ls_pos st) (ls_local st)). destruct (add_name_s (lower n) (sp, ls_pos st) (ls_local st)) as [lo|e1 at1| |]; try contradiction; [discriminate|].
      cbn [pbind] in Q. injection Q as -> ->. destruct A as (-> & w & W & ->). apply faulty_twice.
      destruct (L _ _ W) as (j & m & J & M & IM & S0). destruct (nth_pre pre (SSLabel sp n :: post) j _ J) as (J2 & LT).
      apply (twice_local _ _ (List.length pre) j n m); auto; [apply nth_mid|]. rewrite !scope_pre by lia. now rewrite S0.
    + assert (A := add_found (lower n) (sp, ls_pos st) (ls_globals st)). destruct (add_name_s (lower n) (sp, ls_pos st) (ls_globals st)) as [lo|e1 at1| |]; try contradiction; [discriminate|].
      cbn [pbind] in Q. injection Q as -> ->. destruct A as (-> & w & W & ->). apply faulty_twice.
      destruct (G _ _ W) as (j & m & J & M & IM). destruct (nth_pre pre (SSLabel sp n :: post) j _ J) as (J2 & LT).
      apply (twice_label _ _ (List.length pre) j n m); auto. apply nth_mid.
  - exfalso. apply silent_bind in Q; [|apply silent_32]. destruct Q as (q & _ & Q). discriminate Q.
Qed.
