(** Proofs about expression evaluation and operand checking. *)
From Coq Require Import ZArith List String Ascii Bool Lia.
From Verif Require Import Base Expr Bits Instr SpecIsa SpecExpr BitsProofs CodecProofs.
Import ListNotations.
Open Scope string_scope.
Open Scope Z_scope.

Local Arguments Z.add : simpl never.
Local Arguments Z.sub : simpl never.
Local Arguments Z.mul : simpl never.
Local Arguments Z.opp : simpl never.
Local Arguments Z.pow : simpl never.
Local Arguments Z.modulo : simpl never.
Local Arguments Z.div : simpl never.
Local Arguments Z.land : simpl never.
Local Arguments Z.shiftr : simpl never.
Local Arguments Z.leb : simpl never.
Local Arguments Z.ltb : simpl never.
Local Arguments Z.eqb : simpl never.

Lemma fits32_in32 z : fits32 z = true <-> in32 z.
Proof. unfold fits32, in32. rewrite andb_true_iff, !Z.leb_le. reflexivity. Qed.

Lemma chk32_ok pr z : in32 z -> chk32 pr z = Ok z.
Proof. intros H. unfold chk32. rewrite (proj2 (fits32_in32 z) H). reflexivity. Qed.

Lemma quot_tdiv a b : b <> 0 -> Z.quot a b = tdiv a b.
Proof. intros. unfold tdiv. rewrite Z.quot_div by assumption. reflexivity. Qed.

Lemma in32_shift z : in32 z <-> Z.shiftr z 31 = 0 \/ Z.shiftr z 31 = -1.
Proof.
  unfold in32. rewrite Z.shiftr_div_pow2 by lia. change (2 ^ 31) with 2147483648.
  pose proof (Z.div_mod z 2147483648 ltac:(lia)). pose proof (Z.mod_pos_bound z 2147483648 ltac:(lia)).
  split; intros.
  - assert (-1 <= z / 2147483648 <= 0) by lia. lia.
  - destruct H1; lia.
Qed.

Lemma in32_lxor a b : in32 a -> in32 b -> in32 (Z.lxor a b).
Proof.
  rewrite !in32_shift, Z.shiftr_lxor. intros [-> | ->] [-> | ->]; vm_compute; auto.
Qed.
Lemma in32_land a b : in32 a -> in32 b -> in32 (Z.land a b).
Proof.
  rewrite !in32_shift, Z.shiftr_land. intros [-> | ->] [-> | ->]; vm_compute; auto.
Qed.
Lemma in32_lor a b : in32 a -> in32 b -> in32 (Z.lor a b).
Proof.
  rewrite !in32_shift, Z.shiftr_lor. intros [-> | ->] [-> | ->]; vm_compute; auto.
Qed.

Lemma wrap32_in32 z : in32 (wrap32 z).
Proof. unfold wrap32, in32. pose proof (Z.mod_pos_bound (z + 2147483648) 4294967296). lia. Qed.

Lemma land_255 a : Z.land a 255 = a mod 256.
Proof. change 255 with (Z.ones 8). rewrite Z.land_ones by lia. reflexivity. Qed.

Lemma upper_byte a : Z.land (Z.shiftr a 8) 255 = a / 256 mod 256.
Proof. rewrite land_255, Z.shiftr_div_pow2 by lia. reflexivity. Qed.

(** The kind word only matters for the error. *)
Lemma sem_kind k k' get e v : sem k get e = inl v -> sem k' get e = inl v.
Proof.
  revert v. induction e; simpl; intros v; auto;
    try (destruct (sem k get e1) as [a|] eqn:E1; simpl; [|discriminate];
         destruct (sem k get e2) as [b|] eqn:E2; simpl; [|discriminate];
         rewrite (IHe1 _ eq_refl), (IHe2 _ eq_refl); simpl; auto);
    try (destruct (sem k get e) as [a|] eqn:E; [|discriminate]; rewrite (IHe _ eq_refl); auto).
  destruct (get (lower name)); congruence.
Qed.

Definition of_sum {A : Type} (x : A + error) : outcome A :=
  match x with inl a => Ok a | inr e => Err e end.

Lemma eval_in32 pr en e v : get_ok (env_get en) -> lits_ok e -> eval pr en e = Ok v -> in32 v.
Proof.
  intros Hg. assert (Hchk : forall z w, chk32 pr z = Ok w -> in32 w).
  { unfold chk32. intros z w. destruct (fits32 z) eqn:E.
    - intros [= <-]. apply fits32_in32. assumption.
    - destruct pr; [discriminate|]. intros [= <-]. apply wrap32_in32. }
  revert v. induction e; simpl; intros v Hl;
    try (destruct Hl as [Hl1 Hl2]; destruct (eval pr en e1) as [a| | |] eqn:E1; simpl; try discriminate;
         destruct (eval pr en e2) as [b| | |] eqn:E2; simpl; try discriminate;
         specialize (IHe1 _ Hl1 eq_refl); specialize (IHe2 _ Hl2 eq_refl));
    try (destruct (eval pr en e) as [a| | |] eqn:E; simpl; try discriminate;
         specialize (IHe _ Hl eq_refl)).
  - destruct (env_get en (lower name)) eqn:E; [|discriminate]. intros [= <-]. eapply Hg; eauto.
  - apply Hchk.
  - apply Hchk.
  - apply Hchk.
  - apply Hchk.
  - destruct (Z.eqb_spec b 0); [discriminate|].
    destruct ((a =? -2147483648) && (b =? -1)) eqn:E; [discriminate|]. intros [= <-].
    rewrite andb_false_iff, !Z.eqb_neq in E.
    rewrite quot_tdiv by assumption. unfold tdiv, in32 in *.
    assert (Hq : 0 <= Z.abs a / Z.abs b <= Z.abs a).
    { split; [apply Z.div_pos; lia|]. apply Z.div_le_upper_bound; [lia|]. nia. }
    assert (Hsg : (Z.sgn a * Z.sgn b = 0 \/ Z.sgn a * Z.sgn b = 1 \/ Z.sgn a * Z.sgn b = -1)) by lia.
    destruct (Z.eq_dec (Z.abs b) 1).
    + rewrite e, Z.div_1_r in *. assert (b = 1 \/ b = -1) as [-> | ->] by lia; lia.
    + assert (Z.abs a / Z.abs b <= Z.abs a / 2) by (apply Z.div_le_compat_l; lia).
      assert (Z.abs a / 2 <= 1073741824) by (apply Z.div_le_upper_bound; lia).
      destruct Hsg as [-> | [-> | ->]]; lia.
  - intros [= <-]. assumption.
  - intros [= <-]. rewrite upper_byte. pose proof (Z.mod_pos_bound (a / 256) 256). unfold in32. lia.
  - intros [= <-]. rewrite land_255. pose proof (Z.mod_pos_bound a 256). unfold in32. lia.
  - discriminate.
  - discriminate.
  - intros [= <-]. apply in32_lxor; assumption.
  - intros [= <-]. apply in32_land; assumption.
  - intros [= <-]. apply in32_lor; assumption.
Qed.

(** Evaluation gives the arithmetic value or the first fault. *)
Lemma eval_sem pr en e : get_ok (env_get en) -> lits_ok e -> fits (env_get en) e ->
  eval pr en e = of_sum (sem (env_kind en) (env_get en) e).
Proof.
  intros Hg. induction e; intros Hl Hf; simpl in *;
    try (destruct Hl as [Hl1 Hl2]; destruct Hf as (Hf1 & Hf2 & Hf3);
         rewrite IHe1 by assumption;
         destruct (sem (env_kind en) (env_get en) e1) as [a|] eqn:E1; simpl; auto;
         specialize (Hf2 a (sem_kind _ _ _ _ _ E1));
         rewrite IHe2 by assumption;
         destruct (sem (env_kind en) (env_get en) e2) as [b|] eqn:E2; simpl; auto;
         rewrite (sem_kind _ "" _ _ _ E1), (sem_kind _ "" _ _ _ E2) in Hf3; simpl in Hf3).
  - destruct (env_get en (lower name)); reflexivity.
  - apply chk32_ok. auto.
  - apply chk32_ok. auto.
  - destruct Hf as [Hf1 Hf2]. rewrite IHe by assumption.
    destruct (sem (env_kind en) (env_get en) e) as [a|] eqn:E; simpl; auto.
    rewrite (sem_kind _ "" _ _ _ E) in Hf2. replace (-1 * a) with (- a) by lia. rewrite chk32_ok by auto. reflexivity.
  - apply chk32_ok. auto.
  - destruct (Z.eqb_spec b 0) as [->|Hb]; [reflexivity|].
    specialize (Hf3 _ eq_refl).
    destruct ((a =? -2147483648) && (b =? -1)) eqn:E.
    + apply andb_true_iff in E. rewrite !Z.eqb_eq in E. destruct E as [-> ->].
      exfalso. revert Hf3. unfold in32. vm_compute. tauto.
    + rewrite quot_tdiv by assumption. reflexivity.
  - reflexivity.
  - rewrite IHe by assumption. destruct (sem (env_kind en) (env_get en) e); simpl; auto.
    rewrite upper_byte. reflexivity.
  - rewrite IHe by assumption. destruct (sem (env_kind en) (env_get en) e); simpl; auto.
    rewrite land_255. reflexivity.
  - reflexivity.
  - reflexivity.
Qed.

(** A debug build never returns a wrong value, and crashes exactly when some intermediate result
    does not fit. *)
Lemma eval_debug en e : get_ok (env_get en) -> lits_ok e ->
  (fits (env_get en) e /\ eval Debug en e = of_sum (sem (env_kind en) (env_get en) e)) \/
  (~ fits (env_get en) e /\ eval Debug en e = Panic).
Proof.
  intros Hg.
  assert (Hchk : forall z, (in32 z /\ chk32 Debug z = Ok z) \/ (~ in32 z /\ chk32 Debug z = Panic)).
  { intros z. destruct (fits32 z) eqn:E.
    - left. split; [apply fits32_in32; assumption|]. unfold chk32. rewrite E. reflexivity.
    - right. split; [|unfold chk32; rewrite E; reflexivity].
      intros H. apply fits32_in32 in H. congruence. }
  assert (Hbin : forall e1 e2 e op (f : Z -> Z -> Z + error),
    (forall k, sem k (env_get en) e = binop f (sem k (env_get en) e1) (sem k (env_get en) e2)) ->
    (fits (env_get en) e <-> fits (env_get en) e1 /\ (forall a, sem "" (env_get en) e1 = inl a -> fits (env_get en) e2) /\
      (forall v, sem "" (env_get en) e = inl v -> in32 v)) ->
    (eval Debug en e = let! a := eval Debug en e1 in let! b := eval Debug en e2 in op a b) ->
    (forall a b, in32 a -> in32 b -> 
       ((forall v, f a b = inl v -> in32 v) /\ op a b = of_sum (f a b)) \/
       ((exists v, f a b = inl v /\ ~ in32 v) /\ op a b = Panic)) ->
    lits_ok e1 -> lits_ok e2 ->
    (fits (env_get en) e1 /\ eval Debug en e1 = of_sum (sem (env_kind en) (env_get en) e1)) \/
      (~ fits (env_get en) e1 /\ eval Debug en e1 = Panic) ->
    (fits (env_get en) e2 /\ eval Debug en e2 = of_sum (sem (env_kind en) (env_get en) e2)) \/
      (~ fits (env_get en) e2 /\ eval Debug en e2 = Panic) ->
    (fits (env_get en) e /\ eval Debug en e = of_sum (sem (env_kind en) (env_get en) e)) \/
    (~ fits (env_get en) e /\ eval Debug en e = Panic)).
  { clear e. intros e1 e2 e op f Hsem Hfits Hev Hop Hl1 Hl2 [[F1 E1]|[F1 E1]] H2; rewrite Hev, E1, Hfits.
    2:{ right. split; [tauto|reflexivity]. }
    rewrite (Hsem (env_kind en)). destruct (sem (env_kind en) (env_get en) e1) as [a|er] eqn:S1.
    2:{ left. simpl. split; [|reflexivity]. split; [assumption|].
        assert (N1 : forall v, sem "" (env_get en) e1 <> inl v).
        { intros v Hv. apply (sem_kind _ (env_kind en)) in Hv. congruence. }
        split; [intros v Hv; exfalso; eapply N1; eauto|].
        intros v. rewrite Hsem. destruct (sem "" (env_get en) e1) eqn:S; [exfalso; eapply N1; eauto|].
        simpl. discriminate. }
    pose proof (sem_kind _ "" _ _ _ S1) as S1'. simpl of_sum. simpl bind.
    destruct H2 as [[F2 E2]|[F2 E2]]; rewrite E2.
    2:{ right. split; [|reflexivity]. intros (_ & H & _). apply F2. eapply H; eauto. }
    destruct (sem (env_kind en) (env_get en) e2) as [b|er] eqn:S2.
    2:{ left. simpl. split; [|reflexivity]. split; [assumption|]. split; [auto|].
        intros v. rewrite Hsem, S1'. simpl. destruct (sem "" (env_get en) e2) eqn:S; [|discriminate].
        apply (sem_kind _ (env_kind en)) in S. congruence. }
    pose proof (sem_kind _ "" _ _ _ S2) as S2'. simpl.
    assert (Ha : in32 a) by (eapply eval_in32; [exact Hg| exact Hl1 |rewrite E1; reflexivity]).
    assert (Hb : in32 b) by (eapply eval_in32; [exact Hg| exact Hl2 |rewrite E2; reflexivity]).
    destruct (Hop a b Ha Hb) as [[Ho Eo]|[(v & Hv & Hn) Eo]]; rewrite Eo.
    - left. split; [|reflexivity]. split; [assumption|]. split; [auto|].
      intros v. rewrite Hsem, S1', S2'. simpl. apply Ho.
    - right. split; [|reflexivity]. intros (_ & _ & H). apply Hn. apply H.
      rewrite Hsem, S1', S2'. simpl. assumption. }
  assert (Hop : forall (f : Z -> Z -> Z) a b,
     ((forall v, inl (B := error) (f a b) = inl v -> in32 v) /\ chk32 Debug (f a b) = of_sum (inl (f a b))) \/
     ((exists v, inl (B := error) (f a b) = inl v /\ ~ in32 v) /\ chk32 Debug (f a b) = Panic)).
  { intros f a b. destruct (Hchk (f a b)) as [[H1 H2]|[H1 H2]].
    - left. split; [intros v [= <-]; assumption|assumption].
    - right. split; [eauto|assumption]. }
  induction e; intros Hl; try destruct Hl as [Hl1 Hl2];
    try (left; split; [exact Logic.I|]; simpl; try reflexivity; destruct (env_get en (lower name)); reflexivity).
  - eapply (Hbin e1 e2 (EPlus e1 e2) (fun a b => chk32 Debug (a + b)) (fun a b => inl (a + b)));
      auto; try reflexivity; intros; apply (Hop Z.add).
  - eapply (Hbin e1 e2 (EMinus e1 e2) (fun a b => chk32 Debug (a - b)) (fun a b => inl (a - b)));
      auto; try reflexivity; intros; apply (Hop Z.sub).
  - simpl. destruct (IHe Hl) as [[F E]|[F E]]; rewrite E.
    2:{ right. split; [tauto|reflexivity]. }
    destruct (sem (env_kind en) (env_get en) e) as [a|] eqn:S; simpl.
    + rewrite (sem_kind _ "" _ _ _ S). replace (-1 * a) with (- a) by lia.
      destruct (Hchk (- a)) as [[H1 H2]|[H1 H2]]; rewrite H2.
      * left. split; [|reflexivity]. split; [assumption|]. intros v [= <-]. assumption.
      * right. split; [|reflexivity]. intros [_ H]. apply H1. apply H. reflexivity.
    + left. split; [|reflexivity]. split; [assumption|].
      destruct (sem "" (env_get en) e) eqn:S'; [|discriminate].
      apply (sem_kind _ (env_kind en)) in S'. congruence.
  - eapply (Hbin e1 e2 (ETimes e1 e2) (fun a b => chk32 Debug (a * b)) (fun a b => inl (a * b)));
      auto; try reflexivity; intros; apply (Hop Z.mul).
  - eapply (Hbin e1 e2 (EDivide e1 e2)
      (fun a b => if b =? 0 then Err DivideByZero else if (a =? -2147483648) && (b =? -1) then Panic else Ok (Z.quot a b))
      (fun a b => if b =? 0 then inr DivideByZero else inl (tdiv a b)));
      auto; try reflexivity.
    intros a b Ha Hb. destruct (Z.eqb_spec b 0) as [->|Hn].
    + left. split; [discriminate|reflexivity].
    + destruct ((a =? -2147483648) && (b =? -1)) eqn:E.
      * right. split; [|reflexivity]. eexists. split; [reflexivity|].
        apply andb_true_iff in E. rewrite !Z.eqb_eq in E. destruct E as [-> ->].
        unfold in32. vm_compute. tauto.
      * left. rewrite quot_tdiv by assumption. split; [|reflexivity]. intros v [= <-].
        apply (eval_in32 Debug (mkEnv "" (fun _ => None)) (EDivide (ENumber a Decimal) (ENumber b Decimal))).
        -- intros ? ? ?; discriminate.
        -- simpl. auto.
        -- simpl. destruct (Z.eqb_spec b 0); [contradiction|]. rewrite E, quot_tdiv by assumption. reflexivity.
  - simpl. destruct (IHe Hl) as [[F E]|[F E]]; rewrite E; [left|right; auto].
    split; [assumption|]. destruct (sem (env_kind en) (env_get en) e); simpl; auto.
    rewrite upper_byte. reflexivity.
  - simpl. destruct (IHe Hl) as [[F E]|[F E]]; rewrite E; [left|right; auto].
    split; [assumption|]. destruct (sem (env_kind en) (env_get en) e); simpl; auto.
    rewrite land_255. reflexivity.
  - eapply (Hbin e1 e2 (EXor e1 e2) (fun a b => Ok (Z.lxor a b)) (fun a b => inl (Z.lxor a b)));
      auto; try reflexivity. intros a b Ha Hb. left. split; [|reflexivity]. intros v [= <-]. apply in32_lxor; auto.
  - eapply (Hbin e1 e2 (EAnd e1 e2) (fun a b => Ok (Z.land a b)) (fun a b => inl (Z.land a b)));
      auto; try reflexivity. intros a b Ha Hb. left. split; [|reflexivity]. intros v [= <-]. apply in32_land; auto.
  - eapply (Hbin e1 e2 (EOr e1 e2) (fun a b => Ok (Z.lor a b)) (fun a b => inl (Z.lor a b)));
      auto; try reflexivity. intros a b Ha Hb. left. split; [|reflexivity]. intros v [= <-]. apply in32_lor; auto.
Qed.

(** ** Wrapping arithmetic of release builds *)

Fixpoint ring_expr (e : expr) : bool :=
  match e with
  | ENumber _ _ | EName _ => true
  | EPlus l r | EMinus l r | ETimes l r => ring_expr l && ring_expr r
  | EUnaryMinus x => ring_expr x
  | _ => false
  end.

Lemma chk32_release z : chk32 Release z = Ok (wrap32 z).
Proof.
  unfold chk32. destruct (fits32 z) eqn:E; auto.
  apply fits32_in32 in E. rewrite wrap32_small by assumption. reflexivity.
Qed.

Lemma wrap32_eqm a b : (a - b) mod 4294967296 = 0 -> wrap32 a = wrap32 b.
Proof.
  intros H. unfold wrap32. f_equal. apply Z.mod_divide in H; [|lia]. destruct H as [k Hk].
  replace (a + 2147483648) with (b + 2147483648 + k * 4294967296) by lia.
  apply Z.mod_add. lia.
Qed.

Lemma wrap32_diff z : exists k, wrap32 z = z + k * 4294967296.
Proof.
  unfold wrap32. exists (- ((z + 2147483648) / 4294967296)).
  pose proof (Z.div_mod (z + 2147483648) 4294967296 ltac:(lia)). lia.
Qed.

Lemma eval_release en e : get_ok (env_get en) -> lits_ok e -> ring_expr e = true ->
  eval Release en e =
  match sem (env_kind en) (env_get en) e with inl v => Ok (wrap32 v) | inr er => Err er end.
Proof.
  intros Hg. induction e; simpl; try discriminate; intros Hl Hr;
    try (apply andb_true_iff in Hr; destruct Hr as [Hr1 Hr2]; destruct Hl as [Hl1 Hl2];
         rewrite (IHe1 Hl1 Hr1), (IHe2 Hl2 Hr2);
         destruct (sem (env_kind en) (env_get en) e1) as [a|]; simpl; auto;
         destruct (sem (env_kind en) (env_get en) e2) as [b|]; simpl; auto;
         rewrite chk32_release; f_equal; apply wrap32_eqm;
         destruct (wrap32_diff a) as [k Hk]; destruct (wrap32_diff b) as [k' Hk'];
         rewrite Hk, Hk'; apply Z.mod_divide; [lia|]).
  - destruct (env_get en (lower name)) eqn:E; auto. rewrite wrap32_small; auto. apply (Hg _ _ E).
  - exists (k + k'). lia.
  - exists (k - k'). lia.
  - rewrite (IHe Hl Hr). destruct (sem (env_kind en) (env_get en) e) as [a|]; simpl; auto.
    rewrite chk32_release. f_equal. apply wrap32_eqm. destruct (wrap32_diff a) as [k Hk]. rewrite Hk.
    apply Z.mod_divide; [lia|]. exists (- k). lia.
  - exists (a * k' + b * k + k * k' * 4294967296). lia.
  - rewrite wrap32_small; auto.
Qed.

(** ** Operand checks *)

Lemma shiftr_range v w : 0 <= w -> negb (Z.shiftr v w =? 0) = negb ((0 <=? v) && (v <? 2 ^ w)).
Proof.
  intros Hw. f_equal. apply eq_true_iff_eq. rewrite andb_true_iff, Z.eqb_eq, Z.leb_le, Z.ltb_lt.
  rewrite Z.shiftr_div_pow2 by assumption.
  assert (0 < 2 ^ w) by (apply Z.pow_pos_nonneg; lia).
  pose proof (Z.div_mod v (2 ^ w) ltac:(lia)). pose proof (Z.mod_pos_bound v (2 ^ w) ltac:(lia)).
  split; intros.
  - rewrite H2 in *. lia.
  - apply Z.div_small. lia.
Qed.

Lemma eval_bits_sem pr kw get w e : 0 <= w ->
  eval pr (mkEnv kw get) e = of_sum (sem kw get e) ->
  eval_bits pr (mkEnv kw get) w e =
  of_sum (match sem kw get e with
          | inl v => if (0 <=? v) && (v <? 2 ^ w) then inl v else inr (NumOutOfRange w v)
          | inr er => inr er end).
Proof.
  intros Hw H. unfold eval_bits. rewrite H. destruct (sem kw get e); simpl; auto.
  rewrite shiftr_range by assumption. destruct ((0 <=? z) && (z <? 2 ^ w)); reflexivity.
Qed.

Lemma land_f000 z : Z.land z 61440 = z / 4096 mod 16 * 4096.
Proof.
  apply Z.bits_inj'. intros j Hj. rewrite Z.land_spec.
  change 61440 with (Z.shiftl (Z.ones 4) 12). change 4096 with (2 ^ 12) at 2.
  rewrite <- Z.shiftl_mul_pow2 by lia. rewrite !Z.shiftl_spec by lia.
  destruct (Z.lt_ge_cases j 12).
  - rewrite !(Z.testbit_neg_r _ (j - 12)) by lia. apply andb_false_r.
  - change 16 with (2 ^ 4). change 4096 with (2 ^ 12).
    destruct (Z.lt_ge_cases (j - 12) 4).
    + rewrite Z.mod_pow2_bits_low, Z.div_pow2_bits, Z.ones_spec_low by lia.
      replace (j - 12 + 12) with j by lia. apply andb_true_r.
    + rewrite Z.mod_pow2_bits_high, Z.ones_spec_high by lia. apply andb_false_r.
Qed.

Lemma land_fff z : Z.land z 4095 = z mod 4096.
Proof. change 4095 with (Z.ones 12). rewrite Z.land_ones by lia. reflexivity. Qed.

Lemma eval12_sem pr kw get next e : 0 <= next ->
  eval pr (mkEnv kw get) e = of_sum (sem kw get e) ->
  eval12 pr (mkEnv kw get) next e =
  of_sum (match sem kw get e with inl v => field_of A12 next v | inr er => inr er end).
Proof.
  intros Hn H. unfold eval12. rewrite (eval_bits_sem pr kw get 16 e ltac:(lia) H).
  destruct (sem kw get e) as [v|]; simpl; auto. change (2 ^ 16) with 65536.
  destruct ((0 <=? v) && (v <? 65536)) eqn:E; simpl; auto.
  apply andb_true_iff in E. rewrite Z.leb_le, Z.ltb_lt in E.
  rewrite !land_f000, land_fff.
  assert (Hv : 0 <= v / 4096 < 16) by (split; [apply Z.div_pos; lia | apply Z.div_lt_upper_bound; lia]).
  rewrite (Z.mod_small (v / 4096)) by lia.
  pose proof (Z.mod_pos_bound (next / 4096) 16 ltac:(lia)).
  assert (Hsh : forall x, 0 <= x < 16 -> Z.land (Z.shiftr (x * 4096) 12) 255 = x).
  { intros x Hx. rewrite Z.shiftr_div_pow2 by lia. change (2 ^ 12) with 4096.
    rewrite Z.div_mul by lia. rewrite land_255. apply Z.mod_small. lia. }
  rewrite !Hsh by lia.
  destruct (Z.eqb_spec (v / 4096) (next / 4096 mod 16)) as [E'|E'].
  - rewrite E', Z.eqb_refl. reflexivity.
  - destruct (Z.eqb_spec (v / 4096 * 4096) (next / 4096 mod 16 * 4096)); [lia|]. reflexivity.
Qed.

Lemma le_lt_65536 v : (0 <=? v) && (v <=? 65535) = (0 <=? v) && (v <? 65536).
Proof. f_equal. apply eq_true_iff_eq. rewrite Z.leb_le, Z.ltb_lt. lia. Qed.

Lemma rel8_sem pr kw get next e : 0 <= next < 2147483648 ->
  eval pr (mkEnv kw get) e = of_sum (sem kw get e) ->
  rel8 pr (mkEnv kw get) next e =
  of_sum (match sem kw get e with inl v => field_of R8 next v | inr er => inr er end).
Proof.
  intros Hn H. unfold rel8. rewrite H. destruct (sem kw get e) as [v|]; simpl; auto.
  rewrite le_lt_65536. destruct ((0 <=? v) && (v <? 65536)) eqn:E; simpl; auto.
  apply andb_true_iff in E. rewrite Z.leb_le, Z.ltb_lt in E.
  rewrite wrap32_small by lia. rewrite chk32_ok by (unfold in32; lia). simpl.
  replace (v - next <=? 127) with (v - next <? 128)
    by (apply eq_true_iff_eq; rewrite Z.leb_le, Z.ltb_lt; lia).
  destruct (_ && _); reflexivity.
Qed.

Lemma rel16_sem pr kw get next e : 0 <= next < 2147483648 ->
  eval pr (mkEnv kw get) e = of_sum (sem kw get e) ->
  rel16 pr (mkEnv kw get) next e =
  of_sum (match sem kw get e with inl v => field_of R16 next v | inr er => inr er end).
Proof.
  intros Hn H. unfold rel16. rewrite H. destruct (sem kw get e) as [v|]; simpl; auto.
  rewrite le_lt_65536. destruct ((0 <=? v) && (v <? 65536)) eqn:E; simpl; auto.
  apply andb_true_iff in E. rewrite Z.leb_le, Z.ltb_lt in E.
  rewrite wrap32_small by lia. rewrite chk32_ok by (unfold in32; lia). simpl.
  rewrite chk32_ok by (unfold in32; lia). simpl.
  replace (v - next + 1 <=? 32767) with (v - next + 1 <? 32768)
    by (apply eq_true_iff_eq; rewrite Z.leb_le, Z.ltb_lt; lia).
  destruct (_ && _); reflexivity.
Qed.

Lemma eval_instr_sem pr next label ns lo i :
  mget (locals ns) label = Some lo -> 0 <= next < 2147483648 ->
  get_ok (names_get (globals ns) lo) ->
  Forall (op_ok (names_get (globals ns) lo)) (op_list i) ->
  match operands_sem (names_get (globals ns) lo) next (snd (key i)) (op_list i) with
  | inl vs => exists j, eval_instr pr next label ns i = Ok j /\ key j = key i /\ values j = vs
  | inr e => eval_instr pr next label ns i = Err e
  end.
Proof.
  intros Hlo Hn Hg Hok. set (get := names_get (globals ns) lo) in *.
  assert (Hev : forall kw e, lits_ok e /\ fits get e -> eval pr (mkEnv kw get) e = of_sum (sem kw get e)).
  { intros kw e [H1 H2]. apply (eval_sem pr (mkEnv kw get)); assumption. }
  unfold eval_instr, as_env. rewrite Hlo. fold get. cbn [bind].
  destruct i; cbn [op_list] in Hok |- *; cbn [key snd operands_sem operand_sem kind_word];
    repeat match goal with H : Forall _ _ |- _ => inversion H; clear H; subst end;
    cbn [op_ok] in *;
    repeat match goal with
    | |- context [eval_bits pr (mkEnv ?kw get) ?w ?e] =>
        rewrite (eval_bits_sem pr kw get w e ltac:(lia) (Hev kw e ltac:(assumption)))
    | |- context [rel8 pr (mkEnv ?kw get) next ?e] =>
        rewrite (rel8_sem pr kw get next e ltac:(lia) (Hev kw e ltac:(assumption)))
    | |- context [rel16 pr (mkEnv ?kw get) next ?e] =>
        rewrite (rel16_sem pr kw get next e ltac:(lia) (Hev kw e ltac:(assumption)))
    | |- context [eval12 pr (mkEnv ?kw get) next ?e] =>
        rewrite (eval12_sem pr kw get next e ltac:(lia) (Hev kw e ltac:(assumption)))
    end;
    cbn [field_of kind_bits];
    repeat (match goal with
    | |- context [of_sum (match ?x with inl _ => _ | inr _ => _ end)] => destruct x
    | |- context [of_sum (if ?c then _ else _)] => destruct c
    end; cbn [of_sum bind]);
    try reflexivity; try (eexists; split; [reflexivity|split; reflexivity]).
Qed.

(** ** What a successful operand evaluation tells, in any build profile *)

Lemma bind_ok {A B : Type} (x : outcome A) (f : A -> outcome B) b :
  bind x f = Ok b -> exists a, x = Ok a /\ f a = Ok b.
Proof. destruct x; simpl; try discriminate. eauto. Qed.

Lemma eval_bits_inv pr en w e o : 0 <= w -> eval_bits pr en w e = Ok o ->
  exists v, eval pr en e = Ok v /\ (if (0 <=? v) && (v <? 2 ^ w) then inl v else inr (NumOutOfRange w v)) = inl o.
Proof.
  unfold eval_bits. intros Hw H. apply bind_ok in H. destruct H as (v & Hv & H). exists v.
  split; [assumption|]. rewrite shiftr_range in H by assumption.
  destruct ((0 <=? v) && (v <? 2 ^ w)); simpl in H; congruence.
Qed.

Lemma eval12_inv pr en next e o : 0 <= next -> eval12 pr en next e = Ok o ->
  exists v, eval pr en e = Ok v /\ field_of A12 next v = inl o.
Proof.
  intros Hn H. destruct (eval pr en e) as [v| | |] eqn:E; try (unfold eval12, eval_bits in H; rewrite E in H; discriminate).
  exists v. split; [reflexivity|].
  pose proof (eval12_sem pr "" (fun _ => Some v) next (EName "") Hn eq_refl) as S. simpl in S.
  assert (H' : eval12 pr (mkEnv "" (fun _ => Some v)) next (EName "") = Ok o).
  { unfold eval12, eval_bits in *. rewrite E in H. cbn [eval env_get]. exact H. }
  rewrite H' in S. simpl. revert S. cbn [field_of].
  repeat match goal with |- context [if ?c then _ else _] => destruct c end; simpl; congruence.
Qed.

Lemma rel8_inv pr en next e o : 0 <= next < 2147483648 -> rel8 pr en next e = Ok o ->
  exists v, eval pr en e = Ok v /\ field_of R8 next v = inl o.
Proof.
  intros Hn H. destruct (eval pr en e) as [v| | |] eqn:E; try (unfold rel8 in H; rewrite E in H; discriminate).
  exists v. split; [reflexivity|].
  pose proof (rel8_sem pr "" (fun _ => Some v) next (EName "") Hn eq_refl) as S. simpl in S.
  assert (H' : rel8 pr (mkEnv "" (fun _ => Some v)) next (EName "") = Ok o).
  { unfold rel8 in *. rewrite E in H. cbn [eval env_get]. exact H. }
  rewrite H' in S. simpl. revert S.
  repeat match goal with |- context [if ?c then _ else _] => destruct c end; simpl; congruence.
Qed.

Lemma rel16_inv pr en next e o : 0 <= next < 2147483648 -> rel16 pr en next e = Ok o ->
  exists v, eval pr en e = Ok v /\ field_of R16 next v = inl o.
Proof.
  intros Hn H. destruct (eval pr en e) as [v| | |] eqn:E; try (unfold rel16 in H; rewrite E in H; discriminate).
  exists v. split; [reflexivity|].
  pose proof (rel16_sem pr "" (fun _ => Some v) next (EName "") Hn eq_refl) as S. simpl in S.
  assert (H' : rel16 pr (mkEnv "" (fun _ => Some v)) next (EName "") = Ok o).
  { unfold rel16 in *. rewrite E in H. cbn [eval env_get]. exact H. }
  rewrite H' in S. simpl. revert S.
  repeat match goal with |- context [if ?c then _ else _] => destruct c end; simpl; congruence.
Qed.

Lemma eval_instr_inv pr next label ns lo i j :
  mget (locals ns) label = Some lo -> 0 <= next < 2147483648 ->
  eval_instr pr next label ns i = Ok j ->
  key j = key i /\ operands_rel pr (names_get (globals ns) lo) next (snd (key i)) (op_list i) (values j).
Proof.
  intros Hlo Hn. set (get := names_get (globals ns) lo) in *.
  unfold eval_instr, as_env. rewrite Hlo. fold get. cbn [bind].
  destruct i; intros H;
    repeat match goal with
    | H : bind _ _ = Ok _ |- _ => apply bind_ok in H; destruct H as (? & ? & H)
    end;
    injection H as <-; (split; [reflexivity|]);
    unfold values; cbn [key snd op_list map strip];
    repeat match goal with
    | H : eval_bits _ _ _ _ = Ok _ |- _ => apply eval_bits_inv in H; [|lia]
    | H : eval12 _ _ _ _ = Ok _ |- _ => apply eval12_inv in H; [|lia]
    | H : rel8 _ _ _ _ = Ok _ |- _ => apply rel8_inv in H; [|lia]
    | H : rel16 _ _ _ _ = Ok _ |- _ => apply rel16_inv in H; [|lia]
    end;
    repeat (apply or_cons || apply or_nil);
    cbn [operand_rel kind_word];
    try (split; reflexivity);
    match goal with
    | H : exists v, eval pr _ ?e = Ok v /\ _ |- exists v, eval pr _ ?e = Ok v /\ _ =>
        destruct H as (v & ? & ?); exists v; split; [assumption|]; split; [assumption|discriminate]
    end.
Qed.

Lemma field_of_in k next v o : 0 <= next -> k <> Ri -> field_of k next v = inl o -> in_field k o.
Proof.
  intros Hn Hk. unfold field_of, in_field. destruct k; simpl; try congruence;
    repeat match goal with |- context [if ?c then _ else _] => destruct c eqn:? end;
    try discriminate; intros [= <-];
    repeat match goal with H : _ && _ = true |- _ => apply andb_true_iff in H; destruct H end;
    rewrite ?Z.leb_le, ?Z.ltb_lt in *; try lia.
  change (2 ^ 12) with 4096. apply Z.mod_pos_bound. lia.
Qed.

Lemma operands_rel_in_range pr get next ks os vs : 0 <= next ->
  operands_rel pr get next ks os vs -> Forall2 in_field ks vs.
Proof.
  intros Hn. induction 1; constructor; auto.
  destruct a as [e|m]; simpl in H.
  - destruct H as (v & _ & Hf & Hk). eapply field_of_in; eauto.
  - destruct H as [-> ->]. unfold in_field. simpl. destruct m; simpl; change (2 ^ 2) with 4; lia.
Qed.

Lemma eval_instr_in_range pr next label ns lo i j :
  mget (locals ns) label = Some lo -> 0 <= next < 2147483648 ->
  eval_instr pr next label ns i = Ok j -> in_range j.
Proof.
  intros Hlo Hn H. destruct (eval_instr_inv _ _ _ _ _ _ _ Hlo Hn H) as [Hk Hr].
  unfold in_range. rewrite Hk. eapply operands_rel_in_range; [|exact Hr]. lia.
Qed.

Lemma operands_rel_nth pr get next ks os vs : operands_rel pr get next ks os vs ->
  forall n k a, nth_error ks n = Some k -> nth_error os n = Some a ->
  exists o, nth_error vs n = Some o /\ operand_rel pr get next k a o.
Proof.
  induction 1; intros [|n] k' a'; simpl; try discriminate.
  - intros [= <-] [= <-]. eauto.
  - apply IHoperands_rel.
Qed.

Lemma field_of_target k next v o : 0 <= next -> k = R8 \/ k = R16 \/ k = A12 \/ k = A16 ->
  field_of k next v = inl o -> 0 <= v < 65536 /\ cpu_target k next o = Some v.
Proof.
  intros Hn Hk. unfold field_of, cpu_target. destruct Hk as [->|[->|[->| ->]]];
    repeat match goal with |- context [if ?c then _ else _] => destruct c eqn:? end;
    try discriminate; intros [= <-];
    repeat match goal with H : _ && _ = true |- _ => apply andb_true_iff in H; destruct H end;
    rewrite ?Z.leb_le, ?Z.ltb_lt, ?Z.eqb_eq in *.
  - split; [lia|]. f_equal. replace (next + (v - next)) with v by lia. apply Z.mod_small. lia.
  - split; [lia|]. f_equal. replace (next - 1 + (v - next + 1)) with v by lia. apply Z.mod_small. lia.
  - split; [lia|]. f_equal. match goal with H : v / 4096 = _ |- _ => rewrite <- H end.
    pose proof (Z.div_mod v 4096 ltac:(lia)). lia.
  - change (2 ^ kind_bits A16) with 65536 in *. split; [lia|reflexivity].
Qed.

Lemma branch_target pr next label ns lo i j n k e :
  mget (locals ns) label = Some lo -> 0 <= next < 2147483648 ->
  eval_instr pr next label ns i = Ok j ->
  nth_error (snd (key i)) n = Some k -> k = R8 \/ k = R16 \/ k = A12 \/ k = A16 ->
  nth_error (op_list i) n = Some (inl e) ->
  exists v o, eval pr (mkEnv "Label" (names_get (globals ns) lo)) e = Ok v /\ 0 <= v < 65536 /\
    nth_error (values j) n = Some o /\ cpu_target k next o = Some v.
Proof.
  intros Hlo Hn H Hk Hkk He. destruct (eval_instr_inv _ _ _ _ _ _ _ Hlo Hn H) as [_ Hr].
  destruct (operands_rel_nth _ _ _ _ _ _ Hr _ _ _ Hk He) as (o & Ho & Hrel). simpl in Hrel.
  destruct Hrel as (v & Hv & Hf & _). exists v, o.
  replace (kind_word k) with "Label" in Hv by (destruct Hkk as [->|[->|[->| ->]]]; reflexivity).
  destruct (field_of_target k next v o ltac:(lia) Hkk Hf). auto.
Qed.
