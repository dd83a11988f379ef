(** Lemmas about sizes, byte emission and name tables. *)
From Coq Require Import ZArith List String Ascii Bool Lia.
From Verif Require Import Base Expr Bits Instr Ast Asm SpecIsa SpecExpr SpecAsm ExprProofs CodecProofs CodecProofs2.
Import ListNotations.
Open Scope string_scope.
Open Scope list_scope.
Open Scope Z_scope.

Local Arguments Z.add : simpl never.
Local Arguments Z.sub : simpl never.
Local Arguments Z.mul : simpl never.
Local Arguments Z.opp : simpl never.
Local Arguments Z.div : simpl never.
Local Arguments Z.modulo : simpl never.
Local Arguments Z.land : simpl never.
Local Arguments Z.shiftr : simpl never.
Local Arguments Z.leb : simpl never.
Local Arguments Z.ltb : simpl never.
Local Arguments Z.eqb : simpl never.
Local Arguments Z.max : simpl never.
Local Arguments Z.of_nat : simpl never.
Local Arguments Z.to_nat : simpl never.

(** ** Loops *)

Fixpoint nrounds {S R : Type} (step : S -> S + R) (n : nat) (s : S) : S + R :=
  match n with
  | O => inl s
  | Datatypes.S m => match step s with inl s' => nrounds step m s' | inr r => inr r end
  end.

Lemma nrounds_S {S R : Type} (step : S -> S + R) n s :
  nrounds step (Datatypes.S n) s = match step s with inl s' => nrounds step n s' | inr r => inr r end.
Proof. reflexivity. Qed.

Lemma nrounds_add {S R : Type} (step : S -> S + R) a b s :
  nrounds step (a + b) s = match nrounds step a s with inl s' => nrounds step b s' | inr r => inr r end.
Proof.
  revert s. induction a as [|a IH]; simpl; auto. intros s. destruct (step s); auto.
Qed.

Lemma rounds_nrounds {S R : Type} (step : S -> S + R) p s : rounds step p s = nrounds step (Pos.to_nat p) s.
Proof.
  revert s. induction p as [p IH|p IH|]; intros s; cbn [rounds].
  - rewrite Pos2Nat.inj_xI. simpl Nat.mul. replace (Pos.to_nat p + (Pos.to_nat p + 0))%nat with (Pos.to_nat p + Pos.to_nat p)%nat by lia.
    cbn [nrounds]. destruct (step s); auto. rewrite nrounds_add, IH. destruct (nrounds step (Pos.to_nat p) s0); auto.
  - rewrite Pos2Nat.inj_xO. simpl Nat.mul. replace (Pos.to_nat p + (Pos.to_nat p + 0))%nat with (Pos.to_nat p + Pos.to_nat p)%nat by lia.
    rewrite nrounds_add, IH. destruct (nrounds step (Pos.to_nat p) s); auto.
  - simpl. destruct (step s); auto.
Qed.

Lemma nrounds_more {S R : Type} (step : S -> S + R) n m s r :
  nrounds step n s = inr r -> (n <= m)%nat -> nrounds step m s = inr r.
Proof.
  intros H Hle. replace m with (n + (m - n))%nat by lia. rewrite nrounds_add, H. reflexivity.
Qed.

(** ** Alignment *)

Lemma round_up_bounds p m : 0 < m -> p <= round_up p m < p + m.
Proof.
  intros Hm. unfold round_up. pose proof (Z.div_mod (- p) m ltac:(lia)). pose proof (Z.mod_pos_bound (- p) m Hm).
  set (q := - p / m) in *. nia.
Qed.

Lemma round_up_least p m q : 0 < m -> p <= m * q -> round_up p m <= m * q.
Proof.
  intros Hm H. pose proof (round_up_bounds p m Hm) as B. unfold round_up in *. set (k := - (- p / m)) in *.
  assert (k <= q) by nia. nia.
Qed.

Lemma cnop_rounds pr pos m n : 0 < m -> round_up pos m <= 2147483647 ->
  forall mult, mult <= round_up pos m -> 0 <= mult -> (exists q, mult = m * q) ->
  round_up pos m - mult <= Z.of_nat n * m ->
  nrounds (cnop_step pr pos m) (S n) mult = inr (Ok (if pos <=? mult then mult else round_up pos m)).
Proof.
  intros Hm Hmax. pose proof (round_up_bounds pos m Hm) as B.
  induction n as [|n IH]; intros mult Hle H0 [q Hq] Hn.
  - assert (mult = round_up pos m) by lia. cbn [nrounds]. unfold cnop_step.
    replace (pos <=? mult) with true by (symmetry; apply Z.leb_le; lia). reflexivity.
  - rewrite nrounds_S. unfold cnop_step at 1. destruct (pos <=? mult) eqn:E; [reflexivity|].
    apply Z.leb_gt in E.
    assert (Hstep : mult + m <= round_up pos m).
    { assert (mult < round_up pos m) by lia. unfold round_up in H |- *. set (k := - (- pos / m)) in *.
      subst mult. assert (q < k) by nia. nia. }
    rewrite chk32_ok by (unfold in32; lia).
    rewrite (IH (mult + m)) by (try lia; exists (q + 1); lia).
    destruct (pos <=? mult + m) eqn:E2; [|reflexivity].
    apply Z.leb_le in E2. do 2 f_equal.
    assert (round_up pos m <= m * (q + 1)) by (apply round_up_least; lia). lia.
Qed.

Lemma cnop_loop_ok pr pos m : 0 < m -> 0 <= pos -> round_up pos m <= 2147483647 ->
  cnop_loop pr pos m = Ok (round_up pos m).
Proof.
  intros Hm Hp Hmax. unfold cnop_loop. rewrite rounds_nrounds.
  pose proof (round_up_bounds pos m Hm) as B.
  rewrite (nrounds_more _ (S (Z.to_nat (round_up pos m))) _ _ _
             (cnop_rounds pr pos m (Z.to_nat (round_up pos m)) Hm Hmax 0 ltac:(lia) ltac:(lia) ltac:(exists 0; lia) ltac:(nia))).
  - destruct (pos <=? 0) eqn:E; [|reflexivity]. apply Z.leb_le in E. f_equal.
    pose proof (round_up_least pos m 0 Hm ltac:(lia)). lia.
  - rewrite <- (Z2Nat.inj_pos 4294967297). lia.
Qed.

(** In a debug build an alignment that succeeds has the mathematical result. *)
Lemma nrounds_value pr pos m : 0 < m -> 0 <= pos -> forall n mult r, 0 <= mult -> (exists q, mult = m * q) ->
  mult <= round_up pos m -> pr = Debug ->
  nrounds (cnop_step pr pos m) n mult = inr (Ok r) -> r = round_up pos m.
Proof.
  intros Hm Hp. pose proof (round_up_bounds pos m Hm) as B.
  induction n as [|n IH]; intros mult r H0 [q Hq] Hle ->; simpl; [discriminate|].
  unfold cnop_step at 1. destruct (pos <=? mult) eqn:E.
  - intros [= <-]. apply Z.leb_le in E.
    pose proof (round_up_least pos m q Hm ltac:(lia)). lia.
  - unfold chk32. destruct (fits32 (mult + m)) eqn:F; [|discriminate]. intros H. apply Z.leb_gt in E.
    assert (mult + m <= round_up pos m).
    { unfold round_up in *. set (k := - (- pos / m)) in *. assert (q < k) by nia. nia. }
    apply IH in H; auto; try lia. exists (q + 1); lia.
Qed.

(** ** Sizes *)

Lemma items_size_sum l : items_size l = sum (map item_length l).
Proof. induction l as [|b t IH]; simpl; auto. rewrite IH. destruct b; reflexivity. Qed.

Lemma sum_nonneg l : 0 <= sum (map item_length l).
Proof. induction l as [|b t IH]; simpl; [lia|]. unfold sum in *. destruct b; simpl; lia. Qed.

Lemma size_doc i : size i = doc_length i.
Proof. destruct i; vm_compute; reflexivity. Qed.

Lemma doc_length_pos i : 1 <= doc_length i <= 3.
Proof. destruct i; vm_compute; split; discriminate. Qed.

Lemma wrap32_id z : in32 z -> wrap32 z = z.
Proof. apply wrap32_small. Qed.

Lemma advance_typed p s : 0 <= p -> typed s -> 0 <= advance p s.
Proof.
  intros Hp. destruct s as [d| | | | | |]; simpl; try lia.
  - destruct d; simpl; try lia.
    + pose proof (sum_nonneg items). lia.
    + destruct add; try lia. destruct multiple; try lia. intros [Ha Hm].
      destruct (num0 =? 0) eqn:E; [lia|]. apply Z.eqb_neq in E.
      pose proof (round_up_bounds p num0 ltac:(lia)). lia.
  - pose proof (doc_length_pos i). lia.
Qed.

Definition data_dir (d : directive) : bool := match d with DCnop _ _ | DInclude _ _ => false | _ => true end.

(** The size of a directive leads to the mathematical position. *)
Lemma dir_size_ok pr d p : 0 <= p <= 2147483647 -> typed (SDirective d) ->
  advance p (SDirective d) <= 2147483647 ->
  (exists n, dir_size pr d p = Ok n /\ p + n = advance p (SDirective d)) \/
  (dir_size pr d p = Err MustBeLiteralNumber /\ exists a m, d = DCnop a m /\ ~ (literal a /\ literal m)).
Proof.
  intros Hp Ht Hmax. destruct d; simpl in *.
  - left. eexists. split; [reflexivity|]. rewrite items_size_sum. pose proof (sum_nonneg items).
    rewrite wrap32_id by (unfold in32; lia). reflexivity.
  - left. rewrite wrap32_id by (unfold in32; lia). rewrite chk32_ok by (unfold in32; lia).
    eexists. split; [reflexivity|]. lia.
  - left. eexists. split; [reflexivity|]. rewrite wrap32_id by (unfold in32; lia). reflexivity.
  - left. eexists. split; [reflexivity|]. rewrite wrap32_id by (unfold in32; lia). reflexivity.
  - left. eexists. split; [reflexivity|]. rewrite wrap32_id by (unfold in32; lia). reflexivity.
  - left. exists 0. split; [reflexivity|]. lia.
  - destruct (match add with ENumber _ _ => true | _ => false end) eqn:Ea.
    2:{ right. split.
        - unfold eval_cnop. destruct add; try discriminate; reflexivity.
        - exists add, multiple. split; [reflexivity|]. intros [(n & r & ->) _]. discriminate. }
    destruct add; try discriminate. clear Ea.
    destruct (match multiple with ENumber _ _ => true | _ => false end) eqn:Em.
    2:{ right. split.
        - unfold eval_cnop. destruct multiple; try discriminate; reflexivity.
        - exists (ENumber num r), multiple. split; [reflexivity|]. intros [_ (n & r' & ->)]. discriminate. }
    destruct multiple; try discriminate. clear Em. left. destruct Ht as [Ha Hm].
    unfold eval_cnop. cbn [eval_cnop_expr bind].
    destruct (num0 =? 0) eqn:E.
    + cbn [bind]. rewrite chk32_ok by (unfold in32; lia). eexists. split; [reflexivity|]. lia.
    + apply Z.eqb_neq in E. pose proof (round_up_bounds p num0 ltac:(lia)).
      rewrite cnop_loop_ok by lia. cbn [bind].
      rewrite chk32_ok by (unfold in32; lia). cbn [bind].
      rewrite chk32_ok by (unfold in32; lia). eexists. split; [reflexivity|]. lia.
Qed.

(** ** Byte vectors *)

Lemma set_nth_some {A : Type} (l : list A) i v : (i < List.length l)%nat ->
  exists l', set_nth l i v = Some l' /\ List.length l' = List.length l /\
    forall j, nth_error l' j = if Nat.eqb j i then Some v else nth_error l j.
Proof.
  revert i. induction l as [|x l IH]; intros i Hi; simpl in Hi; [lia|].
  destruct i as [|i]; simpl.
  - eexists. split; [reflexivity|]. split; [reflexivity|]. intros [|j]; reflexivity.
  - destruct (IH i ltac:(lia)) as (l' & -> & Hl & Hn). eexists. split; [reflexivity|].
    split; [simpl; congruence|]. intros [|j]; simpl; auto.
Qed.

Lemma set_nth_none {A : Type} (l : list A) i v : (List.length l <= i)%nat -> set_nth l i v = None.
Proof.
  revert i. induction l as [|x l IH]; intros i Hi; simpl in *; auto.
  destruct i as [|i]; [lia|]. rewrite IH by lia. reflexivity.
Qed.

Lemma get_at_range {A : Type} (l : list A) o b : get_at l o = Some b -> 0 <= o < Z.of_nat (List.length l).
Proof.
  unfold get_at. destruct (o <? 0) eqn:E; [discriminate|]. apply Z.ltb_ge in E. intros H.
  assert (nth_error l (Z.to_nat o) <> None) by congruence. apply nth_error_Some in H0. lia.
Qed.

Lemma get_at_some {A : Type} (l : list A) o : 0 <= o < Z.of_nat (List.length l) -> exists b, get_at l o = Some b.
Proof.
  intros H. unfold get_at. destruct (o <? 0) eqn:E; [apply Z.ltb_lt in E; lia|].
  destruct (nth_error l (Z.to_nat o)) eqn:N; eauto. apply nth_error_None in N. lia.
Qed.

Lemma get_at_out {A : Type} (l : list A) o : ~ (0 <= o < Z.of_nat (List.length l)) -> get_at l o = None.
Proof.
  intros H. destruct (get_at l o) eqn:E; auto. apply get_at_range in E. contradiction.
Qed.

Lemma write_at_ok {A : Type} (l : list A) i v l' : write_at l i v = Ok l' ->
  0 <= i < Z.of_nat (List.length l) /\ List.length l' = List.length l /\
  forall o, get_at l' o = if o =? i then Some v else get_at l o.
Proof.
  unfold write_at. destruct (i <? 0) eqn:E; [discriminate|]. apply Z.ltb_ge in E.
  destruct (Nat.ltb (Z.to_nat i) (List.length l)) eqn:L.
  - apply Nat.ltb_lt in L. destruct (set_nth_some l (Z.to_nat i) v L) as (l1 & -> & Hl & Hn).
    intros [= <-]. split; [lia|]. split; [assumption|]. intros o. unfold get_at.
    destruct (o <? 0) eqn:O.
    + apply Z.ltb_lt in O. destruct (o =? i) eqn:OI; [apply Z.eqb_eq in OI; lia|reflexivity].
    + apply Z.ltb_ge in O. rewrite Hn.
      destruct (o =? i) eqn:OI.
      * apply Z.eqb_eq in OI. subst. rewrite Nat.eqb_refl. reflexivity.
      * apply Z.eqb_neq in OI. destruct (Nat.eqb (Z.to_nat o) (Z.to_nat i)) eqn:NI; [|reflexivity].
        apply Nat.eqb_eq in NI. lia.
  - apply Nat.ltb_ge in L. rewrite set_nth_none by lia. discriminate.
Qed.

Lemma write_at_some {A : Type} (l : list A) i v : 0 <= i < Z.of_nat (List.length l) ->
  exists l', write_at l i v = Ok l'.
Proof.
  intros H. unfold write_at. destruct (i <? 0) eqn:E; [apply Z.ltb_lt in E; lia|].
  destruct (set_nth_some l (Z.to_nat i) v ltac:(lia)) as (l1 & -> & _). eauto.
Qed.

Lemma chk_usize_ok pr z : 0 <= z <= 18446744073709551615 -> chk_usize pr z = Ok z.
Proof.
  intros H. unfold chk_usize, fits_usize.
  replace ((0 <=? z) && (z <=? 18446744073709551615)) with true; [reflexivity|].
  symmetry. apply andb_true_iff. rewrite !Z.leb_le. lia.
Qed.

Definition zlen {A : Type} (l : list A) : Z := Z.of_nat (List.length l).

Lemma zlen_cons {A : Type} (x : A) l : zlen (x :: l) = 1 + zlen l.
Proof. unfold zlen. simpl. lia. Qed.
Lemma zlen_app {A : Type} (a b : list A) : zlen (a ++ b) = zlen a + zlen b.
Proof. unfold zlen. rewrite app_length. lia. Qed.
Lemma zlen_nil {A : Type} : zlen (@nil A) = 0.
Proof. reflexivity. Qed.
Lemma zlen_nonneg {A : Type} (l : list A) : 0 <= zlen l.
Proof. unfold zlen. lia. Qed.

Lemma get_at_cons {A : Type} (x : A) l o : get_at (x :: l) o = if o =? 0 then Some x else get_at l (o - 1).
Proof.
  unfold get_at. destruct (o <? 0) eqn:E.
  - apply Z.ltb_lt in E. destruct (o =? 0) eqn:Z0; [apply Z.eqb_eq in Z0; lia|].
    replace (o - 1 <? 0) with true by (symmetry; apply Z.ltb_lt; lia). reflexivity.
  - apply Z.ltb_ge in E. destruct (o =? 0) eqn:Z0.
    + apply Z.eqb_eq in Z0. subst. reflexivity.
    + apply Z.eqb_neq in Z0. replace (o - 1 <? 0) with false by (symmetry; apply Z.ltb_ge; lia).
      replace (Z.to_nat o) with (S (Z.to_nat (o - 1))) by lia. reflexivity.
Qed.

Lemma emit_ok pr bs : forall out p out' p',
  emit pr bs out p = Ok (out', p') -> 0 <= p -> zlen out <= 4294967296 ->
  p' = p + zlen bs /\ zlen out' = zlen out /\ (bs <> [] -> p + zlen bs <= zlen out) /\
  forall o, get_at out' o = match get_at bs (o - p) with Some b => Some b | None => get_at out o end.
Proof.
  induction bs as [|b t IH]; intros out p out' p'; cbn [emit].
  - intros [= <- <-] Hp Hl. rewrite zlen_nil. split; [lia|]. split; [reflexivity|]. split; [congruence|].
    intros o. rewrite (get_at_out (@nil Z)) by (simpl; lia). reflexivity.
  - intros H Hp Hl. apply bind_ok in H. destruct H as (o1 & Hw & H).
    apply bind_ok in H. destruct H as (p1 & Hc & H).
    apply write_at_ok in Hw. destruct Hw as (Hr & Hl1 & Hg).
    unfold zlen in Hl. rewrite chk_usize_ok in Hc by lia. injection Hc as <-.
    apply IH in H; [|lia|unfold zlen; lia]. destruct H as (-> & Hz & Hne & Hg').
    rewrite zlen_cons. split; [lia|]. split; [unfold zlen in *; lia|]. split.
    + intros _. destruct t as [|c t].
      * rewrite zlen_nil. unfold zlen. lia.
      * specialize (Hne ltac:(discriminate)). unfold zlen in *. lia.
    + intros o. rewrite Hg', get_at_cons, Hg. replace (o - p - 1) with (o - (p + 1)) by lia.
      destruct (o - p =? 0) eqn:E.
      * apply Z.eqb_eq in E. rewrite (get_at_out t) by lia.
        replace (o =? p) with true by (symmetry; apply Z.eqb_eq; lia). reflexivity.
      * apply Z.eqb_neq in E. replace (o =? p) with false by (symmetry; apply Z.eqb_neq; lia). reflexivity.
Qed.

Lemma emit_done pr bs : forall out p, 0 <= p -> p + zlen bs <= zlen out -> zlen out <= 4294967296 ->
  exists out', emit pr bs out p = Ok (out', p + zlen bs) /\ zlen out' = zlen out.
Proof.
  induction bs as [|b t IH]; intros out p Hp Hb Hl; cbn [emit].
  - rewrite zlen_nil, Z.add_0_r. eauto.
  - rewrite zlen_cons in *. pose proof (zlen_nonneg t).
    destruct (write_at_some out p b) as (o1 & Hw); [unfold zlen in *; lia|]. rewrite Hw. cbn [bind].
    apply write_at_ok in Hw. destruct Hw as (_ & Hl1 & _).
    rewrite chk_usize_ok by lia. cbn [bind].
    assert (zlen o1 = zlen out) by (unfold zlen; lia).
    destruct (IH o1 (p + 1) ltac:(lia) ltac:(lia) ltac:(lia)) as (o2 & -> & E).
    exists o2. split; [|lia]. do 2 f_equal. lia.
Qed.

Lemma emit_app pr a b out p : emit pr (a ++ b) out p = let! (o, q) := emit pr a out p in emit pr b o q.
Proof.
  revert out p. induction a as [|x a IH]; intros out p; [reflexivity|].
  cbn [app emit]. destruct (write_at out p x); simpl; auto. destruct (chk_usize pr (p + 1)); simpl; auto.
Qed.

(** ** Values depend on names only through lookup *)

Lemma eval_ext pr k get get' e : (forall x, get x = get' x) ->
  eval pr (mkEnv k get) e = eval pr (mkEnv k get') e.
Proof.
  intros H. induction e; simpl; rewrite ?IHe1, ?IHe2, ?IHe, ?H; reflexivity.
Qed.

(** Whether and with which value evaluation succeeds does not depend on the kind word. *)
Lemma eval_kind_ok pr k k' get e v : eval pr (mkEnv k get) e = Ok v -> eval pr (mkEnv k' get) e = Ok v.
Proof.
  revert v. induction e; simpl; intros v; auto;
    try (intros H; apply bind_ok in H; destruct H as (a & Ha & H); rewrite (IHe1 _ Ha);
         apply bind_ok in H; destruct H as (b & Hb & H); rewrite (IHe2 _ Hb); exact H);
    try (intros H; apply bind_ok in H; destruct H as (a & Ha & H); rewrite (IHe _ Ha); exact H).
  destruct (get (lower name)); [auto|discriminate].
Qed.

Definition safe {A : Type} (x : outcome A) : Prop := x <> Panic /\ x <> Diverge.

Lemma safe_cases {A : Type} (x : outcome A) : safe x -> (exists a, x = Ok a) \/ (exists e, x = Err e).
Proof. intros [H1 H2]. destruct x; eauto; congruence. Qed.

Lemma safe_ok {A : Type} (a : A) : safe (Ok a).
Proof. split; discriminate. Qed.
Lemma safe_err {A : Type} e : safe (@Err A e).
Proof. split; discriminate. Qed.
#[export] Hint Resolve safe_ok safe_err : safe.

Lemma safe_bind {A B : Type} (x : outcome A) (f : A -> outcome B) :
  safe x -> (forall a, x = Ok a -> safe (f a)) -> safe (bind x f).
Proof. intros Hs H. destruct (safe_cases x Hs) as [[a ->]|[e ->]]; simpl; auto with safe. Qed.

Lemma eval_kind_safe pr k k' get e : safe (eval pr (mkEnv k get) e) -> safe (eval pr (mkEnv k' get) e).
Proof.
  assert (Hb : forall (e1 e2 : expr) (f : Z -> Z -> outcome Z),
    (safe (eval pr (mkEnv k get) e1) -> safe (eval pr (mkEnv k' get) e1)) ->
    (safe (eval pr (mkEnv k get) e2) -> safe (eval pr (mkEnv k' get) e2)) ->
    safe (let! a := eval pr (mkEnv k get) e1 in let! b := eval pr (mkEnv k get) e2 in f a b) ->
    safe (let! a := eval pr (mkEnv k' get) e1 in let! b := eval pr (mkEnv k' get) e2 in f a b)).
  { intros e1 e2 f H1 H2 H. apply safe_bind.
    - apply H1. destruct (eval pr (mkEnv k get) e1); auto with safe.
    - intros a Ha. apply (eval_kind_ok pr k' k) in Ha. rewrite Ha in H. simpl in H.
      apply safe_bind.
      + apply H2. destruct (eval pr (mkEnv k get) e2); auto with safe.
      + intros b Hb. apply (eval_kind_ok pr k' k) in Hb. rewrite Hb in H. exact H. }
  assert (Hu : forall (e1 : expr) (f : Z -> outcome Z),
    (safe (eval pr (mkEnv k get) e1) -> safe (eval pr (mkEnv k' get) e1)) ->
    safe (let! a := eval pr (mkEnv k get) e1 in f a) ->
    safe (let! a := eval pr (mkEnv k' get) e1 in f a)).
  { intros e1 f H1 H. apply safe_bind.
    - apply H1. destruct (eval pr (mkEnv k get) e1); auto with safe.
    - intros a Ha. apply (eval_kind_ok pr k' k) in Ha. rewrite Ha in H. exact H. }
  induction e; simpl; auto with safe;
    try (apply Hb; assumption); try (apply Hu; assumption).
  destruct (get (lower name)); auto with safe.
Qed.

Lemma eval_never_diverges pr en e : eval pr en e <> Diverge.
Proof.
  assert (Hc : forall z, chk32 pr z <> Diverge) by (intros z; unfold chk32; destruct (fits32 z); [|destruct pr]; discriminate).
  induction e; simpl; try discriminate;
    try (destruct (eval pr en e1); simpl; try congruence; destruct (eval pr en e2); simpl; try congruence; auto; try discriminate);
    try (destruct (eval pr en e); simpl; try congruence; auto; discriminate).
  - destruct (env_get en (lower name)); discriminate.
  - destruct (a0 =? 0); [discriminate|]. destruct ((a =? -2147483648) && (a0 =? -1)); discriminate.
Qed.

Lemma fits_safe pr en e : get_ok (env_get en) -> lits_ok e -> fits (env_get en) e -> safe (eval pr en e).
Proof.
  intros Hg Hl Hf. rewrite eval_sem by assumption. destruct (sem (env_kind en) (env_get en) e); simpl; auto with safe.
Qed.
