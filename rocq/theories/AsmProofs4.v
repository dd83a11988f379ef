(** The label and name passes. *)
From Coq Require Import ZArith List String Ascii Bool Lia.
From Verif Require Import Base Expr Bits Instr Ast Asm SpecIsa SpecExpr SpecAsm ExprProofs AsmProofs AsmProofs2 AsmProofs3.
Import ListNotations.
Open Scope string_scope.
Open Scope list_scope.
Open Scope Z_scope.

Local Arguments Z.add : simpl never.
Local Arguments Z.sub : simpl never.
Local Arguments Z.mul : simpl never.
Local Arguments Z.opp : simpl never.
Local Arguments Z.div : simpl never.
Local Arguments Z.pow : simpl never.
Local Arguments Z.modulo : simpl never.
Local Arguments Z.land : simpl never.
Local Arguments Z.shiftr : simpl never.
Local Arguments Z.leb : simpl never.
Local Arguments Z.ltb : simpl never.
Local Arguments Z.eqb : simpl never.
Local Arguments Z.max : simpl never.
Local Arguments Z.of_nat : simpl never.
Local Arguments Z.to_nat : simpl never.

(** ** Text *)

Lemma lower_ascii_idem c : lower_ascii (lower_ascii c) = lower_ascii c.
Proof. destruct c as [[] [] [] [] [] [] [] []]; reflexivity. Qed.

Lemma lower_idem s : lower (lower s) = lower s.
Proof. induction s as [|c s IH]; simpl; auto. rewrite lower_ascii_idem, IH. reflexivity. Qed.

Lemma is_local_lower s : is_local (lower s) = is_local s.
Proof. destruct s as [|c s]; simpl; auto. destruct c as [[] [] [] [] [] [] [] []]; reflexivity. Qed.

Lemma lower_empty s : lower s = "" -> s = "".
Proof. destruct s; [reflexivity|discriminate]. Qed.

(** ** Association lists *)

Lemma mget_in {A : Type} (m : smap A) x v : mget m x = Some v -> In (x, v) m.
Proof.
  induction m as [|[k w] m IH]; simpl; [discriminate|].
  destruct (String.eqb x k) eqn:E; auto. apply String.eqb_eq in E. intros [= <-]. left. congruence.
Qed.

Lemma in_mget {A : Type} (m : smap A) x v : NoDup (map fst m) -> In (x, v) m -> mget m x = Some v.
Proof.
  induction m as [|[k w] m IH]; simpl; [tauto|]. intros Hn Hi. inversion Hn; subst.
  destruct (String.eqb x k) eqn:E.
  - apply String.eqb_eq in E. subst. destruct Hi as [[= <-]|Hi]; auto.
    exfalso. apply H1. apply (in_map fst) in Hi. exact Hi.
  - destruct Hi as [[= <- <-]|Hi]; auto. rewrite String.eqb_refl in E. discriminate.
Qed.

Lemma mget_none {A : Type} (m : smap A) x : mget m x = None <-> ~ In x (map fst m).
Proof.
  induction m as [|[k w] m IH]; simpl; [tauto|]. destruct (String.eqb x k) eqn:E.
  - apply String.eqb_eq in E. subst. split; [discriminate|]. intros H. exfalso. auto.
  - apply String.eqb_neq in E. rewrite IH. split; intros H; intuition congruence.
Qed.

Lemma mcontains_in {A : Type} (m : smap A) x : mcontains m x = true <-> In x (map fst m).
Proof.
  unfold mcontains. destruct (mget m x) eqn:E.
  - split; auto. intros _. apply mget_in in E. apply (in_map fst) in E. exact E.
  - apply mget_none in E. split; [discriminate|tauto].
Qed.

Lemma mcontains_false {A : Type} (m : smap A) x : mcontains m x = false <-> ~ In x (map fst m).
Proof. rewrite <- mcontains_in. destruct (mcontains m x); split; congruence. Qed.

Lemma mget_rev {A : Type} (m : smap A) x : NoDup (map fst m) -> mget (rev m) x = mget m x.
Proof.
  intros Hn. destruct (mget m x) eqn:E.
  - apply in_mget.
    + rewrite map_rev. apply NoDup_rev. assumption.
    + rewrite <- in_rev. apply mget_in. assumption.
  - apply mget_none. rewrite map_rev, <- in_rev. apply mget_none. assumption.
Qed.

Lemma NoDup_snoc {A : Type} (l : list A) x : NoDup l -> ~ In x l -> NoDup (l ++ [x]).
Proof.
  intros Hn Hx. rewrite <- (rev_involutive (l ++ [x])). apply NoDup_rev. rewrite rev_app_distr. simpl.
  constructor; [rewrite <- in_rev; assumption | apply NoDup_rev; assumption].
Qed.

(** ** Definitions in program order *)

Definition gdef_at (p : Z) (s : statement) : list (string * Z) :=
  match s with SLabel n => if is_local n then [] else [(lower n, p)] | _ => [] end.

Definition ldef_at (p : Z) (r : nat) (s : statement) : list (nat * (string * Z)) :=
  match s with SLabel n => if is_local n then [(r, (lower n, p))] else [] | _ => [] end.

Fixpoint globs (p : Z) (l : list statement) : list (string * Z) :=
  match l with [] => [] | s :: t => gdef_at p s ++ globs (advance p s) t end.

Fixpoint locs (p : Z) (r : nat) (l : list statement) : list (nat * (string * Z)) :=
  match l with
  | [] => []
  | s :: t => ldef_at p r s ++ locs (advance p s) (r + (if global_label s then 1 else 0)) t
  end.

Definition ngl (l : list statement) : nat := List.length (filter global_label l).

Lemma globs_snoc p l s : globs p (l ++ [s]) = globs p l ++ gdef_at (fold_left advance l p) s.
Proof.
  revert p. induction l as [|a l IH]; intros p; simpl; [apply app_nil_r|]. rewrite IH, app_assoc. reflexivity.
Qed.

Lemma ngl_snoc l s : ngl (l ++ [s]) = (ngl l + (if global_label s then 1 else 0))%nat.
Proof. unfold ngl. rewrite filter_app, app_length. simpl. destruct (global_label s); reflexivity. Qed.

Lemma locs_snoc p r l s : locs p r (l ++ [s]) = locs p r l ++ ldef_at (fold_left advance l p) (r + ngl l) s.
Proof.
  revert p r. induction l as [|a l IH]; intros p r; simpl.
  - rewrite app_nil_r, Nat.add_0_r. reflexivity.
  - rewrite IH, app_assoc. unfold ngl. simpl. destruct (global_label a); simpl; f_equal; f_equal; lia.
Qed.

Lemma globs_length p l : List.length (globs p l) = ngl l.
Proof.
  revert p. induction l as [|s l IH]; intros p; simpl; auto. rewrite app_length, IH. unfold ngl. simpl.
  destruct s; simpl; auto. destruct (is_local name); reflexivity.
Qed.

Lemma addr_snoc l s : addr (l ++ [s]) = advance (addr l) s.
Proof. unfold addr. rewrite fold_left_app. reflexivity. Qed.

Lemma globs_in p l x v : In (x, v) (globs p l) <->
  exists k n, nth_error l k = Some (SLabel n) /\ is_local n = false /\ lower n = x /\ v = fold_left advance (firstn k l) p.
Proof.
  revert p. induction l as [|s l IH]; intros p; simpl.
  - split; [tauto|]. intros ([|k] & n & H & _); discriminate.
  - rewrite in_app_iff, IH. split.
    + intros [H|(k & n & H & Hl & Hx & Hv)].
      * destruct s; simpl in H; try tauto. destruct (is_local name) eqn:E; simpl in H; [tauto|].
        destruct H as [[= <- <-]|[]]. exists 0%nat, name. auto.
      * exists (S k), n. auto.
    + intros ([|k] & n & H & Hl & Hx & Hv).
      * left. simpl in H. injection H as ->. simpl. rewrite Hl. left. simpl in Hv. congruence.
      * right. exists k, n. auto.
Qed.

Lemma locs_in p r0 l r x v : In (r, (x, v)) (locs p r0 l) <->
  exists k n, nth_error l k = Some (SLabel n) /\ is_local n = true /\ lower n = x /\
    v = fold_left advance (firstn k l) p /\ r = (r0 + ngl (firstn k l))%nat.
Proof.
  revert p r0. induction l as [|s l IH]; intros p r0; simpl.
  - split; [tauto|]. intros ([|k] & n & H & _); discriminate.
  - rewrite in_app_iff, IH. split.
    + intros [H|(k & n & H & Hl & Hx & Hv & Hr)].
      * destruct s; simpl in H; try tauto. destruct (is_local name) eqn:E; simpl in H; [|tauto].
        destruct H as [[= <- <- <-]|[]]. exists 0%nat, name. unfold ngl. simpl. repeat split; auto; lia.
      * exists (S k), n. repeat split; auto. rewrite Hr. unfold ngl. simpl. destruct (global_label s); simpl; lia.
    + intros ([|k] & n & H & Hl & Hx & Hv & Hr).
      * left. simpl in H. injection H as ->. simpl. rewrite Hl. left. unfold ngl in Hr. simpl in Hv, Hr. subst. f_equal. lia.
      * right. exists k, n. repeat split; auto. rewrite Hr. unfold ngl. simpl. destruct (global_label s); simpl; lia.
Qed.

Lemma label_addr_globs p l x : label_addr p l x = mget (globs p l) x.
Proof.
  revert p. induction l as [|s l IH]; intros p; simpl; auto.
  destruct s; simpl; auto. destruct (is_local name); simpl; auto.
  rewrite (String.eqb_sym x). destruct (String.eqb (lower name) x); auto.
Qed.

Definition region (r : nat) (l : list statement) : list (string * Z) :=
  map snd (filter (fun e => Nat.eqb (fst e) r) (locs 0 0 l)).

Lemma region_in r l x v : In (x, v) (region r l) <-> In (r, (x, v)) (locs 0 0 l).
Proof.
  unfold region. rewrite in_map_iff. split.
  - intros ([r' e] & E & H). apply filter_In in H. destruct H as [H1 H2]. simpl in *. apply Nat.eqb_eq in H2. congruence.
  - intros H. exists (r, (x, v)). split; auto. apply filter_In. split; auto. apply Nat.eqb_refl.
Qed.

Lemma local_label_region prog k x v : local_label prog k x v <-> In (x, v) (region (scope_no prog k) prog).
Proof.
  rewrite region_in, locs_in. unfold local_label. split.
  - intros (j & n & H & Hl & Hx & Hs & Hv). exists j, n. auto.
  - intros (j & n & H & Hl & Hx & Hv & Hs). exists j, n. auto.
Qed.

Lemma region_snoc r l s : region r (l ++ [s]) =
  region r l ++ map snd (filter (fun e => Nat.eqb (fst e) r) (ldef_at (addr l) (ngl l) s)).
Proof. unfold region. rewrite locs_snoc, filter_app, map_app. reflexivity. Qed.

Lemma firstn_ngl_le k l : (ngl (firstn k l) <= ngl l)%nat.
Proof.
  rewrite <- (firstn_skipn k l) at 2. unfold ngl. rewrite filter_app, app_length. lia.
Qed.

Lemma region_new r l : (ngl l < r)%nat -> region r l = [].
Proof.
  intros H. destruct (region r l) as [|[x v] t] eqn:E; auto.
  assert (In (x, v) (region r l)) by (rewrite E; left; auto).
  apply region_in, locs_in in H0. destruct H0 as (k & n & _ & _ & _ & _ & Hr).
  pose proof (firstn_ngl_le k l). lia.
Qed.

Definition gnames (l : list statement) : list string := "" :: map fst (globs 0 l).

Definition entry (l : list statement) (r : nat) : string * smap Z := (nth r (gnames l) "", rev (region r l)).

(** State of the label pass after the statements [l]. *)
Definition linv (l : list statement) (st : lab_state) : Prop :=
  l_pos st = addr l /\
  l_globals st = rev (globs 0 l) /\ NoDup (map fst (globs 0 l)) /\
  l_local st = rev (region (ngl l) l) /\ (forall r, NoDup (map fst (region r l))) /\
  l_current st = nth (ngl l) (gnames l) "" /\
  l_locals st = rev (map (entry l) (seq 0 (ngl l))).

Lemma region_other r l s : (r < ngl l)%nat -> region r (l ++ [s]) = region r l.
Proof.
  intros Hr. rewrite region_snoc. destruct s; simpl; try apply app_nil_r.
  destruct (is_local name); simpl; [|apply app_nil_r].
  replace (Nat.eqb (ngl l) r) with false by (symmetry; apply Nat.eqb_neq; lia). apply app_nil_r.
Qed.

Lemma entry_snoc r l s : (r < ngl l)%nat -> entry (l ++ [s]) r = entry l r.
Proof.
  intros Hr. unfold entry. f_equal.
  - unfold gnames. rewrite globs_snoc, map_app.
    change ("" :: map fst (globs 0 l) ++ map fst (gdef_at (fold_left advance l 0) s))
      with (("" :: map fst (globs 0 l)) ++ map fst (gdef_at (fold_left advance l 0) s)).
    apply app_nth1. simpl. rewrite map_length, globs_length. lia.
  - rewrite region_other by assumption. reflexivity.
Qed.

Lemma entries_snoc l s : map (entry (l ++ [s])) (seq 0 (ngl l)) = map (entry l) (seq 0 (ngl l)).
Proof. apply map_ext_in. intros r Hr. apply in_seq in Hr. apply entry_snoc. lia. Qed.

Lemma not_label_same l s : (forall n, s <> SLabel n) ->
  globs 0 (l ++ [s]) = globs 0 l /\ ngl (l ++ [s]) = ngl l /\ (forall r, region r (l ++ [s]) = region r l).
Proof.
  intros H. rewrite globs_snoc, ngl_snoc. repeat split.
  - destruct s; simpl; try apply app_nil_r. exfalso; eapply H; reflexivity.
  - destruct s; simpl; try lia. exfalso; eapply H; reflexivity.
  - intros r. rewrite region_snoc. destruct s; simpl; try apply app_nil_r. exfalso; eapply H; reflexivity.
Qed.

Lemma linv_skip l s st p : linv l st -> (forall n, s <> SLabel n) -> p = advance (addr l) s ->
  linv (l ++ [s]) (mkLab (l_globals st) (l_locals st) (l_local st) (l_current st) p).
Proof.
  intros (H1 & H2 & H3 & H4 & H5 & H6 & H7) Hs ->.
  destruct (not_label_same l s Hs) as (E1 & E2 & E3).
  unfold linv. cbn [l_pos l_globals l_local l_locals l_current].
  rewrite addr_snoc, E1, E2, E3. repeat split; auto.
  - intros r. rewrite E3. auto.
  - unfold gnames. rewrite E1. auto.
  - rewrite H7. f_equal. symmetry. apply entries_snoc.
Qed.

(** Positions of definitions. *)
Lemma globs_twice l s n : s = SLabel n -> is_local n = false -> In (lower n) (map fst (globs 0 l)) ->
  defined_twice (l ++ [s]) (lower n).
Proof.
  intros -> Hl H. apply in_map_iff in H. destruct H as ([x v] & E & H). simpl in E. subst x.
  apply globs_in in H. destruct H as (k & m & Hk & Hm & Hx & _). left.
  assert (k < List.length l)%nat by (apply nth_error_Some; congruence).
  exists k, (List.length l), (SLabel m), (SLabel n).
  split; [lia|]. split; [rewrite nth_error_app1 by lia; assumption|].
  split; [rewrite nth_error_app2, Nat.sub_diag by lia; reflexivity|]. simpl. rewrite Hl, Hm, Hx. auto.
Qed.

Lemma scope_no_app l t k : (k <= List.length l)%nat -> scope_no (l ++ t) k = ngl (firstn k l).
Proof.
  intros H. unfold scope_no, ngl. rewrite firstn_app. replace (k - List.length l)%nat with 0%nat by lia.
  simpl. rewrite app_nil_r. reflexivity.
Qed.

Lemma locs_twice l s n : s = SLabel n -> is_local n = true -> In (lower n) (map fst (region (ngl l) l)) ->
  defined_twice (l ++ [s]) (lower n).
Proof.
  intros -> Hl H. apply in_map_iff in H. destruct H as ([x v] & E & H). simpl in E. subst x.
  apply region_in, locs_in in H. destruct H as (k & m & Hk & Hm & Hx & _ & Hr). right.
  assert (k < List.length l)%nat by (apply nth_error_Some; congruence).
  exists k, (List.length l), m, n.
  split; [lia|]. split; [rewrite nth_error_app1 by lia; assumption|].
  split; [rewrite nth_error_app2, Nat.sub_diag by lia; reflexivity|].
  repeat split; auto. rewrite !scope_no_app by lia. rewrite firstn_all. simpl in Hr. auto.
Qed.

Lemma defined_twice_app l t x : defined_twice l x -> defined_twice (l ++ t) x.
Proof.
  intros [(i & j & s & u & H & Hi & Hj & H1)|(i & j & n & m & H & Hi & Hj & H1 & H2 & H3 & H4 & H5)].
  - left. exists i, j, s, u. assert (i < List.length l)%nat by (apply nth_error_Some; congruence).
    assert (j < List.length l)%nat by (apply nth_error_Some; congruence).
    rewrite !nth_error_app1 by lia. auto.
  - right. exists i, j, n, m. assert (i < List.length l)%nat by (apply nth_error_Some; congruence).
    assert (j < List.length l)%nat by (apply nth_error_Some; congruence).
    rewrite !nth_error_app1 by lia. repeat split; auto. rewrite !scope_no_app by lia. exact H5.
Qed.

(** One step of the label pass. *)
Lemma label_step_spec pr l s st : linv l st -> typed s ->
  0 <= addr l <= 2147483647 -> advance (addr l) s <= 2147483647 ->
  (exists st', label_step pr s st = Ok st' /\ linv (l ++ [s]) st') \/
  (label_step pr s st = Err MustBeLiteralNumber /\ exists a m, s = SDirective (DCnop a m) /\ ~ (literal a /\ literal m)) \/
  (exists x, label_step pr s st = Err (NameAlreadyExists x) /\ defined_twice (l ++ [s]) x) \/
  (label_step pr s st = Panic /\ ~ plain s).
Proof.
  intros Hinv Ht Hp Hadv. pose proof Hinv as (H1 & H2 & H3 & H4 & H5 & H6 & H7).
  assert (Hskip : (forall n, s <> SLabel n) -> advance (addr l) s = addr l -> linv (l ++ [s]) st).
  { intros Hs E. destruct st as [g lo c cu q]. simpl in H1. subst q.
    apply (linv_skip l s (mkLab g lo c cu (addr l)) (addr l)); auto. }
  destruct s as [d|n|i|n e|n e|t|n args]; cbn [label_step]; rewrite ?H1.
  - pose proof (advance_typed _ _ (proj1 Hp) Ht) as Hpos.
    destruct (dir_size_ok pr d (addr l) ltac:(lia) Ht Hadv) as [(k & E1 & E2)|(E1 & a & m & -> & Hno)].
    + left. rewrite E1. cbn [bind]. rewrite E2, chk32_ok by (unfold in32; lia). cbn [bind].
      eexists. split; [reflexivity|]. apply linv_skip; [assumption|discriminate|reflexivity].
    + right. left. rewrite E1. cbn [bind]. split; [reflexivity|]. eauto.
  - destruct (is_local n) eqn:E.
    + unfold add_name. destruct (mcontains (l_local st) (lower n)) eqn:C.
      * right. right. left. exists (lower n). split; [reflexivity|].
        apply mcontains_in in C. rewrite H4, map_rev, <- in_rev in C. eapply locs_twice; eauto.
      * left. cbn [bind]. eexists. split; [reflexivity|].
        apply mcontains_false in C. rewrite H4, map_rev, <- in_rev in C.
        assert (Eg : globs 0 (l ++ [SLabel n]) = globs 0 l) by (rewrite globs_snoc; simpl; rewrite E; apply app_nil_r).
        assert (En : ngl (l ++ [SLabel n]) = ngl l) by (rewrite ngl_snoc; simpl; rewrite E; simpl; lia).
        assert (Er : forall r, region r (l ++ [SLabel n]) = region r l ++ (if Nat.eqb (ngl l) r then [(lower n, addr l)] else [])).
        { intros r. rewrite region_snoc. simpl. rewrite E. simpl. destruct (Nat.eqb (ngl l) r); reflexivity. }
        unfold linv. cbn [l_pos l_globals l_local l_locals l_current].
        rewrite addr_snoc, Eg, En, Er, Nat.eqb_refl. cbn [advance].
        split; [reflexivity|]. split; [assumption|]. split; [assumption|].
        split; [rewrite rev_app_distr, H4; reflexivity|].
        split.
        { intros r. rewrite Er. destruct (Nat.eqb (ngl l) r) eqn:R; [|rewrite app_nil_r; auto].
          apply Nat.eqb_eq in R. subst r. rewrite map_app. simpl.
          apply NoDup_snoc; auto. }
        split; [unfold gnames; rewrite Eg; assumption|].
        rewrite H7. f_equal. symmetry. apply entries_snoc.
    + unfold add_name. destruct (mcontains (l_globals st) (lower n)) eqn:C.
      * right. right. left. exists (lower n). split; [reflexivity|].
        apply mcontains_in in C. rewrite H2, map_rev, <- in_rev in C. eapply globs_twice; eauto.
      * left. cbn [bind]. eexists. split; [reflexivity|].
        apply mcontains_false in C. rewrite H2, map_rev, <- in_rev in C.
        assert (Eg : globs 0 (l ++ [SLabel n]) = globs 0 l ++ [(lower n, addr l)]) by (rewrite globs_snoc; simpl; rewrite E; reflexivity).
        assert (En : ngl (l ++ [SLabel n]) = S (ngl l)) by (rewrite ngl_snoc; simpl; rewrite E; simpl; lia).
        assert (Er : forall r, region r (l ++ [SLabel n]) = region r l).
        { intros r. rewrite region_snoc. simpl. rewrite E. apply app_nil_r. }
        unfold linv. cbn [l_pos l_globals l_local l_locals l_current].
        rewrite addr_snoc, Eg, En, Er. cbn [advance].
        split; [reflexivity|]. split; [rewrite rev_app_distr, H2; reflexivity|].
        split.
        { rewrite map_app. apply NoDup_snoc; auto. }
        split; [rewrite region_new by lia; reflexivity|].
        split; [intros r; rewrite Er; auto|].
        split.
        { unfold gnames. rewrite Eg, map_app. cbn [nth]. rewrite app_nth2; rewrite map_length, globs_length; [|lia].
          rewrite Nat.sub_diag. reflexivity. }
        rewrite seq_S, map_app, rev_app_distr, entries_snoc. cbn [map rev app]. rewrite <- H7.
        unfold minsert, entry. rewrite Nat.add_0_l, Er, <- H4.
        f_equal. f_equal. rewrite H6. unfold gnames. rewrite Eg, map_app.
        change ("" :: map fst (globs 0 l) ++ map fst [(lower n, addr l)])
          with (("" :: map fst (globs 0 l)) ++ map fst [(lower n, addr l)]).
        symmetry. apply app_nth1. simpl. rewrite map_length, globs_length. lia.
  - left. pose proof (doc_length_pos i) as Hd. cbn [advance] in Hadv.
    rewrite size_doc, wrap32_id, chk32_ok by (unfold in32; lia). cbn [bind].
    eexists. split; [reflexivity|]. apply linv_skip; [assumption|discriminate|reflexivity].
  - left. eexists. split; [reflexivity|]. apply Hskip; [discriminate|reflexivity].
  - left. eexists. split; [reflexivity|]. apply Hskip; [discriminate|reflexivity].
  - left. eexists. split; [reflexivity|]. apply Hskip; [discriminate|reflexivity].
  - right. right. right. split; [reflexivity|]. simpl. tauto.
Qed.

Lemma label_loop_app pr a b st : label_loop pr (a ++ b) st = let! st' := label_loop pr a st in label_loop pr b st'.
Proof.
  revert st. induction a as [|s a IH]; intros st; simpl; auto. destruct (label_step pr s st); simpl; auto.
Qed.

Definition range (prog : list statement) : Prop := forall k, 0 <= addr (firstn k prog) <= 2147483647.

Lemma range_snoc l s : range (l ++ [s]) -> range l /\ 0 <= addr l <= 2147483647 /\ advance (addr l) s <= 2147483647.
Proof.
  intros H. assert (Hl : range l).
  { intros k. destruct (le_lt_dec k (List.length l)) as [Hk|Hk].
    - specialize (H k). rewrite firstn_app in H. replace (k - List.length l)%nat with 0%nat in H by lia.
      simpl in H. rewrite app_nil_r in H. exact H.
    - specialize (H (List.length l)). rewrite firstn_app, Nat.sub_diag in H. simpl in H. rewrite app_nil_r in H.
      rewrite firstn_all in H. rewrite firstn_all2 by lia. exact H. }
  split; [assumption|]. split.
  - specialize (Hl (List.length l)). rewrite firstn_all in Hl. exact Hl.
  - specialize (H (List.length (l ++ [s]))). rewrite firstn_all, addr_snoc in H. lia.
Qed.

Definition nonliteral_cnop (prog : list statement) : Prop :=
  exists a m, In (SDirective (DCnop a m)) prog /\ ~ (literal a /\ literal m).

Lemma label_loop_spec pr l : Forall typed l -> range l ->
  (exists st, label_loop pr l (mkLab [] [] [] "" 0) = Ok st /\ linv l st) \/
  (label_loop pr l (mkLab [] [] [] "" 0) = Err MustBeLiteralNumber /\ nonliteral_cnop l) \/
  (exists x, label_loop pr l (mkLab [] [] [] "" 0) = Err (NameAlreadyExists x) /\ defined_twice l x) \/
  (label_loop pr l (mkLab [] [] [] "" 0) = Panic /\ ~ Forall plain l).
Proof.
  induction l as [|s l IH] using rev_ind; intros Ht Hr.
  - left. eexists. split; [reflexivity|]. unfold linv; simpl; repeat split; try constructor.
  - apply Forall_app in Ht. destruct Ht as [Ht Hs]. apply range_snoc in Hr. destruct Hr as (Hr & Hp & Hadv).
    inversion Hs as [|? ? Hs' _]; subst. rewrite label_loop_app.
    destruct (IH Ht Hr) as [(st & E & Hinv)|[(E & a & m & Hin & Hno)|[(x & E & Hd)|(E & Hn)]]]; rewrite E; cbn [bind label_loop].
    + destruct (label_step_spec pr l s st Hinv Hs' Hp Hadv) as [(st' & E' & Hinv')|[(E' & a & m & -> & Hno)|[(x & E' & Hd)|(E' & Hn)]]];
        rewrite E'; cbn [bind].
      * left. eauto.
      * right. left. split; [reflexivity|]. exists a, m. split; [apply in_or_app; right; left; reflexivity|assumption].
      * right. right. left. eauto.
      * right. right. right. split; [reflexivity|]. intros H. apply Forall_app in H. destruct H as [_ H].
        inversion H; subst. contradiction.
    + right. left. split; [reflexivity|]. exists a, m. split; [apply in_or_app; left; assumption|assumption].
    + right. right. left. exists x. split; [reflexivity|]. apply defined_twice_app. assumption.
    + right. right. right. split; [reflexivity|]. intros H. apply Forall_app in H. tauto.
Qed.

Lemma gnames_nodup l : Forall typed l -> NoDup (map fst (globs 0 l)) -> NoDup (gnames l).
Proof.
  intros Ht Hn. constructor; [|assumption]. intros H. apply in_map_iff in H. destruct H as ([x v] & E & H).
  simpl in E. subst. apply globs_in in H. destruct H as (k & n & Hk & Hl & Hx & _).
  apply lower_empty in Hx. subst. apply nth_error_In in Hk. rewrite Forall_forall in Ht.
  apply Ht in Hk. simpl in Hk. congruence.
Qed.

Lemma entries_keys l k : (k <= S (ngl l))%nat -> map fst (map (entry l) (seq 0 k)) = firstn k (gnames l).
Proof.
  intros Hk. rewrite map_map. cbn [entry fst].
  assert (Hlen : List.length (gnames l) = S (ngl l)) by (unfold gnames; simpl; rewrite map_length, globs_length; reflexivity).
  revert Hk. rewrite <- Hlen. generalize (gnames l). clear. intros g Hk.
  induction k as [|k IH]; [reflexivity|]. rewrite seq_S, map_app, IH by lia. cbn [map Nat.add].
  destruct (nth_error g k) as [x|] eqn:E.
  - rewrite (nth_error_nth _ _ _ E). clear -E. revert k E. induction g as [|y g IH]; intros [|k] E; simpl in *; try discriminate.
    + congruence. + f_equal. apply IH. assumption.
  - apply nth_error_None in E. lia.
Qed.

(** The tables produced by the label pass. *)
Definition label_names (l : list statement) : names :=
  mkNames (rev (globs 0 l)) (rev (map (entry l) (seq 0 (S (ngl l))))).

Lemma compute_labels_spec pr l : Forall typed l -> range l ->
  (compute_labels pr l = Ok (label_names l) /\ NoDup (map fst (globs 0 l)) /\ (forall r, NoDup (map fst (region r l)))) \/
  (compute_labels pr l = Err MustBeLiteralNumber /\ nonliteral_cnop l) \/
  (exists x, compute_labels pr l = Err (NameAlreadyExists x) /\ defined_twice l x) \/
  (compute_labels pr l = Panic /\ ~ Forall plain l).
Proof.
  intros Ht Hr. unfold compute_labels.
  destruct (label_loop_spec pr l Ht Hr) as [(st & E & Hinv)|[(E & H)|[(x & E & Hd)|(E & Hn)]]]; rewrite E; cbn [bind].
  - left. destruct Hinv as (H1 & H2 & H3 & H4 & H5 & H6 & H7).
    pose proof (gnames_nodup l Ht H3) as Hg.
    assert (C : mcontains (l_locals st) (l_current st) = false).
    { apply mcontains_false. rewrite H7, H6, map_rev, <- in_rev, entries_keys by lia.
      assert (Hlen : List.length (gnames l) = S (ngl l)) by (unfold gnames; simpl; rewrite map_length, globs_length; reflexivity).
      intros Hin. apply In_nth with (d := "") in Hin. destruct Hin as (k & Hk & E').
      rewrite firstn_length in Hk.
      assert (Hk2 : (k < ngl l)%nat) by lia.
      rewrite <- (firstn_skipn (ngl l) (gnames l)) in Hg.
      assert (nth k (gnames l) "" = nth (ngl l) (gnames l) "").
      { rewrite <- E'. rewrite <- (firstn_skipn (ngl l) (gnames l)) at 1. rewrite app_nth1; [reflexivity|].
        rewrite firstn_length. lia. }
      rewrite (firstn_skipn (ngl l) (gnames l)) in Hg.
      apply (proj1 (NoDup_nth (gnames l) "")) in H; [lia|assumption|lia|lia]. }
    rewrite C. split; [|auto]. unfold label_names. do 2 f_equal; [assumption|].
    rewrite seq_S, map_app, rev_app_distr. cbn [map rev app]. rewrite Nat.add_0_l, H7. unfold minsert. f_equal.
    unfold entry. rewrite H6, H4. reflexivity.
  - right. left. auto.
  - right. right. left. eauto.
  - right. right. right. auto.
Qed.
