(** The emission pass and the whole assembly. *)
From Coq Require Import ZArith List String Ascii Bool Lia.
From Verif Require Import Base Expr Bits Instr Ast Asm SpecIsa SpecExpr SpecAsm ExprProofs AsmProofs AsmProofs2 AsmProofs3 AsmProofs4 AsmProofs5.
Import ListNotations.
Open Scope string_scope.
Open Scope list_scope.
Open Scope Z_scope.

Local Arguments Z.add : simpl never.
Local Arguments Z.sub : simpl never.
Local Arguments Z.mul : simpl never.
Local Arguments Z.opp : simpl never.
Local Arguments Z.div : simpl never.
Local Arguments Z.pow : simpl never.
Local Arguments Z.modulo : simpl never.
Local Arguments Z.land : simpl never.
Local Arguments Z.shiftr : simpl never.
Local Arguments Z.leb : simpl never.
Local Arguments Z.ltb : simpl never.
Local Arguments Z.eqb : simpl never.
Local Arguments Z.max : simpl never.
Local Arguments Z.of_nat : simpl never.
Local Arguments Z.to_nat : simpl never.

(** ** No duplicate definitions *)

Lemma nodup_app_disj {A : Type} (a b : list A) x : NoDup (a ++ b) -> In x a -> In x b -> False.
Proof.
  induction a as [|y a IH]; simpl; [tauto|]. intros Hn [->|Ha] Hb; inversion Hn; subst.
  - apply H1. apply in_or_app. auto.
  - eauto.
Qed.

Lemma nodup_app_l {A : Type} (a b : list A) : NoDup (a ++ b) -> NoDup a.
Proof.
  induction a as [|y a IH]; simpl; [constructor|]. intros Hn. inversion Hn; subst. constructor; auto.
  intros H. apply H1. apply in_or_app. auto.
Qed.

Lemma nodup_app_r {A : Type} (a b : list A) : NoDup (a ++ b) -> NoDup b.
Proof. induction a as [|y a IH]; simpl; auto. intros Hn. inversion Hn; auto. Qed.

Lemma nodup_flat {A B : Type} (f : A -> list B) l i j s t x : NoDup (flat_map f l) -> (i < j)%nat ->
  nth_error l i = Some s -> nth_error l j = Some t -> In x (f s) -> In x (f t) -> False.
Proof.
  revert i j. induction l as [|a l IH]; intros i j Hn Hij Hi Hj Hs Ht; [destruct i; discriminate|].
  destruct j as [|j]; [lia|]. destruct i as [|i]; simpl in *.
  - injection Hi as ->. apply (nodup_app_disj _ _ x Hn Hs). apply in_flat_map. exists t. split; auto.
    eapply nth_error_In; eauto.
  - apply nodup_app_r in Hn. apply (IH i j Hn ltac:(lia) Hi Hj Hs Ht).
Qed.

Definition gname (s : statement) : list string :=
  match s with SLabel n => if is_local n then [] else [lower n] | _ => [] end.

Lemma globs_names p l : map fst (globs p l) = flat_map gname l.
Proof.
  revert p. induction l as [|s l IH]; intros p; simpl; auto. rewrite map_app, IH. f_equal.
  destruct s; simpl; auto. destruct (is_local name); reflexivity.
Qed.

Lemma region_app r l rest : exists more, region r (l ++ rest) = region r l ++ more.
Proof.
  induction rest as [|s rest IH] using rev_ind; [exists []; rewrite !app_nil_r; reflexivity|].
  destruct IH as (more & E). rewrite app_assoc, region_snoc, E, <- app_assoc. eauto.
Qed.

Lemma nodefs_global prog : NoDup (vnames prog) -> NoDup (map fst (globs 0 prog)) ->
  (forall x, In x (vnames prog) -> In x (map fst (globs 0 prog)) -> False) ->
  forall i j s t x, (i < j)%nat -> nth_error prog i = Some s -> nth_error prog j = Some t ->
    global_def s = Some x -> global_def t = Some x -> False.
Proof.
  intros Hv Hg Hd i j s t x Hij Hi Hj Hs Ht. rewrite globs_names in *.
  assert (Hcase : forall k u, nth_error prog k = Some u -> global_def u = Some x ->
    (exists n e, var_def u = Some (n, e) /\ x = lower n) \/ In x (gname u)).
  { intros k u _ Hu. destruct u as [d|n|i0|n e|n e|c|n a]; simpl in *; try discriminate.
    - destruct (is_local n); [discriminate|]. injection Hu as <-. right. left. reflexivity.
    - injection Hu as <-. left. eauto.
    - injection Hu as <-. left. eauto. }
  assert (Hin1 : forall k u n e, nth_error prog k = Some u -> var_def u = Some (n, e) -> In (lower n) (vnames prog)).
  { intros k u n e Hk Hu. unfold vnames. apply in_flat_map. exists u. split; [eapply nth_error_In; eauto|]. rewrite Hu. left. reflexivity. }
  assert (Hin2 : forall k u, nth_error prog k = Some u -> In x (gname u) -> In x (flat_map gname prog)).
  { intros k u Hk Hu. apply in_flat_map. exists u. split; [eapply nth_error_In; eauto|assumption]. }
  destruct (Hcase _ _ Hi Hs) as [(n & e & E1 & ->)|H1]; destruct (Hcase _ _ Hj Ht) as [(m & e2 & E2 & Em)|H2].
  - eapply (nodup_flat _ prog i j s t (lower n) Hv Hij Hi Hj); [rewrite E1; left; reflexivity|rewrite E2; left; auto].
  - eapply Hd; eauto.
  - rewrite Em in H1. eapply Hd; [eauto|]. rewrite Em in Hin2. eauto.
  - eapply (nodup_flat gname prog i j s t x Hg Hij Hi Hj); assumption.
Qed.

Lemma nodefs_local prog : (forall r, NoDup (map fst (region r prog))) ->
  forall i j n m x, (i < j)%nat -> nth_error prog i = Some (SLabel n) -> nth_error prog j = Some (SLabel m) ->
    is_local n = true -> is_local m = true -> lower n = x -> lower m = x -> scope_no prog i = scope_no prog j -> False.
Proof.
  intros Hn i j n m x Hij Hi Hj Hln Hlm En Em Hs.
  apply nth_error_split in Hj. destruct Hj as (l & rest & Hpr & Hlen). subst j.
  specialize (Hn (ngl l)).
  destruct (region_app (ngl l) (l ++ [SLabel m]) rest) as (more & E).
  rewrite <- app_assoc in E. cbn [app] in E. rewrite <- Hpr in E. rewrite E, map_app in Hn. apply nodup_app_l in Hn.
  rewrite region_snoc, map_app in Hn. cbn [ldef_at] in Hn. rewrite Hlm in Hn. cbn [filter fst] in Hn.
  rewrite Nat.eqb_refl in Hn. cbn [map snd fst] in Hn.
  apply (nodup_app_disj _ _ x Hn); [|left; assumption].
  assert (Hin : In (x, addr (firstn i l)) (region (ngl l) l)).
  { apply region_in, locs_in. exists i, n. subst prog.
    rewrite nth_error_app1 in Hi by assumption. unfold scope_no in Hs.
    rewrite firstn_pre, firstn_mid in Hs by lia. fold (ngl (firstn i l)) in Hs. fold (ngl l) in Hs.
    repeat split; auto. }
  apply (in_map fst) in Hin. exact Hin.
Qed.

Lemma ninv_nodup pr prog st : ninv pr prog prog st -> (forall r, NoDup (map fst (region r prog))) ->
  forall x, ~ defined_twice prog x.
Proof.
  intros (_ & _ & _ & H4 & H5) Hr x. rewrite H4 in H5.
  assert (Hv : NoDup (vnames prog)).
  { apply nodup_app_l in H5. apply NoDup_rev in H5. rewrite rev_involutive in H5. assumption. }
  assert (Hg : NoDup (map fst (globs 0 prog))).
  { apply nodup_app_r in H5. apply NoDup_rev in H5. rewrite rev_involutive in H5. assumption. }
  assert (Hd : forall x, In x (vnames prog) -> In x (map fst (globs 0 prog)) -> False).
  { intros y Hy Hz. apply (nodup_app_disj _ _ y H5); rewrite <- in_rev; assumption. }
  intros [(i & j & s & t & Hij & Hi & Hj & Hs & Ht)|(i & j & n & m & Hij & Hi & Hj & Hn & Hm & En & Em & Hs)].
  - destruct (lt_dec i j); [eapply (nodefs_global prog Hv Hg Hd i j); eauto|].
    eapply (nodefs_global prog Hv Hg Hd j i); eauto. lia.
  - destruct (lt_dec i j); [eapply (nodefs_local prog Hr i j); eauto|].
    eapply (nodefs_local prog Hr j i); eauto. lia.
Qed.

(** ** Names in force at a position *)

Definition rawcur (l : list statement) : string := fold_left (fun c s => next_current s c) l "".

Lemma rawcur_snoc l s : rawcur (l ++ [s]) = next_current s (rawcur l).
Proof. unfold rawcur. rewrite fold_left_app. reflexivity. Qed.

Lemma gnames_len l : List.length (gnames l) = S (ngl l).
Proof. unfold gnames. simpl. rewrite map_length, globs_length. reflexivity. Qed.

Lemma gnames_snoc l s : gnames (l ++ [s]) = gnames l ++ gname s.
Proof. unfold gnames. rewrite !globs_names, flat_map_app. simpl. rewrite app_nil_r. reflexivity. Qed.

Lemma rawcur_lower l : lower (rawcur l) = nth (ngl l) (gnames l) "".
Proof.
  induction l as [|s l IH] using rev_ind; [reflexivity|].
  rewrite rawcur_snoc, ngl_snoc, gnames_snoc.
  assert (Hs : global_label s = false -> gname s = [] /\ next_current s (rawcur l) = rawcur l).
  { destruct s; simpl; auto. destruct (is_local name); simpl; auto. discriminate. }
  destruct (global_label s) eqn:E.
  - destruct s; simpl in E; try discriminate. destruct (is_local name) eqn:L; [discriminate|].
    cbn [next_current gname]. rewrite L. rewrite app_nth2 by (rewrite gnames_len; lia). rewrite gnames_len.
    replace (ngl l + 1 - S (ngl l))%nat with 0%nat by lia. reflexivity.
  - destruct (Hs eq_refl) as [-> ->]. rewrite app_nil_r, Nat.add_0_r. assumption.
Qed.

Lemma gnames_pre l rest : exists more, gnames (l ++ rest) = gnames l ++ more.
Proof. unfold gnames. rewrite !globs_names, flat_map_app. simpl. eauto. Qed.

Lemma gnames_lower l x : In x (gnames l) -> lower x = x.
Proof.
  intros [<-|H]; [reflexivity|]. apply in_map_iff in H. destruct H as ([y v] & E & H). simpl in E. subst y.
  apply globs_in in H. destruct H as (k & n & _ & _ & <- & _). apply lower_idem.
Qed.

Lemma ngl_app_le l rest : (ngl l <= ngl (l ++ rest))%nat.
Proof. unfold ngl. rewrite filter_app, app_length. lia. Qed.

Lemma scope_found prog l rest lo : prog = l ++ rest -> NoDup (gnames prog) ->
  mget (locals (label_names prog)) (rawcur l) = Some lo -> lo = rev (region (ngl l) prog).
Proof.
  intros Hpr Hn H. apply mget_in in H. cbn [label_names locals] in H. rewrite <- in_rev in H.
  apply in_map_iff in H. destruct H as (r & E & Hr). apply in_seq in Hr. assert (E1 : nth r (gnames prog) "" = rawcur l) by (apply (f_equal fst) in E; exact E). apply (f_equal snd) in E. cbn [entry snd] in E. subst lo.
  destruct (gnames_pre l rest) as (more & Hg). rewrite <- Hpr in Hg.
  pose proof (rawcur_lower l) as Hc.
  assert (Hlow : lower (rawcur l) = rawcur l).
  { rewrite <- E1. apply (gnames_lower prog). apply nth_In. rewrite gnames_len. lia. }
  assert (Hsame : nth r (gnames prog) "" = nth (ngl l) (gnames prog) "").
  { rewrite E1, <- Hlow, Hc, Hg, app_nth1 by (rewrite gnames_len; lia). reflexivity. }
  pose proof (ngl_app_le l rest). rewrite <- Hpr in H.
  rewrite NoDup_nth in Hn. rewrite (Hn r (ngl l)); [reflexivity|rewrite gnames_len; lia|rewrite gnames_len; lia|exact Hsame].
Qed.

Lemma scope_exists prog l rest : prog = l ++ rest -> NoDup (gnames prog) -> lower (rawcur l) = rawcur l ->
  mget (locals (label_names prog)) (rawcur l) = Some (rev (region (ngl l) prog)).
Proof.
  intros Hpr Hn Hlow. cbn [label_names locals].
  pose proof (entries_keys prog (S (ngl prog)) (le_n _)) as Hk.
  rewrite firstn_all2 in Hk by (rewrite gnames_len; lia).
  apply in_mget.
  - rewrite map_rev, Hk. apply NoDup_rev. assumption.
  - rewrite <- in_rev. apply in_map_iff. exists (ngl l).
    pose proof (ngl_app_le l rest). rewrite <- Hpr in H. split; [|apply in_seq; lia].
    unfold entry. f_equal. destruct (gnames_pre l rest) as (more & Hg). rewrite <- Hpr in Hg.
    rewrite Hg, app_nth1 by (rewrite gnames_len; lia). rewrite <- rawcur_lower, Hlow. reflexivity.
Qed.

(** The lookup at position [k]. *)
Definition getf (gl : smap Z) (prog : list statement) (k : nat) : string -> option Z :=
  names_get gl (rev (region (scope_no prog k) prog)).

Lemma getf_env_at pr prog st k : ninv pr prog prog st -> (forall r, NoDup (map fst (region r prog))) ->
  env_at pr prog k (getf (n_globals st) prog k).
Proof.
  intros (_ & _ & H3 & _) Hr. split.
  - intros x Hx. unfold getf, names_get. rewrite Hx. apply H3.
  - intros x v Hx. unfold getf, names_get. rewrite Hx. rewrite local_label_region, mget_rev by apply Hr. split.
    + apply mget_in.
    + apply in_mget. apply Hr.
Qed.

Lemma env_at_unique pr prog k g g' : env_at pr prog k g -> env_at pr prog k g' -> forall x, g x = g' x.
Proof.
  intros [Ha Hb] [Ha' Hb'] x. destruct (is_local x) eqn:E.
  - destruct (g x) as [v|] eqn:G.
    + apply (Hb x v E), (Hb' x v E) in G. congruence.
    + destruct (g' x) as [v|] eqn:G'; auto. apply (Hb' x v E), (Hb x v E) in G'. congruence.
  - rewrite (Ha x E), (Ha' x E). reflexivity.
Qed.

(** ** The emission loop *)

Lemma gen_loop_app pr ns a b st : gen_loop pr ns (a ++ b) st = let! st' := gen_loop pr ns a st in gen_loop pr ns b st'.
Proof.
  revert st. induction a as [|s a IH]; intros st; simpl; auto. destruct (gen_step pr ns s st); simpl; auto.
Qed.

Lemma image_snoc_old l chunks s bs o b : List.length chunks = List.length l -> image_byte l chunks o b ->
  get_at bs (o - addr l) = None -> image_byte (l ++ [s]) (chunks ++ [bs]) o b.
Proof.
  intros Hlen Hi Hn.
  assert (Hcov : forall j b', covers (l ++ [s]) (chunks ++ [bs]) j o b' <-> covers l chunks j o b').
  { intros j b'. unfold covers. destruct (lt_eq_lt_dec j (List.length l)) as [[H|H]|H].
    - rewrite nth_error_app1 by lia. rewrite firstn_pre by lia. reflexivity.
    - subst j. rewrite firstn_mid. split.
      + intros (c & Hc & Hg). rewrite nth_error_app2 in Hc by lia. rewrite Hlen, Nat.sub_diag in Hc. injection Hc as <-. congruence.
      + intros (c & Hc & Hg). assert (List.length l < List.length chunks)%nat by (apply nth_error_Some; congruence). lia.
    - split; intros (c & Hc & Hg); assert (nth_error (chunks ++ [bs]) j <> None \/ nth_error chunks j <> None) as [N|N] by (first [left; congruence|right; congruence]);
        apply nth_error_Some in N; rewrite ?app_length in N; simpl in N; lia. }
  destruct Hi as [(k & Hk & Hlast)|(-> & Hnone)].
  - left. exists k. split; [apply Hcov; assumption|]. intros j b' Hj Hc. apply Hcov in Hc. eapply Hlast; eauto.
  - right. split; auto. intros j b' Hc. apply Hcov in Hc. eapply Hnone; eauto.
Qed.

Lemma image_snoc_new l chunks s bs o b : List.length chunks = List.length l ->
  get_at bs (o - addr l) = Some b -> image_byte (l ++ [s]) (chunks ++ [bs]) o b.
Proof.
  intros Hlen Hg. left. exists (List.length l). split.
  - exists bs. rewrite nth_error_app2 by lia. rewrite Hlen, Nat.sub_diag, firstn_mid. auto.
  - intros j b' Hj (c & Hc & _).
    assert (N : nth_error (chunks ++ [bs]) j <> None) by congruence. apply nth_error_Some in N.
    rewrite app_length in N. simpl in N. lia.
Qed.

Lemma range_snoc_intro l s : range l -> 0 <= advance (addr l) s <= 2147483647 -> range (l ++ [s]).
Proof.
  intros Hr Ha k. destruct (le_lt_dec k (List.length l)) as [H|H].
  - rewrite firstn_pre by assumption. apply Hr.
  - rewrite firstn_all2 by (rewrite app_length; simpl; lia). rewrite addr_snoc. assumption.
Qed.

Definition ginv pr (get : nat -> string -> option Z) (l : list statement) (N : Z) (st : gen_state) : Prop :=
  g_pos st = addr l /\ range l /\ g_current st = rawcur l /\ zlen (g_out st) = N /\
  exists chunks, List.length chunks = List.length l /\
    (forall k s bs, nth_error l k = Some s -> nth_error chunks k = Some bs -> emits pr (get k) (addr (firstn k l)) s bs) /\
    (forall o, 0 <= o < N -> exists b, get_at (g_out st) o = Some b /\ image_byte l chunks o b).

Lemma range_nil : range [].
Proof. intros k. rewrite firstn_nil. unfold addr. simpl. lia. Qed.

Lemma ginv_start pr get N : 0 <= N -> ginv pr get [] N (mkGen (repeat 0 (Z.to_nat N)) 0 "").
Proof.
  intros HN. unfold ginv. cbn [g_pos g_current g_out]. repeat split.
  - apply range_nil.
  - apply range_nil.
  - unfold zlen. rewrite repeat_length. lia.
  - exists []. split; [reflexivity|]. split; [intros [|k]; discriminate|].
    intros o Ho. exists 0. split.
    + destruct (get_at_some (repeat 0 (Z.to_nat N)) o) as (b & Hb); [rewrite repeat_length; lia|].
      rewrite Hb. f_equal. unfold get_at in Hb. destruct (o <? 0); [discriminate|].
      apply nth_error_In, repeat_spec in Hb. assumption.
    + right. split; auto. intros j b' (c & Hc & _). destruct j; discriminate.
Qed.

Lemma ginv_step pr ns get prog l s rest N st st' : prog = l ++ s :: rest -> ginv pr get l N st -> typed s -> N <= 2147483647 ->
  (pr = Release -> cnop_small prog) ->
  (needs_env s = true -> forall lo, mget (locals ns) (rawcur l) = Some lo -> forall x, names_get (globals ns) lo x = get (List.length l) x) ->
  gen_step pr ns s st = Ok st' -> ginv pr get (l ++ [s]) N st'.
Proof.
  intros Hpr (H1 & H2 & H3 & H4 & chunks & H5 & H6 & H7) Ht HN Hc Hget E.
  assert (Hp : 0 <= addr l <= 2147483647) by (specialize (H2 (List.length l)); rewrite firstn_all in H2; assumption).
  destruct (gen_step_ok pr ns s st st' (get (List.length l)) E Ht) as (bs & He & Hq & Hle & _ & Hz & Ho & Hcur).
  - rewrite H1. assumption.
  - rewrite H4. assumption.
  - intros Hrel a m ->. rewrite H1. specialize (Hc Hrel (List.length l) a m).
    rewrite Hpr, nth_mid in Hc. specialize (Hc eq_refl).
    change (l ++ SDirective (DCnop a m) :: rest) with (l ++ [SDirective (DCnop a m)] ++ rest) in Hc.
    rewrite app_assoc, firstn_pre in Hc by (rewrite app_length; simpl; lia).
    rewrite firstn_all2 in Hc by (rewrite app_length; simpl; lia). rewrite addr_snoc in Hc. assumption.
  - intros Hne lo Hlo. rewrite H3 in Hlo. eauto.
  - rewrite H1 in *. pose proof (advance_typed _ _ (proj1 Hp) Ht) as Hpos.
    unfold ginv. rewrite Hq, addr_snoc, Hcur, rawcur_snoc, H3, Hz, H4.
    split; [reflexivity|]. split; [apply range_snoc_intro; [assumption|lia]|]. split; [reflexivity|]. split; [reflexivity|].
    exists (chunks ++ [bs]). split; [rewrite !app_length, H5; reflexivity|]. split.
    + intros k t c Hk Hck. destruct (lt_dec k (List.length l)) as [Hlt|Hge].
      * rewrite nth_error_app1 in Hk by assumption. rewrite nth_error_app1 in Hck by lia.
        rewrite firstn_pre by lia. eauto.
      * assert (k = List.length l).
        { assert (k < List.length (l ++ [s]))%nat by (apply nth_error_Some; congruence). rewrite app_length in H. simpl in H. lia. }
        subst k. rewrite nth_mid in Hk. injection Hk as <-. rewrite <- H5, nth_mid in Hck. injection Hck as <-.
        rewrite firstn_mid. assumption.
    + intros o Hr. rewrite Ho. destruct (get_at bs (o - addr l)) as [b|] eqn:G.
      * exists b. split; auto. apply image_snoc_new; assumption.
      * destruct (H7 o Hr) as (b & Hb & Hi). exists b. split; auto. apply image_snoc_old; assumption.
Qed.

Lemma gen_loop_ok pr ns get prog N : Forall typed prog -> 0 <= N <= 2147483647 -> (pr = Release -> cnop_small prog) ->
  (forall l s rest, prog = l ++ s :: rest -> needs_env s = true -> forall lo, mget (locals ns) (rawcur l) = Some lo ->
     forall x, names_get (globals ns) lo x = get (List.length l) x) ->
  forall l rest st, prog = l ++ rest ->
  gen_loop pr ns l (mkGen (repeat 0 (Z.to_nat N)) 0 "") = Ok st -> ginv pr get l N st.
Proof.
  intros Ht HN Hc Hget. induction l as [|s l IH] using rev_ind; intros rest st Hpr.
  - simpl. intros [= <-]. apply ginv_start. lia.
  - rewrite <- app_assoc in Hpr. cbn [app] in Hpr. rewrite gen_loop_app. intros H.
    apply bind_ok in H. destruct H as (st1 & H1 & H). cbn [gen_loop] in H.
    apply bind_ok in H. destruct H as (st2 & H2 & H). injection H as <-.
    eapply ginv_step; eauto.
    + rewrite Hpr in Ht. apply Forall_app in Ht. destruct Ht as [_ Ht]. inversion Ht; assumption.
    + lia.
Qed.

(** Range of the result length. *)
Lemma image_length pr M n out : 0 <= M <= 2147483647 ->
  (let! m := chk32 pr (M + 1) in chk_usize pr (wrap_usize m - 1)) = Ok n -> zero_vec n = Ok out -> n = M.
Proof.
  intros HM H Hz. destruct (Z.eq_dec M 2147483647) as [->|Hne].
  - destruct pr; [discriminate H|]. vm_compute in H. injection H as <-. discriminate Hz.
  - rewrite chk32_ok in H by (unfold in32; lia). cbn [bind] in H.
    unfold wrap_usize in H. rewrite Z.mod_small in H by lia. rewrite chk_usize_ok in H by lia. injection H as <-. lia.
Qed.

(** ** Soundness *)
Theorem assemble_sound pr prog out : Forall typed prog -> (pr = Release -> cnop_small prog) ->
  assemble pr prog = Ok out ->
  zlen out = top prog /\
  (exists chunks, chunks_of pr prog chunks /\
     forall o, 0 <= o < zlen out -> exists b, get_at out o = Some b /\ image_byte prog chunks o b) /\
  (forall x, ~ defined_twice prog x) /\ vars_defined pr prog /\ layout_small prog /\ Forall plain prog.
Proof.
  intros Ht Hc H. unfold assemble in H.
  apply bind_ok in H. destruct H as ([mp ns] & Hnames & H).
  apply bind_ok in H. destruct H as (n & Hn & H).
  apply bind_ok in H. destruct H as (vec & Hvec & H).
  unfold generate_bytes in H. apply bind_ok in H. destruct H as (st & Hgen & H). injection H as <-.
  unfold compute_names in Hnames. apply bind_ok in Hnames. destruct Hnames as (labels & Hlab & Hnames).
  apply bind_ok in Hnames. destruct Hnames as (nst & Hloop & Hnames).
  apply bind_ok in Hnames. destruct Hnames as (m & Hm & Hnames). injection Hnames as Emp Ens. subst mp ns.
  assert (HM : 0 <= n_max nst <= 2147483647).
  { eapply name_loop_max; [exact Hloop| |]; cbn [n_pos n_max]; unfold in32; lia. }
  assert (n = n_max nst).
  { eapply image_length; [exact HM| |exact Hvec]. rewrite Hm. exact Hn. }
  subst n. unfold zero_vec in Hvec. destruct (9223372036854775807 <? n_max nst); [discriminate|]. injection Hvec as <-.
  set (ns := mkNames (n_globals nst) (locals labels)) in *.
  (* first: addresses stay in range *)
  assert (Hr : range prog).
  { set (g0 := fun k => match mget (locals ns) (rawcur (firstn k prog)) with Some lo => names_get (globals ns) lo | None => fun _ => None end).
    destruct (gen_loop_ok pr ns g0 prog (n_max nst) Ht HM Hc) with (l := prog) (rest := @nil statement) (st := st) as (_ & Hr & _); auto.
    - intros l s rest Hpr _ lo Hlo x. unfold g0. rewrite Hpr, firstn_mid, Hlo. reflexivity.
    - rewrite app_nil_r. reflexivity. }
  destruct (compute_labels_spec pr prog Ht Hr) as [(El & Hg & Hreg)|[(El & _)|[(x & El & _)|(El & _)]]]; rewrite El in Hlab; try discriminate.
  injection Hlab as <-. cbn [label_names globals] in Hloop.
  destruct (name_loop_spec pr prog prog Ht Hr Hg (ex_intro _ [] (eq_sym (app_nil_r prog))))
    as [(nst' & E & Hinv & Hv)|[(E & _)|[(x & E & _)|[Hf|(E & _)]]]].
  2,3,5: rewrite E in Hloop; discriminate.
  2:{ destruct Hf as (k & s & nn & e & _ & _ & _ & E). rewrite E in Hloop. destruct (eval pr (mkEnv "Name" (visible pr prog k)) e); discriminate. }
  rewrite E in Hloop. injection Hloop as ->.
  pose proof (gnames_nodup prog Ht Hg) as Hgn.
  destruct (gen_loop_ok pr ns (getf (n_globals nst) prog) prog (n_max nst) Ht HM Hc) with (l := prog) (rest := @nil statement) (st := st)
    as (Gp & _ & _ & Gz & chunks & Gl & Ge & Gb); auto.
  { intros l s rest Hpr _ lo Hlo x. cbn [ns globals locals] in *.
    rewrite (scope_found prog l (s :: rest) lo Hpr Hgn Hlo). unfold getf.
    replace (scope_no prog (List.length l)) with (ngl l) by (unfold scope_no; rewrite Hpr, firstn_mid; reflexivity).
    reflexivity. }
  { rewrite app_nil_r. reflexivity. }
  assert (Htop : n_max nst = top prog) by apply Hinv.
  split; [congruence|]. split.
  { exists chunks. split.
    - split; [assumption|]. intros k s bs Hk Hb. exists (getf (n_globals nst) prog k).
      split; [apply getf_env_at; assumption|]. eauto.
    - rewrite Gz. assumption. }
  split; [eapply ninv_nodup; eauto|]. split; [exact Hv|]. split.
  - intros k. specialize (Hr k). pose proof (top_bound prog k).
    assert (n_max nst <> 2147483647); [|lia].
    intros E'. rewrite E' in *. destruct pr; vm_compute in Hm; [discriminate|]. injection Hm as <-. vm_compute in Hn. discriminate.
  - apply Forall_forall. intros s Hin. apply In_nth_error in Hin. destruct Hin as (k & Hk).
    assert (k < List.length prog)%nat by (apply nth_error_Some; congruence).
    destruct (nth_error chunks k) as [bs|] eqn:Hb; [|apply nth_error_None in Hb; lia].
    specialize (Ge k s bs Hk Hb). destruct s as [d| | | | | |]; simpl in *; auto. destruct d; simpl in *; auto.
Qed.
