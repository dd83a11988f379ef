(** One step of the emission pass. *)
From Coq Require Import ZArith List String Ascii Bool Lia.
From Verif Require Import Base Expr Bits Instr Ast Asm SpecIsa SpecExpr SpecAsm ExprProofs CodecProofs CodecProofs2 AsmProofs AsmProofs2.
Import ListNotations.
Open Scope string_scope.
Open Scope list_scope.
Open Scope Z_scope.

Local Arguments Z.add : simpl never.
Local Arguments Z.sub : simpl never.
Local Arguments Z.mul : simpl never.
Local Arguments Z.opp : simpl never.
Local Arguments Z.div : simpl never.
Local Arguments Z.pow : simpl never.
Local Arguments Z.modulo : simpl never.
Local Arguments Z.land : simpl never.
Local Arguments Z.shiftr : simpl never.
Local Arguments Z.leb : simpl never.
Local Arguments Z.ltb : simpl never.
Local Arguments Z.eqb : simpl never.
Local Arguments Z.max : simpl never.
Local Arguments Z.of_nat : simpl never.
Local Arguments Z.to_nat : simpl never.

Lemma chk32_debug z r : chk32 Debug z = Ok r -> r = z /\ in32 z.
Proof.
  unfold chk32. destruct (fits32 z) eqn:E; [|discriminate]. intros [= <-]. apply fits32_in32 in E. auto.
Qed.

Lemma rounds_value pos m fuel r : 0 < m -> 0 <= pos ->
  rounds (cnop_step Debug pos m) fuel 0 = inr (Ok r) -> r = round_up pos m.
Proof.
  intros Hm Hp H. rewrite rounds_nrounds in H. pose proof (round_up_bounds pos m Hm).
  eapply (nrounds_value Debug pos m Hm Hp); [| | |reflexivity|exact H]; try lia. exists 0. lia.
Qed.

Lemma cnop_loop_debug pos m r : 0 < m -> 0 <= pos -> cnop_loop Debug pos m = Ok r -> r = round_up pos m.
Proof.
  intros Hm Hp. unfold cnop_loop. generalize 4294967297%positive. intros fuel H.
  destruct (rounds (cnop_step Debug pos m) fuel 0) as [s|res] eqn:R; [discriminate|].
  apply (rounds_value pos m fuel r Hm Hp). rewrite R, H. reflexivity.
Qed.

Lemma cnop_size_debug a m p n : 0 <= p <= 2147483647 -> typed (SDirective (DCnop a m)) ->
  dir_size Debug (DCnop a m) p = Ok n -> advance p (SDirective (DCnop a m)) <= 2147483647.
Proof.
  intros Hp Ht. cbn [dir_size]. unfold eval_cnop. destruct a; simpl; try discriminate.
  destruct m; simpl; try discriminate. simpl in Ht. destruct Ht as [Ha Hm].
  destruct (num0 =? 0) eqn:E; [lia|]. apply Z.eqb_neq in E. intros H.
  apply bind_ok in H. destruct H as (q & H & _). apply bind_ok in H. destruct H as (u & Hu & H).
  apply chk32_debug in H. destruct H as [-> H]. unfold in32 in H.
  apply cnop_loop_debug in Hu; lia.
Qed.

Lemma size_eval pr next label ns i j : eval_instr pr next label ns i = Ok j -> size j = size i.
Proof.
  unfold eval_instr. intros H. do 3 (apply bind_ok in H; destruct H as (? & _ & H)).
  destruct i; repeat (apply bind_ok in H; destruct H as (? & _ & H)); injection H as <-; reflexivity.
Qed.

Lemma encode_zlen j : zlen (encode j) = size j.
Proof. apply encode_length. Qed.

Definition next_current (s : statement) (cur : string) : string :=
  match s with SLabel n => if is_local n then cur else n | _ => cur end.

Definition needs_env (s : statement) : bool :=
  match s with SDirective (DByte _) | SDirective (DWord _) | SInstr _ => true | _ => false end.

(** What a successful step of the emission pass does. *)
Lemma gen_step_ok pr ns s st st' get : gen_step pr ns s st = Ok st' -> typed s ->
  0 <= g_pos st <= 2147483647 -> zlen (g_out st) <= 2147483647 ->
  (pr = Release -> forall a m, s = SDirective (DCnop a m) -> advance (g_pos st) s <= 2147483647) ->
  (needs_env s = true -> forall lo, mget (locals ns) (g_current st) = Some lo -> forall x, names_get (globals ns) lo x = get x) ->
  exists bs, emits pr get (g_pos st) s bs /\
    g_pos st' = advance (g_pos st) s /\ advance (g_pos st) s <= 2147483647 /\
    (bs <> [] -> advance (g_pos st) s <= zlen (g_out st)) /\
    zlen (g_out st') = zlen (g_out st) /\
    (forall o, get_at (g_out st') o =
       match get_at bs (o - g_pos st) with Some b => Some b | None => get_at (g_out st) o end) /\
    g_current st' = next_current s (g_current st).
Proof.
  intros H Ht Hp Hl Hc Hget. set (p := g_pos st) in *.
  assert (Hnone : forall out : list Z, forall o, get_at out o = match get_at (@nil Z) (o - p) with Some b => Some b | None => get_at out o end).
  { intros out o. rewrite (get_at_out (@nil Z)) by (simpl; lia). reflexivity. }
  (* a chunk of data *)
  assert (Hdata : forall bs out' q, emits pr get p s bs -> emit pr bs (g_out st) p = Ok (out', q) ->
    (forall l, s <> SDirective (DOrg l)) -> (forall a m, s <> SDirective (DCnop a m)) ->
    global_label s = false -> st' = mkGen out' q (g_current st) ->
    exists bs, emits pr get p s bs /\
    g_pos st' = advance p s /\ advance p s <= 2147483647 /\
    (bs <> [] -> advance p s <= zlen (g_out st)) /\
    zlen (g_out st') = zlen (g_out st) /\
    (forall o, get_at (g_out st') o =
       match get_at bs (o - p) with Some b => Some b | None => get_at (g_out st) o end) /\
    g_current st' = next_current s (g_current st)).
  { intros bs out' q He Hm Ho Hcn Hgl ->. exists bs. split; [assumption|].
    apply emit_ok in Hm; [|lia|lia]. destruct Hm as (-> & Hlen & Hne & Hg).
    assert (Hadv : advance p s = p + zlen bs).
    { pose proof (emits_advance _ _ _ _ _ He) as A. destruct s as [[]| | | | | |]; auto.
      - exfalso. eapply Ho. reflexivity. - exfalso. eapply Hcn. reflexivity. }
    cbn [g_pos g_out g_current]. rewrite Hadv. split; [reflexivity|].
    assert (Hcur : g_current st = next_current s (g_current st)).
    { destruct s as [| n| | | | |]; simpl in *; auto. destruct (is_local n); [reflexivity|discriminate]. }
    destruct bs as [|b0 bs].
    - rewrite zlen_nil in *. split; [lia|]. split; [congruence|]. auto.
    - specialize (Hne ltac:(discriminate)). split; [lia|]. auto. }
  destruct s as [d|n|i|n e|n e|t|n args]; cbn [gen_step] in H.
  - apply bind_ok in H. destruct H as ([out q] & H & E). injection E as <-.
    destruct d as [items|l|ws|n t|n t|it pa|a m]; cbn [gen_dir] in H.
    + apply bind_ok in H. destruct H as (en & Hen & H). unfold as_env in Hen.
      destruct (mget (locals ns) (g_current st)) as [lo|] eqn:Elo; [|discriminate]. injection Hen as <-.
      apply emit_items_inv in H. destruct H as (l & Hf & H).
      eapply Hdata; try discriminate; try reflexivity; [|exact H].
      apply (emits_ext pr (names_get (globals ns) lo)); [apply Hget; auto|]. exists l. auto.
    + destruct (65535 <? l) eqn:E; [discriminate|]. apply Z.ltb_ge in E. injection H as <- <-.
      exists []. simpl in *. repeat split; auto; try lia. congruence.
    + apply bind_ok in H. destruct H as (en & Hen & H). unfold as_env in Hen.
      destruct (mget (locals ns) (g_current st)) as [lo|] eqn:Elo; [|discriminate]. injection Hen as <-.
      apply emit_words_inv in H. destruct H as (l & Hf & H).
      eapply Hdata; try discriminate; try reflexivity; [|exact H].
      apply (emits_ext pr (names_get (globals ns) lo)); [apply Hget; auto|]. exists l. auto.
    + unfold emit_text in H. destruct (n <? Z.of_nat (List.length t)) eqn:E; [discriminate|]. apply Z.ltb_ge in E.
      rewrite <- emit_app in H. eapply Hdata; try discriminate; try reflexivity; [|exact H]. split; auto.
    + unfold emit_text in H. destruct (n <? Z.of_nat (List.length t)) eqn:E; [discriminate|]. apply Z.ltb_ge in E.
      rewrite <- emit_app in H. eapply Hdata; try discriminate; try reflexivity; [|exact H]. split; auto.
    + discriminate.
    + apply bind_ok in H. destruct H as (k & Hk & H). apply bind_ok in H. destruct H as (q' & Hq & H).
      injection H as <- <-. fold p in Hk, Hq. rewrite wrap32_id in Hk by (unfold in32; lia).
      assert (Hadv : advance p (SDirective (DCnop a m)) <= 2147483647).
      { destruct pr; [eapply cnop_size_debug; eauto | eapply Hc; eauto]. }
      destruct (dir_size_ok pr (DCnop a m) p ltac:(lia) Ht Hadv) as [(k' & E1 & E2)|(E1 & _)];
        [|congruence].
      rewrite E1 in Hk. injection Hk as ->.
      pose proof (advance_typed p _ ltac:(lia) Ht) as Hpos.
      assert (Hqv : q' = p + k).
      { unfold wrap_usize, chk_usize in Hq. destruct (Z_lt_ge_dec k 0).
        - rewrite <- (Z.mod_add k 1) in Hq by lia. rewrite (Z.mod_small (k + 1 * _)) in Hq by lia.
          destruct (fits_usize (p + (k + 1 * 18446744073709551616))) eqn:F.
          + unfold fits_usize in F. apply andb_true_iff in F. rewrite !Z.leb_le in F. lia.
          + destruct pr; [discriminate|]. injection Hq as <-.
            replace (p + (k + 1 * 18446744073709551616)) with (p + k + 1 * 18446744073709551616) by lia.
            unfold wrap_usize. rewrite Z.mod_add by lia. apply Z.mod_small. lia.
        - rewrite Z.mod_small in Hq by lia.
          destruct (fits_usize (p + k)) eqn:F; [congruence|].
          unfold fits_usize in F. apply andb_false_iff in F. rewrite !Z.leb_gt in F. lia. }
      exists []. cbn [g_pos g_out g_current]. split.
      { cbn [emits]. cbn [dir_size] in E1. unfold eval_cnop in E1.
        destruct a; simpl in E1; try discriminate. destruct m; simpl in E1; try discriminate.
        unfold literal. repeat split; try (eexists; eexists; reflexivity). }
      split; [lia|]. split; [lia|]. split; [congruence|]. auto.
  - destruct (is_local n) eqn:E; injection H as <-; exists []; simpl; rewrite ?E; repeat split; auto; try lia; congruence.
  - apply bind_ok in H. destruct H as (next & Hn & H). apply bind_ok in H. destruct H as (j & Hj & H).
    apply bind_ok in H. destruct H as ([out q] & H & E). injection E as <-.
    pose proof (doc_length_pos i) as Hd. rewrite size_doc in Hn. fold p in Hn, H.
    rewrite chk_usize_ok in Hn by lia. injection Hn as <-.
    pose proof (size_eval _ _ _ _ _ _ Hj) as Hs. rewrite size_doc in Hs.
    assert (Hb : p + doc_length i <= 2147483647).
    { pose proof H as H'. apply emit_ok in H'; [|lia|lia]. destruct H' as (_ & _ & Hne & _).
      rewrite encode_zlen, Hs in Hne. assert (encode j <> []).
      { intros E. pose proof (encode_zlen j) as L. rewrite E, zlen_nil in L. lia. }
      specialize (Hne H0). lia. }
    destruct (mget (locals ns) (g_current st)) as [lo|] eqn:Elo;
      [|unfold eval_instr, as_env in Hj; rewrite Elo in Hj; discriminate].
    destruct (eval_instr_inv pr (p + doc_length i) (g_current st) ns lo i j Elo ltac:(lia) Hj) as [Hk Hr].
    destruct (encode_docs j) as (f & Hf & Hfk & Hfb).
    eapply Hdata; try discriminate; try reflexivity; [|exact H].
    apply (emits_ext pr (names_get (globals ns) lo)); [apply Hget; auto|]. exists f, (values j).
    split; [assumption|]. split; [congruence|]. rewrite <- Hk in Hr. rewrite <- Hfk in Hr.
    split; assumption.
  - injection H as <-. exists []. simpl. repeat split; auto; try lia. congruence.
  - injection H as <-. exists []. simpl. repeat split; auto; try lia. congruence.
  - injection H as <-. exists []. simpl. repeat split; auto; try lia. congruence.
  - discriminate.
Qed.

(** ** The emission step never crashes when there is room *)

Lemma items_total pr get items :
  (forall e, In e (stmt_exprs (SDirective (DByte items))) -> safe (eval pr (mkEnv "Name" get) e)) ->
  (exists l, Forall2 (item_bytes pr get) items l) \/
  ((forall l, ~ Forall2 (item_bytes pr get) items l) /\
   forall out p, 0 <= p -> p + SpecAsm.sum (map item_length items) <= zlen out -> zlen out <= 4294967296 ->
     exists e, emit_items pr (mkEnv "Name" get) items out p = Err e).
Proof.
  induction items as [|b t IH]; intros Hs.
  - left. exists []. constructor.
  - assert (Hh : (exists bs, item_bytes pr get b bs) \/
      ((forall bs, ~ item_bytes pr get b bs) /\ forall out p, exists e, emit_item pr (mkEnv "Name" get) b out p = Err e)).
    { destruct b as [e|s]; simpl; [|left; eauto].
      destruct (safe_cases _ (Hs e (or_introl eq_refl))) as [[v Hv]|[er Hv]]; rewrite Hv.
      - destruct ((v <? -128) || (255 <? v)) eqn:R.
        + right. split.
          * intros bs (v' & [= <-] & Hr & _). apply byte_range in Hr. congruence.
          * intros out p. cbn [bind]. rewrite R. eauto.
        + left. apply byte_range in R. eauto 6.
      - right. split; [intros bs (v' & Hv' & _); discriminate|]. cbn [bind]. eauto. }
    destruct Hh as [(bs & Hb)|[Hno Herr]].
    + assert (Ht : forall e, In e (stmt_exprs (SDirective (DByte t))) -> safe (eval pr (mkEnv "Name" get) e)).
      { intros e He. apply Hs. cbn [stmt_exprs flat_map] in *. apply in_or_app. right. exact He. }
      destruct (IH Ht) as [(l & Hl)|[Hno Herr]]; [left; exists (bs :: l); constructor; auto|].
      right. split.
      * intros l Hl. inversion Hl; subst. eapply Hno. eassumption.
      * intros out p Hp Hsum Hlen. cbn [emit_items].
        pose proof (items_len pr get [b] [bs] ltac:(constructor; auto)) as HL.
        cbn [List.concat] in HL. rewrite app_nil_r in HL. cbn [map SpecAsm.sum fold_right] in *.
        pose proof (emit_items_eq pr get [b] [bs] out p ltac:(constructor; auto)) as E.
        cbn [emit_items List.concat] in E. rewrite app_nil_r in E.
        unfold SpecAsm.sum in *. cbn [fold_right map] in *.
        pose proof (sum_nonneg t). unfold SpecAsm.sum in H.
        destruct (emit_done pr bs out p Hp ltac:(lia) Hlen) as (o1 & E1 & L1).
        rewrite E1 in E. destruct (emit_item pr (mkEnv "Name" get) b out p) as [[o2 p2]| | |]; simpl in E; try discriminate.
        injection E as -> ->. cbn [bind]. pose proof (zlen_nonneg bs). apply Herr; lia.
    + right. split.
      * intros l Hl. inversion Hl; subst. eapply Hno. eassumption.
      * intros out p _ _ _. cbn [emit_items]. destruct (Herr out p) as (e & ->). simpl. eauto.
Qed.

Lemma words_total pr get ws :
  (forall e, In e ws -> safe (eval pr (mkEnv "Name" get) e)) ->
  (exists l, Forall2 (word_bytes pr get) ws l) \/
  ((forall l, ~ Forall2 (word_bytes pr get) ws l) /\
   forall out p, 0 <= p -> p + 2 * zlen ws <= zlen out -> zlen out <= 4294967296 ->
     exists e, emit_words pr (mkEnv "Name" get) ws out p = Err e).
Proof.
  induction ws as [|b t IH]; intros Hs.
  - left. exists []. constructor.
  - destruct (safe_cases _ (Hs b (or_introl eq_refl))) as [[v Hv]|[er Hv]].
    2:{ right. split.
        - intros l Hl. inversion Hl; subst. destruct H1 as (v & Hv' & _). congruence.
        - intros out p _ _ _. cbn [emit_words]. rewrite Hv. simpl. eauto. }
    destruct ((v <? -32768) || (65535 <? v)) eqn:R.
    { right. split.
      - intros l Hl. inversion Hl; subst. destruct H1 as (v' & Hv' & Hr & _). apply word_range in Hr. congruence.
      - intros out p _ _ _. cbn [emit_words]. rewrite Hv. cbn [bind]. rewrite R. eauto. }
    destruct (IH (fun e He => Hs e (or_intror He))) as [(l & Hl)|[Hno Herr]].
    { left. exists ([v mod 256; v / 256 mod 256] :: l). constructor; auto. apply word_range in R. exists v. auto. }
    right. split.
    * intros l Hl. inversion Hl; subst. eapply Hno. eassumption.
    * intros out p Hp Hsum Hlen. cbn [emit_words]. rewrite Hv. cbn [bind]. rewrite R, word_parts.
      rewrite zlen_cons in Hsum. pose proof (zlen_nonneg t).
      destruct (emit_done pr [v mod 256; v / 256 mod 256] out p Hp ltac:(rewrite !zlen_cons, zlen_nil; lia) Hlen) as (o1 & E1 & L1).
      assert (E2 : zlen [v mod 256; v / 256 mod 256] = 2) by reflexivity. rewrite E2 in E1. rewrite E1. cbn [bind]. apply Herr; lia.
Qed.

Lemma emit_text_total pr pad n t out p : 0 <= n -> 0 <= p -> p + n <= zlen out -> zlen out <= 4294967296 ->
  (exists r, emit_text pr pad n t out p = Ok r) \/
  (exists e, emit_text pr pad n t out p = Err e /\ forall bs, ~ padded pad n t bs).
Proof.
  intros Hn Hp Hs Hl. unfold emit_text. destruct (n <? Z.of_nat (List.length t)) eqn:E.
  - right. eexists. split; [reflexivity|]. apply Z.ltb_lt in E. intros bs [H _]. lia.
  - left. apply Z.ltb_ge in E. rewrite <- emit_app.
    destruct (emit_done pr (t ++ repeat pad (Z.to_nat (n - Z.of_nat (List.length t)))) out p Hp) as (o & H & _); eauto.
    rewrite zlen_app. unfold zlen at 1 2. rewrite repeat_length. lia.
Qed.

Lemma gen_step_total pr ns s st get : typed s -> plain s ->
  0 <= g_pos st <= 2147483647 -> zlen (g_out st) <= 2147483647 ->
  advance (g_pos st) s <= zlen (g_out st) ->
  (pr = Debug -> forall a m, s = SDirective (DCnop a m) -> literal a -> literal m -> g_pos st <= advance (g_pos st) s) ->
  (needs_env s = true -> exists lo, mget (locals ns) (g_current st) = Some lo /\ forall x, names_get (globals ns) lo x = get x) ->
  (forall e kw, In e (stmt_exprs s) -> safe (eval pr (mkEnv kw get) e)) ->
  (exists st', gen_step pr ns s st = Ok st') \/
  (exists er, gen_step pr ns s st = Err er /\ forall bs, ~ emits pr get (g_pos st) s bs).
Proof.
  intros Ht Hpl Hp Hl Hadv Hback Hget Hsafe. set (p := g_pos st) in *.
  destruct s as [d|n|i|n e|n e|t|n args]; cbn [gen_step]; try (left; eauto; fail); try contradiction.
  - destruct d as [items|l|ws|n t|n t|it pa|a m]; cbn [gen_dir]; try contradiction.
    + destruct (Hget eq_refl) as (lo & Hlo & Hx). unfold as_env. rewrite Hlo. cbn [bind]. fold p.
      set (get' := names_get (globals ns) lo) in *.
      destruct (items_total pr get' items) as [(l & Hf)|[Hno Herr]].
      { intros e He. rewrite (eval_ext pr "Name" get' get) by assumption. apply Hsafe. assumption. }
      * left. rewrite (emit_items_eq pr get' items l) by assumption.
        cbn [advance] in Hadv. rewrite <- (items_len _ _ _ _ Hf) in Hadv.
        destruct (emit_done pr (List.concat l) (g_out st) p ltac:(lia) Hadv ltac:(lia)) as (o & -> & _).
        cbn [bind]. eauto.
      * right. destruct (Herr (g_out st) p ltac:(lia) Hadv ltac:(lia)) as (er & ->). cbn [bind].
        eexists. split; [reflexivity|]. intros bs He. apply (emits_ext pr get get') in He; [|intros; symmetry; auto].
        destruct He as (l & Hf & _). eapply Hno. eassumption.
    + destruct (65535 <? l) eqn:E.
      * right. eexists. split; [reflexivity|]. apply Z.ltb_lt in E. intros bs [H _]. lia.
      * left. simpl. eauto.
    + destruct (Hget eq_refl) as (lo & Hlo & Hx). unfold as_env. rewrite Hlo. cbn [bind]. fold p.
      set (get' := names_get (globals ns) lo) in *.
      destruct (words_total pr get' ws) as [(l & Hf)|[Hno Herr]].
      { intros e He. rewrite (eval_ext pr "Name" get' get) by assumption. apply Hsafe. assumption. }
      * left. rewrite (emit_words_eq pr get' ws l) by assumption.
        cbn [advance] in Hadv. fold (zlen ws) in Hadv. rewrite <- (words_len _ _ _ _ Hf) in Hadv.
        destruct (emit_done pr (List.concat l) (g_out st) p ltac:(lia) Hadv ltac:(lia)) as (o & -> & _).
        cbn [bind]. eauto.
      * right. destruct (Herr (g_out st) p ltac:(lia) Hadv ltac:(lia)) as (er & ->). cbn [bind].
        eexists. split; [reflexivity|]. intros bs He. apply (emits_ext pr get get') in He; [|intros; symmetry; auto].
        destruct He as (l & Hf & _). eapply Hno. eassumption.
    + cbn [typed advance] in *. fold p.
      destruct (emit_text_total pr 32 n t (g_out st) p Ht ltac:(lia) Hadv ltac:(lia)) as [([o q] & ->)|(er & -> & Hno)];
        cbn [bind]; eauto.
    + cbn [typed advance] in *. fold p.
      destruct (emit_text_total pr 0 n t (g_out st) p Ht ltac:(lia) Hadv ltac:(lia)) as [([o q] & ->)|(er & -> & Hno)];
        cbn [bind]; eauto.
    + fold p. rewrite wrap32_id by (unfold in32; lia).
      destruct (dir_size_ok pr (DCnop a m) p ltac:(lia) Ht ltac:(lia)) as [(k & E1 & E2)|(E1 & (a' & m' & [= <- <-] & Hno))].
      * rewrite E1. cbn [bind].
        pose proof (advance_typed p _ ltac:(lia) Ht) as Hpos. left.
        assert (Hlit : literal a /\ literal m).
        { cbn [dir_size] in E1. unfold eval_cnop in E1.
          destruct a; simpl in E1; try discriminate. destruct m; simpl in E1; try discriminate.
          unfold literal. repeat split; try (eexists; eexists; reflexivity). }
        destruct Hlit as [La Lm].
        destruct pr.
        -- specialize (Hback eq_refl a m eq_refl La Lm).
           unfold wrap_usize. rewrite Z.mod_small by lia. rewrite chk_usize_ok by lia. cbn [bind]. eauto.
        -- unfold chk_usize. destruct (fits_usize (p + wrap_usize k)); cbn [bind]; eauto.
      * rewrite E1. cbn [bind]. right. eexists. split; [reflexivity|]. intros bs (H1 & H2 & _). tauto.
  - destruct (is_local n); eauto.
  - destruct (Hget eq_refl) as (lo & Hlo & Hx). set (get' := names_get (globals ns) lo) in *.
    pose proof (doc_length_pos i) as Hd. cbn [advance] in Hadv. fold p.
    rewrite size_doc, chk_usize_ok by lia. cbn [bind].
    pose proof (eval_instr_run pr (p + doc_length i) (g_current st) ns lo i Hlo ltac:(lia)) as Hrun.
    fold get' in Hrun.
    assert (Hfs : safe (fields_run pr get' (p + doc_length i) (snd (key i)) (op_list i))).
    { apply fields_run_safe. intros e kw He. rewrite (eval_ext pr kw get' get) by assumption. apply Hsafe.
      cbn [stmt_exprs]. apply in_flat_map. exists (inl e). split; [assumption|left; reflexivity]. }
    destruct (safe_cases _ Hfs) as [[vs E]|[er E]]; rewrite E in Hrun.
    + destruct Hrun as (j & -> & Hk & Hv). cbn [bind]. left.
      pose proof (size_eval pr (p + doc_length i) (g_current st) ns i j) as Hsz.
      destruct (emit_done pr (encode j) (g_out st) p ltac:(lia)) as (o & E1 & _); [|lia|].
      * rewrite encode_zlen.
        assert (size j = size i) as ->; [|rewrite size_doc; assumption].
        clear -Hk. rewrite (size_doc i). revert Hk. generalize i. intros i' Hk.
        pose proof (encode_docs j) as (f & Hf & Hfk & Hb).
        rewrite (doc_length_form f i') by congruence. rewrite <- encode_zlen, Hb, form_len. reflexivity.
      * rewrite E1. cbn [bind]. eauto.
    + rewrite Hrun. cbn [bind]. right. eexists. split; [reflexivity|]. intros bs He.
      apply (emits_ext pr get get') in He; [|intros; symmetry; auto].
      destruct He as (f & vs & Hf & Hk & Ho & _).
      apply fields_run_ok in Ho. rewrite <- Hk in E. cbn [snd] in E. congruence.
Qed.
