(** Errors of the name pass and of the emission pass. *)
From Coq Require Import ZArith List String Ascii Bool Lia.
From Verif Require Import Base Expr Bits Instr Ast Asm Span SpanAsm SpecSpan SpecIsa SpecExpr SpecAsm SpecBlame.
From Verif Require Import ExprProofs AsmProofs AsmProofs2 AsmProofs3 AsmProofs4 AsmProofs5 AsmProofs6 SpanProofs SpanProofs2 SpanProofs3 SpanAsmProofs BlameProofs.
Import ListNotations.
Open Scope string_scope.
Open Scope list_scope.
Open Scope Z_scope.

Local Arguments Z.add : simpl never.
Local Arguments Z.sub : simpl never.
Local Arguments Z.mul : simpl never.
Local Arguments Z.opp : simpl never.
Local Arguments Z.div : simpl never.
Local Arguments Z.pow : simpl never.
Local Arguments Z.modulo : simpl never.
Local Arguments Z.land : simpl never.
Local Arguments Z.shiftr : simpl never.
Local Arguments Z.leb : simpl never.
Local Arguments Z.ltb : simpl never.
Local Arguments Z.eqb : simpl never.
Local Arguments Z.max : simpl never.
Local Arguments Z.of_nat : simpl never.
Local Arguments Z.to_nat : simpl never.

Lemma eval_s_ext : forall pr kw g g2 x, (forall n, g n = g2 n) -> eval_s pr (mkEnv kw g) x = eval_s pr (mkEnv kw g2) x.
Proof.
  intros pr kw g g2 x H. induction x as [s n|s n r|s n|s n|op s x IH|op s l IHl r IHr]; cbn [eval_s env_get env_kind]; try reflexivity.
  - now rewrite H.
  - now rewrite IH.
  - now rewrite IHl, IHr.
Qed.

(** * The name pass *)

Definition name_inv (l done : list sstatement) (gl : smap name_value) : Prop :=
  forall x v, mget gl x = Some v ->
    (exists j m, nth_error l j = Some (SSLabel (fst v) m) /\ lower m = x /\ is_local m = false) \/
    (exists j s e, nth_error done j = Some s /\ variable s (fst v) x e).

Lemma name_inv_more : forall l done s gl, name_inv l done gl -> name_inv l (done ++ [s]) gl.
Proof.
  intros l done s gl I x v H. destruct (I x v H) as [L|(j & t & e & J & V)]; [now left|].
  right. exists j, t, e. split; [now apply nth_pre|exact V].
Qed.

Lemma name_step_inv : forall pr l done s st st2, name_inv l done (ns_globals st) -> name_step_s pr s st = POk st2 ->
  name_inv l (done ++ [s]) (ns_globals st2).
Proof.
  intros pr l done s st st2 I H.
  assert (Var : forall sp n x, (s = SSVariable sp n x \/ s = SSAlias sp n x) ->
    (let? st1 := (let? v := eval_s pr (map_env "Name" (SpanAsm.values (ns_globals st))) x in
                  let? gl := add_name_s (lower n) (sp, v) (ns_globals st) in
                  POk (mkNamS gl (ns_pos st) (ns_max st))) in
     POk (mkNamS (ns_globals st1) (ns_pos st1) (if ns_max st1 <? ns_pos st1 then ns_pos st1 else ns_max st1))) = POk st2 ->
    name_inv l (done ++ [s]) (ns_globals st2)).
  { intros sp n x E F. destruct (eval_s pr (map_env "Name" (SpanAsm.values (ns_globals st))) x) as [v| | |]; cbn [pbind] in F; try discriminate.
    assert (A := add_found (lower n) (sp, v) (ns_globals st)). destruct (add_name_s (lower n) (sp, v) (ns_globals st)) as [gl| | |]; try contradiction; [|discriminate].
    cbn [pbind] in F. injection F as <-. cbn [ns_globals]. intros y w W. destruct (A y w W) as [(-> & ->)|W2].
    - right. exists (List.length done), s, x. split; [apply nth_mid|]. exists n. split; [reflexivity|exact E].
    - now apply (name_inv_more l done s) in W2. }
  destruct s as [d|sp n|sp i|sp n x|sp n x|t|sp n args]; unfold name_step_s in H.
  - destruct (dir_size_s pr d (ns_pos st)) as [k| | |]; cbn [pbind] in H; try discriminate.
    destruct (chk32 pr (ns_pos st + k)); cbn [no_place pbind] in H; try discriminate. injection H as <-. now apply name_inv_more.
  - injection H as <-. now apply name_inv_more.
  - destruct (chk32 pr (ns_pos st + wrap32 (size i))); cbn [no_place pbind] in H; try discriminate. injection H as <-. now apply name_inv_more.
  - eapply Var; eauto.
  - eapply Var; eauto.
  - injection H as <-. now apply name_inv_more.
  - discriminate.
Qed.

Lemma name_loop_app_s : forall pr a b st, name_loop_s pr (a ++ b) st = let? st2 := name_loop_s pr a st in name_loop_s pr b st2.
Proof. intros pr a b. induction a as [|s a IH]; intros st; cbn [app name_loop_s]; [reflexivity|]. destruct (name_step_s pr s st); cbn [pbind]; auto. Qed.

Lemma name_loop_inv : forall pr l gl, name_inv l [] gl -> forall done st,
  name_loop_s pr done (mkNamS gl 0 0) = POk st -> name_inv l done (ns_globals st).
Proof.
  intros pr l gl I done. induction done as [|s done IH] using rev_ind; intros st H.
  - injection H as <-. exact I.
  - rewrite name_loop_app_s in H. destruct (name_loop_s pr done (mkNamS gl 0 0)) as [st1| | |]; cbn [pbind] in H; try discriminate.
    cbn [name_loop_s] in H. destruct (name_step_s pr s st1) as [st2| | |] eqn:E; cbn [pbind] in H; try discriminate. injection H as <-.
    eapply name_step_inv; [apply IH; reflexivity|exact E].
Qed.

Lemma name_loop_err : forall pr l st e at_, name_loop_s pr l st = PErr e at_ -> exists pre s post st2,
  l = pre ++ s :: post /\ name_loop_s pr pre st = POk st2 /\ name_step_s pr s st2 = PErr e at_.
Proof.
  intros pr l. induction l as [|s l IH]; intros st e at_ H; cbn [name_loop_s] in H; [discriminate|].
  destruct (name_step_s pr s st) as [st1|e1 at1| |] eqn:E; cbn [pbind] in H; try discriminate.
  - destruct (IH _ _ _ H) as (pre & s2 & post & st2 & -> & P & Q). exists (s :: pre), s2, post, st2. split; [reflexivity|]. split; [|exact Q].
    cbn [name_loop_s]. now rewrite E.
  - injection H as -> ->. exists [], s, l, st. auto.
Qed.

Lemma ok_inj : forall {A : Type} (a b : A), Ok a = Ok b -> a = b. Proof. now intros A a b [= ->]. Qed.

(** The tables of the label pass, without places. *)
Lemma labels_known : forall pr l b, Forall typed (plainly l) -> range (plainly l) -> compute_labels_s pr l = POk b ->
  erase_builder b = label_names (plainly l) /\ NoDup (map fst (globs 0 (plainly l))) /\ (forall r, NoDup (map fst (region r (plainly l)))) /\
  name_inv l [] (b_globals b).
Proof.
  intros pr l b T R H. assert (E := labels_same pr l). rewrite H in E. cbn [unplaced] in E. fold (plainly l) in E.
  destruct (compute_labels_spec pr (plainly l) T R) as [(F & G & L)|[(F & _)|[(x & F & _)|(F & _)]]]; rewrite F in E; try discriminate.
  apply ok_inj in E. split; [exact E|]. split; [exact G|]. split; [exact L|].
  unfold compute_labels_s in H. destruct (label_loop_s pr l (mkLabS [] [] [] "" 0)) as [st| | |] eqn:Q; cbn [pbind] in H; try discriminate.
  injection H as <-. cbn [b_globals]. apply label_loop_inv in Q. destruct Q as (G2 & _). intros x v V. left. now apply G2.
Qed.

(** After a part of the name pass, the table is the one of the specification. *)
Lemma names_known : forall pr l b pre rest st, Forall typed (plainly l) -> range (plainly l) -> compute_labels_s pr l = POk b -> l = pre ++ rest ->
  name_loop_s pr pre (mkNamS (b_globals b) 0 0) = POk st -> ninv pr (plainly l) (plainly pre) (erase_nam st) /\
  (forall k s n e, nth_error (plainly pre) k = Some s -> var_def s = Some (n, e) -> exists v, eval pr (mkEnv "Name" (visible pr (plainly l) k)) e = Ok v).
Proof.
  intros pr l b pre rest st T R B S0 H. destruct (labels_known pr l b T R B) as (E & G & L & _).
  assert (V : SpanAsm.values (b_globals b) = rev (globs 0 (plainly l))) by (apply (f_equal globals) in E; exact E).
  assert (Q := name_loop_same pr pre (mkNamS (b_globals b) 0 0)). rewrite H in Q. cbn [unplaced] in Q. unfold erase_nam at 2 in Q. cbn [ns_globals ns_pos ns_max] in Q.
  rewrite V in Q. fold (plainly pre) in Q.
  assert (P : plainly l = plainly pre ++ plainly rest) by (rewrite S0; apply plainly_app).
  assert (T2 : Forall typed (plainly pre)) by (rewrite P in T; now apply Forall_app in T).
  assert (R2 : range (plainly pre)).
  { intros k. destruct (Nat.le_gt_cases k (List.length (plainly pre))) as [K|K].
    - specialize (R k). rewrite P, firstn_pre in R by assumption. exact R.
    - specialize (R (List.length (plainly pre))). rewrite P, firstn_mid in R. rewrite firstn_all2 by lia. exact R. }
  destruct (name_loop_spec pr (plainly l) (plainly pre) T2 R2 G (ex_intro _ _ P)) as [(nst & F & I & V2)|[(F & _)|[(x & F & _)|[F|(F & _)]]]];
    try (rewrite F in Q; discriminate Q).
  - rewrite F in Q. apply ok_inj in Q. rewrite Q. split; [exact I|exact V2].
  - destruct F as (k & s & n & e & _ & _ & _ & F). rewrite F in Q. destruct (eval _ _ _) in Q; discriminate Q.
Qed.

Lemma names_blamed : forall pr l e at_, Forall typed (plainly l) -> range (plainly l) -> compute_names_s pr l = PErr e at_ -> faulty pr l e at_.
Proof.
  intros pr l e at_ T R H. unfold compute_names_s in H. destruct (compute_labels_s pr l) as [b|e1 at1| |] eqn:B; cbn [pbind] in H; try discriminate.
  2:{ injection H as -> ->. now apply labels_blamed. }
  destruct (name_loop_s pr l (mkNamS (b_globals b) 0 0)) as [st|e1 at1| |] eqn:E; cbn [pbind] in H; try discriminate.
  1:{ exfalso. apply silent_bind in H; [|apply silent_32]. destruct H as (q & _ & H). discriminate H. }
  injection H as -> ->. destruct (name_loop_err _ _ _ _ _ E) as (pre & s & post & st & S0 & P & Q).
  destruct (labels_known pr l b T R B) as (_ & _ & _ & I0). assert (I := name_loop_inv pr l _ I0 pre st P).
  destruct (names_known pr l b pre (s :: post) st T R B S0 P) as (N & VD).
  assert (IN : In s l) by (rewrite S0; apply in_elt). assert (K : nth_error l (List.length pre) = Some s) by (rewrite S0; apply nth_mid).
  assert (Var : forall sp n x, (s = SSVariable sp n x \/ s = SSAlias sp n x) ->
    (let? st1 := (let? v := eval_s pr (map_env "Name" (SpanAsm.values (ns_globals st))) x in
                  let? gl := add_name_s (lower n) (sp, v) (ns_globals st) in
                  POk (mkNamS gl (ns_pos st) (ns_max st))) in
     POk (mkNamS (ns_globals st1) (ns_pos st1) (if ns_max st1 <? ns_pos st1 then ns_pos st1 else ns_max st1))) = PErr e at_ ->
    faulty pr l e at_).
  { intros sp n x V F.
    assert (X : eval_s pr (map_env "Name" (SpanAsm.values (ns_globals st))) x = eval_s pr (mkEnv "Name" (visible pr (plainly l) (List.length pre))) x).
    { apply eval_s_ext. intros y. destruct N as (_ & _ & N & _). rewrite <- (plainly_length pre). apply N. }
    rewrite X in F. destruct (eval_s pr (mkEnv "Name" (visible pr (plainly l) (List.length pre))) x) as [v|e1 at1| |] eqn:Y; cbn [pbind] in F; try discriminate.
    - assert (A := add_found (lower n) (sp, v) (ns_globals st)). destruct (add_name_s (lower n) (sp, v) (ns_globals st)) as [gl|e1 at1| |]; try contradiction; [discriminate|].
      cbn [pbind] in F. injection F as -> ->. destruct A as (-> & w & W & ->). apply faulty_twice. cbn [fst].
      assert (V0 : variable s sp (lower n) x) by (exists n; auto).
      destruct (I _ _ W) as [(j & m & J & M & IM)|(j & t & f & J & V2)].
      + exact (twice_mixed l (lower n) (List.length pre) j s x m sp (fst w) K V0 J M IM).
      + destruct (nth_pre pre (s :: post) j _ J) as (J2 & LT). rewrite <- S0 in J2. exact (twice_variable l (lower n) (List.length pre) j s t x f sp (fst w) LT K V0 J2 V2).
    - injection F as -> ->. eapply faulty_variable; [exact K| |exact Y|].
      + exists n. split; [reflexivity|exact V].
      + intros j t m y J HJ. apply VD. rewrite S0, plainly_app, nth_error_app1 in HJ by (rewrite plainly_length; lia). exact HJ. }
  destruct s as [d|sp n|sp i|sp n x|sp n x|t|sp n args]; unfold name_step_s in Q; try discriminate.
  - destruct (dir_size_s pr d (ns_pos st)) as [k|e1 at1| |] eqn:D; cbn [pbind] in Q; try discriminate.
    + exfalso. destruct (chk32 pr (ns_pos st + k)) eqn:C; cbn [no_place pbind] in Q; try discriminate. now apply silent_32 in C.
    + injection Q as -> ->. apply dir_size_wrong in D. eapply misaligned_blamed; eauto.
  - exfalso. destruct (chk32 pr (ns_pos st + wrap32 (size i))) eqn:C; cbn [no_place pbind] in Q; try discriminate. now apply silent_32 in C.
  - eapply Var; eauto.
  - eapply Var; eauto.
Qed.

(** * Emission *)

Lemma items_wrong : forall pr get items out pos e at_, emit_items_s pr (mkEnv "Name" get) items out pos = PErr e at_ ->
  exists before x after, items = before ++ SBExpr x :: after /\ Forall (fun b => exists bs, item_bytes pr get (erase_byte b) bs) before /\
    (eval_s pr (mkEnv "Name" get) x = PErr e at_ \/
     exists v, eval_s pr (mkEnv "Name" get) x = POk v /\ ~ -128 <= v <= 255 /\ e = ByteOutOfRange v /\ at_ = [span_of x]).
Proof.
  intros pr get items. induction items as [|b items IH]; intros out pos e at_ H; cbn [emit_items_s] in H; [discriminate|].
  assert (Go : forall out2 pos2, (exists bs, item_bytes pr get (erase_byte b) bs) -> emit_items_s pr (mkEnv "Name" get) items out2 pos2 = PErr e at_ ->
    exists before x after, b :: items = before ++ SBExpr x :: after /\ Forall (fun b => exists bs, item_bytes pr get (erase_byte b) bs) before /\
    (eval_s pr (mkEnv "Name" get) x = PErr e at_ \/
     exists v, eval_s pr (mkEnv "Name" get) x = POk v /\ ~ -128 <= v <= 255 /\ e = ByteOutOfRange v /\ at_ = [span_of x])).
  { intros out2 pos2 B F. destruct (IH _ _ _ _ F) as (before & x & after & -> & A & X). exists (b :: before), x, after. split; [reflexivity|]. split; [now constructor|exact X]. }
  destruct b as [x|s vec]; cbn [emit_item_s] in H.
  - assert (Same := eval_same pr (mkEnv "Name" get) x). destruct (eval_s pr (mkEnv "Name" get) x) as [v|e1 at1| |] eqn:E; cbn [pbind] in H; try discriminate.
    + destruct ((v <? -128) || (255 <? v)) eqn:C; cbn [pbind] in H.
      * injection H as <- <-. exists [], x, items. split; [reflexivity|]. split; [constructor|]. right. exists v. split; [exact E|]. split; [|auto].
        apply orb_true_iff in C. rewrite !Z.ltb_lt in C. lia.
      * apply orb_false_iff in C. rewrite !Z.ltb_ge in C.
        destruct (emit pr [Z.land v 255] out pos) as [[out2 pos2]|e2| |] eqn:M; cbn [no_place pbind] in H; try discriminate; [|now apply silent_emit in M].
        apply (Go out2 pos2); [|exact H]. cbn [unplaced] in Same. exists [v mod 256], v. split; [now symmetry|]. split; [lia|reflexivity].
    + injection H as -> ->. exists [], x, items. split; [reflexivity|]. split; [constructor|]. now left.
  - destruct (emit pr vec out pos) as [[out2 pos2]|e2| |] eqn:M; cbn [no_place pbind] in H; try discriminate; [|now apply silent_emit in M].
    apply (Go out2 pos2); [|exact H]. now exists vec.
Qed.

Lemma words_wrong : forall pr get ws out pos e at_, emit_words_s pr (mkEnv "Name" get) ws out pos = PErr e at_ ->
  exists before x after, ws = before ++ x :: after /\ Forall (fun w => exists bs, word_bytes pr get (erase w) bs) before /\
    (eval_s pr (mkEnv "Name" get) x = PErr e at_ \/
     exists v, eval_s pr (mkEnv "Name" get) x = POk v /\ ~ -32768 <= v <= 65535 /\ e = WordOutOfRange v /\ at_ = [span_of x]).
Proof.
  intros pr get ws. induction ws as [|x ws IH]; intros out pos e at_ H; cbn [emit_words_s] in H; [discriminate|].
  assert (Same := eval_same pr (mkEnv "Name" get) x). destruct (eval_s pr (mkEnv "Name" get) x) as [v|e1 at1| |] eqn:E; cbn [pbind] in H; try discriminate.
  - destruct ((v <? -32768) || (65535 <? v)) eqn:C.
    + injection H as <- <-. exists [], x, ws. split; [reflexivity|]. split; [constructor|]. right. exists v. split; [exact E|]. split; [|auto].
      apply orb_true_iff in C. rewrite !Z.ltb_lt in C. lia.
    + apply orb_false_iff in C. rewrite !Z.ltb_ge in C. cbv zeta in H.
      match type of H with pbind (no_place (emit _ ?bs _ _)) _ = _ => destruct (emit pr bs out pos) as [[out2 pos2]|e2| |] eqn:M end;
        cbn [no_place pbind] in H; try discriminate; [|now apply silent_emit in M].
      destruct (IH _ _ _ _ H) as (before & y & after & -> & A & X). exists (x :: before), y, after. split; [reflexivity|]. split; [|exact X].
      constructor; [|exact A]. cbn [unplaced] in Same. exists [v mod 256; v / 256 mod 256], v. split; [now symmetry|]. split; [lia|reflexivity].
  - injection H as -> ->. exists [], x, ws. split; [reflexivity|]. split; [constructor|]. now left.
Qed.

Lemma text_wrong : forall pr s pad n bs out pos e at_, emit_text_s pr s pad n bs out pos = PErr e at_ ->
  n < Z.of_nat (List.length bs) /\ e = NumberOfBytesIsLongerThanLength n (Z.of_nat (List.length bs)) /\ at_ = [s].
Proof.
  intros pr s pad n bs out pos e at_ H. unfold emit_text_s in H. cbv zeta in H. destruct (n <? Z.of_nat (List.length bs)) eqn:C.
  - injection H as <- <-. apply Z.ltb_lt in C. auto.
  - exfalso. apply silent_bind in H; [|apply silent_emit]. destruct H as ([out2 pos2] & _ & H). now apply silent_place in H; [|apply silent_emit].
Qed.

Lemma doc_size : forall i : instr sexpr imode, size i = doc_length (map_instr erase i).
Proof. intros i. now rewrite <- size_doc, size_same. Qed.

(** A step of the emission pass that fails. *)
Lemma gen_step_wrong : forall pr ns s st get e at_, gen_step_s pr ns s st = PErr e at_ -> typed (erase_statement s) ->
  0 <= g_pos st -> advance (g_pos st) (erase_statement s) <= 2147483647 ->
  (needs_env (erase_statement s) = true -> forall lo, mget (locals ns) (g_current st) = Some lo -> forall x, names_get (globals ns) lo x = get x) ->
  (exists d, s = SSDirective d /\ misaligned d e at_) \/ wrong pr get (g_pos st) s e at_.
Proof.
  intros pr ns s st get e at_ H T P A N. destruct s as [d|sp n|sp i|sp n x|sp n x|t|sp n args]; cbn [gen_step_s] in H; try discriminate.
  - destruct (gen_dir_s pr ns d st) as [[out pos]|e1 at1| |] eqn:D; cbn [pbind] in H; try discriminate. injection H as -> ->.
    destruct d as [s items|s loc|s ws|s n bs|s n bs|s t path|s a m]; cbn [gen_dir_s] in D.
    + right. apply silent_bind in D; [|apply silent_env]. destruct D as (en & E & D). unfold as_env in E.
      destruct (mget (locals ns) (g_current st)) as [lo|] eqn:M; [|discriminate]. injection E as <-. specialize (N eq_refl lo eq_refl).
      apply items_wrong in D. destruct D as (before & x & after & -> & F & X).
      assert (F2 : Forall (fun b => exists bs, item_bytes pr get (erase_byte b) bs) before).
      { eapply Forall_impl; [|exact F]. intros [y|sy by_] (bs & B); exists bs; cbn in *; auto. destruct B as (v & V & B). exists v. split; [|exact B]. rewrite <- V. apply eval_ext. auto. }
      rewrite (eval_s_ext pr "Name" _ get) in X by exact N. destruct X as [X|(v & V & C & -> & ->)]; [now apply wrong_byte|now apply wrong_byte_range].
    + right. destruct (65535 <? loc) eqn:C; [|discriminate]. injection D as <- <-. apply Z.ltb_lt in C. cbn [erase_statement erase_directive typed advance] in T, A.
      rewrite wrap32_id by (unfold in32; lia). now apply wrong_org.
    + right. apply silent_bind in D; [|apply silent_env]. destruct D as (en & E & D). unfold as_env in E.
      destruct (mget (locals ns) (g_current st)) as [lo|] eqn:M; [|discriminate]. injection E as <-. specialize (N eq_refl lo eq_refl).
      apply words_wrong in D. destruct D as (before & x & after & -> & F & X).
      assert (F2 : Forall (fun w => exists bs, word_bytes pr get (erase w) bs) before).
      { eapply Forall_impl; [|exact F]. intros y (bs & v & V & B). exists bs, v. split; [|exact B]. rewrite <- V. apply eval_ext. auto. }
      rewrite (eval_s_ext pr "Name" _ get) in X by exact N. destruct X as [X|(v & V & C & -> & ->)]; [now apply wrong_word|now apply wrong_word_range].
    + right. apply text_wrong in D. destruct D as (C & -> & ->). now apply wrong_text.
    + right. apply text_wrong in D. destruct D as (C & -> & ->). now apply wrong_string.
    + discriminate.
    + left. exists (SDCnop s a m). split; [reflexivity|]. destruct (dir_size_s pr (SDCnop s a m) (wrap32 (g_pos st))) as [k|e1 at1| |] eqn:Q; cbn [pbind] in D; try discriminate.
      * exfalso. apply silent_bind in D; [|apply silent_usize]. destruct D as (q & _ & D). discriminate D.
      * injection D as -> ->. now apply dir_size_wrong in Q.
  - destruct (is_local n); discriminate.
  - right. cbn [erase_statement advance] in A. assert (L := doc_length_pos (map_instr erase i)). rewrite doc_size in H.
    rewrite chk_usize_ok in H by lia. cbn [no_place pbind] in H. set (next := g_pos st + doc_length (map_instr erase i)) in *.
    destruct (mget (locals ns) (g_current st)) as [lo|] eqn:M.
    2:{ unfold eval_instr_s, as_env in H. rewrite M in H. discriminate H. }
    specialize (N eq_refl lo eq_refl).
    destruct (eval_instr_s pr next (g_current st) ns i) as [j|e1 at1| |] eqn:Q; cbn [pbind] in H; try discriminate.
    + exfalso. apply silent_bind in H; [|apply silent_emit]. destruct H as ([o q] & _ & H). discriminate H.
    + injection H as -> ->. apply (eval_instr_s_run pr next (g_current st) ns lo) in Q; [|exact M|lia].
      apply fields_wrong in Q; [|apply kinds_fit]. destruct Q as (ks1 & k & ks2 & os1 & x & os2 & vs & K & O & V & X).
      apply (operands_rel_ext _ _ get) in V; [|exact N]. rewrite (eval_s_ext pr (kind_word k) _ get) in X by exact N.
      destruct X as [X|(v & X & F & ->)]; [eapply wrong_operand|eapply wrong_field]; eauto.
Qed.

Lemma gen_loop_err : forall pr ns l st e at_, gen_loop_s pr ns l st = PErr e at_ -> exists pre s post st2,
  l = pre ++ s :: post /\ gen_loop_s pr ns pre st = POk st2 /\ gen_step_s pr ns s st2 = PErr e at_.
Proof.
  intros pr ns l. induction l as [|s l IH]; intros st e at_ H; cbn [gen_loop_s] in H; [discriminate|].
  destruct (gen_step_s pr ns s st) as [st1|e1 at1| |] eqn:E; cbn [pbind] in H; try discriminate.
  - destruct (IH _ _ _ H) as (pre & s2 & post & st2 & -> & P & Q). exists (s :: pre), s2, post, st2. split; [reflexivity|]. split; [|exact Q].
    cbn [gen_loop_s]. now rewrite E.
  - injection H as -> ->. exists [], s, l, st. auto.
Qed.

Theorem assemble_blamed : forall pr l e at_, Forall typed (plainly l) -> layout_small (plainly l) -> assemble_s pr l = PErr e at_ -> faulty pr l e at_.
Proof.
  intros pr l e at_ T LS H.
  assert (R : range (plainly l)) by (intros k; specialize (LS k); lia).
  assert (CS : pr = Release -> cnop_small (plainly l)) by (intros _ k a m _; apply R).
  unfold assemble_s in H. destruct (compute_names_s pr l) as [[mp ns]|e1 at1| |] eqn:C; cbn [pbind] in H; try discriminate.
  2:{ injection H as -> ->. now apply names_blamed. }
  apply silent_bind in H; [|apply silent_usize]. destruct H as (n & U & H).
  apply silent_bind in H; [|apply silent_vec]. destruct H as (vec & Z0 & H).
  destruct (gen_loop_s pr ns l (mkGen vec 0 "")) as [st|e1 at1| |] eqn:G; cbn [pbind] in H; try discriminate. injection H as -> ->.
  unfold compute_names_s in C. destruct (compute_labels_s pr l) as [b| | |] eqn:B; cbn [pbind] in C; try discriminate.
  destruct (name_loop_s pr l (mkNamS (b_globals b) 0 0)) as [nst| | |] eqn:NL; cbn [pbind] in C; try discriminate.
  destruct (chk32 pr (ns_max nst + 1)) as [m| | |] eqn:M; cbn [no_place pbind] in C; try discriminate. injection C as <- NS.
  destruct (names_known pr l b l [] nst T R B (eq_sym (app_nil_r l)) NL) as (I & VD).
  destruct (labels_known pr l b T R B) as (EB & GD & RD & _).
  assert (NSE : ns = mkNames (n_globals (erase_nam nst)) (locals (label_names (plainly l)))).
  { rewrite <- NS, <- EB. reflexivity. }
  assert (TOP : ns_max nst = top (plainly l)) by (apply I).
  assert (HM : 0 <= top (plainly l) <= 2147483646) by (destruct (top_reached (plainly l)) as (k & ->); apply LS).
  assert (NV : n = top (plainly l)).
  { rewrite <- TOP. apply (image_length pr (ns_max nst) n vec); [lia| |exact Z0]. rewrite M. exact U. }
  subst n. unfold zero_vec in Z0. destruct (9223372036854775807 <? top (plainly l)); [discriminate|]. injection Z0 as <-.
  assert (GN := gnames_nodup (plainly l) T GD).
  assert (Get : forall a c rest, plainly l = a ++ rest -> mget (locals ns) (rawcur a) = Some c ->
    forall x, names_get (globals ns) c x = getf (n_globals (erase_nam nst)) (plainly l) (List.length a) x).
  { intros a c rest S0 F x. rewrite NSE in F |- *. cbn [locals globals] in *. rewrite (scope_found (plainly l) a rest c S0 GN F). unfold getf.
    replace (scope_no (plainly l) (List.length a)) with (ngl a) by (unfold scope_no; rewrite S0, firstn_mid; reflexivity). reflexivity. }
  destruct (gen_loop_err _ _ _ _ _ _ G) as (pre & s & post & st & S0 & P & Q).
  assert (SP : plainly l = plainly pre ++ erase_statement s :: plainly post) by (rewrite S0; apply plainly_app).
  assert (GL := gen_loop_same pr ns pre (mkGen (repeat 0 (Z.to_nat (top (plainly l)))) 0 "")). rewrite P in GL. cbn [unplaced] in GL. symmetry in GL. fold (plainly pre) in GL.
  assert (GI : ginv pr (getf (n_globals (erase_nam nst)) (plainly l)) (plainly pre) (top (plainly l)) st).
  { eapply (gen_loop_ok pr ns _ (plainly l)); [exact T|lia|exact CS| |exact SP|exact GL].
    intros a t rest S1 _ c F x. eapply Get; eauto. }
  destruct GI as (GP & _ & GC & _ & chunks & CL & CE & _).
  assert (K : nth_error l (List.length pre) = Some s) by (rewrite S0; apply nth_mid).
  assert (FN : firstn (List.length pre) (plainly l) = plainly pre) by (rewrite SP, <- (plainly_length pre); apply firstn_mid).
  assert (EA : forall k, env_at pr (plainly l) k (getf (n_globals (erase_nam nst)) (plainly l) k)) by (intros k; now apply getf_env_at).
  destruct (gen_step_wrong pr ns s st (getf (n_globals (erase_nam nst)) (plainly l) (List.length pre)) e at_ Q) as [(d & -> & D)|W].
  - rewrite Forall_forall in T. apply T. rewrite SP. apply in_elt.
  - rewrite GP. specialize (R (List.length pre)). rewrite FN in R. lia.
  - rewrite GP. specialize (R (Datatypes.S (List.length pre))). rewrite SP in R.
    change (plainly pre ++ erase_statement s :: plainly post) with (plainly pre ++ [erase_statement s] ++ plainly post) in R.
    rewrite app_assoc, firstn_pre in R by (rewrite app_length, plainly_length; cbn; lia).
    rewrite firstn_all2 in R by (rewrite app_length, plainly_length; cbn; lia). rewrite addr_snoc in R. lia.
  - intros _ c F x. rewrite GC in F. rewrite <- (plainly_length pre). eapply Get; eauto.
  - eapply misaligned_blamed; [|exact D]. rewrite S0. apply in_elt.
  - eapply faulty_statement; [exact K|apply EA| | |eapply ninv_nodup; eauto|exact VD].
    + rewrite FN, <- GP. exact W.
    + intros j t J HJ. assert (JP : nth_error (plainly pre) j = Some t).
      { rewrite SP, nth_error_app1 in HJ by (rewrite plainly_length; lia). exact HJ. }
      destruct (nth_error chunks j) as [bs|] eqn:CB; [|apply nth_error_None in CB; rewrite CL, plainly_length in CB; lia].
      exists (getf (n_globals (erase_nam nst)) (plainly l) j), bs. split; [apply EA|].
      replace (firstn j (plainly l)) with (firstn j (plainly pre)); [now apply CE|]. rewrite SP, firstn_pre; [reflexivity|]. rewrite plainly_length. lia.
Qed.

(** What is blamed is at fault. *)
Lemma wrong_no_bytes : forall pr get p s e at_, wrong pr get p s e at_ -> forall bs, ~ emits pr get p (erase_statement s) bs.
Proof.
  intros pr get p s e at_ W bs H.
  assert (Op : forall i ks k ks2 os x os2 vs, snd (key i) = ks ++ k :: ks2 -> op_list i = os ++ inl x :: os2 ->
    operands_rel pr get (p + doc_length (map_instr erase i)) ks (map erase_op os) vs -> emits pr get p (SInstr (map_instr erase i)) bs ->
    exists v o, eval_s pr (mkEnv (kind_word k) get) x = POk v /\ field_of k (p + doc_length (map_instr erase i)) v = inl o).
  { intros i ks k ks2 os x os2 vs K O V (f & ws & _ & FK & R & _).
    replace (f_kinds f) with (ks ++ k :: ks2) in R.
    2:{ rewrite <- K. replace (snd (key i)) with (snd (key (map_instr erase i))) by (now destruct i). now rewrite <- FK. }
    replace (op_list (map_instr erase i)) with (map erase_op (os ++ inl x :: os2)) in R.
    2:{ rewrite <- O. now destruct i. }
    rewrite map_app in R. clear - V R. revert ws R. cbn [map erase_op] in *. generalize dependent (map erase_op os2). intros os3.
    revert V. generalize (map erase_op os). intros os1 V. induction V as [|k1 a o ks os1 vs A _ IH]; intros ws R; cbn [app] in R; inversion R as [|k9 a9 o9 ks9 os9 vs9 A9 R9]; subst.
    - cbn [operand_rel] in *. destruct A9 as (v & E & F & _). exists v, o9. split; [|exact F].
      assert (S0 := eval_same pr (mkEnv (kind_word k) get) x). rewrite E in S0. destruct (eval_s pr (mkEnv (kind_word k) get) x); cbn in S0; try discriminate. now injection S0 as ->.
    - eauto. }
  assert (Ev : forall x v, eval pr (mkEnv "Name" get) (erase x) = Ok v -> eval_s pr (mkEnv "Name" get) x = POk v).
  { intros x v E. assert (S0 := eval_same pr (mkEnv "Name" get) x). rewrite E in S0. destruct (eval_s pr (mkEnv "Name" get) x); cbn in S0; try discriminate. now injection S0 as ->. }
  destruct W as [s before x after e at_ F X|s before x after v F X C|s before x after e at_ F X|s before x after v F X C|s n t C|s n t C|s n C|
    s i ks k ks2 os x os2 vs e at_ K O V X|s i ks k ks2 os x os2 vs v e K O V X Y]; cbn [erase_statement erase_directive] in H.
  - destruct H as (l & H & _). rewrite map_app in H. apply Forall2_app_inv_l in H. destruct H as (l1 & l2 & _ & H & _). inversion H as [|a9 b9 l9 m9 A9 R9]; subst.
    cbn in A9. destruct A9 as (v & V & _). apply Ev in V. congruence.
  - destruct H as (l & H & _). rewrite map_app in H. apply Forall2_app_inv_l in H. destruct H as (l1 & l2 & _ & H & _). inversion H as [|a9 b9 l9 m9 A9 R9]; subst.
    cbn in A9. destruct A9 as (w & V & B & _). apply Ev in V. rewrite X in V. injection V as ->. contradiction.
  - destruct H as (l & H & _). rewrite map_app in H. apply Forall2_app_inv_l in H. destruct H as (l1 & l2 & _ & H & _). inversion H as [|a9 b9 l9 m9 A9 R9]; subst.
    destruct A9 as (v & V & _). apply Ev in V. congruence.
  - destruct H as (l & H & _). rewrite map_app in H. apply Forall2_app_inv_l in H. destruct H as (l1 & l2 & _ & H & _). inversion H as [|a9 b9 l9 m9 A9 R9]; subst.
    destruct A9 as (w & V & B & _). apply Ev in V. rewrite X in V. injection V as ->. contradiction.
  - destruct H as (L & _). lia.
  - destruct H as (L & _). lia.
  - destruct H as (L & _). lia.
  - destruct (Op _ _ _ _ _ _ _ _ K O V H) as (v & o & E & _). congruence.
  - destruct (Op _ _ _ _ _ _ _ _ K O V H) as (w & o & E & G). rewrite X in E. injection E as ->. congruence.
Qed.

Lemma nth_plainly : forall l k s, nth_error l k = Some s -> nth_error (plainly l) k = Some (erase_statement s).
Proof. intros l k s H. unfold plainly. rewrite nth_error_map, H. reflexivity. Qed.

Lemma twice_defined : forall l x p q, twice l x p q -> defined_twice (plainly l) x.
Proof.
  intros l x p q [i j n m p0 q0 L I J N M IN IM|i j n m p0 q0 L I J N M IN IM SC|i j s e m p0 q0 I (n & N & V) J M IM|
    i j s t e f p0 q0 L I (n & N & V) J (m & M & U)]; apply nth_plainly in I; apply nth_plainly in J; cbn [erase_statement] in *.
  - left. exists i, j, (SLabel n), (SLabel m). split; [lia|]. split; [exact I|]. split; [exact J|]. cbn. now rewrite IN, IM, N, M.
  - right. exists i, j, n, m. repeat split; auto. lia.
  - left. exists i, j, (erase_statement s), (SLabel m). split; [intros ->; rewrite I in J; destruct V; subst; discriminate J|]. split; [exact I|]. split; [exact J|].
    split; [destruct V; subst; reflexivity|]. cbn. now rewrite IM, M.
  - left. exists i, j, (erase_statement s), (erase_statement t). split; [lia|]. split; [exact I|]. split; [exact J|].
    split; [destruct V; subst; cbn; congruence|destruct U; subst; cbn; congruence].
Qed.

Theorem faulty_broken : forall pr l e at_, faulty pr l e at_ -> ~ well_formed pr (plainly l).
Proof.
  intros pr l e at_ F (ND & VD & EM).
  assert (C : forall s a m, In (SSDirective (SDCnop s a m)) l -> literal (erase a) /\ literal (erase m)).
  { intros s a m I. apply In_nth_error in I. destruct I as (k & K). apply nth_plainly in K. destruct (EM _ _ K) as (get & bs & _ & A & M & _). auto. }
  destruct F as [x p q T|s a m I A|s a m I A M|k s p n x e at_ K (n0 & N & V) X P|k s get e at_ K G W P _ _].
  - now apply twice_defined, ND in T.
  - now apply C in I.
  - now apply C in I.
  - apply nth_plainly in K. destruct (VD k (erase_statement s) n0 (erase x)) as (v & E); [exact K|destruct V; subst; reflexivity|].
    assert (S0 := eval_same pr (mkEnv "Name" (visible pr (plainly l) k)) x). rewrite E, X in S0. discriminate S0.
  - apply nth_plainly in K. destruct (EM _ _ K) as (get2 & bs & G2 & H). apply (wrong_no_bytes _ _ _ _ _ _ W bs).
    eapply emits_ext; [|exact H]. eapply env_at_unique; eauto.
Qed.
