(** Proofs about macro calls with places: bodies and programs. *)
From Coq Require Import ZArith List String Ascii Bool Arith Lia.
From Verif Require Import Base Expr Instr Ast Macro Span SpanInclude SpecSpan SpanProofs SpanProofs2 SpanProofs3 SpecIsa SpecMacro MacroProofs MacroProofs2 SpecCalls CallProofs.
Import ListNotations.
Open Scope string_scope.
Open Scope list_scope.
Local Open Scope nat_scope.
Local Arguments make_instr_s : simpl never.

(** * The maps *)

Lemma argmap_bound params : forall m args x a, List.length params = List.length args ->
  mget (make_argmap_s m params args) x = Some a <-> bound params args x a \/ (~ In x params /\ mget m x = Some a).
Proof.
  induction params as [|p ps IH]; intros m [|a0 rest] x a HL; try discriminate HL.
  - cbn. split; [intros H; right; split; auto | intros [(i & H & _)|[_ H]]; auto].
    destruct i; discriminate.
  - cbn [make_argmap_s]. rewrite IH by (cbn in HL; lia). rewrite mget_insert. split.
    + intros [(i & H1 & H2 & H3)|[H1 H2]].
      * left. exists (S i). repeat split; auto. intros [|j] Hj; [lia|]. apply H3. lia.
      * destruct (String.eqb x p) eqn:E.
        -- apply String.eqb_eq in E. subst. inversion H2; subst. left. exists 0%nat. repeat split; auto.
           intros [|j] Hj; [lia|]. cbn. intros Hn. apply nth_error_In in Hn. contradiction.
        -- apply String.eqb_neq in E. right. split; auto. intros [Hx|Hx]; [congruence|contradiction].
    + intros [(i & H1 & H2 & H3)|[H1 H2]].
      * destruct i as [|i].
        -- cbn in H1, H2. inversion H1; inversion H2; subst. right. rewrite String.eqb_refl. split; auto.
           intros Hx. apply In_nth_error in Hx as (j & Hj). apply (H3 (S j)); [lia|auto].
        -- left. exists i. repeat split; auto. intros j Hj. apply (H3 (S j)). lia.
      * right. split; [intros Hx; apply H1; right; auto|].
        destruct (String.eqb x p) eqn:E; auto. apply String.eqb_eq in E. subst. contradiction H1. left; auto.
Qed.

Lemma argmap_iff params args x a : List.length params = List.length args -> mget (make_argmap_s [] params args) x = Some a <-> bound params args x a.
Proof. intros H. rewrite argmap_bound by exact H. split; [intros [B|[_ B]]; [exact B|discriminate]|auto]. Qed.

Section Calls.
Variable uuid : nat -> string.

Lemma own_app a b : own_labels (a ++ b) = own_labels a ++ own_labels b.
Proof. unfold own_labels. apply flat_map_app. Qed.

(** The labels with their suffixes, the last one first. *)
Fixpoint label_map (m : smap string) (n : nat) (xs : list string) : smap string :=
  match xs with
  | [] => m
  | x :: t => label_map (minsert m x (strip_percent x ++ "_" ++ uuid n)%string) (S n) t
  end.

Lemma mcontains_iff {A} (m : smap A) x : mcontains m x = true <-> mget m x <> None.
Proof. unfold mcontains. destruct (mget m x); split; congruence. Qed.

Lemma gen_cases body : forall m n,
  (exists before s x after, body = before ++ SMMacroLabel s x :: after /\ NoDup (own_labels before) /\ (forall y, In y (own_labels before) -> mget m y = None) /\
     (In x (own_labels before) \/ mget m x <> None) /\ gen_labels_s uuid m n body = PErr (DuplicateLabel x) [s]) \/
  (NoDup (own_labels body) /\ (forall y, In y (own_labels body) -> mget m y = None) /\
     gen_labels_s uuid m n body = POk (label_map m n (own_labels body), n + List.length (own_labels body))).
Proof.
  induction body as [|b t IH]; intros m n.
  - right. split; [constructor|]. split; [intros y []|]. cbn. now rewrite Nat.add_0_r.
  - destruct b as [s name args|s x|s x].
    + cbn [gen_labels_s]. destruct (IH m n) as [(before & s2 & x & after & -> & H)|H]; [left|right; exact H].
      exists (SMInstr s name args :: before), s2, x, after. split; [reflexivity|exact H].
    + cbn [gen_labels_s]. destruct (IH m n) as [(before & s2 & y & after & -> & H)|H]; [left|right; exact H].
      exists (SMLabel s x :: before), s2, y, after. split; [reflexivity|exact H].
    + cbn [gen_labels_s]. destruct (mcontains m x) eqn:C.
      * left. exists [], s, x, t. split; [reflexivity|]. split; [constructor|]. split; [intros y []|]. split; [right; now apply mcontains_iff|reflexivity].
      * assert (MX: mget m x = None). { destruct (mget m x) eqn:E; [|reflexivity]. assert (mcontains m x = true) by (apply mcontains_iff; congruence). congruence. }
        assert (KEY: forall l, NoDup (own_labels l) -> (forall y, In y (own_labels l) -> mget (minsert m x (strip_percent x ++ "_" ++ uuid n)%string) y = None) ->
          NoDup (own_labels (SMMacroLabel s x :: l)) /\ forall y, In y (own_labels (SMMacroLabel s x :: l)) -> mget m y = None).
        { intros l ND NI. split.
          - constructor; [|exact ND]. intros I. apply NI in I. rewrite mget_insert, String.eqb_refl in I. discriminate.
          - intros y [<-|I]; [exact MX|]. apply NI in I. rewrite mget_insert in I. destruct (String.eqb y x); [discriminate|exact I]. }
        destruct (IH (minsert m x (strip_percent x ++ "_" ++ uuid n)%string) (S n)) as [(before & s2 & y & after & -> & ND & NI & D & G)|(ND & NI & G)].
        -- left. destruct (KEY before ND NI) as [K1 K2]. exists (SMMacroLabel s x :: before), s2, y, after. split; [reflexivity|].
           split; [exact K1|]. split; [exact K2|]. split; [|exact G]. destruct D as [D|D]; [left; now right|].
           rewrite mget_insert in D. destruct (String.eqb y x) eqn:E; [|now right]. apply String.eqb_eq in E. subst. left. now left.
        -- right. destruct (KEY t ND NI) as [K1 K2]. split; [exact K1|]. split; [exact K2|].
           change (own_labels (SMMacroLabel s x :: t)) with (x :: own_labels t). cbn [label_map List.length].
           rewrite Nat.add_succ_r, <- Nat.add_succ_l. exact G.
Qed.

Lemma label_map_get : forall xs m n x l, NoDup xs -> (forall y, In y xs -> mget m y = None) ->
  (mget (label_map m n xs) x = Some l <->
   (exists i, nth_error xs i = Some x /\ l = (no_percent x ++ "_" ++ uuid (n + i))%string) \/ mget m x = Some l).
Proof.
  induction xs as [|y xs IH]; intros m n x l ND NI; cbn [label_map].
  - split; [auto|]. intros [([|i] & E & _)|H]; [discriminate|discriminate|exact H].
  - inversion ND as [|? ? N1 N2]; subst. rewrite IH; [|exact N2|].
    + rewrite mget_insert. split.
      * intros [(i & E & ->)|H].
        -- left. exists (S i). split; [exact E|]. now rewrite Nat.add_succ_r.
        -- destruct (String.eqb x y) eqn:E; [|now right]. apply String.eqb_eq in E. subst. injection H as <-. left. exists 0. split; [reflexivity|].
           now rewrite strip_no_percent, Nat.add_0_r.
      * intros [([|i] & E & ->)|H].
        -- injection E as <-. right. rewrite String.eqb_refl, strip_no_percent, Nat.add_0_r. reflexivity.
        -- left. exists i. split; [exact E|]. now rewrite Nat.add_succ_r.
        -- right. destruct (String.eqb x y) eqn:E; [|exact H]. apply String.eqb_eq in E. subst. rewrite (NI y) in H by now left. discriminate.
    + intros z I. rewrite mget_insert. destruct (String.eqb z y) eqn:E; [apply String.eqb_eq in E; subst; contradiction|]. apply NI. now right.
Qed.

(** What the labels of a call are, or why there are none. *)
Lemma labels_cases body n :
  (exists before s x after, body = before ++ SMMacroLabel s x :: after /\ NoDup (own_labels before) /\ In x (own_labels before) /\
     gen_labels_s uuid [] n body = PErr (DuplicateLabel x) [s]) \/
  (exists L, NoDup (own_labels body) /\ (forall x l, mget L x = Some l <-> made_label uuid n body x l) /\
     gen_labels_s uuid [] n body = POk (L, n + List.length (own_labels body))).
Proof.
  destruct (gen_cases body [] n) as [(before & s & x & after & E & ND & _ & D & G)|(ND & NI & G)].
  - left. exists before, s, x, after. split; [exact E|]. split; [exact ND|]. split; [|exact G]. destruct D as [D|D]; [exact D|now contradiction D].
  - right. exists (label_map [] n (own_labels body)). split; [exact ND|]. split; [|exact G]. intros x l.
    rewrite label_map_get by auto. split; [intros [H|H]; [exact H|discriminate]|intros H; now left].
Qed.

Lemma not_twice before s x after : In x (own_labels before) -> ~ NoDup (own_labels (before ++ SMMacroLabel s x :: after)).
Proof.
  intros I ND. rewrite own_app in ND. change (own_labels (SMMacroLabel s x :: after)) with (x :: own_labels after) in ND.
  apply NoDup_remove_2 in ND. apply ND, in_or_app. now left.
Qed.

(** The first label that is there twice. *)
Lemma first_twice : forall before s x after b2 s2 x2 a2, before ++ SMMacroLabel s x :: after = b2 ++ SMMacroLabel s2 x2 :: a2 ->
  NoDup (own_labels before) -> In x (own_labels before) -> NoDup (own_labels b2) -> In x2 (own_labels b2) -> s = s2 /\ x = x2.
Proof.
  intros before s x after b2 s2 x2 a2 E N1 I1 N2 I2. apply app_eq_app in E as (l & [[-> E]|[-> E]]).
  - destruct l as [|c l]; [injection E; auto|]. injection E as <- ->. now apply not_twice in N1.
  - destruct l as [|c l]; [injection E; auto|]. injection E as <- ->. now apply not_twice in N2.
Qed.

(** * Lookup *)

Lemma find_defined ms name k d : find_macro_s ms name k = Some d <-> defined_as ms name k d.
Proof.
  unfold defined_as. induction ms as [|[[n a] d2] ms IH]; cbn [find_macro_s].
  - split; [discriminate|]. intros ([|] & after & E & _); discriminate.
  - destruct (String.eqb n name && Nat.eqb a k)%bool eqn:E.
    + apply andb_true_iff in E as [E1 E2]. apply String.eqb_eq in E1. apply Nat.eqb_eq in E2. subst. split.
      * intros H. injection H as <-. exists [], ms. split; [reflexivity|]. intros d3 [].
      * intros ([|c before] & after & X & N); injection X; intros; subst; [reflexivity|]. exfalso. apply (N d2). now left.
    + rewrite IH. split.
      * intros (before & after & -> & N). exists (((n, a), d2) :: before), after. split; [reflexivity|]. intros d3 [X|X]; [|now apply N in X].
        injection X as <- <- _. now rewrite String.eqb_refl, Nat.eqb_refl in E.
      * intros ([|c before] & after & X & N).
        -- injection X; intros; subst. now rewrite String.eqb_refl, Nat.eqb_refl in E.
        -- injection X as <- ->. exists before, after. split; [reflexivity|]. intros d3 I. apply (N d3). now right.
Qed.

Lemma find_none ms name k : find_macro_s ms name k = None <-> no_macro ms name k.
Proof.
  unfold no_macro. induction ms as [|[[n a] d2] ms IH]; cbn [find_macro_s].
  - split; [intros _ d []|reflexivity].
  - destruct (String.eqb n name && Nat.eqb a k)%bool eqn:E.
    + apply andb_true_iff in E as [E1 E2]. apply String.eqb_eq in E1. apply Nat.eqb_eq in E2. subst. split; [discriminate|]. intros H. exfalso. apply (H d2). now left.
    + rewrite IH. split; [intros H d [X|X]; [|now apply H in X]|intros H d I; apply (H d); now right].
      injection X as <- <- _. now rewrite String.eqb_refl, Nat.eqb_refl in E.
Qed.

Variable ms : smacros.

(** * What is said of a call is right *)

Definition right_call (call : nat -> pspan -> string -> list sarg -> placed (list sstatement * nat)) : Prop :=
  forall n inv name args,
  (forall out n2, call n inv name args = POk (out, n2) -> call_at uuid ms n inv name args out n2) /\
  (forall e at_, call n inv name args = PErr e at_ -> wrong_call uuid ms n inv name args e at_).

Lemma args_length inv lab par args ready : Forall2 (put_arg inv lab par) args ready -> List.length ready = List.length args.
Proof. induction 1; cbn; congruence. Qed.

Lemma body_right call fuel inv L A lab par : right_call call -> (forall x l, mget L x = Some l <-> lab x l) -> (forall x a, mget A x = Some a <-> par x a) ->
  forall body n,
  (forall out n2, expand_body_s call fuel ms inv L A n body = POk (out, n2) -> body_at uuid ms inv lab par n body out n2) /\
  (forall e at_, expand_body_s call fuel ms inv L A n body = PErr e at_ -> exists before bad after out n2, body = before ++ bad :: after /\
     body_at uuid ms inv lab par n before out n2 /\ wrong_body uuid ms inv lab par n2 bad e at_).
Proof.
  intros RC HL HA. induction body as [|b t IH]; intros n; cbn [expand_body_s].
  - split; intros; [injection H as <- <-; constructor|discriminate].
  - destruct b as [s name args|s x|s x].
    + assert (AP := args_put inv L A lab par HL HA fuel args).
      destruct (find_macro_s ms name (List.length args)) as [d|] eqn:F.
      * apply find_defined in F. split; intros.
        -- apply pbind_ok in H as ([part n1] & H & K). apply pbind_ok in K as ([rest n3] & K & J). injection J as <- <-.
           apply pbind_ok in H as (ready & R & C). apply AP in R. eapply ba_call; [exact F|exact R| |]; [apply RC; exact C|apply IH; exact K].
        -- apply pbind_err in H as [H|([part n1] & H & K)].
           ++ exists [], (SMInstr s name args), t, [], n. split; [reflexivity|]. split; [constructor|].
              apply pbind_err in H as [H|(ready & R & C)]; [apply wb_operand; now apply AP|]. apply AP in R. eapply wb_call; [exact F|exact R|]. apply RC. exact C.
           ++ apply pbind_err in K as [K|([rest n3] & _ & J)]; [|discriminate]. apply pbind_ok in H as (ready & R & C). apply AP in R.
              apply IH in K as (before & bad & after & out & n2 & -> & B & W). exists (SMInstr s name args :: before), bad, after, (part ++ out), n2.
              split; [reflexivity|]. split; [|exact W]. eapply ba_call; [exact F|exact R| |exact B]. apply RC. exact C.
      * apply find_none in F. assert (MC := make_cases (with_parent s inv) name). split; intros.
        -- apply pbind_ok in H as ([part n1] & H & K). apply pbind_ok in K as ([rest n3] & K & J). injection J as <- <-.
           apply pbind_ok in H as (ready & R & C). apply pbind_ok in C as (i & C & D). injection D as <- <-. apply AP in R. apply MC in C.
           eapply ba_instr; [exact F|exact R|exact C|]. apply IH. exact K.
        -- apply pbind_err in H as [H|([part n1] & H & K)].
           ++ exists [], (SMInstr s name args), t, [], n. split; [reflexivity|]. split; [constructor|].
              apply pbind_err in H as [H|(ready & R & C)]; [apply wb_operand; now apply AP|]. apply AP in R.
              apply pbind_err in C as [C|(i & _ & D)]; [|discriminate]. apply MC in C as [C ->]. eapply wb_instr; [exact F|exact R|exact C].
           ++ apply pbind_err in K as [K|([rest n3] & _ & J)]; [|discriminate]. apply pbind_ok in H as (ready & R & C). apply AP in R.
              apply pbind_ok in C as (i & C & D). injection D as <- <-. apply MC in C.
              apply IH in K as (before & bad & after & out & n2 & -> & B & W). exists (SMInstr s name args :: before), bad, after, (SSInstr (via inv s) i :: out), n2.
              split; [reflexivity|]. split; [|exact W]. eapply ba_instr; [exact F|exact R|exact C|exact B].
    + cbn [pbind]. split; intros.
      * apply pbind_ok in H as ([rest n3] & K & J). injection J as <- <-. constructor. now apply IH.
      * apply pbind_err in H as [K|([rest n3] & _ & J)]; [|discriminate]. apply IH in K as (before & bad & after & out & n2 & -> & B & W).
        exists (SMLabel s x :: before), bad, after, (SSLabel s x :: out), n2. split; [reflexivity|]. split; [now constructor|exact W].
    + destruct (mget L x) as [l|] eqn:G; cbn [pbind]; [|split; intros; discriminate]. apply HL in G. split; intros.
      * apply pbind_ok in H as ([rest n3] & K & J). injection J as <- <-. constructor; [exact G|]. now apply IH.
      * apply pbind_err in H as [K|([rest n3] & _ & J)]; [|discriminate]. apply IH in K as (before & bad & after & out & n2 & -> & B & W).
        exists (SMMacroLabel s x :: before), bad, after, (SSLabel s l :: out), n2. split; [reflexivity|]. split; [now constructor|exact W].
Qed.

Lemma expand_right : forall fuel, right_call (expand_s uuid fuel ms).
Proof.
  induction fuel as [|f IHf]; intros n inv name args; cbn [expand_s]; [split; intros; discriminate|].
  destruct (find_macro_s ms name (List.length args)) as [d|] eqn:F.
  - apply find_defined in F. destruct (Nat.eqb_spec (List.length args) (List.length (sm_args d))) as [E|E].
    + destruct (labels_cases (sm_body d) n) as [(before & s & x & after & EB & ND & I & G)|(L & ND & HL & G)]; rewrite G; cbn [pbind].
      * split; intros; [discriminate|]. injection H as <- <-. eapply wc_twice; eauto.
      * destruct (body_right _ f inv L (make_argmap_s [] (sm_args d) args) _ _ IHf HL (fun x a => argmap_iff (sm_args d) args x a (eq_sym E)) (sm_body d) (n + List.length (own_labels (sm_body d)))) as [B1 B2].
        split; intros.
        -- eapply ca_call; eauto.
        -- apply B2 in H as (before & bad & after & out & n2 & EB & B & W). eapply wc_body; eauto.
    + split; intros; [discriminate|]. injection H as <- <-. eapply wc_count; eauto.
  - apply find_none in F. split; intros; [discriminate|]. injection H as <- <-. now apply wc_macro.
Qed.

(** * Programs *)

Lemma list_right : forall fuel l n,
  (forall out n2, expand_list_s uuid fuel ms n l = POk (out, n2) -> list_at uuid ms n l out n2) /\
  (forall e at_, expand_list_s uuid fuel ms n l = PErr e at_ -> wrong_list uuid ms n l e at_).
Proof.
  intros fuel. induction l as [|s t IH]; intros n.
  - split; intros; [injection H as <- <-; constructor|discriminate].
  - assert (K: (forall sp name args, s <> SSMacroCall sp name args) -> expand_list_s uuid fuel ms n (s :: t) = (let? (rest, n2) := expand_list_s uuid fuel ms n t in POk (s :: rest, n2)) ->
      (forall out n2, expand_list_s uuid fuel ms n (s :: t) = POk (out, n2) -> list_at uuid ms n (s :: t) out n2) /\
      (forall e at_, expand_list_s uuid fuel ms n (s :: t) = PErr e at_ -> wrong_list uuid ms n (s :: t) e at_)).
    { intros N ->. split; intros.
      - apply pbind_ok in H as ([rest n3] & K & J). injection J as <- <-. constructor; [exact N|]. now apply IH.
      - apply pbind_err in H as [K|([rest n3] & _ & J)]; [|discriminate]. apply IH in K as (before & sp & name & args & after & out & n1 & -> & B & W).
        exists (s :: before), sp, name, args, after, (s :: out), n1. split; [reflexivity|]. split; [now constructor|exact W]. }
    destruct s as [d|sp n0|sp i|sp n0 e|sp n0 e|c|sp name args]; try (apply K; [intros; discriminate|reflexivity]). clear K. cbn [expand_list_s].
    destruct (expand_right fuel n sp name args) as [E1 E2]. split; intros.
    + apply pbind_ok in H as ([part n1] & H & K). apply pbind_ok in K as ([rest n3] & K & J). injection J as <- <-. eapply la_call; [apply E1; exact H|apply IH; exact K].
    + apply pbind_err in H as [H|([part n1] & H & K)].
      * exists [], sp, name, args, t, [], n. split; [reflexivity|]. split; [constructor|now apply E2].
      * apply pbind_err in K as [K|([rest n3] & _ & J)]; [|discriminate]. apply IH in K as (before & sp2 & name2 & args2 & after & out & n2 & -> & B & W).
        exists (SSMacroCall sp name args :: before), sp2, name2, args2, after, (part ++ out), n2. split; [reflexivity|]. split; [|exact W]. eapply la_call; [apply E1; exact H|exact B].
Qed.

(** * And complete *)

Lemma call_complete :
  (forall n inv name args out n2, call_at uuid ms n inv name args out n2 -> lastly (fun fuel => expand_s uuid fuel ms n inv name args) (POk (out, n2))) /\
  (forall inv lab par n body out n2, body_at uuid ms inv lab par n body out n2 -> forall L A, (forall x l, mget L x = Some l <-> lab x l) -> (forall x a, mget A x = Some a <-> par x a) ->
     forall rest r, lastly (fun fuel => expand_body_s (expand_s uuid fuel ms) fuel ms inv L A n2 rest) r ->
     lastly (fun fuel => expand_body_s (expand_s uuid fuel ms) fuel ms inv L A n (body ++ rest)) (let? (more, n3) := r in POk (out ++ more, n3))).
Proof.
  apply call_body_at_ind.
  - intros n inv name args d out n2 D EL ND _ IH. apply find_defined in D.
    destruct (labels_cases (sm_body d) n) as [(before & s & x & after & EB & _ & I & _)|(L & _ & HL & G)]; [rewrite EB in ND; now apply not_twice in ND|].
    destruct (IH L (make_argmap_s [] (sm_args d) args) HL (fun x a => argmap_iff (sm_args d) args x a EL) [] (POk ([], n2))) as (F & H); [exists 0; intros; reflexivity|].
    exists (S F). intros [|f] GE; [lia|]. cbn [expand_s]. rewrite D, EL, Nat.eqb_refl, G. cbn [pbind].
    specialize (H f ltac:(lia)). rewrite app_nil_r in H. rewrite H. cbn [pbind]. now rewrite app_nil_r.
  - intros inv lab par n L A HL HA rest r (F & H). exists F. intros f G. cbn [app]. rewrite H by lia. destruct r as [[more n3]| | |]; reflexivity.
  - intros inv lab par n s x t out n2 _ IH L A HL HA rest r R. destruct (IH L A HL HA rest r R) as (F & H). exists F. intros f G.
    cbn [app expand_body_s pbind]. rewrite H by lia. destruct r as [[more n3]| | |]; reflexivity.
  - intros inv lab par n s x l t out n2 K _ IH L A HL HA rest r R. destruct (IH L A HL HA rest r R) as (F & H). exists F. intros f G.
    cbn [app expand_body_s]. apply HL in K. rewrite K. cbn [pbind]. rewrite H by lia. destruct r as [[more n3]| | |]; reflexivity.
  - intros inv lab par n s name args ready i t out n2 N P M _ IH L A HL HA rest r R. destruct (IH L A HL HA rest r R) as (F & H).
    destruct (ready_replace inv L A lab par HL HA _ _ P) as (F2 & H2). exists (F + F2). intros f G.
    cbn [app expand_body_s]. apply find_none in N. rewrite N, H2 by lia. cbn [pbind]. apply (proj1 (make_cases (with_parent s inv) name ready)) in M. rewrite M. cbn [pbind].
    rewrite H by lia. destruct r as [[more n3]| | |]; reflexivity.
  - intros inv lab par n s name args d ready part n1 t out n2 D P _ (F1 & H1) _ IH L A HL HA rest r R. destruct (IH L A HL HA rest r R) as (F & H).
    destruct (ready_replace inv L A lab par HL HA _ _ P) as (F2 & H2). exists (F + F1 + F2). intros f G.
    cbn [app expand_body_s]. apply find_defined in D. rewrite D, H2 by lia. cbn [pbind]. change (with_parent s inv) with (via inv s). rewrite H1 by lia. cbn [pbind].
    rewrite H by lia. destruct r as [[more n3]| | |]; cbn [pbind]; try reflexivity. now rewrite app_assoc.
Qed.

Lemma wrong_complete :
  (forall n inv name args e at_, wrong_call uuid ms n inv name args e at_ -> lastly (fun fuel => expand_s uuid fuel ms n inv name args) (PErr e at_)) /\
  (forall inv lab par n b e at_, wrong_body uuid ms inv lab par n b e at_ -> forall L A, (forall x l, mget L x = Some l <-> lab x l) -> (forall x a, mget A x = Some a <-> par x a) ->
     forall rest, lastly (fun fuel => expand_body_s (expand_s uuid fuel ms) fuel ms inv L A n (b :: rest)) (PErr e at_)).
Proof.
  apply wrong_call_body_ind.
  - intros n inv name args N. apply find_none in N. exists 1. intros [|f] G; [lia|]. cbn [expand_s]. now rewrite N.
  - intros n inv name args d D NE. apply find_defined in D. exists 1. intros [|f] G; [lia|]. cbn [expand_s]. rewrite D.
    destruct (Nat.eqb_spec (List.length args) (List.length (sm_args d))); [congruence|reflexivity].
  - intros n inv name args d before s x after D EL EB ND I. apply find_defined in D. exists 1. intros [|f] G; [lia|]. cbn [expand_s]. rewrite D, EL, Nat.eqb_refl.
    destruct (labels_cases (sm_body d) n) as [(b2 & s2 & x2 & a2 & EB2 & ND2 & I2 & GL)|(L & ND2 & _)].
    + rewrite GL. cbn [pbind]. rewrite EB in EB2. destruct (first_twice _ _ _ _ _ _ _ _ EB2 ND I ND2 I2) as [-> ->]. reflexivity.
    + rewrite EB in ND2. now apply not_twice in ND2.
  - intros n inv name args d before bad after out n2 e at_ D EL ND EB B _ IH. apply find_defined in D.
    destruct (labels_cases (sm_body d) n) as [(b2 & s & x & a2 & EB2 & _ & I & _)|(L & _ & HL & G)]; [rewrite EB2 in ND; now apply not_twice in ND|].
    assert (HA := fun x a => argmap_iff (sm_args d) args x a EL).
    destruct (proj2 call_complete _ _ _ _ _ _ _ B L _ HL HA _ _ (IH L _ HL HA after)) as (F & H).
    exists (S F). intros [|f] GE; [lia|]. cbn [expand_s]. rewrite D, EL, Nat.eqb_refl, G. cbn [pbind]. rewrite <- EB in H. rewrite H by lia. reflexivity.
  - intros inv lab par n s name args e at_ W L A HL HA rest. destruct (wrong_args_replace inv L A lab par HL HA _ _ _ W) as (F & H). exists F. intros f G.
    cbn [expand_body_s]. rewrite H by lia. destruct (find_macro_s ms name (List.length args)); reflexivity.
  - intros inv lab par n s name args ready e N P W L A HL HA rest. destruct (ready_replace inv L A lab par HL HA _ _ P) as (F & H). exists F. intros f G.
    cbn [expand_body_s]. apply find_none in N. rewrite N, H by lia. cbn [pbind].
    assert (M: make_instr_s (with_parent s inv) name ready = PErr e [with_parent s inv]) by now apply (proj2 (make_cases (with_parent s inv) name ready)).
    rewrite M. reflexivity.
  - intros inv lab par n s name args d ready e at_ D P _ (F1 & H1) L A HL HA rest. destruct (ready_replace inv L A lab par HL HA _ _ P) as (F & H).
    exists (F + F1). intros f G. cbn [expand_body_s]. apply find_defined in D. rewrite D, H by lia. cbn [pbind]. change (with_parent s inv) with (via inv s).
    rewrite H1 by lia. reflexivity.
Qed.

Lemma list_complete_at : forall n l out n2, list_at uuid ms n l out n2 -> forall rest r, lastly (fun fuel => expand_list_s uuid fuel ms n2 rest) r ->
  lastly (fun fuel => expand_list_s uuid fuel ms n (l ++ rest)) (let? (more, n3) := r in POk (out ++ more, n3)).
Proof.
  induction 1 as [n|n sp name args part n1 t out n2 C _ IH|n s t out n2 N _ IH]; intros rest r R.
  - destruct R as (F & R). exists F. intros f G. cbn [app]. rewrite R by lia. destruct r as [[more n3]| | |]; reflexivity.
  - destruct (IH rest r R) as (F & H). destruct (proj1 call_complete _ _ _ _ _ _ C) as (F1 & H1). exists (F + F1). intros f G.
    cbn [app expand_list_s]. rewrite H1 by lia. cbn [pbind]. rewrite H by lia. destruct r as [[more n3]| | |]; cbn [pbind]; try reflexivity. now rewrite app_assoc.
  - destruct (IH rest r R) as (F & H). exists F. intros f G.
    destruct s as [d|sp n0|sp i|sp n0 e|sp n0 e|c|sp name args]; try (cbn [app expand_list_s]; rewrite H by lia; destruct r as [[more n3]| | |]; reflexivity).
    now contradiction (N sp name args).
Qed.

Lemma list_lastly : forall n l out n2, list_at uuid ms n l out n2 -> lastly (fun fuel => expand_list_s uuid fuel ms n l) (POk (out, n2)).
Proof.
  intros n l out n2 H. destruct (list_complete_at _ _ _ _ H [] (POk ([], n2))) as (F & K); [exists 0; intros; reflexivity|].
  exists F. intros f G. specialize (K f G). rewrite app_nil_r in K. rewrite K. cbn [pbind]. now rewrite app_nil_r.
Qed.

Lemma wrong_lastly : forall n l e at_, wrong_list uuid ms n l e at_ -> lastly (fun fuel => expand_list_s uuid fuel ms n l) (PErr e at_).
Proof.
  intros n l e at_ (before & sp & name & args & after & out & n1 & -> & B & W).
  destruct (proj1 wrong_complete _ _ _ _ _ _ W) as (F & H).
  apply (list_complete_at _ _ _ _ B (SSMacroCall sp name args :: after) (PErr e at_)). exists F. intros f G. cbn [expand_list_s]. now rewrite H.
Qed.

End Calls.
