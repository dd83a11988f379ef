(** Proofs about places in macro expansions. *)
From Coq Require Import ZArith List String Ascii Bool Arith Lia.
From Verif Require Import Base Expr Instr Ast Macro Lexer Parser SpecParse ParseProofs Span SpecSpan SpanProofs.
Import ListNotations.
Open Scope list_scope.
Local Open Scope nat_scope.

(** * Instructions *)

Lemma make_same : forall s name args, unplaced (map_instr erase) (make_instr_s s name args) = make_instr name (map erase_arg args).
Proof.
  intros s name args. unfold make_instr_s, make_instr.
  repeat match goal with |- context[String.eqb name ?c] => destruct (String.eqb name c);
    [destruct args as [|[] [|[] [|[] [|]]]]; reflexivity|] end.
  reflexivity.
Qed.

Definition from_args (args : list sarg) (s : pspan) (r : placed (instr sexpr imode)) : Prop :=
  match r with
  | POk i => forall x, In x (operand_exprs i) -> In (SAImm x) args \/ In (SAEx x) args
  | PErr e p => p = [s]
  | _ => False
  end.

Lemma make_from : forall s name args, from_args args s (make_instr_s s name args).
Proof.
  intros s name args. unfold make_instr_s.
  repeat match goal with |- context[String.eqb name ?c] => destruct (String.eqb name c);
    [destruct args as [|[] [|[] [|[] [|]]]]; cbn [from_args operand_exprs]; try reflexivity; cbn [In]; intuition (subst; auto; fail)|] end.
  reflexivity.
Qed.

(** * Forgetting places *)

Definition erase_map (m : smap sarg) : smap arg := map (fun x => (fst x, erase_arg (snd x))) m.

Lemma mget_erase : forall m k, mget (erase_map m) k = option_map erase_arg (mget m k).
Proof. induction m as [|[k v] m IH]; intros k0; cbn; [reflexivity|]. destruct (String.eqb k0 k); [reflexivity|apply IH]. Qed.

Lemma erase_with_span : forall e s, erase (with_span e s) = erase e. Proof. intros []; reflexivity. Qed.

Lemma replace_same : forall f inv labels args e,
  unplaced erase (replace_expr_s f inv labels args e) = replace_expr f labels (erase_map args) (erase e).
Proof.
  induction f as [|f IHf]; intros inv labels args; (induction e as [s n|s n r|s n|s n|op s x IH|op s l IHl r IHr];
  [reflexivity|reflexivity| | | |]).
  1, 5: cbn; destruct (mget labels n); reflexivity.
  1, 4: cbn [replace_expr_s replace_expr erase]; rewrite mget_erase; destruct (mget args n) as [[x|x|s2 m|s2 m]|]; cbn [option_map erase_arg]; try reflexivity.
  - rewrite <- (IHf inv). destruct (replace_expr_s f inv labels args x); cbn; try reflexivity. now rewrite erase_with_span.
  - destruct op; cbn in *; rewrite <- IH; match goal with |- context[pbind ?a _] => destruct a end; reflexivity.
  - destruct op; cbn in *; rewrite <- IHl; match goal with |- context[pbind ?a _] => destruct a end; cbn; try reflexivity;
    rewrite <- IHr; match goal with |- context[pbind ?a _] => destruct a end; reflexivity.
  - destruct op; cbn in *; rewrite <- IH; match goal with |- context[pbind ?a _] => destruct a end; reflexivity.
  - destruct op; cbn in *; rewrite <- IHl; match goal with |- context[pbind ?a _] => destruct a end; cbn; try reflexivity;
    rewrite <- IHr; match goal with |- context[pbind ?a _] => destruct a end; reflexivity.
Qed.

Lemma replace_args_same : forall f inv labels argmap args,
  unplaced (map erase_arg) (replace_args_s f inv labels argmap args) = replace_args f labels (erase_map argmap) (map erase_arg args).
Proof.
  intros f inv labels argmap. induction args as [|a args IH]; [reflexivity|]. cbn [replace_args_s replace_args map].
  assert (R := replace_same f inv labels argmap).
  destruct a as [e|e|s m|s n]; cbn [erase_arg].
  - rewrite <- R. destruct (replace_expr_s f inv labels argmap e); cbn; try reflexivity. rewrite <- IH.
    destruct (replace_args_s f inv labels argmap args); reflexivity.
  - rewrite <- R. destruct (replace_expr_s f inv labels argmap e); cbn; try reflexivity. rewrite <- IH.
    destruct (replace_args_s f inv labels argmap args); reflexivity.
  - cbn. rewrite <- IH. destruct (replace_args_s f inv labels argmap args); reflexivity.
  - rewrite mget_erase. destruct (mget argmap n); cbn; [|reflexivity]. rewrite <- IH.
    destruct (replace_args_s f inv labels argmap args); reflexivity.
Qed.

Lemma find_same : forall ms name n, find_macro (erase_macros ms) name n = option_map erase_def (find_macro_s ms name n).
Proof.
  induction ms as [|[[a b] d] ms IH]; intros name n; [reflexivity|]. cbn. destruct (String.eqb a name && Nat.eqb b n)%bool; [reflexivity|apply IH].
Qed.

Lemma argmap_same : forall ps m args, erase_map (make_argmap_s m ps args) = make_argmap (erase_map m) ps (map erase_arg args).
Proof. induction ps as [|p ps IH]; intros m [|a args]; cbn; try reflexivity. rewrite IH. reflexivity. Qed.

Section Uuid.
Variable uuid : nat -> string.

Lemma gen_same : forall body m n, unplaced (fun x => x) (gen_labels_s uuid m n body) = gen_labels uuid m n (map erase_body body).
Proof.
  induction body as [|[s a b|s a|s a] body IH]; intros m n; cbn; try reflexivity; auto. destruct (mcontains m a); [reflexivity|apply IH].
Qed.

Definition er_out (x : list sstatement * nat) : list statement * nat := (map erase_statement (fst x), snd x).

Lemma body_same : forall call call2 f ms inv labels argmap,
  (forall n s name args, unplaced er_out (call n s name args) = call2 n name (map erase_arg args)) ->
  forall body n, unplaced er_out (expand_body_s call f ms inv labels argmap n body) =
    expand_body call2 f (erase_macros ms) labels (erase_map argmap) n (map erase_body body).
Proof.
  intros call call2 f ms inv labels argmap C. induction body as [|st body IH]; intros n; [reflexivity|].
  cbn [expand_body_s expand_body map].
  assert (K: forall first n1, unplaced er_out (let? (rest, n2) := expand_body_s call f ms inv labels argmap n1 body in POk (first ++ rest, n2)) =
    let! (rest, n2) := expand_body call2 f (erase_macros ms) labels (erase_map argmap) n1 (map erase_body body) in
    Ok (map erase_statement first ++ rest, n2)).
  { intros first n1. rewrite <- IH. destruct (expand_body_s call f ms inv labels argmap n1 body) as [[r n2]| | |]; cbn; try reflexivity.
    unfold er_out. cbn. now rewrite map_app. }
  destruct st as [s name args|s name|s name]; cbn [erase_body].
  - rewrite map_length, find_same. destruct (find_macro_s ms name (List.length args)) as [d|]; cbn [option_map].
    + rewrite <- (replace_args_same f inv). destruct (replace_args_s f inv labels argmap args) as [na| | |]; cbn [pbind unplaced bind]; try reflexivity.
      rewrite <- C with (s := with_parent s inv). destruct (call n (with_parent s inv) name na) as [[first n1]| | |]; cbn [pbind unplaced bind er_out fst snd]; try reflexivity.
      apply K.
    + rewrite <- (replace_args_same f inv). destruct (replace_args_s f inv labels argmap args) as [na| | |]; cbn [pbind unplaced bind]; try reflexivity.
      rewrite <- (make_same (with_parent s inv)).
      destruct (make_instr_s (with_parent s inv) name na) as [i| | |]; cbn [pbind bind unplaced]; try reflexivity. apply (K [SSInstr (with_parent s inv) i]).
  - cbn [pbind bind]. apply (K [SSLabel s name]).
  - destruct (mget labels name) as [l|]; cbn [pbind bind]; [apply (K [SSLabel s l])|reflexivity].
Qed.

Lemma expand_same : forall f ms n inv name args,
  unplaced er_out (expand_s uuid f ms n inv name args) = expand uuid f (erase_macros ms) n name (map erase_arg args).
Proof.
  induction f as [|f IH]; intros ms n inv name args; [reflexivity|]. cbn [expand_s expand].
  rewrite map_length, find_same. destruct (find_macro_s ms name (List.length args)) as [d|]; cbn [option_map]; [|reflexivity].
  cbn [erase_def m_args m_body].
  destruct (Nat.eqb (List.length args) (List.length (sm_args d))); [|reflexivity].
  rewrite <- gen_same. destruct (gen_labels_s uuid [] n (sm_body d)) as [[labels n1]| | |]; cbn [pbind unplaced bind]; try reflexivity.
  assert (A := argmap_same (sm_args d) [] args). change (erase_map []) with (@nil (string * arg)) in A. rewrite <- A. apply body_same. intros. apply IH.
Qed.

(** * Where statements come from *)

Lemma find_defined : forall ms name n d, find_macro_s ms name n = Some d -> defined_as ms name n d.
Proof.
  induction ms as [|[[a b] d] ms IH]; intros name n d0 H; cbn in H; [discriminate|].
  destruct (String.eqb a name && Nat.eqb b n)%bool eqn:E.
  - injection H as ->. apply andb_true_iff in E as [E1 E2]. apply String.eqb_eq in E1. apply Nat.eqb_eq in E2. subst.
    exists [], ms. split; [reflexivity|]. intros d2 [].
  - destruct (IH _ _ _ H) as (before & after & -> & N). exists (((a, b), d) :: before), after. split; [reflexivity|].
    intros d2 [Q|Q]; [|now apply (N d2)]. injection Q as -> -> ->. now rewrite String.eqb_refl, Nat.eqb_refl in E.
Qed.

Lemma find_none : forall ms name n, find_macro_s ms name n = None -> no_macro ms name n.
Proof.
  induction ms as [|[[a b] d] ms IH]; intros name n H d2 I; [destruct I|]. cbn in H.
  destruct (String.eqb a name && Nat.eqb b n)%bool eqn:E; [discriminate|]. destruct I as [Q|I].
  - injection Q as -> -> ->. now rewrite String.eqb_refl, Nat.eqb_refl in E.
  - now apply (IH name n H d2).
Qed.

Lemma defined_find : forall ms name n d, defined_as ms name n d -> find_macro_s ms name n = Some d.
Proof.
  intros ms name n d (before & after & -> & N). induction before as [|[[a b] d2] before IH]; cbn.
  - now rewrite String.eqb_refl, Nat.eqb_refl.
  - destruct (String.eqb a name && Nat.eqb b n)%bool eqn:E.
    + exfalso. apply andb_true_iff in E as [E1 E2]. apply String.eqb_eq in E1. apply Nat.eqb_eq in E2. subst. apply (N d2). now left.
    + apply IH. intros d3 I. apply (N d3). now right.
Qed.

(** What holds of a statement of the expansion of a call of [d0] with the calls [c]. *)
Definition from_body (ms : smacros) (c : list span) (d0 : smacro_def) (st : sstatement) : Prop :=
  exists d calls, reached ms c d0 d calls /\
  match st with
  | SSInstr s i => exists s0 name args, In (SMInstr s0 name args) (sm_body d) /\ no_macro ms name (List.length args) /\
      here s = here s0 /\ parents s = calls
  | SSLabel s _ => exists name, In (SMLabel s name) (sm_body d) \/ In (SMMacroLabel s name) (sm_body d)
  | _ => False
  end.

Lemma reached_from : forall ms c d0 d1 c1 d calls, reached ms c d0 d1 c1 -> reached ms c1 d1 d calls -> reached ms c d0 d calls.
Proof. intros ms c d0 d1 c1 d calls R Q. induction Q; [assumption|]. now apply (reached_nested _ _ _ d calls s name args). Qed.

Definition of_call (s : pspan) : list span := here s :: parents s.

Lemma body_from : forall call f ms inv labels argmap d,
  (forall n s name args out n2 d2, call n s name args = POk (out, n2) -> defined_as ms name (List.length args) d2 ->
     Forall (from_body ms (of_call s) d2) out) ->
  forall body n out n2, (forall st, In st body -> In st (sm_body d)) ->
  expand_body_s call f ms inv labels argmap n body = POk (out, n2) -> Forall (from_body ms (of_call inv) d) out.
Proof.
  intros call f ms inv labels argmap d C. induction body as [|st body IH]; intros n out n2 SUB H; cbn [expand_body_s] in H.
  { injection H as <- <-. constructor. }
  assert (LEN: forall args na, replace_args_s f inv labels argmap args = POk na -> List.length na = List.length args).
  { clear. induction args as [|a args IH]; intros na H; cbn [replace_args_s] in H; [injection H as <-; reflexivity|].
    match type of H with pbind ?a _ = _ => destruct a as [a'| | |]; cbn [pbind] in H; try discriminate end.
    destruct (replace_args_s f inv labels argmap args) as [t'| | |]; cbn [pbind] in H; try discriminate.
    injection H as <-. cbn. f_equal. now apply IH. }
  assert (HERE: forall first n1, match st with
        | SMInstr ispan iname iargs =>
            match find_macro_s ms iname (List.length iargs) with
            | Some _ =>
                let? new_args := replace_args_s f inv labels argmap iargs in
                call n (with_parent ispan inv) iname new_args
            | None =>
                let? new_args := replace_args_s f inv labels argmap iargs in
                let? i := make_instr_s (with_parent ispan inv) iname new_args in
                POk ([SSInstr (with_parent ispan inv) i], n)
            end
        | SMLabel s2 name => POk ([SSLabel s2 name], n)
        | SMMacroLabel s2 name =>
            match mget labels name with
            | Some l => POk ([SSLabel s2 l], n)
            | None => PPanic
            end
        end = POk (first, n1) -> Forall (from_body ms (of_call inv) d) first).
  { intros first n1 E. assert (I := SUB st (or_introl eq_refl)). destruct st as [s name args|s name|s name].
    - destruct (find_macro_s ms name (List.length args)) as [d2|] eqn:F.
      + destruct (replace_args_s f inv labels argmap args) as [na| | |] eqn:RA; cbn [pbind] in E; try discriminate.
        apply find_defined in F. rewrite <- (LEN _ _ RA) in F. assert (Q := C _ _ _ _ _ _ _ E F).
        eapply Forall_impl; [|exact Q]. intros st (d3 & calls & R & X). exists d3, calls. split; [|exact X].
        apply (reached_from ms _ _ d2 (of_call (with_parent s inv))); [|exact R]. rewrite (LEN _ _ RA) in F.
        apply (reached_nested _ _ _ d (of_call inv) s name args); auto. constructor.
      + destruct (replace_args_s f inv labels argmap args) as [na| | |]; cbn [pbind] in E; try discriminate.
        destruct (make_instr_s (with_parent s inv) name na) as [i| | |]; cbn [pbind] in E; try discriminate. injection E as <- <-.
        constructor; [|constructor]. exists d, (of_call inv). split; [constructor|]. exists s, name, args.
        split; [exact I|]. split; [now apply find_none|]. split; reflexivity.
    - injection E as <- <-. constructor; [|constructor]. exists d, (of_call inv). split; [constructor|]. exists name. now left.
    - destruct (mget labels name); [|discriminate]. injection E as <- <-. constructor; [|constructor].
      exists d, (of_call inv). split; [constructor|]. exists name. now right. }
  match type of H with pbind ?a _ = _ => destruct a as [[first n1]| | |] eqn:EF; cbn [pbind] in H; try discriminate end.
  destruct (expand_body_s call f ms inv labels argmap n1 body) as [[rest n3]| | |] eqn:ER; cbn [pbind] in H; try discriminate.
  injection H as <- <-. apply Forall_app. split; [now apply (HERE _ n1)|]. apply (IH n1 rest n3); [|exact ER].
  intros st0 I0. apply SUB. now right.
Qed.

Lemma expand_from : forall f ms n inv name args out n2 d, expand_s uuid f ms n inv name args = POk (out, n2) ->
  defined_as ms name (List.length args) d -> Forall (from_body ms (of_call inv) d) out.
Proof.
  induction f as [|f IH]; intros ms n inv name args out n2 d H D; cbn [expand_s] in H; [discriminate|].
  rewrite (defined_find _ _ _ _ D) in H.
  destruct (Nat.eqb (List.length args) (List.length (sm_args d))); [|discriminate].
  destruct (gen_labels_s uuid [] n (sm_body d)) as [[labels n1]| | |]; cbn [pbind] in H; try discriminate.
  apply (body_from _ _ _ _ _ _ d) in H; auto. intros. eapply IH; eassumption.
Qed.

(** * Where expressions come from *)

Section Origin.
Variable ms : smacros.
Variable top : pspan.
Variable d0 : smacro_def.
Variable args0 : list sarg.

Definition origin (x : sexpr) : Prop := exists y, as_written ms (of_call top) d0 args0 y /\ here (span_of y) = here (span_of x) /\
  (forall s n, x = XName_ s n -> (exists s2, y = XName_ s2 n) \/ (exists s2 m, y = XMacroLabel_ s2 m)) /\
  (forall s n, x = XMacroLabel_ s n -> exists s2 m, y = XMacroLabel_ s2 m).

Definition parts_good (e : sexpr) : Prop := forall x, part_of x e -> origin x.
Definition parts_clean (e : sexpr) : Prop := forall x, part_of x e -> forall s n, x <> XMacroArg_ s n.
Definition arg_good (a : sarg) : Prop :=
  match a with SAImm e | SAEx e => parts_good e /\ parts_clean e | SAIM _ _ => True | SAMacroArg _ _ => False end.
Definition map_good (m : smap sarg) : Prop := forall k a, mget m k = Some a -> arg_good a.

Lemma origin_self : forall x, as_written ms (of_call top) d0 args0 x -> origin x.
Proof. intros x A. exists x. split; [exact A|]. split; [reflexivity|]. split; intros s n ->; eauto. Qed.

Lemma name_head : forall f inv labels args e s n, replace_expr_s f inv labels args e = POk (XName_ s n) ->
  (exists s2, e = XName_ s2 n) \/ (exists s2 m, e = XMacroLabel_ s2 m) \/ (exists s2 m, e = XMacroArg_ s2 m).
Proof.
  intros f inv labels args e s n H. destruct e as [s0 n0|s0 n0 r|s0 n0|s0 n0|op s0 x|op s0 l r]; [left|exfalso|eauto|eauto|exfalso|exfalso];
  destruct f; cbn [replace_expr_s] in H; try (injection H as <- <-; eauto; fail); try discriminate;
  repeat match type of H with pbind ?a _ = _ => destruct a; cbn [pbind] in H; try discriminate end.
Qed.

Lemma label_gone : forall f inv labels args e s n, replace_expr_s f inv labels args e = POk (XMacroLabel_ s n) ->
  exists s2 m, e = XMacroArg_ s2 m.
Proof.
  intros f inv labels args e s n H. destruct e as [s0 n0|s0 n0 r|s0 n0|s0 n0|op s0 x|op s0 l r]; [exfalso|exfalso|exfalso|eauto|exfalso|exfalso];
  destruct f; cbn [replace_expr_s] in H; try discriminate;
  repeat match type of H with pbind ?a _ = _ => destruct a; cbn [pbind] in H; try discriminate end;
  destruct (mget labels n0); discriminate.
Qed.

Lemma part_with_span : forall x e s, part_of x (with_span e s) -> x = with_span e s \/ part_of x e.
Proof.
  intros x e s P. destruct e; cbn [with_span] in *; inversion P; subst; auto; right;
  [now apply part_under|now apply part_left|now apply part_right].
Qed.

Definition err_good (at_ : list pspan) : Prop := at_ <> [] /\ Forall (fun s => stands ms top d0 args0 (here s)) at_.

Lemma origin_stands : forall x, origin x -> stands ms top d0 args0 (here (span_of x)).
Proof. intros x (y & A & E & _). right. right. right. exists y. split; [exact A|now symmetry]. Qed.

Lemma replace_good : forall f inv labels args, map_good args -> forall e, parts_good e ->
  match replace_expr_s f inv labels args e with
  | POk e2 => parts_good e2 /\ parts_clean e2
  | PErr _ at_ => err_good at_
  | _ => True
  end.
Proof.
  assert (NAME: forall s inv n, origin (XName_ s n) -> parts_good (XName_ (with_parent s inv) n) /\ parts_clean (XName_ (with_parent s inv) n)).
  { intros s inv n (y & A & E & HN & HL). split; intros x P; inversion P; subst; [|discriminate].
    exists y. split; [exact A|]. split; [exact E|]. split; intros s1 n1 Q; [|discriminate]. injection Q as _ <-. now apply (HN s). }
  assert (NUM: forall s inv n r, origin (XNumber_ s n r) -> parts_good (XNumber_ (with_parent s inv) n r) /\ parts_clean (XNumber_ (with_parent s inv) n r)).
  { intros s inv n r (y & A & E & HN & HL). split; intros x P; inversion P; subst; [|discriminate].
    exists y. split; [exact A|]. split; [exact E|]. split; intros s1 n1 Q; discriminate. }
  assert (LAB: forall s inv n l, origin (XMacroLabel_ s n) -> parts_good (XName_ (with_parent s inv) l) /\ parts_clean (XName_ (with_parent s inv) l)).
  { intros s inv n l (y & A & E & HN & HL). split; intros x P; inversion P; subst; [|discriminate].
    exists y. split; [exact A|]. split; [exact E|]. split; intros s1 n1 Q; [|discriminate]. right. now apply (HL s n). }
  assert (UN: forall op s inv e x, origin (XUn op s e) -> parts_good x /\ parts_clean x ->
    parts_good (XUn op (with_parent s inv) x) /\ parts_clean (XUn op (with_parent s inv) x)).
  { intros op s inv e x (y & A & E & HN & HL) [G C]. split; intros z P; inversion P; subst; auto; [|discriminate].
    exists y. split; [exact A|]. split; [exact E|]. split; intros s1 n1 Q; discriminate. }
  assert (BIN: forall op s inv e1 e2 x1 x2, origin (XBin op s e1 e2) -> parts_good x1 /\ parts_clean x1 -> parts_good x2 /\ parts_clean x2 ->
    parts_good (XBin op (with_parent s inv) x1 x2) /\ parts_clean (XBin op (with_parent s inv) x1 x2)).
  { intros op s inv e1 e2 x1 x2 (y & A & E & HN & HL) [G1 C1] [G2 C2]. split; intros z P; inversion P; subst; auto; [|discriminate].
    exists y. split; [exact A|]. split; [exact E|]. split; intros s1 n1 Q; discriminate. }
  assert (HERE: forall x s, origin x -> here s = here (span_of x) -> err_good [s]).
  { intros x s O E. split; [discriminate|]. constructor; [|constructor]. rewrite E. now apply origin_stands. }
  induction f as [|f IHf]; intros inv labels args MG; (induction e as [s n|s n r|s n|s n|op s x IH|op s l IHl r IHr]; intros G;
    assert (O := G _ (part_self _)); cbn [replace_expr_s];
    [now apply NAME|now apply NUM| | | |]).
  1, 5: destruct (mget labels n) as [l|]; [now apply (LAB s inv n)|now apply (HERE (XMacroLabel_ s n))].
  1, 4: destruct (mget args n) as [[x|x|s2 m|s2 m]|] eqn:EA; try (now apply (HERE (XMacroArg_ s n))); try exact Logic.I;
    try (now destruct (MG _ _ EA)).
  - destruct (MG _ _ EA) as [GX CX]. assert (R := IHf inv labels args MG x GX).
    destruct (replace_expr_s f inv labels args x) as [y|? ?| |] eqn:ER; cbn [pbind]; auto. destruct R as [GY CY]. split.
    + intros z P. apply part_with_span in P as [->|P]; [|now apply GY].
      destruct (GX _ (part_self _)) as (w & A & E & HN & HL). exists w. split; [exact A|]. split; [destruct y; exact E|]. split.
      * intros s1 n1 Q. destruct y; try discriminate. injection Q as _ <-.
        destruct (name_head _ _ _ _ _ _ _ ER) as [(s2 & ->)|[(s2 & m & ->)|(s2 & m & ->)]].
        -- now apply (HN s2).
        -- right. now apply (HL s2 m).
        -- exfalso. now apply (CX _ (part_self _) s2 m).
      * intros s1 n1 Q. destruct y; try discriminate. destruct (label_gone _ _ _ _ _ _ _ ER) as (s2 & m & ->).
        exfalso. now apply (CX _ (part_self _) s2 m).
    + intros z P s1 n1 Q. apply part_with_span in P as [->|P]; [|now apply (CY z P s1 n1)].
      destruct y; try discriminate. now apply (CY _ (part_self _) s0 name).
  - assert (R := IH (fun z P => G z (part_under _ _ _ _ P))). cbn [replace_expr_s] in R.
    match goal with |- context[pbind ?a _] => destruct a end; cbn [pbind]; auto. now apply (UN op s inv x).
  - assert (R := IHl (fun z P => G z (part_left _ _ _ _ _ P))). assert (R2 := IHr (fun z P => G z (part_right _ _ _ _ _ P))).
    cbn [replace_expr_s] in R, R2.
    match goal with |- context[pbind ?a _] => destruct a end; cbn [pbind]; auto.
    match goal with |- context[pbind ?a _] => destruct a end; cbn [pbind]; auto. now apply (BIN op s inv l r).
  - assert (R := IH (fun z P => G z (part_under _ _ _ _ P))). cbn [replace_expr_s] in R.
    match goal with |- context[pbind ?a _] => destruct a end; cbn [pbind]; auto. now apply (UN op s inv x).
  - assert (R := IHl (fun z P => G z (part_left _ _ _ _ _ P))). assert (R2 := IHr (fun z P => G z (part_right _ _ _ _ _ P))).
    cbn [replace_expr_s] in R, R2.
    match goal with |- context[pbind ?a _] => destruct a end; cbn [pbind]; auto.
    match goal with |- context[pbind ?a _] => destruct a end; cbn [pbind]; auto. now apply (BIN op s inv l r).
Qed.

(** The arguments of an instruction in a body that is reached. *)
Definition body_args (d : smacro_def) (args : list sarg) : Prop := exists calls s name,
  reached ms (of_call top) d0 d calls /\ In (SMInstr s name args) (sm_body d).

Lemma replace_args_good : forall f inv labels argmap d bargs, map_good argmap -> body_args d bargs ->
  forall args, (forall a, In a args -> In a bargs) ->
  match replace_args_s f inv labels argmap args with
  | POk out => Forall arg_good out
  | PErr _ at_ => err_good at_
  | _ => True
  end.
Proof.
  intros f inv labels argmap d bargs MG (calls & s & name & R & I). induction args as [|a args IH]; intros SUB; cbn [replace_args_s]; [constructor|].
  assert (IHH := IH (fun b J => SUB b (or_intror J))). assert (Ia := SUB a (or_introl eq_refl)).
  assert (W: forall e, (a = SAImm e \/ a = SAEx e) -> parts_good e).
  { intros e E x P. apply origin_self. right. exists d, calls, s, name, bargs. split; [exact R|]. split; [exact I|].
    destruct E as [-> | ->]; [now apply (in_imm _ e)|now apply (in_ex _ e)]. }
  assert (TAIL: forall a2, arg_good a2 -> match (let? t' := replace_args_s f inv labels argmap args in POk (a2 :: t')) with
    | POk out => Forall arg_good out | PErr _ at_ => err_good at_ | _ => True end).
  { intros a2 G. destruct (replace_args_s f inv labels argmap args); cbn [pbind]; auto. }
  destruct a as [e|e|s2 m|s2 m].
  - assert (Q := replace_good f inv labels argmap MG e (W e (or_introl eq_refl))).
    destruct (replace_expr_s f inv labels argmap e) as [x|? ?| |]; cbn [pbind]; auto. apply TAIL. exact Q.
  - assert (Q := replace_good f inv labels argmap MG e (W e (or_intror eq_refl))).
    destruct (replace_expr_s f inv labels argmap e) as [x|? ?| |]; cbn [pbind]; auto. apply TAIL. exact Q.
  - cbn [pbind]. apply TAIL. exact Logic.I.
  - destruct (mget argmap m) as [x|] eqn:E; cbn [pbind]; [apply TAIL; now apply (MG m)|].
    split; [discriminate|]. constructor; [|constructor]. right. right. left. exists d, calls, (SMInstr s name bargs). split; [exact R|]. split; [exact I|]. right. eauto.
Qed.

Lemma argmap_good : forall ps m args, map_good m -> Forall arg_good args -> map_good (make_argmap_s m ps args).
Proof.
  induction ps as [|p ps IH]; intros m args MG F; cbn; [exact MG|]. destruct args as [|a args]; [exact MG|].
  inversion F; subst. apply IH; [|assumption]. intros k b E. unfold minsert in E. cbn in E.
  destruct (String.eqb k p); [now injection E as <-|now apply (MG k)].
Qed.

Lemma gen_err : forall d calls, reached ms (of_call top) d0 d calls -> forall body m n e at_, (forall st, In st body -> In st (sm_body d)) ->
  gen_labels_s uuid m n body = PErr e at_ -> err_good at_.
Proof.
  intros d calls R. induction body as [|st body IH]; intros m n e at_ SUB H; cbn in H; [discriminate|].
  destruct st as [s a b|s a|s a].
  - apply (IH m n e at_); auto. intros; apply SUB; now right.
  - apply (IH m n e at_); auto. intros; apply SUB; now right.
  - destruct (mcontains m a).
    + injection H as _ <-. split; [discriminate|]. constructor; [|constructor]. right. right. left. exists d, calls, (SMMacroLabel s a).
      split; [exact R|]. split; [apply SUB; now left|reflexivity].
    + eapply IH; [|exact H]. intros; apply SUB; now right.
Qed.

Definition out_good (st : sstatement) : Prop := match st with SSInstr _ i => Forall parts_good (operand_exprs i) | _ => True end.

Definition result_good (r : placed (list sstatement * nat)) : Prop :=
  match r with POk (out, _) => Forall out_good out | PErr _ at_ => err_good at_ | _ => True end.

Lemma replace_length : forall f inv labels argmap args na, replace_args_s f inv labels argmap args = POk na -> List.length na = List.length args.
Proof.
  intros f inv labels argmap. induction args as [|a args IH]; intros na H; cbn [replace_args_s] in H; [injection H as <-; reflexivity|].
  match type of H with pbind ?a _ = _ => destruct a as [a'| | |]; cbn [pbind] in H; try discriminate end.
  destruct (replace_args_s f inv labels argmap args) as [t'| | |]; cbn [pbind] in H; try discriminate.
  injection H as <-. cbn. f_equal. now apply IH.
Qed.

Lemma body_good : forall call f inv labels argmap d,
  (forall n s name args d2, reached ms (of_call top) d0 d2 (of_call s) -> stands ms top d0 args0 (here s) ->
     defined_as ms name (List.length args) d2 -> Forall arg_good args ->
     result_good (call n s name args)) ->
  reached ms (of_call top) d0 d (of_call inv) -> map_good argmap ->
  forall body n, (forall st, In st body -> In st (sm_body d)) ->
  result_good (expand_body_s call f ms inv labels argmap n body).
Proof.
  intros call f inv labels argmap d C R MG. induction body as [|st body IH]; intros n SUB; cbn [expand_body_s]; [constructor|].
  assert (K: forall first n1, Forall out_good first ->
    result_good (let? (rest, n2) := expand_body_s call f ms inv labels argmap n1 body in POk (first ++ rest, n2))).
  { intros first n1 F. assert (Q := IH n1 (fun st J => SUB st (or_intror J))).
    destruct (expand_body_s call f ms inv labels argmap n1 body) as [[rest n2]| | |]; cbn [pbind] in *; auto. apply Forall_app. auto. }
  assert (I := SUB st (or_introl eq_refl)).
  destruct st as [s name args|s name|s name].
  - assert (BA: body_args d args) by (exists (of_call inv), s, name; auto).
    assert (ST: stands ms top d0 args0 (here s)).
    { right. right. left. exists d, (of_call inv), (SMInstr s name args). split; [exact R|]. split; [exact I|]. now left. }
    assert (Q := replace_args_good f inv labels argmap d args MG BA args (fun a J => J)).
    destruct (find_macro_s ms name (List.length args)) as [d2|] eqn:F.
    + destruct (replace_args_s f inv labels argmap args) as [na|? ?| |] eqn:RA; cbn [pbind]; auto.
      apply find_defined in F.
      assert (R2: reached ms (of_call top) d0 d2 (of_call (with_parent s inv))) by (apply (reached_nested _ _ _ d (of_call inv) s name args); auto).
      rewrite <- (replace_length _ _ _ _ _ _ RA) in F.
      assert (X := C n (with_parent s inv) name na d2 R2 ST F Q).
      destruct (call n (with_parent s inv) name na) as [[first n1]| | |]; cbn [pbind]; auto.
    + destruct (replace_args_s f inv labels argmap args) as [na|? ?| |] eqn:RA; cbn [pbind]; auto.
      assert (MF := make_from (with_parent s inv) name na).
      destruct (make_instr_s (with_parent s inv) name na) as [i|e2 p2| |]; cbn [pbind from_args] in *.
      * apply K. constructor; [|constructor]. apply Forall_forall. intros x J. rewrite Forall_forall in Q.
        destruct (MF x J) as [J2|J2]; apply Q in J2; apply J2.
      * subst p2. split; [discriminate|]. constructor; [exact ST|constructor].
      * exact Logic.I.
      * exact Logic.I.
  - cbn [pbind]. apply K. constructor; [exact Logic.I|constructor].
  - destruct (mget labels name); cbn [pbind]; [|exact Logic.I]. apply K. constructor; [exact Logic.I|constructor].
Qed.

Lemma expand_good : forall f n inv name args d, reached ms (of_call top) d0 d (of_call inv) -> stands ms top d0 args0 (here inv) ->
  defined_as ms name (List.length args) d -> Forall arg_good args -> result_good (expand_s uuid f ms n inv name args).
Proof.
  induction f as [|f IH]; intros n inv name args d R ST D G; cbn [expand_s]; [exact Logic.I|].
  rewrite (defined_find _ _ _ _ D). destruct (Nat.eqb (List.length args) (List.length (sm_args d))).
  2: { split; [discriminate|]. constructor; [exact ST|]. constructor; [|constructor]. right. left. exists d, (of_call inv). auto. }
  assert (E := gen_err d (of_call inv) R (sm_body d) [] n).
  destruct (gen_labels_s uuid [] n (sm_body d)) as [[labels n1]|e at_| |]; cbn [pbind]; [|now apply (E e at_)|exact Logic.I|exact Logic.I].
  apply (body_good _ _ _ _ _ d); auto.
  apply argmap_good; [intros k a Q; discriminate|assumption].
Qed.

Lemma top_good : without_parameters args0 -> Forall arg_good args0.
Proof.
  intros [W1 W2]. apply Forall_forall. intros a I. destruct a as [e|e|s m|s m]; cbn; auto; [| |now apply (W1 s m)].
  - split; intros x P; [apply origin_self; left; now apply (in_imm _ e)|intros s n ->; apply (W2 s n); now apply (in_imm _ e)].
  - split; intros x P; [apply origin_self; left; now apply (in_ex _ e)|intros s n ->; apply (W2 s n); now apply (in_ex _ e)].
Qed.

End Origin.

Lemma expand_stands : forall f ms n inv name args d e at_, defined_as ms name (List.length args) d -> without_parameters args ->
  expand_s uuid f ms n inv name args = PErr e at_ -> at_ <> [] /\ Forall (fun s => stands ms inv d args (here s)) at_.
Proof.
  intros f ms n inv name args d e at_ D W H.
  assert (G := expand_good ms inv d args f n inv name args d (reached_call _ _ _) (or_introl eq_refl) D (top_good ms inv d args W)).
  rewrite H in G. exact G.
Qed.

Lemma expand_names : forall f ms n inv name args d out n2, defined_as ms name (List.length args) d -> without_parameters args ->
  expand_s uuid f ms n inv name args = POk (out, n2) -> forall s i x, In (SSInstr s i) out -> in_instr i x -> origin ms inv d args x.
Proof.
  intros f ms n inv name args d out n2 D W H s i x I (y & J & P).
  assert (G := expand_good ms inv d args f n inv name args d (reached_call _ _ _) (or_introl eq_refl) D (top_good ms inv d args W)).
  rewrite H in G. cbn in G. rewrite Forall_forall in G. specialize (G _ I). cbn in G. rewrite Forall_forall in G.
  now apply (G y J).
Qed.

(** * Instructions that are refused *)

Definition refused (ms : smacros) (c : list span) (d0 : smacro_def) (e : error) (at_ : list pspan) : Prop :=
  exists d calls s name args, reached ms c d0 d calls /\ In (SMInstr s name args) (sm_body d) /\
    no_macro ms name (List.length args) /\ at_ = [mkP (here s) calls].

Definition bad_instr (e : error) : Prop := e = UnknownInstruction \/ exists m, e = WrongInstructionArgs m.

Lemma replace_not_bad : forall f inv labels args e er at_, replace_expr_s f inv labels args e = PErr er at_ -> ~ bad_instr er.
Proof.
  assert (B: forall er, bad_instr er -> match er with UnknownInstruction | WrongInstructionArgs _ => True | _ => False end)
    by (intros er [->|(m & ->)]; exact Logic.I).
  induction f as [|f IHf]; intros inv labels args; (induction e as [s n|s n r|s n|s n|op s x IH|op s l IHl r IHr]; intros er at_ H NB;
    cbn [replace_expr_s] in *; try discriminate).
  1, 5: destruct (mget labels n); [discriminate|]; injection H as <- <-; now apply B in NB.
  1, 4: destruct (mget args n) as [[x|x|s2 m|s2 m]|]; try discriminate; try (injection H as <- <-; now apply B in NB).
  - destruct (replace_expr_s f inv labels args x) eqn:E; cbn [pbind] in H; try discriminate. injection H as <- <-. now apply IHf in E.
  - match type of H with pbind ?a _ = _ => destruct a eqn:E end; cbn [pbind] in H; try discriminate. injection H as <- <-. now apply (IH _ _ eq_refl).
  - match type of H with pbind ?a _ = _ => destruct a eqn:E end; cbn [pbind] in H; try discriminate.
    + match type of H with pbind ?a _ = _ => destruct a eqn:E2 end; cbn [pbind] in H; try discriminate. injection H as <- <-. now apply (IHr _ _ eq_refl).
    + injection H as <- <-. now apply (IHl _ _ eq_refl).
  - match type of H with pbind ?a _ = _ => destruct a eqn:E end; cbn [pbind] in H; try discriminate. injection H as <- <-. now apply (IH _ _ eq_refl).
  - match type of H with pbind ?a _ = _ => destruct a eqn:E end; cbn [pbind] in H; try discriminate.
    + match type of H with pbind ?a _ = _ => destruct a eqn:E2 end; cbn [pbind] in H; try discriminate. injection H as <- <-. now apply (IHr _ _ eq_refl).
    + injection H as <- <-. now apply (IHl _ _ eq_refl).
Qed.

Lemma replace_args_not_bad : forall f inv labels argmap args er at_, replace_args_s f inv labels argmap args = PErr er at_ -> ~ bad_instr er.
Proof.
  intros f inv labels argmap. induction args as [|a args IH]; intros er at_ H NB; cbn [replace_args_s] in H; [discriminate|].
  assert (T: forall a2, (let? t' := replace_args_s f inv labels argmap args in POk (a2 :: t')) = PErr er at_ -> False).
  { intros a2 Q. destruct (replace_args_s f inv labels argmap args) eqn:E; cbn [pbind] in Q; try discriminate. injection Q as <- <-. now apply (IH _ _ eq_refl). }
  destruct a as [e|e|s m|s m].
  - destruct (replace_expr_s f inv labels argmap e) eqn:E; cbn [pbind] in H; try discriminate; [now apply T in H|].
    injection H as <- <-. now apply replace_not_bad in E.
  - destruct (replace_expr_s f inv labels argmap e) eqn:E; cbn [pbind] in H; try discriminate; [now apply T in H|].
    injection H as <- <-. now apply replace_not_bad in E.
  - cbn [pbind] in H. now apply T in H.
  - destruct (mget argmap m); cbn [pbind] in H; [now apply T in H|]. injection H as <- <-. destruct NB as [NB|(? & NB)]; discriminate.
Qed.

Lemma body_refused : forall call f ms inv labels argmap d c d0,
  (forall n s name args e at_ d2, call n s name args = PErr e at_ -> bad_instr e -> defined_as ms name (List.length args) d2 ->
     reached ms c d0 d2 (of_call s) -> refused ms c d0 e at_) ->
  reached ms c d0 d (of_call inv) ->
  forall body n e at_, (forall st, In st body -> In st (sm_body d)) ->
  expand_body_s call f ms inv labels argmap n body = PErr e at_ -> bad_instr e -> refused ms c d0 e at_.
Proof.
  intros call f ms inv labels argmap d c d0 C R. induction body as [|st body IH]; intros n e at_ SUB H NB; cbn [expand_body_s] in H; [discriminate|].
  assert (T: forall first n1, (let? (rest, n2) := expand_body_s call f ms inv labels argmap n1 body in POk (first ++ rest, n2)) = PErr e at_ -> refused ms c d0 e at_).
  { intros first n1 Q. destruct (expand_body_s call f ms inv labels argmap n1 body) as [[rest n2]|e2 a2| |] eqn:E; cbn [pbind] in Q; try discriminate.
    injection Q as <- <-. apply (IH n1 e2 a2); auto. intros; apply SUB; now right. }
  assert (I := SUB st (or_introl eq_refl)).
  destruct st as [s name args|s name|s name].
  - destruct (find_macro_s ms name (List.length args)) as [d2|] eqn:F.
    + destruct (replace_args_s f inv labels argmap args) as [na|? ?| |] eqn:RA; cbn [pbind] in H; try discriminate.
      * apply find_defined in F.
        assert (R2: reached ms c d0 d2 (of_call (with_parent s inv))) by (apply (reached_nested _ _ _ d (of_call inv) s name args); auto).
        rewrite <- (replace_length _ _ _ _ _ _ RA) in F.
        destruct (call n (with_parent s inv) name na) as [[first n1]|e2 a2| |] eqn:EC; cbn [pbind] in H; try discriminate; [now apply T in H|].
        injection H as -> ->. now apply (C _ _ _ _ _ _ d2 EC).
      * injection H as -> ->. now apply replace_args_not_bad in RA.
    + destruct (replace_args_s f inv labels argmap args) as [na|? ?| |] eqn:RA; cbn [pbind] in H; try discriminate.
      * assert (MF := make_from (with_parent s inv) name na). destruct (make_instr_s (with_parent s inv) name na); cbn [pbind from_args] in *; try discriminate; [now apply T in H|].
        subst at_0. injection H as -> <-. exists d, (of_call inv), s, name, args. split; [exact R|]. split; [exact I|]. split; [now apply find_none|reflexivity].
      * injection H as -> ->. now apply replace_args_not_bad in RA.
  - cbn [pbind] in H. now apply T in H.
  - destruct (mget labels name); cbn [pbind] in H; [now apply T in H|discriminate].
Qed.

Lemma expand_refused : forall f ms c d0 n inv name args e at_ d, expand_s uuid f ms n inv name args = PErr e at_ -> bad_instr e ->
  defined_as ms name (List.length args) d -> reached ms c d0 d (of_call inv) -> refused ms c d0 e at_.
Proof.
  induction f as [|f IH]; intros ms c d0 n inv name args e at_ d H NB D R; cbn [expand_s] in H; [discriminate|].
  rewrite (defined_find _ _ _ _ D) in H.
  destruct (Nat.eqb (List.length args) (List.length (sm_args d))).
  2: { injection H as <- <-. destruct NB as [NB|(? & NB)]; discriminate. }
  destruct (gen_labels_s uuid [] n (sm_body d)) as [[labels n1]|e2 a2| |] eqn:EG; cbn [pbind] in H; try discriminate.
  - eapply (body_refused _ _ _ _ _ _ d); [|exact R| |exact H|exact NB]; auto. intros. eapply IH; eassumption.
  - injection H as -> ->. exfalso. clear -EG NB. revert EG. generalize ([] : smap string) n. induction (sm_body d) as [|[s a b|s a|s a] body IH]; intros m k EG; cbn in EG; try discriminate.
    + now apply IH in EG.
    + now apply IH in EG.
    + destruct (mcontains m a); [|now apply IH in EG]. injection EG as <- <-. destruct NB as [NB|(? & NB)]; discriminate.
Qed.

End Uuid.
