(** Directives, statements and lines against the grammar. *)
From Coq Require Import ZArith List String Ascii Bool Arith Lia.
From Verif Require Import Base Expr Instr Ast Macro Lexer Parser SpecIsa SpecMacro MacroProofs MacroProofs3 SpecParse ParseProofs SpecLine LineProofs.
Import ListNotations.
Open Scope string_scope.
Open Scope list_scope.
Local Open Scope nat_scope.

Local Arguments parse_expr : simpl never.
Local Arguments parse_list : simpl never.
Local Arguments instr_exists : simpl never.
Local Arguments make_instr : simpl never.
Local Arguments isa : simpl never.
Local Arguments known : simpl never.
Local Arguments String.eqb : simpl never.

Definition args_sound := parse_list_sound parse_arg operand_of parse_arg_sound.
Definition args_complete := parse_list_complete parse_arg operand_of parse_arg_complete operand_head.
Definition bytes_sound := parse_list_sound parse_byte_value byte_item parse_byte_sound.
Definition bytes_complete := parse_list_complete parse_byte_value byte_item parse_byte_complete byte_head.
Definition props_sound := parse_list_sound parse_keyval_pair property parse_keyval_sound.
Definition props_complete := parse_list_complete parse_keyval_pair property parse_keyval_complete property_head.
Definition exprs_sound := parse_list_sound parse_expr expression_of parse_expr_sound.
Definition exprs_complete := parse_list_complete parse_expr expression_of parse_expr_complete expr_head_eof.

Lemma name_cond n m : has_name n (TName m) = String.eqb n m.
Proof. reflexivity. Qed.

Lemma include_sound ts d rest : parse_include ts = Ok (d, rest) ->
  exists front, ts = front ++ rest /\ directive_of (TName ".include" :: front) d.
Proof.
  unfold parse_include. destruct ts as [|t r]; [discriminate|]. destruct t; try discriminate.
  - cbn [check check_at nth_error is_string]. rewrite !name_cond.
    destruct (String.eqb_spec "icon" name) as [<-|N1]; [|destruct (String.eqb_spec "sprite" name) as [<-|N2]].
    + cbn [read_name bind]. destruct r as [|t2 r2]; [discriminate|]. destruct t2; try discriminate. cbn [read_string bind].
      unfold parse_keyval_pairs. intros H. destruct (parse_list parse_keyval_pair r2) as [[ps r3]| | |] eqn:E; try discriminate.
      apply props_sound in E as [_ (front & -> & M)]. cbn [bind] in H. fold (inserted ps) in H.
      destruct (icon_speed_of (inserted ps)) as [speed| | |] eqn:ES; try discriminate. cbn [bind] in H. injection H as <- <-.
      eexists (_ :: _ :: front). split; [reflexivity|]. apply d_icon with (ps := ps); [exact M|now apply icon_speed_iff|].
      now apply inserted_given.
    + cbn [read_name bind]. destruct r as [|t2 r2]; [discriminate|]. destruct t2; try discriminate. cbn [read_string bind].
      unfold parse_keyval_pairs. intros H. destruct (parse_list parse_keyval_pair r2) as [[ps r3]| | |] eqn:E; try discriminate.
      apply props_sound in E as [_ (front & -> & M)]. cbn [bind] in H. fold (inserted ps) in H.
      destruct (sprite_type_of (inserted ps)) as [k| | |] eqn:EK; try discriminate. cbn [bind] in H.
      destruct (sprite_header_of (inserted ps)) as [h| | |] eqn:EH; try discriminate. cbn [bind] in H. injection H as <- <-.
      eexists (_ :: _ :: front). split; [reflexivity|].
      apply d_sprite with (ps := ps); [exact M|now apply (sprite_kind_iff front)|now apply (sprite_head_iff front)].
    + unfold read_include_type. cbn [check check_at nth_error]. rewrite !name_cond.
      destruct (String.eqb_spec "asm" name) as [<-|N3]; [|destruct (String.eqb_spec "bytes" name) as [<-|N4];
        [|destruct (String.eqb_spec "cpp" name) as [<-|N5]]]; cbn [next bind]; try discriminate;
        (destruct r as [|t2 r2]; [discriminate|]); destruct t2; try discriminate; cbn [read_string bind];
        intros H; injection H as <- <-; eexists [_; _]; (split; [reflexivity|]); apply d_include_typed; cbn; tauto.
  - cbn. intros H. injection H as <- <-. eexists [_]. split; [reflexivity|]. apply d_include.
Qed.

Lemma directive_sound ts s rest : parse_directive ts = Ok (Some s, rest) ->
  exists front d, ts = front ++ rest /\ s = SDirective d /\ directive_of front d.
Proof.
  unfold parse_directive. destruct ts as [|t r]; [discriminate|]. destruct t; try discriminate. rewrite !name_cond.
  destruct (String.eqb_spec ".byte" name) as [<-|N1].
  { intros H. unfold parse_byte_vals in H. destruct (parse_list _ r) as [[xs r2]| | |] eqn:E; try discriminate.
    apply bytes_sound in E as [_ (front & -> & [[-> ->]|S])]; [discriminate|]. cbn [bind] in H.
    destruct xs as [|x xs]; [discriminate|]. injection H as <- <-. eexists (_ :: front), _. split; [reflexivity|].
    split; [reflexivity|]. now apply d_byte. }
  destruct (String.eqb_spec ".org" name) as [<-|N2].
  { destruct r as [|t2 r2]; [discriminate|]. destruct t2; try discriminate. cbn. intros H. injection H as <- <-.
    eexists [_; _], _. split; [reflexivity|]. split; [reflexivity|]. apply d_org. }
  destruct (String.eqb_spec ".word" name) as [<-|N3].
  { intros H. unfold parse_exprs in H. destruct (parse_list _ r) as [[xs r2]| | |] eqn:E; try discriminate.
    apply exprs_sound in E as [_ (front & -> & [[-> ->]|S])]; [discriminate|]. cbn [bind] in H.
    destruct xs as [|x xs]; [discriminate|]. injection H as <- <-. eexists (_ :: front), _. split; [reflexivity|].
    split; [reflexivity|]. now apply d_word. }
  destruct (String.eqb_spec ".text" name) as [<-|N4].
  { destruct r as [|t2 r2]; [discriminate|]. destruct t2; try discriminate. cbn [read_number bind].
    destruct r2 as [|t3 r3]; [discriminate|]. destruct t3; try discriminate. cbn. intros H. injection H as <- <-.
    eexists [_; _; _], _. split; [reflexivity|]. split; [reflexivity|]. apply d_text. }
  destruct (String.eqb_spec ".string" name) as [<-|N5].
  { destruct r as [|t2 r2]; [discriminate|]. destruct t2; try discriminate. cbn [read_number bind].
    destruct r2 as [|t3 r3]; [discriminate|]. destruct t3; try discriminate. cbn. intros H. injection H as <- <-.
    eexists [_; _; _], _. split; [reflexivity|]. split; [reflexivity|]. apply d_string. }
  destruct (String.eqb_spec ".include" name) as [<-|N6].
  { intros H. destruct (parse_include r) as [[d r2]| | |] eqn:E; try discriminate. cbn [bind] in H. injection H as <- <-.
    apply include_sound in E as (front & -> & D). eexists (_ :: front), d. split; [reflexivity|]. auto. }
  destruct (String.eqb_spec ".cnop" name) as [<-|N7]; [|discriminate].
  intros H. destruct (parse_expr r) as [[a r2]| | |] eqn:E1; try discriminate. cbn [bind] in H.
  destruct r2 as [|t2 r3]; [discriminate|]. destruct t2; try discriminate. cbn [consume_comma bind] in H.
  destruct (parse_expr r3) as [[b r4]| | |] eqn:E2; try discriminate. cbn [bind] in H. injection H as <- <-.
  apply parse_expr_sound in E1 as (f1 & -> & X1). apply parse_expr_sound in E2 as (f2 & -> & X2).
  exists (TName ".cnop" :: f1 ++ TComma :: f2), (DCnop a b). rewrite <- app_comm_cons, <- app_assoc. cbn. split; [reflexivity|].
  split; [reflexivity|]. now apply d_cnop.
Qed.

Definition not_directive (ts : stream) : Prop := forall n r, ts = TName n :: r -> ~ In n directive_names.

Local Ltac crush_outcome H :=
  repeat match type of H with
  | bind ?x _ = _ => destruct x as [[? ?]| | |]; try discriminate; cbn [bind] in H
  | match ?x with _ => _ end = _ => destruct x; try discriminate; cbn [bind] in H
  end.

Lemma directive_none ts r : parse_directive ts = Ok (None, r) <-> r = ts /\ not_directive ts.
Proof.
  unfold parse_directive. destruct ts as [|t r0].
  { split; [intros H; injection H as <-; split; [reflexivity|]; intros ? ? ?; discriminate|intros [-> _]; reflexivity]. }
  destruct t; try (split; [intros H; injection H as <-; split; [reflexivity|]; intros ? ? ?; discriminate|intros [-> _]; reflexivity]).
  rewrite !name_cond. split.
  - intros H.
    destruct (String.eqb_spec ".byte" name) as [<-|N1].
    { destruct (parse_byte_vals r0) as [[[|? ?] ?]| | |]; discriminate. }
    destruct (String.eqb_spec ".org" name) as [<-|N2]; [destruct (read_number r0) as [[? ?]| | |]; discriminate|].
    destruct (String.eqb_spec ".word" name) as [<-|N3]; [destruct (parse_exprs r0) as [[[|? ?] ?]| | |]; discriminate|].
    destruct (String.eqb_spec ".text" name) as [<-|N4].
    { destruct (read_number r0) as [[? r1]| | |]; try discriminate. cbn [bind] in H. destruct (read_string r1) as [[? ?]| | |]; discriminate. }
    destruct (String.eqb_spec ".string" name) as [<-|N5].
    { destruct (read_number r0) as [[? r1]| | |]; try discriminate. cbn [bind] in H. destruct (read_string r1) as [[? ?]| | |]; discriminate. }
    destruct (String.eqb_spec ".include" name) as [<-|N6]; [destruct (parse_include r0) as [[? ?]| | |]; discriminate|].
    destruct (String.eqb_spec ".cnop" name) as [<-|N7].
    { destruct (parse_expr r0) as [[? r1]| | |]; try discriminate. cbn [bind] in H. destruct (consume_comma r1) as [r2| | |]; try discriminate.
      cbn [bind] in H. destruct (parse_expr r2) as [[? ?]| | |]; discriminate. }
    injection H as <-. split; [reflexivity|]. intros m r E. injection E as <- <-. cbn. intros I.
    repeat destruct I as [I|I]; try congruence. 
  - intros [-> N]. specialize (N name r0 eq_refl). cbn in N.
    repeat (match goal with |- context[String.eqb ?a name] => destruct (String.eqb_spec a name) as [E|]; [tauto|] end). reflexivity.
Qed.

Local Ltac eqbs := repeat (rewrite name_cond; match goal with |- context[String.eqb ?a ?b] =>
  let v := eval vm_compute in (String.eqb a b) in change (String.eqb a b) with v end; cbv iota).

Lemma directive_complete front d rest : directive_of front d -> fin rest ->
  parse_directive (front ++ rest) = Ok (Some (SDirective d), rest).
Proof.
  intros D F. destruct D as [ts items S|n r|ts es S|n r s|n r s|ts1 a ts2 m X1 X2|s|w t s I|s ts ps speed eye M SP G|s ts ps k h M SK SH];
    cbn [app parse_directive]; eqbs.
  - unfold parse_byte_vals. rewrite (bytes_complete _ _ _ (or_intror S) F). cbn [bind]. destruct items; [inversion S|reflexivity].
  - reflexivity.
  - unfold parse_exprs. rewrite (exprs_complete _ _ _ (or_intror S) F). cbn [bind]. destruct es; [inversion S|reflexivity].
  - reflexivity.
  - reflexivity.
  - rewrite <- app_assoc. cbn [app]. rewrite (parse_expr_complete _ _ (TComma :: ts2 ++ rest) X1); [|right; eauto]. cbn [bind consume_comma].
    rewrite (parse_expr_complete _ _ _ X2); [|now left]. reflexivity.
  - reflexivity.
  - cbn in I. destruct I as [I|[I|[I|[]]]]; injection I as <- <-; reflexivity.
  - unfold parse_include. cbn [check check_at nth_error is_string]. eqbs. cbn [read_name read_string bind].
    unfold parse_keyval_pairs. rewrite (props_complete _ _ _ M F). cbn [bind]. fold (inserted ps).
    apply icon_speed_iff in SP. apply inserted_given in G. rewrite SP, G. reflexivity.
  - unfold parse_include. cbn [check check_at nth_error is_string]. eqbs. cbn [read_name read_string bind].
    unfold parse_keyval_pairs. rewrite (props_complete _ _ _ M F). cbn [bind]. fold (inserted ps).
    apply (sprite_kind_iff _ _ _ M) in SK. apply (sprite_head_iff _ _ _ M) in SH. rewrite SK. cbn [bind]. rewrite SH. reflexivity.
Qed.

(** * Instructions and macro calls *)

Definition mnemonics : list string := Eval vm_compute in map (fun v => lower (before_underscore (v_name v))) variants.
Definition isa_names : list string := Eval vm_compute in map f_name isa.

Lemma existsb_map {A B : Type} (f : A -> B) (p : B -> bool) l : existsb (fun x => p (f x)) l = existsb p (map f l).
Proof. induction l as [|x l IH]; cbn; [reflexivity|]. now rewrite IH. Qed.

Lemma instr_exists_known n : instr_exists n = true <-> known n.
Proof.
  rewrite <- knownb_known. unfold instr_exists, knownb.
  rewrite (existsb_map (fun v => lower (before_underscore (v_name v))) (String.eqb n)).
  rewrite (existsb_map f_name (fun m => String.eqb m n)).
  replace (map (fun v => lower (before_underscore (v_name v))) variants) with mnemonics by (vm_compute; reflexivity).
  replace (map f_name isa) with isa_names by (vm_compute; reflexivity).
  rewrite !existsb_exists.
  assert (I1: incl mnemonics isa_names).
  { assert (H: forallb (fun m => existsb (String.eqb m) isa_names) mnemonics = true) by (vm_compute; reflexivity).
    rewrite forallb_forall in H. intros m I. apply H in I. apply existsb_exists in I as (x & I & E). apply String.eqb_eq in E. now subst. }
  assert (I2: incl isa_names mnemonics).
  { assert (H: forallb (fun m => existsb (String.eqb m) mnemonics) isa_names = true) by (vm_compute; reflexivity).
    rewrite forallb_forall in H. intros m I. apply H in I. apply existsb_exists in I as (x & I & E). apply String.eqb_eq in E. now subst. }
  split; intros (x & I & E); apply String.eqb_eq in E; subst; eexists; (split; [|apply String.eqb_refl]); auto.
Qed.

Lemma local_dotted n : is_local n = true <-> dotted n.
Proof.
  unfold is_local, dotted. destruct n as [|c t]; cbn.
  - split; [discriminate|]. intros (t & H). discriminate.
  - split.
    + destruct (Ascii.eqb_spec "." c) as [<-|N]; [eauto|]. destruct (Ascii.eqb_spec c ".") as [->|N2]; [now destruct N|]. try discriminate.
    + intros (t2 & H). injection H as -> ->. reflexivity.
Qed.

Lemma known_not_dotted n : known n -> ~ dotted n.
Proof.
  intros K (t & ->). apply knownb_known in K. apply known_names in K. cbn in K. repeat destruct K as [K|K]; try discriminate. exact K.
Qed.

Lemma gen_instr_sound ts name args rest : parse_gen_instr ts = Ok ((name, args), rest) ->
  exists front, ts = TName name :: front ++ rest /\ maybe operand_of front args.
Proof.
  unfold parse_gen_instr. destruct ts as [|t r]; [discriminate|]. destruct t; try discriminate. cbn [read_name bind].
  intros H. unfold parse_args in H. destruct (parse_list parse_arg r) as [[xs r2]| | |] eqn:E; try discriminate. cbn in H.
  injection H as <- <- <-. apply args_sound in E as [_ (front & -> & M)]. eauto.
Qed.

Lemma gen_instr_complete name front args rest : maybe operand_of front args -> fin rest ->
  parse_gen_instr (TName name :: front ++ rest) = Ok ((name, args), rest).
Proof. intros M F. unfold parse_gen_instr. cbn [read_name bind]. unfold parse_args. rewrite (args_complete _ _ _ M F). reflexivity. Qed.

Lemma instr_sound ts s rest : parse_instr ts = Ok (Some s, rest) -> exists front, ts = front ++ rest /\ command front s.
Proof.
  unfold parse_instr. destruct ts as [|t r]; [discriminate|]. destruct t; try discriminate.
  destruct (instr_exists name) eqn:K; cbn [negb].
  - intros H. destruct (parse_gen_instr _) as [[[n args] r2]| | |] eqn:E; try discriminate. cbn [bind] in H.
    destruct (make_instr n args) as [i| | |] eqn:EI; try discriminate. cbn in H. injection H as <- <-.
    apply gen_instr_sound in E as (front & E & M). injection E as -> ->.
    exists (TName n :: front). split; [reflexivity|]. apply make_instr_iff in EI as (f & I & <- & KY & SH). now apply c_instr with (args := args).
  - destruct (is_local name) eqn:EL; cbn [negb]; [discriminate|]. intros H.
    destruct (parse_gen_instr _) as [[[n args] r2]| | |] eqn:E; try discriminate. cbn in H. injection H as <- <-.
    apply gen_instr_sound in E as (front & E & M). injection E as -> ->.
    exists (TName n :: front). split; [reflexivity|]. apply c_macro; [exact M| |].
    + rewrite <- instr_exists_known. congruence.
    + rewrite <- local_dotted. congruence.
Qed.

Lemma instr_complete front s rest : command front s -> fin rest -> parse_instr (front ++ rest) = Ok (Some s, rest).
Proof.
  intros C F. destruct C as [ts args f i M I KY SH|n ts args M K D]; cbn [app parse_instr].
  - assert (K: instr_exists (f_name f) = true) by (apply instr_exists_known; exists f; auto). rewrite K. cbn [negb].
    rewrite (gen_instr_complete _ _ _ _ M F). cbn [bind].
    rewrite (proj2 (make_instr_iff (f_name f) args i)) by (exists f; auto). reflexivity.
  - destruct (instr_exists n) eqn:EK; [now apply instr_exists_known in EK|].
    destruct (is_local n) eqn:EL; [now apply local_dotted in EL|]. cbn [negb].
    rewrite (gen_instr_complete _ _ _ _ M F). reflexivity.
Qed.

Lemma instr_none ts r : parse_instr ts = Ok (None, r) -> r = ts /\ forall n t, ts = TName n :: t -> dotted n /\ ~ known n.
Proof.
  unfold parse_instr. destruct ts as [|t r0]; [intros H; injection H as <-; split; [reflexivity|discriminate]|].
  destruct t; try (intros H; injection H as <-; split; [reflexivity|discriminate]).
  destruct (instr_exists name) eqn:K; cbn [negb].
  - intros H. destruct (parse_gen_instr _) as [[[n args] r2]| | |]; try discriminate. cbn [bind] in H.
    destruct (make_instr n args); discriminate.
  - destruct (is_local name) eqn:EL; cbn [negb].
    + intros H. injection H as <-. split; [reflexivity|]. intros n t E. injection E as <- <-. split; [now apply local_dotted|].
      rewrite <- instr_exists_known. congruence.
    + intros H. destruct (parse_gen_instr _) as [[[n args] r2]| | |]; discriminate.
Qed.

(** * Statements *)

Lemma fin_check_none p rest : fin rest -> (p TEOF = false) -> check p rest = false.
Proof. intros [->|(r & ->)] H; cbn; auto. Qed.

Lemma other_sound ts s rest : parse_other ts = Ok (s, rest) -> not_directive ts ->
  exists front, ts = front ++ rest /\ line front [s] /\
    (match s with SLabel n => fin rest /\ front = [TName n] | SAlias _ _ | SVariable _ _ => True | _ => False end).
Proof.
  unfold parse_other. destruct ts as [|tok r]; [discriminate|]. cbn [next bind]. intros H ND.
  destruct (is_name tok) eqn:EN; [|discriminate]. destruct tok; try discriminate EN. cbn [andb is_local_name] in H.
  assert (D: ~ In name directive_names) by (apply (ND _ _ eq_refl)).
  destruct (is_empty r && is_local name)%bool eqn:E1.
  { apply andb_prop in E1 as [E1 E2]. injection H as <- <-. exists [TName name]. split; [reflexivity|].
    split; [|split; [now apply is_empty_fin|reflexivity]]. apply l_local_label; [now apply local_dotted|exact D]. }
  destruct (check (has_name "equ") r) eqn:E2.
  { destruct r as [|t2 r2]; [discriminate|]. destruct t2; try discriminate. change (String.eqb "equ" name0 = true) in E2.
    apply String.eqb_eq in E2. subst name0. cbn [next bind] in H.
    destruct (parse_expr r2) as [[e r3]| | |] eqn:E; try discriminate. cbn in H. injection H as <- <-.
    apply parse_expr_sound in E as (front & -> & X). exists (TName name :: TName "equ" :: front). split; [reflexivity|].
    split; [|exact I]. now apply l_alias. }
  destruct (check is_equ r) eqn:E3.
  { destruct r as [|t2 r2]; [discriminate|]. destruct t2; try discriminate. cbn [next bind] in H.
    destruct (parse_expr r2) as [[e r3]| | |] eqn:E; try discriminate. cbn in H. injection H as <- <-.
    apply parse_expr_sound in E as (front & -> & X). exists (TName name :: TEquals :: front). split; [reflexivity|].
    split; [|exact I]. now apply l_variable. }
  destruct (is_local name); discriminate.
Qed.

Lemma dor_sound ts s rest : parse_directive_or_other ts = Ok (s, rest) ->
  exists front, ts = front ++ rest /\ line front [s] /\
    (match s with SLabel n => fin rest /\ front = [TName n] | _ => True end).
Proof.
  unfold parse_directive_or_other. destruct (parse_directive ts) as [[[s2|] r]| | |] eqn:E; try discriminate; cbn [bind]; intros H.
  - injection H as <- <-. apply directive_sound in E as (front & d & -> & -> & D). exists front. split; [reflexivity|].
    split; [now apply l_directive|exact I].
  - apply directive_none in E as [-> ND]. apply other_sound in H; [|exact ND]. destruct H as (front & -> & L & M).
    exists front. split; [reflexivity|]. split; [exact L|]. destruct s; auto.
Qed.

Lemma command_head ts s : command ts s -> exists n r, ts = TName n :: r /\ ~ dotted n.
Proof.
  intros [ts2 args f i M I KY SH|n ts2 args M K D]; eexists _, _; (split; [reflexivity|]); auto.
  apply known_not_dotted. exists f. auto.
Qed.

Lemma statement_sound ts s rest : parse_statement ts = Ok (s, rest) ->
  (exists n, s = SLabel n /\ ts = TName n :: TColon :: rest) \/
  (exists front, ts = front ++ rest /\ (fin rest -> line front [s]) /\ (match s with SLabel n => fin rest | _ => True end)).
Proof.
  intros H. assert (G: (exists n r, ts = TName n :: TColon :: r) \/ forall n r, ts <> TName n :: TColon :: r).
  { destruct ts as [|t1 [|t2 r]]; try (right; discriminate). destruct t1; try (right; discriminate).
    destruct t2; try (right; discriminate). left. eauto. }
  destruct G as [(n & r & ->)|G]. { cbn in H. injection H as <- <-. left. eauto. }
  right.
  assert (H2: (if (check is_name ts &&
          negb (check_at 1 (has_name "equ") ts || check_at 1 is_equ ts || check is_local_name ts))%bool then
        let! (i, r) := parse_instr ts in
        match i with
        | Some s => Ok (s, r)
        | None => parse_directive_or_other ts
        end
      else parse_directive_or_other ts) = Ok (s, rest)).
  { destruct ts as [|t1 [|t2 r]]; try exact H; destruct t1; try exact H. destruct t2; try exact H. now destruct (G _ _ eq_refl). }
  clear H. destruct (check is_name ts && _)%bool eqn:C.
  - apply andb_prop in C as [C1 C2]. apply negb_true_iff, orb_false_elim in C2 as [C2 C4]. apply orb_false_elim in C2 as [C2 C3].
    destruct (parse_instr ts) as [[[s2|] r]| | |] eqn:E; try discriminate; cbn [bind] in H2.
    + injection H2 as <- <-. apply instr_sound in E as (front & -> & CM). exists front. split; [reflexivity|].
      split; [|destruct CM; exact I]. intros F. apply l_command; [exact CM|].
      intros a q ->. cbn [check_at app nth_error] in C2. rewrite name_cond in C2. discriminate.
    + apply dor_sound in H2 as (front & -> & L & M). exists front. split; [reflexivity|]. split; [auto|]. destruct s2 || destruct s; tauto.
  - apply dor_sound in H2 as (front & -> & L & M). exists front. split; [reflexivity|]. split; [auto|]. destruct s; tauto.
Qed.

(** * Lines *)

Lemma line_sound ts stmts : parse_line ts = Ok stmts -> exists front rest, ts = front ++ rest /\ fin rest /\ line front stmts.
Proof.
  unfold parse_line. destruct (is_empty ts) eqn:E0; cbn [negb].
  { intros H. injection H as <-. exists [], ts. split; [reflexivity|]. split; [now apply is_empty_fin|apply l_empty]. }
  intros H. destruct (parse_statement ts) as [[s r]| | |] eqn:ES; try discriminate. cbn [bind] in H.
  assert (NL: forall f, ts = f ++ r -> fin r -> (fin r -> line f [s]) -> is_label s = true \/ is_label s = false ->
     (if negb (is_empty r) then let! (_, _) := next r in Err UnexpectedToken else Ok [s]) = Ok stmts ->
     exists front rest, ts = front ++ rest /\ fin rest /\ line front stmts).
  { intros f -> F L _ Q. rewrite (proj2 (is_empty_fin r) F) in Q. cbn in Q. injection Q as <-. exists f, r. auto. }
  apply statement_sound in ES as [(n & -> & ->)|(front & -> & L & M)].
  - cbn [is_label] in H. destruct (is_empty r) eqn:E1; cbn [negb andb bind] in H.
    + rewrite E1 in H. cbn in H. injection H as <-. exists [TName n; TColon], r. split; [reflexivity|].
      split; [now apply is_empty_fin|apply l_label].
    + destruct (parse_instr r) as [[[s2|] r2]| | |] eqn:EI; try discriminate; cbn [bind] in H.
      * destruct (is_empty r2) eqn:E2; cbn [negb] in H.
        -- injection H as <-. apply instr_sound in EI as (front & -> & C). exists (TName n :: TColon :: front), r2.
           split; [reflexivity|]. split; [now apply is_empty_fin|now apply l_label_command].
        -- destruct r2; discriminate.
      * destruct (next r2) as [[? ?]| | |]; discriminate.
  - assert (X: (is_label s && negb (is_empty r))%bool = false).
    { destruct s; try reflexivity. cbn. rewrite (proj2 (is_empty_fin r) M). reflexivity. }
    rewrite X in H. cbn [bind] in H. destruct (is_empty r) eqn:E1; cbn [negb] in H.
    + injection H as <-. apply is_empty_fin in E1. exists front, r. auto.
    + destruct r; discriminate.
Qed.

Local Arguments parse_directive : simpl never.
Local Arguments parse_instr : simpl never.
Local Arguments check : simpl never.
Local Arguments check_at : simpl never.

Lemma fin_empty rest : fin rest -> is_empty rest = true.
Proof. apply is_empty_fin. Qed.

Lemma operand_first front x : operand_of front x -> exists t r, front = t :: r /\ t <> TColon /\ t <> TEquals.
Proof.
  intros [t m I|ts e X|ts n X|ts e X N].
  - exists t, []. split; [reflexivity|]. cbn in I. destruct I as [I|[I|[I|[I|[]]]]]; injection I as <- <-; split; discriminate.
  - eexists _, _. split; [reflexivity|]. split; discriminate.
  - apply expression_head in X as (t & r & -> & H). exists t, r. split; [reflexivity|]. split; intros ->; discriminate.
  - apply expression_head in X as (t & r & -> & H). exists t, r. split; [reflexivity|]. split; intros ->; discriminate.
Qed.

Lemma operands_first front xs : maybe operand_of front xs -> front = [] \/ exists t r, front = t :: r /\ t <> TColon /\ t <> TEquals.
Proof.
  intros [[-> _]|S]; [now left|right]. destruct S as [ts x X|ts x ts2 xs X Y]; apply operand_first in X as (t & r & -> & H); cbn; eauto.
Qed.

Lemma command_shape ts s : command ts s -> exists n r, ts = TName n :: r /\ ~ dotted n /\
  (r = [] \/ exists t r2, r = t :: r2 /\ t <> TColon /\ t <> TEquals).
Proof.
  intros [ts2 args f i M I KY SH|n ts2 args M K D]; eexists _, _; (split; [reflexivity|]).
  - split; [apply known_not_dotted; exists f; auto|]. now apply operands_first in M.
  - split; [exact D|]. now apply operands_first in M.
Qed.

Lemma directive_shape ts d : directive_of ts d -> exists n r, ts = TName n :: r /\ dotted n /\
  (forall rest, fin rest -> forall q, r ++ rest <> TColon :: q).
Proof.
  intros D. destruct D as [ts items S|n r|ts es S|n r s|n r s|ts1 a ts2 m X1 X2|s|w t s I|s ts ps speed eye M SP G|s ts ps k h M SK SH];
    eexists _, _; (split; [reflexivity|]); (split; [eexists; reflexivity|]); intros rest F q; try discriminate.
  - destruct S as [ts x X|ts x ts2 xs X Y]; (destruct X as [s|ts e X]; [discriminate|]);
      apply expression_head in X as (t & r & -> & H); cbn; intros E; injection E as -> _; discriminate.
  - destruct S as [ts x X|ts x ts2 xs X Y]; apply expression_head in X as (t & r & -> & H); cbn; intros E; injection E as -> _; discriminate.
  - apply expression_head in X1 as (t & r & -> & H); cbn; intros E; injection E as -> _; discriminate.
Qed.

Lemma statement_other ts : (forall n r, ts <> TName n :: TColon :: r) ->
  parse_statement ts =
  if (check is_name ts &&
      negb (check_at 1 (has_name "equ") ts || check_at 1 is_equ ts || check is_local_name ts))%bool then
    let! (i, r) := parse_instr ts in
    match i with
    | Some s => Ok (s, r)
    | None => parse_directive_or_other ts
    end
  else parse_directive_or_other ts.
Proof.
  intros G. destruct ts as [|t1 [|t2 r]]; try reflexivity; destruct t1; try reflexivity. destruct t2; try reflexivity.
  now destruct (G _ _ eq_refl).
Qed.

Lemma check_cons p t r : check p (t :: r) = p t. Proof. reflexivity. Qed.
Lemma check1_cons p t r : check_at 1 p (t :: r) = check p r. Proof. reflexivity. Qed.
Lemma check_fin p r : p TEOF = false -> fin r -> check p r = false.
Proof. intros H [->|(q & ->)]; [reflexivity|exact H]. Qed.

Lemma not_directive_cons n r : ~ In n directive_names -> not_directive (TName n :: r).
Proof. intros H m q E. injection E as <- _. exact H. Qed.

Lemma dor_other ts : not_directive ts -> parse_directive_or_other ts = parse_other ts.
Proof. intros N. unfold parse_directive_or_other. rewrite (proj2 (directive_none ts ts) (conj eq_refl N)). reflexivity. Qed.

Lemma single front rest s : fin rest -> is_empty (front ++ rest) = false -> parse_statement (front ++ rest) = Ok (s, rest) ->
  parse_line (front ++ rest) = Ok [s].
Proof.
  intros F E H. unfold parse_line. rewrite E, H. cbn [negb bind]. rewrite (fin_empty rest F), andb_false_r. cbn [bind].
  rewrite (fin_empty rest F). reflexivity.
Qed.

Lemma line_complete front stmts rest : line front stmts -> fin rest -> parse_line (front ++ rest) = Ok stmts.
Proof.
  intros L F. destruct L as [|n|n ts s C|n D ND|ts s C NE|ts d D|n ts e X ND|n ts e X ND].
  - cbn [app]. unfold parse_line. rewrite (fin_empty rest F). reflexivity.
  - apply single; [exact F|reflexivity|reflexivity].
  - unfold parse_line. cbn [app is_empty is_eof negb parse_statement bind is_label].
    assert (E: is_empty (ts ++ rest) = false). { apply command_head in C as (m & r & -> & _). reflexivity. }
    rewrite E. cbn [negb andb]. rewrite (instr_complete _ _ _ C F). cbn [bind]. rewrite (fin_empty rest F). reflexivity.
  - apply single; [exact F|reflexivity|]. cbn [app]. rewrite statement_other.
    2: { intros m r E. injection E as <- E. destruct F as [->|(q & ->)]; discriminate. }
    rewrite !check_cons. cbn [is_local_name]. rewrite (proj2 (local_dotted n) D). rewrite orb_true_r, andb_false_r.
    rewrite dor_other by (now apply not_directive_cons). unfold parse_other. cbn [next bind is_name is_local_name].
    rewrite (proj2 (local_dotted n) D), (fin_empty rest F). reflexivity.
  - apply single; [exact F| |].
    { apply command_head in C as (m & r & -> & _). reflexivity. }
    assert (I := instr_complete _ _ _ C F). apply command_shape in C as (n & r & -> & ND & SH).
    rewrite statement_other.
    2: { cbn. intros m q E. injection E as <- E. destruct SH as [->|(t & r2 & -> & N1 & N2)].
         - destruct F as [F|(w & F)]; rewrite F in E; discriminate.
         - injection E as -> _. now destruct N1. }
    assert (C: (check is_name ((TName n :: r) ++ rest) &&
      negb (check_at 1 (has_name "equ") ((TName n :: r) ++ rest) || check_at 1 is_equ ((TName n :: r) ++ rest) ||
            check is_local_name ((TName n :: r) ++ rest)))%bool = true).
    { cbn [app]. rewrite !check_cons, !check1_cons. cbn [is_name is_local_name andb].
      assert (EL: is_local n = false) by (destruct (is_local n) eqn:EL; [now apply local_dotted in EL|reflexivity]). rewrite EL, orb_false_r.
      destruct SH as [->|(t & r2 & -> & N1 & N2)].
      - cbn [app]. rewrite !check_fin by (assumption || reflexivity). reflexivity.
      - cbn [app]. rewrite !check_cons. assert (Q: is_equ t = false) by (destruct t; try reflexivity; now destruct N2). rewrite Q, orb_false_r.
        destruct t; try reflexivity. rewrite name_cond. destruct (String.eqb_spec "equ" name) as [<-|NQ]; [|reflexivity].
        now destruct (NE (TName n) r2). }
    rewrite C, I. reflexivity.
  - apply single; [exact F| |].
    { apply directive_shape in D as (n & r & -> & _). reflexivity. }
    assert (I := directive_complete _ _ _ D F). apply directive_shape in D as (n & r & -> & DT & SH).
    rewrite statement_other.
    2: { cbn. intros m q E. injection E as <- E. now apply (SH rest F q). }
    cbn [app]. rewrite !check_cons. cbn [is_local_name]. rewrite (proj2 (local_dotted n) DT). rewrite orb_true_r, andb_false_r.
    unfold parse_directive_or_other. cbn [app] in I. rewrite I. reflexivity.
  - apply single; [exact F|reflexivity|]. cbn [app]. rewrite statement_other by (intros; discriminate).
    rewrite !check_cons, !check1_cons, !check_cons, name_cond, String.eqb_refl. cbn [orb negb]. rewrite andb_false_r.
    rewrite dor_other by (now apply not_directive_cons). unfold parse_other. cbn [next bind is_name is_empty is_eof andb].
    rewrite check_cons, name_cond, String.eqb_refl. cbn [next bind]. rewrite (parse_expr_complete _ _ _ X); [reflexivity|now left].
  - apply single; [exact F|reflexivity|]. cbn [app]. rewrite statement_other by (intros; discriminate).
    rewrite !check_cons, !check1_cons, !check_cons. cbn [is_equ has_name orb negb]. rewrite andb_false_r.
    rewrite dor_other by (now apply not_directive_cons). unfold parse_other. cbn [next bind is_name is_empty is_eof andb].
    rewrite !check_cons. cbn [has_name is_equ next bind]. rewrite (parse_expr_complete _ _ _ X); [reflexivity|now left].
Qed.

Lemma separated_no_eof {T : Type} (item : list token_type -> T -> Prop) ts xs :
  (forall t x, item t x -> ~ In TEOF t) -> separated item ts xs -> ~ In TEOF ts.
Proof.
  intros H S. induction S as [ts x X|ts x ts2 xs X Y IH]; [eauto|]. rewrite in_app_iff. cbn. intros [I|[I|I]]; try discriminate; auto.
  now apply (H _ _ X).
Qed.

Lemma maybe_no_eof {T : Type} (item : list token_type -> T -> Prop) ts xs :
  (forall t x, item t x -> ~ In TEOF t) -> maybe item ts xs -> ~ In TEOF ts.
Proof. intros H [[-> _]|S]; [auto|now apply (separated_no_eof item ts xs)]. Qed.

Lemma operand_no_eof t x : operand_of t x -> ~ In TEOF t.
Proof.
  intros [t' m I|ts e X|ts n X|ts e X N]; try (now apply expression_no_eof in X).
  - cbn in I. destruct I as [I|[I|[I|[I|[]]]]]; injection I as <- <-; cbn; intros [E|[]]; discriminate.
  - cbn. intros [E|E]; [discriminate|]. now apply expression_no_eof in X.
Qed.

Lemma byte_no_eof t x : byte_item t x -> ~ In TEOF t.
Proof. intros [s|ts e X]; [cbn; intros [E|[]]; discriminate|now apply expression_no_eof in X]. Qed.

Lemma property_no_eof t x : property t x -> ~ In TEOF t.
Proof. intros [n ts v X]. cbn. intros [E|[E|E]]; try discriminate. now apply byte_no_eof in X. Qed.

Lemma command_no_eof ts s : command ts s -> ~ In TEOF ts.
Proof.
  intros [ts2 args f i M I KY SH|n ts2 args M K D]; cbn; intros [E|E]; try discriminate;
    now apply (maybe_no_eof operand_of ts2 args operand_no_eof M).
Qed.

Lemma directive_no_eof ts d : directive_of ts d -> ~ In TEOF ts.
Proof.
  intros D. destruct D as [ts items S|n r|ts es S|n r s|n r s|ts1 a ts2 m X1 X2|s|w t s I|s ts ps speed eye M SP G|s ts ps k h M SK SH];
    cbn; intros E; repeat (destruct E as [E|E]; [discriminate|]); try exact E.
  - now apply (separated_no_eof _ _ _ byte_no_eof S).
  - apply (separated_no_eof _ _ _ (expression_no_eof Bits) S). exact E.
  - apply in_app_or in E as [E|[E|E]]; [apply (expression_no_eof _ _ _ X1 E)|discriminate|apply (expression_no_eof _ _ _ X2 E)].
  - now apply (maybe_no_eof _ _ _ property_no_eof M).
  - now apply (maybe_no_eof _ _ _ property_no_eof M).
Qed.

Lemma line_no_eof ts s : line ts s -> ~ In TEOF ts.
Proof.
  intros L. destruct L as [|n|n ts s C|n D ND|ts s C NE|ts d D|n ts e X ND|n ts e X ND]; cbn; intros E;
    repeat (destruct E as [E|E]; [discriminate|]); try exact E.
  - now apply command_no_eof in C.
  - now apply command_no_eof in C.
  - now apply directive_no_eof in D.
  - now apply expression_no_eof in X.
  - now apply expression_no_eof in X.
Qed.

Theorem parse_line_iff ts stmts : parse_line ts = Ok stmts <-> exists front, ends ts front /\ line front stmts.
Proof.
  split.
  - intros H. apply line_sound in H as (front & rest & -> & F & L). exists front. split; [|exact L].
    assert (N := line_no_eof _ _ L). destruct F as [->|(r & ->)]; [rewrite app_nil_r; now apply ends_all|now apply ends_eof].
  - intros (front & E & L). destruct E as [ts N|ts rest N].
    + rewrite <- (app_nil_r ts). apply line_complete; [exact L|now left].
    + apply line_complete; [exact L|right; eauto].
Qed.

(** * No panics, no endless loops *)

Definition fine {A : Type} (o : outcome A) : Prop := o <> Panic /\ o <> Diverge.

Lemma fine_ok {A : Type} (x : A) : fine (Ok x). Proof. split; discriminate. Qed.
Lemma fine_err {A : Type} e : fine (@Err A e). Proof. split; discriminate. Qed.
Lemma fine_bind {A B : Type} (o : outcome A) (f : A -> outcome B) : fine o -> (forall x, o = Ok x -> fine (f x)) -> fine (bind o f).
Proof. intros [H1 H2] H. destruct o; cbn; auto using fine_err; congruence. Qed.
Local Hint Resolve fine_ok fine_err : fine.

Lemma total_fine {T : Type} (p : stream -> outcome (T * stream)) ts :
  ((exists x rest, p ts = Ok (x, rest)) \/ exists er, p ts = Err er) -> fine (p ts).
Proof. apply item_total. Qed.

Lemma fine_expr ts : fine (parse_expr ts). Proof. apply total_fine, parse_expr_total. Qed.
Lemma fine_args ts : fine (parse_args ts). Proof. apply (total_fine parse_args). apply (parse_list_total _ _ parse_arg_sound parse_arg_total). Qed.
Lemma fine_bytes ts : fine (parse_byte_vals ts). Proof. apply (total_fine parse_byte_vals). apply (parse_list_total _ _ parse_byte_sound parse_byte_total). Qed.
Lemma fine_exprs ts : fine (parse_exprs ts). Proof. apply (total_fine parse_exprs). apply (parse_list_total _ _ parse_expr_sound parse_expr_total). Qed.
Lemma fine_pairs ts : fine (parse_keyval_pairs ts).
Proof.
  unfold parse_keyval_pairs. apply fine_bind; [|intros [? ?] _; apply fine_ok].
  apply total_fine. apply (parse_list_total _ _ parse_keyval_sound parse_keyval_total).
Qed.
Lemma fine_number ts : fine (read_number ts). Proof. destruct ts as [|[]]; cbn; auto with fine. Qed.
Lemma fine_string ts : fine (read_string ts). Proof. destruct ts as [|[]]; cbn; auto with fine. Qed.
Lemma fine_name ts : fine (read_name ts). Proof. destruct ts as [|[]]; cbn; auto with fine. Qed.
Lemma fine_comma ts : fine (consume_comma ts). Proof. destruct ts as [|[]]; cbn; auto with fine. Qed.
Lemma fine_next ts : fine (next ts). Proof. destruct ts as [|[]]; cbn; auto with fine. Qed.
Local Hint Resolve fine_expr fine_args fine_bytes fine_exprs fine_pairs fine_number fine_string fine_name fine_comma fine_next : fine.

Local Ltac fine_step :=
  match goal with
  | |- fine (bind _ _) => apply fine_bind; [auto with fine|let H := fresh "H" in intros ? H]
  | |- fine (if ?b then _ else _) => destruct b eqn:?
  | |- fine (match ?x with _ => _ end) => destruct x eqn:?
  | |- fine _ => auto with fine
  end.

Lemma fine_include_type ts : fine (read_include_type ts). Proof. unfold read_include_type. repeat fine_step. Qed.
Lemma fine_speed m : fine (icon_speed_of m). Proof. unfold icon_speed_of. repeat fine_step. Qed.
Lemma fine_kind m : fine (sprite_type_of m). Proof. unfold sprite_type_of. repeat fine_step. Qed.
Lemma fine_header m : fine (sprite_header_of m). Proof. unfold sprite_header_of. repeat fine_step. Qed.
Local Hint Resolve fine_include_type fine_speed fine_kind fine_header : fine.

Lemma fine_include ts : fine (parse_include ts). Proof. unfold parse_include. repeat fine_step. Qed.
Local Hint Resolve fine_include : fine.
Lemma fine_directive ts : fine (parse_directive ts). Proof. unfold parse_directive. repeat fine_step. Qed.
Lemma fine_make n args : fine (make_instr n args).
Proof.
  destruct (knownb n) eqn:K.
  - apply knownb_known in K. destruct (make_instr n args) as [i|e| |] eqn:E; try apply fine_ok; try apply fine_err; exfalso;
      (assert (L: ~ listed n args) by (intros L; apply accepted_iff_listed in L as (i & L); congruence));
      rewrite (make_instr_wrong _ _ K L) in E; discriminate.
  - rewrite make_instr_unknown; [auto with fine|]. rewrite <- knownb_known. congruence.
Qed.
Local Hint Resolve fine_directive fine_make : fine.
Lemma fine_gen ts : fine (parse_gen_instr ts). Proof. unfold parse_gen_instr. repeat fine_step. Qed.
Local Hint Resolve fine_gen : fine.
Lemma fine_instr ts : fine (parse_instr ts). Proof. unfold parse_instr. repeat fine_step. Qed.
Local Hint Resolve fine_instr : fine.
Lemma fine_other ts : fine (parse_other ts).
Proof.
  unfold parse_other. apply fine_bind; [auto with fine|]. intros [tok r] _. destruct tok; cbn [is_name andb]; auto with fine.
  repeat fine_step.
Qed.
Local Hint Resolve fine_other : fine.
Lemma fine_dor ts : fine (parse_directive_or_other ts). Proof. unfold parse_directive_or_other. repeat fine_step. Qed.
Local Hint Resolve fine_dor : fine.
Lemma fine_statement ts : fine (parse_statement ts).
Proof.
  assert (G: (exists n r, ts = TName n :: TColon :: r) \/ forall n r, ts <> TName n :: TColon :: r).
  { destruct ts as [|t1 [|t2 r]]; try (right; discriminate). destruct t1; try (right; discriminate).
    destruct t2; try (right; discriminate). left. eauto. }
  destruct G as [(n & r & ->)|G]; [apply fine_ok|]. rewrite statement_other by exact G. repeat fine_step.
Qed.
Local Hint Resolve fine_statement : fine.

Lemma fine_line ts : fine (parse_line ts).
Proof.
  unfold parse_line. destruct (negb (is_empty ts)); auto with fine. apply fine_bind; [auto with fine|]. intros [s r] _.
  apply fine_bind.
  - destruct (is_label s && negb (is_empty r))%bool; auto with fine. apply fine_bind; [auto with fine|].
    intros [[s2|] r2] _; auto with fine. apply fine_bind; [auto with fine|]. intros [? ?] _. auto with fine.
  - intros [more r2] _. destruct (negb (is_empty r2)); auto with fine. apply fine_bind; [auto with fine|]. intros [? ?] _. auto with fine.
Qed.

Theorem parse_line_total ts : (exists stmts, parse_line ts = Ok stmts) \/ exists er, parse_line ts = Err er.
Proof. destruct (fine_line ts). destruct (parse_line ts); eauto; congruence. Qed.

Theorem line_unique ts s1 s2 : line ts s1 -> line ts s2 -> s1 = s2.
Proof.
  intros L1 L2. assert (E := line_no_eof _ _ L1).
  assert (P1 := proj2 (parse_line_iff ts s1) (ex_intro _ ts (conj (ends_all ts E) L1))).
  assert (P2 := proj2 (parse_line_iff ts s2) (ex_intro _ ts (conj (ends_all ts E) L2))). congruence.
Qed.
