(** Printed text is read back: instructions, directives, statements. *)
From Coq Require Import ZArith List String Ascii Bool Arith Lia.
From Verif Require Import Base Expr Instr Ast Lexer Parser Printer SpecIsa SpecMacro SpecLex LexProofs LexProofs3 LexProofs4 LexProofs5
  CodecProofs CodecProofs2 MacroProofs SpecParse ParseProofs SpecLine LineProofs LineProofs2 SpecPrint PrintProofs.
Import ListNotations.
Open Scope string_scope.
Open Scope list_scope.
Local Open Scope nat_scope.

(** * Operands *)

Definition arg_for (k : kind) (o : expr + imode) : arg :=
  match o with
  | inl e => match k with I8 => AImm e | _ => AEx e end
  | inr m => AIM m
  end.

Fixpoint args_for (ks : list kind) (os : list (expr + imode)) : list arg :=
  match ks, os with
  | k :: ks', o :: os' => arg_for k o :: args_for ks' os'
  | _, _ => []
  end.

Definition iargs (i : instr expr imode) : list arg := args_for (snd (key i)) (op_list i).

Definition mode_tok (m : imode) : token_type := match m with R0 => TR0 | R1 => TR1 | R2 => TR2 | R3 => TR3 end.

Definition arg_toks (a : arg) : list token_type :=
  match a with
  | AImm e => THash :: etoks e
  | AEx e => etoks e
  | AIM m => [mode_tok m]
  | AMacroArg n => [TMacroIdent n]
  end.

Fixpoint commas (l : list (list token_type)) : list token_type :=
  match l with
  | [] => []
  | [x] => x
  | x :: t => x ++ TComma :: commas t
  end.

Definition itoks (i : instr expr imode) : list token_type := TName (fst (key i)) :: commas (map arg_toks (iargs i)).

Lemma shapes_args i : shapes (snd (key i)) (iargs i) (op_list i).
Proof. destruct i; cbn; repeat constructor. Qed.

Lemma instr_text i : show_instr i =
  match iargs i with
  | [] => fst (key i)
  | _ => (fst (key i) ++ string_of_list_ascii (repeat " "%char (6 - String.length (fst (key i)))) ++ show_list ", " show_arg (iargs i))%string
  end.
Proof.
  destruct i; cbn -[show_expr show_imode]; rewrite ?app_nil_r_s, ?app_assoc_s; cbn -[show_expr show_imode]; rewrite ?app_nil_r_s, ?app_assoc_s; reflexivity.
Qed.

Lemma commas_separated {T : Type} (item : list token_type -> T -> Prop) (tk : T -> list token_type) xs :
  xs <> [] -> Forall (fun x => item (tk x) x) xs -> separated item (commas (map tk xs)) xs.
Proof.
  intros N F. induction F as [|x xs H F IH]; [congruence|]. destruct xs as [|y xs].
  - now apply sep_one.
  - change (separated item (tk x ++ TComma :: commas (map tk (y :: xs))) (x :: y :: xs)). apply sep_more; [exact H|]. apply IH. discriminate.
Qed.

Lemma list_spelled {T : Type} (sep : string) (show : T -> string) (tk : T -> list token_type) xs rest :
  (sep = "," \/ sep = ", ") -> stops rest -> xs <> [] ->
  Forall (fun x => forall r, stops r -> spelled (show x) (tk x) r) xs ->
  spelled (show_list sep show xs) (commas (map tk xs)) rest.
Proof.
  intros SP S N F. destruct xs as [|x xs]; [congruence|]. clear N. revert x F. induction xs as [|y ys IH]; intros x F.
  - inversion F; subst. cbn. rewrite app_nil_r_s. auto.
  - inversion F as [|? ? H F']; subst.
    assert (E: show_list sep show (x :: y :: ys) = (show x ++ sep ++ show_list sep show (y :: ys))%string).
    { cbn [show_list map String.concat]. destruct ys as [|z zs].
      - cbn. now rewrite app_nil_r_s.
      - cbn [map String.concat]. cbn [append]. rewrite !app_assoc_s. reflexivity. }
    rewrite E. change (commas (map tk (x :: y :: ys))) with (tk x ++ TComma :: commas (map tk (y :: ys))).
    apply spelled_app; [apply H; destruct SP as [->| ->]; cbn; apply stops_comma|].
    assert (C: forall s t, spelled s t rest -> spelled ("," ++ s) (TComma :: t) rest).
    { intros s t X. apply sp_punct; [cbn; tauto|discriminate|discriminate|exact X]. }
    destruct SP as [->| ->].
    + apply C. now apply IH.
    + change (", " ++ show_list ", " show (y :: ys))%string with ("," ++ String " " (show_list ", " show (y :: ys)))%string.
      apply C. apply sp_space. now apply IH.
Qed.

Lemma mode_spelled m rest : spelled (show_imode m) [mode_tok m] rest.
Proof.
  rewrite <- (app_nil_r_s (show_imode m)). apply sp_punct; [|destruct m; discriminate|destruct m; discriminate|constructor].
  destruct m; cbn; tauto.
Qed.

Definition printable_arg (a : arg) : Prop :=
  match a with
  | AImm e => printable e
  | AEx e => printable e /\ forall n, e <> EMacroArg n
  | AIM _ => True
  | AMacroArg _ => False
  end.

Lemma arg_spelled a rest : printable_arg a -> stops rest -> spelled (show_arg a) (arg_toks a) rest.
Proof.
  destruct a; cbn [printable_arg show_arg arg_toks]; intros P S.
  - apply (sp_punct "#" THash); [cbn; tauto|discriminate|discriminate|]. now apply show_expr_spelled.
  - apply show_expr_spelled; tauto.
  - apply mode_spelled.
  - destruct P.
Qed.

Lemma arg_operand a : printable_arg a -> operand_of (arg_toks a) a.
Proof.
  destruct a; cbn [printable_arg arg_toks]; intros P.
  - apply o_immediate. apply etoks_both.
  - apply o_direct; [apply etoks_both|tauto].
  - apply o_mode. destruct m; cbn; tauto.
  - destruct P.
Qed.

Lemma iargs_printable i : printable_instr i -> Forall printable_arg (iargs i).
Proof.
  unfold printable_instr, iargs. intros F. induction F as [|k o ks os H F IH]; cbn; [constructor|]. constructor; [|exact IH].
  destruct o as [e|m]; cbn in *; [|exact I]. destruct H as [P [->|H]]; [exact P|]. destruct k; cbn; tauto.
Qed.

(** * Instructions *)

Lemma mnemonic_name (i : instr expr imode) : plain_name (fst (key i)).
Proof.
  assert (K: forall n, In n (map f_name isa) -> plain_name n).
  { assert (A: Forall (fun n => (match n with String c t => name_start c /\ all_chars name_char t | _ => False end) /\ lower n = n) (map f_name isa) -> 
      forall n, In n (map f_name isa) -> plain_name n) by (intros A n I; rewrite Forall_forall in A; exact (A n I)).
    apply A. clear A. apply Forall_forall. intros n I.
    assert (B: forallb (fun n => (match n with String c t => ident_start c && forallb ident_char (list_ascii_of_string t) | _ => false end && String.eqb (lower n) n)%bool) (map f_name isa) = true) by (vm_compute; reflexivity).
    rewrite forallb_forall in B. specialize (B n I). apply andb_prop in B as [B1 B2]. apply String.eqb_eq in B2. split; [|exact B2].
    destruct n as [|c t]; [discriminate|]. apply andb_prop in B1 as [B0 B1]. split; [now apply name_start_iff|].
    rewrite forallb_forall in B1. clear B0 B2 I. induction t as [|d t IH]; [exact Logic.I|]. split.
    - apply name_char_iff. apply B1. now left.
    - apply IH. intros x J. apply B1. now right. }
  destruct (key_listed i) as (f & F1 & F2). rewrite F2. cbn [fst]. apply K. now apply in_map.
Qed.

Lemma spaces_spelled k s tys rest : spelled s tys rest -> spelled (string_of_list_ascii (repeat " "%char k) ++ s) tys rest.
Proof. induction k as [|k IH]; intros H; cbn; [exact H|]. apply sp_space. auto. Qed.

Lemma short_mnemonic (i : instr expr imode) : iargs i <> [] -> exists k, 6 - String.length (fst (key i)) = S k.
Proof. destruct i; intros N; try (cbn in N; congruence); cbn; eauto. Qed.

Lemma instr_spelled i rest : printable_instr i -> stops rest -> spelled (show_instr i) (itoks i) rest.
Proof.
  intros P S. rewrite instr_text. unfold itoks. pose proof (iargs_printable i P) as F. pose proof (short_mnemonic i) as K.
  pose proof (mnemonic_name i) as M. revert F K M. generalize (fst (key i)) as n. generalize (iargs i) as args. intros args n F K M.
  destruct args as [|a args].
  - cbn. rewrite <- (app_nil_r_s n) at 1. apply sp_name; [exact M|exact S|constructor].
  - destruct K as (k & K); [discriminate|]. rewrite K. apply sp_name; [exact M|cbn; apply stops_space|].
    apply spaces_spelled. apply list_spelled; [now right|exact S|discriminate|].
    eapply Forall_impl; [|exact F]. intros b Pb r Sr. now apply arg_spelled.
Qed.

Lemma instr_command i : printable_instr i -> command (itoks i) (SInstr i).
Proof.
  intros P. destruct (key_listed i) as (f & F1 & F2). unfold itoks. rewrite F2. cbn [fst].
  apply c_instr with (args := iargs i); [|exact F1|exact F2|].
  - destruct (iargs i) as [|a args] eqn:E; [now left|]. right. apply commas_separated; [discriminate|].
    rewrite <- E. eapply Forall_impl; [|exact (iargs_printable i P)]. intros b. apply arg_operand.
  - pose proof (shapes_args i) as H. rewrite F2 in H. exact H.
Qed.

Lemma etoks_first_equ e r : etoks e = TName "equ" :: r -> opens_with_equ e.
Proof.
  assert (O: forall x t r, otoks x ++ t = TName "equ" :: r -> x = EName "equ").
  { intros x t r0 H. unfold otoks in H. destruct x; cbn in H; try discriminate. now injection H as <-. }
  intros H. destruct e; cbn [etoks] in H; try discriminate.
  - left. now injection H as <-.
  - apply (O e1) in H as ->. right. exists e2. cbn. tauto.
  - apply (O e1) in H as ->. right. exists e2. cbn. tauto.
  - apply (O e1) in H as ->. right. exists e2. cbn. tauto.
  - apply (O e1) in H as ->. right. exists e2. cbn. tauto.
  - apply (O e1) in H as ->. right. exists e2. cbn. tauto.
  - apply (O e1) in H as ->. right. exists e2. cbn. tauto.
  - apply (O e1) in H as ->. right. exists e2. cbn. tauto.
Qed.

Lemma commas_first x l : exists t, commas (x :: l) = x ++ t.
Proof. destruct l as [|y l]; [exists []; now rewrite app_nil_r|]. exists (TComma :: commas (y :: l)). reflexivity. Qed.

Lemma etoks_nonempty e : exists t r, etoks e = t :: r.
Proof. destruct (expression_head Bits (etoks e) e) as (t & r & E & _); [apply etoks_both|]. eauto. Qed.

Lemma instr_line i : printable_instr i -> ~ reads_as_equ i -> line (itoks i) [SInstr i].
Proof.
  intros P N. apply l_command; [now apply instr_command|]. intros a r E. unfold itoks in E. injection E as _ E. apply N. clear N P.
  unfold reads_as_equ, iargs in *. destruct (snd (key i)) as [|k ks]; [discriminate|]. destruct (op_list i) as [|o os]; [discriminate|].
  cbn [args_for map] in E. destruct (commas_first (arg_toks (arg_for k o)) (map arg_toks (args_for ks os))) as (t & C).
  rewrite C in E. destruct o as [e|m].
  - exists k, ks, e, os. assert (k <> I8 /\ exists r, etoks e = TName "equ" :: r) as [K (r' & X)].
    { destruct (etoks_nonempty e) as (x & y & Y). destruct k; cbn [arg_for arg_toks] in E; try discriminate; (split; [discriminate|]);
        rewrite Y in E; injection E as -> _; eauto. }
    repeat split; auto. eapply etoks_first_equ; eauto.
  - cbn in E. destruct m; discriminate.
Qed.
