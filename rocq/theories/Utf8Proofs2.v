(** Printed programs are UTF-8. *)
From Coq Require Import ZArith List String Ascii Bool Lia.
From Verif Require Import Base Expr Instr Ast Printer Files SpecIsa SpecLex SpecMacro SpecPrint PrintProofs2 CmdProofs.
Import ListNotations.
Open Scope string_scope.
Open Scope list_scope.
Open Scope Z_scope.

Lemma narrow_utf8 : forall s, all_chars (fun c => Files.in_range 0 127 c = true) s -> valid_utf8 s = true.
Proof. induction s as [|c s IH]; [reflexivity|]. intros [C S]. cbn [valid_utf8]. rewrite C. auto. Qed.

Lemma listed_narrow : forall l c, forallb (fun c => Files.in_range 0 127 c) l = true -> In c l -> Files.in_range 0 127 c = true.
Proof. intros l c F I. rewrite forallb_forall in F. auto. Qed.

Lemma char_narrow c : name_start c \/ name_char c -> Files.in_range 0 127 c = true.
Proof.
  unfold name_char, name_start. intros H. repeat match goal with H : _ \/ _ |- _ => destruct H end;
  match goal with H : In _ _ |- _ => eapply listed_narrow; [|exact H]; vm_compute; reflexivity end.
Qed.

Lemma name_utf8 n : plain_name n -> valid_utf8 n = true.
Proof.
  intros [I _]. apply narrow_utf8. destruct n as [|c t]; [destruct I|]. destruct I as [C T]. split; [apply char_narrow; auto|].
  clear C. induction t as [|d t IH]; [exact Logic.I|]. destruct T as [D T]. split; [apply char_narrow; auto|auto].
Qed.

Lemma operand_utf8 e s : valid_utf8 s = true -> valid_utf8 (operand e s) = true.
Proof. intros H. unfold operand. destruct (complex e); [|exact H]. apply (utf8_join "("); [reflexivity|]. now apply utf8_join. Qed.

Lemma expr_utf8 : forall e, lexable e -> valid_utf8 (show_expr e) = true.
Proof.
  induction e; cbn [lexable show_expr]; intros L;
  try (destruct L; repeat (apply utf8_join; [try reflexivity; now apply operand_utf8, IHe1|]); repeat (apply utf8_join; [reflexivity|]); now apply operand_utf8, IHe2).
  all: try (apply utf8_join; [reflexivity|]; now apply operand_utf8, IHe).
  all: try apply number_utf8.
  all: try (now apply name_utf8).
  - destruct L as (w & P & ->). apply utf8_join; [now apply name_utf8|reflexivity].
  - destruct L as (w & P & ->). cbn [valid_utf8]. now apply name_utf8.
Qed.

Lemma imode_utf8 m : valid_utf8 (show_imode m) = true.
Proof. now destruct m. Qed.

Lemma shape_utf8 k a o : shape k a o -> printable_operand k o -> valid_utf8 (show_arg a) = true.
Proof.
  intros S P. destruct k, a; cbn [shape] in S; try contradiction; subst o; cbn [show_arg]; try apply imode_utf8; destruct P as [[L _] _];
  try (apply (utf8_join "#"); [reflexivity|]); now apply expr_utf8.
Qed.

Lemma shapes_utf8 : forall ks args os, shapes ks args os -> Forall2 printable_operand ks os -> Forall (fun a => valid_utf8 (show_arg a) = true) args.
Proof.
  induction 1 as [|k ks a t o os S H IH]; intros F; [constructor|]. inversion F; subst. constructor; [now apply (shape_utf8 k a o)|auto].
Qed.

Lemma instr_utf8 i : printable_instr i -> valid_utf8 (show_instr i) = true.
Proof.
  intros P. assert (A := shapes_utf8 _ _ _ (shapes_args i) P). rewrite instr_text.
  assert (M: valid_utf8 (fst (key i)) = true) by (clear; destruct i; reflexivity). destruct (iargs i) as [|a l]; [exact M|].
  apply utf8_join; [exact M|]. apply utf8_join; [|now apply list_utf8]. clear.
  induction (6 - String.length (fst (key i)))%nat as [|k IH]; [reflexivity|exact IH].
Qed.

Lemma item_utf8 b : printable_item b -> valid_utf8 (show_byte_value b) = true.
Proof.
  destruct b as [e|bytes]; cbn [printable_item show_byte_value]; intros P; [destruct P; now apply expr_utf8|].
  apply utf8_join; [reflexivity|]. apply utf8_join; [|reflexivity]. induction P as [|b bytes [R _] P IH]; [reflexivity|]. cbn [escape_string].
  apply utf8_join; [|exact IH]. unfold escape_byte. repeat match goal with |- context [if ?x then _ else _] => destruct x; [reflexivity|] end.
  cbn [valid_utf8]. unfold Files.in_range. rewrite nat_ascii_embedding by lia.
  replace (Nat.leb 0 (Z.to_nat b) && Nat.leb (Z.to_nat b) 127)%bool with true; [reflexivity|].
  symmetry. apply andb_true_iff. rewrite !Nat.leb_le. lia.
Qed.

Lemma statement_utf8 s : printable_statement s -> (forall c, s = SComment c -> valid_utf8 c = true) -> valid_utf8 (show_statement s) = true.
Proof.
  intros P C. destruct s as [d|n|i|n e|n e|c|n args]; cbn [show_statement printable_statement] in *.
  - destruct d; cbn [printable_directive show_directive] in *; try contradiction.
    + destruct P as [_ F]. apply utf8_join; [reflexivity|]. apply list_utf8; [reflexivity|]. eapply Forall_impl; [|exact F]. exact item_utf8.
    + destruct (_ =? 0); apply utf8_join; try reflexivity; [apply dec_utf8|]. apply pad_utf8. now apply natural_utf8.
    + destruct P as [_ F]. apply utf8_join; [reflexivity|]. apply list_utf8; [reflexivity|]. eapply Forall_impl; [|exact F]. intros e [L _]. now apply expr_utf8.
    + destruct P as [[A _] [B _]]. apply utf8_join; [reflexivity|]. apply utf8_join; [now apply expr_utf8|]. apply utf8_join; [reflexivity|now apply expr_utf8].
  - apply utf8_join; [now apply name_utf8|reflexivity].
  - apply utf8_join; [reflexivity|]. now apply instr_utf8.
  - destruct P as (N & _ & [L _]). apply utf8_join; [now apply name_utf8|]. apply utf8_join; [reflexivity|now apply expr_utf8].
  - destruct P as (N & _ & [L _]). apply utf8_join; [now apply name_utf8|]. apply utf8_join; [reflexivity|now apply expr_utf8].
  - apply comment_utf8. now apply C.
  - contradiction.
Qed.

Lemma printed_utf8 l : Forall printable_statement l -> (forall c, In (SComment c) l -> valid_utf8 c = true) -> valid_utf8 (expand_output l) = true.
Proof.
  intros F C. unfold expand_output. apply utf8_join; [|reflexivity]. apply list_utf8; [reflexivity|].
  apply Forall_forall. intros s I. rewrite Forall_forall in F. apply statement_utf8; [auto|]. intros c ->. now apply C.
Qed.
