(** A heading tells the error: proofs. *)
From Coq Require Import ZArith List String Ascii Bool Lia.
From Verif Require Import Base Expr Printer Message Heading SpecHeading HeadingProofs.
Import ListNotations.
Open Scope string_scope.
Local Open Scope Z_scope.

Lemma i32_hex_lacks n : lacks "010" (show_i32_hex n).
Proof. unfold show_i32_hex, show_radix. cbn [append lacks]. repeat split; try discriminate. apply pad_lacks; [reflexivity|]. apply natural_lacks; [reflexivity|lia]. Qed.

Lemma as_usize_hex_lacks n : lacks ")" (show_as_usize_hex n).
Proof. unfold show_as_usize_hex, show_usize_hex. cbn [append lacks]. repeat split; try discriminate. apply pad_lacks; [reflexivity|]. apply natural_lacks; [reflexivity|lia]. Qed.

Lemma usize_hex_lacks n : lacks ")" (show_usize_hex n).
Proof. unfold show_usize_hex. apply pad_lacks; [reflexivity|]. apply natural_lacks; [reflexivity|lia]. Qed.

Lemma bits4_lacks n : lacks "010" (show_bits4 n).
Proof. unfold show_bits4. apply pad_lacks; [reflexivity|]. apply natural_lacks; [reflexivity|lia]. Qed.

Ltac lacking :=
  match goal with
  | |- lacks _ (show_dec _) => apply dec_lacks; [reflexivity|discriminate]
  | |- lacks _ (show_i32_hex _) => apply i32_hex_lacks
  | |- lacks _ (show_as_usize_hex _) => apply as_usize_hex_lacks
  | |- lacks _ (show_usize_hex _) => apply usize_hex_lacks
  | |- lacks _ (show_bits4 _) => apply bits4_lacks
  | H : no_space ?s |- lacks _ ?s => exact (no_space_lacks s H)
  | |- lacks _ (_ ++ _) => apply lacks_app; split; lacking
  | |- _ => cbn; repeat split; discriminate
  end.

Ltac cut1 H :=
  match type of H with
  | ?a ++ String ?c ?r = ?b ++ String ?c ?r' =>
      let E := fresh "E" in let K := fresh "K" in
      destruct (cut c a b r r' ltac:(lacking) ltac:(lacking) H) as [E K]; clear H; rename K into H
  end.

Ltac conj H := repeat match type of H with _ /\ _ => let P := fresh "P" in destruct H as [P H] end.

Lemma dec_space_x w h : lacks " " (show_dec w ++ "x" ++ show_dec h ++ ("." ++ nl ++ nl)).
Proof.
  lacking.
Qed.

Lemma tail_split (p p' r r' : string) : lacks " " r -> lacks " " r' ->
  (p ++ ". Expected " ++ r = p' ++ ". Expected " ++ r')%string -> r = r'.
Proof.
  intros L L' H. change ". Expected " with (". Expected" ++ " ") in H. rewrite !append_assoc_s in H. cbn [append] in H.
  assert (K : ((p ++ ". Expected") ++ String " " r = (p' ++ ". Expected") ++ String " " r')%string) by (rewrite !append_assoc_s; exact H).
  apply cut_last in K; tauto.
Qed.

Lemma icon_inj p p' w h w' h' : a_usize w -> a_usize h -> a_usize w' -> a_usize h' ->
  (p ++ ". Expected " ++ show_dec w ++ "x" ++ show_dec h ++ "." ++ nl ++ nl =
   p' ++ ". Expected " ++ show_dec w' ++ "x" ++ show_dec h' ++ "." ++ nl ++ nl)%string -> w = w' /\ h = h'.
Proof.
  intros W H W' H' E. apply tail_split in E; try apply dec_space_x. cbn [append] in E.
  cut1 E. cut1 E. apply dec_inj in E0; auto. apply dec_inj in E1; auto.
Qed.

Lemma palette_inj p p' s e s' e' : a_usize s -> a_usize e -> a_usize s' -> a_usize e' ->
  (p ++ ". Expected " ++ show_dec e ++ ", found " ++ show_dec s ++ "." ++ nl ++ nl =
   p' ++ ". Expected " ++ show_dec e' ++ ", found " ++ show_dec s' ++ "." ++ nl ++ nl)%string -> s = s' /\ e = e'.
Proof.
  intros S E S' E' H.
  assert (A : (((p ++ ". Expected ") ++ show_dec e ++ ", found") ++ String " " (show_dec s ++ "." ++ nl ++ nl) =
               ((p' ++ ". Expected ") ++ show_dec e' ++ ", found") ++ String " " (show_dec s' ++ "." ++ nl ++ nl))%string).
  { rewrite !append_assoc_s. exact H. }
  apply cut_last in A.
  - destruct A as [A B]. cbn [append] in B. cut1 B. apply dec_inj in E0; auto. split; [assumption|].
    assert (C : ((p ++ ". Expected") ++ String " " (show_dec e ++ ", found") = (p' ++ ". Expected") ++ String " " (show_dec e' ++ ", found"))%string)
      by (rewrite !append_assoc_s in *; exact A).
    change ", found" with ("," ++ " found") in C. 
    clear A. assert (D : ((p ++ ". Expected ") ++ show_dec e ++ ",") = ((p' ++ ". Expected ") ++ show_dec e' ++ ",")).
    { apply cancel_right with (s := " found"). rewrite !append_assoc_s in *. exact C. }
    assert (F : ((p ++ ". Expected") ++ String " " (show_dec e ++ ",") = (p' ++ ". Expected") ++ String " " (show_dec e' ++ ","))%string)
      by (rewrite !append_assoc_s in *; exact D).
    apply cut_last in F.
    + destruct F as [_ F]. cut1 F. now apply dec_inj.
    + lacking.
    + lacking.
  - lacking.
  - lacking.
Qed.

Lemma cancel_left a : forall r r', (a ++ r = a ++ r')%string -> r = r'.
Proof. induction a; intros r r' H; cbn [append] in H; [assumption|]. injection H as H. auto. Qed.

Lemma cut_nl a b r r' : lacks "010" a -> lacks "010" b -> (a ++ nl ++ r = b ++ nl ++ r')%string -> a = b /\ r = r'.
Proof. intros A B H. exact (cut "010" a b r r' A B H). Qed.

Lemma cut_lit c l a b r r' : lacks c a -> lacks c b -> (a ++ String c l ++ r = b ++ String c l ++ r')%string -> a = b /\ r = r'.
Proof. intros A B H. destruct (cut c a b (l ++ r) (l ++ r') A B H) as [E K]. split; [assumption|]. now apply cancel_left in K. Qed.

Ltac step H :=
  match type of H with
  | ?a ++ ?r = ?a ++ ?r' => apply cancel_left in H
  | ?a ++ nl ++ ?r = ?b ++ nl ++ ?r' =>
      let E := fresh "E" in let K := fresh "K" in
      destruct (cut_nl a b r r' ltac:(lacking) ltac:(lacking) H) as [E K]; clear H; rename K into H
  | ?a ++ (String ?c ?l) ++ ?r = ?b ++ _ ++ ?r' =>
      let E := fresh "E" in let K := fresh "K" in
      destruct (cut_lit c l a b r r' ltac:(lacking) ltac:(lacking) H) as [E K]; clear H; rename K into H
  end.

Lemma name_label (name r : string) r' c : lacks " " name -> c <> "a"%char ->
  name ++ " already exists for arity=" ++ r = "label" ++ String " " (String c r') -> False.
Proof. intros L C H. apply (cut " ") in H; [|assumption|now repeat split; discriminate]. destruct H as [_ H]. cbn [append] in H. congruence. Qed.

Lemma name_arg (name r : string) r' c : lacks " " name -> c <> "a"%char ->
  name ++ " already exists for arity=" ++ r = "arg" ++ String " " (String c r') -> False.
Proof. intros L C H. apply (cut " ") in H; [|assumption|now repeat split; discriminate]. destruct H as [_ H]. cbn [append] in H. congruence. Qed.

Lemma signed_unsigned (v v' : Z) (r r' : string) :
  show_dec v ++ ". Expected unsigned " ++ r = show_dec v' ++ ". Expected signed " ++ r' -> False.
Proof.
  intros H. change (show_dec v ++ String "." (" Expected unsigned " ++ r) = show_dec v' ++ String "." (" Expected signed " ++ r')) in H.
  apply (cut ".") in H; [|lacking|lacking]. destruct H as [_ H]. change " Expected unsigned " with (" Expected " ++ "unsigned ") in H.
  change " Expected signed " with (" Expected " ++ "signed ") in H. rewrite !append_assoc_s in H. apply cancel_left in H. discriminate H.
Qed.

Lemma nat_dec_inj a b : a_usize (Z.of_nat a) -> a_usize (Z.of_nat b) -> show_dec (Z.of_nat a) = show_dec (Z.of_nat b) -> a = b.
Proof. intros A B E. apply dec_inj in E; auto. lia. Qed.

Lemma above_alike x x' e e' : possible e -> possible e' -> above x e = above x' e' -> alike e e'.
Proof.
  intros P P' H. assert (H0 := H).
  destruct e; cbn [above append nl] in H; cbn [possible] in P;
   try (cbn [In] in P; destruct P as [<-|[<-|[<-|[<-|[]]]]]; cbn [append] in H);
  (destruct e'; cbn [above append nl] in H;
   first [ discriminate H | exact Logic.I | reflexivity | idtac ]).
  all: cbn [possible] in P'; try (cbn [In] in P'; destruct P' as [<-|[<-|[<-|[<-|[]]]]]; cbn [append] in H; try discriminate H).
  all: clear H; rename H0 into H; cbn [above] in H; conj P; conj P'; cbn [alike].
  - apply cancel_left, cancel_left, cancel_right in H. now subst.
  - apply cancel_left, cancel_left, cancel_right in H. now subst.
  - apply cancel_left, cancel_left, cancel_right in H. now subst.
  - apply cancel_left, cancel_left, cancel_right in H. now subst.
  - do 4 step H. apply dec_inj in E, E0; auto. now subst.
  - apply cancel_left, cancel_right in H. now subst.
  - do 2 step H. apply i32_hex_inj in E; auto. now subst.
  - apply cancel_left in H. apply icon_inj in H; auto. destruct H as [-> ->]. reflexivity.
  - apply cancel_left in H. apply palette_inj in H; auto. destruct H as [-> ->]. reflexivity.
  - do 2 step H. apply dec_inj in E; auto. now subst.
  - do 2 step H. apply dec_inj in E; auto. now subst.
  - do 3 step H. apply dec_inj_i32 in E; auto. apply dec_inj in E0; auto. now subst.
  - apply cancel_left in H. now apply signed_unsigned in H.
  - do 2 step H. apply dec_inj_i32 in E; auto. now subst.
  - do 2 step H. apply dec_inj_i32 in E; auto. now subst.
  - apply cancel_left in H. symmetry in H. now apply signed_unsigned in H.
  - do 3 step H. apply dec_inj_i32 in E; auto. apply dec_inj in E0; auto. now subst.
  - do 2 step H. apply i32_hex_inj in E; auto. now subst.
  - repeat step H. apply as_usize_hex_inj in E; auto. apply usize_hex_inj in E0; auto. apply bits4_inj in E1; auto. apply bits4_inj in E2; auto. now subst.
  - apply cancel_left, cancel_right in H. now subst.
  - apply cancel_left, cancel_right in H. now subst.
  - apply cancel_left, cancel_right in H. now subst.
  - do 3 step H. apply nat_dec_inj in E0; [|assumption|assumption]. now subst.
  - exfalso. change "Macro label found outside of macro definition." with ("Macro " ++ "label" ++ " found outside of macro definition.") in H.
    rewrite !append_assoc_s in H. apply cancel_left in H. eapply name_label in H; [assumption|now apply no_space_lacks|discriminate].
  - exfalso. change "Macro arg found outside of macro definition." with ("Macro " ++ "arg" ++ " found outside of macro definition.") in H.
    rewrite !append_assoc_s in H. apply cancel_left in H. eapply name_arg in H; [assumption|now apply no_space_lacks|discriminate].
  - do 3 step H. apply nat_dec_inj in E; [|assumption|assumption]. apply nat_dec_inj in E0; [|assumption|assumption]. now subst.
  - exfalso. change "Macro label found outside of macro definition." with ("Macro " ++ "label" ++ " found outside of macro definition.") in H.
    rewrite !append_assoc_s in H. apply cancel_left in H. symmetry in H. eapply name_label in H; [assumption|now apply no_space_lacks|discriminate].
  - exfalso. change "Macro arg found outside of macro definition." with ("Macro " ++ "arg" ++ " found outside of macro definition.") in H.
    rewrite !append_assoc_s in H. apply cancel_left in H. symmetry in H. eapply name_arg in H; [assumption|now apply no_space_lacks|discriminate].
  - apply cancel_left, cancel_right in H. now subst.
Qed.
