(** C56: what the disassembler and the icon writer produce does not depend on the order in which the hash
    maps they loop over deliver their entries, which differs from one run of the program to the next. *)
From Coq Require Import ZArith List String Ascii Bool Lia Permutation.
From Verif Require Import Base Expr Instr Ast Img Disasm PropsImg Order SpecOrder OrderProofs.
Import ListNotations.
Open Scope string_scope.
Open Scope list_scope.
Open Scope Z_scope.

(** *** Orders used in the examples *)

(** The order that turns every map round. *)
Definition backwards : orders := mkOrders (@rev _) (@rev _) (@rev _) (@rev _) (@rev _) (@rev _) (@rev _).

(** The order that takes the first entry of every map last. *)
Definition rotate {A : Type} (l : list A) : list A := match l with [] => [] | x :: t => t ++ [x] end.
Definition rotated : orders := mkOrders rotate rotate rotate rotate rotate rotate rotate.

Lemma backwards_shuffles : shuffles backwards.
Proof. split; intros l; apply Permutation_sym, Permutation_rev. Qed.

Lemma rotated_shuffles : shuffles rotated.
Proof.
  assert (H : forall (A : Type) (l : list A), Permutation (rotate l) l) by (intros A [|x t]; [constructor|apply Permutation_sym, Permutation_cons_append]).
  split; intros l; apply H.
Qed.

(** *** Listings *)

(** C56: two runs of the disassembler on the same input end the same way: in the same listing, the same
    error or the same panic. *)
Theorem C56_listing : forall o o' fuel flag entries bytes, shuffles o -> shuffles o' ->
  disassemble_in o fuel flag entries bytes = disassemble_in o' fuel flag entries bytes.
Proof.
  intros o o' fuel flag entries bytes S S'. rewrite !listing_order; auto; intros g; apply built_keys.
Qed.
Print Assumptions C56_listing.

(** C56: the disassembler of Disasm.v, about which the other properties speak, is right about every run. *)
Theorem C56_listing_model : forall o fuel flag entries bytes, shuffles o ->
  disassemble_in o fuel flag entries bytes = disassemble fuel flag entries bytes.
Proof. intros o fuel flag entries bytes S. apply listing_order; auto. intros g. apply built_keys. Qed.
Print Assumptions C56_listing_model.

(** Three labels, a jump out of the binary, an alias and a bit name; the maps themselves come out in different
    orders. *)
Example C56_listing_case : let bytes := [16; 4; 0; 1; 251; 255; 120; 1; 0; 2; 0; 128; 3; 160; 255] in
  exists l g, disassemble_in backwards 20 true [0; 6] bytes = Ok (inl l) /\ disassemble_in rotated 20 true [0; 6] bytes = Ok (inl l) /\
    build_instruction_graph 20 [0; 6] bytes = Ok (inl g) /\
    n_labels (build_names_in backwards g) <> n_labels (build_names_in rotated g) /\ (20 < List.length l)%nat.
Proof.
  cbv zeta. eexists. eexists. split; [vm_compute; reflexivity|]. split; [|split; [vm_compute; reflexivity|]].
  - rewrite (C56_listing rotated backwards) by (apply rotated_shuffles || apply backwards_shuffles). vm_compute. reflexivity.
  - split; [vm_compute; discriminate|cbn; lia].
Qed.

(** *** Icons *)

(** C56: two runs of the icon writer on the same pictures end the same way. *)
Theorem C56_icon : forall o o' pics path speed eye, shuffles o -> shuffles o' ->
  to_icon_in o pics path speed eye = to_icon_in o' pics path speed eye.
Proof. intros. now rewrite !icon_order. Qed.
Print Assumptions C56_icon.

(** C56: the icon writer of Img.v is right about every run. *)
Theorem C56_icon_model : forall o pics path speed eye, shuffles o ->
  to_icon_in o pics path speed eye = to_icon pics path speed eye.
Proof. exact icon_order. Qed.
Print Assumptions C56_icon_model.

(** An animated icon with an eyecatch. *)
Example C56_icon_case : exists l, to_icon_in backwards icon_pictures "icon.gif" (Some 3) (Some "eye.png") = Ok l /\
  to_icon_in rotated icon_pictures "icon.gif" (Some 3) (Some "eye.png") = Ok l.
Proof.
  destruct C36_accepted_case as (_ & l & E). exists l. rewrite !C56_icon_model by (apply backwards_shuffles || apply rotated_shuffles). auto.
Qed.
