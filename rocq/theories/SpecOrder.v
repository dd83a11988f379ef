(** What is known of the order in which a hash map delivers its entries: nothing, except that each entry
    comes exactly once. *)
From Coq Require Import List Permutation.
From Verif Require Import Order.

(** Every order of the run delivers each entry exactly once. *)
Record shuffles (o : orders) : Prop := mkShuffles {
  s_labels : forall l, Permutation (o_labels o l) l;
  s_lift : forall l, Permutation (o_lift o l) l;
  s_lifted : forall l, Permutation (o_lifted o l) l;
  s_jumps : forall l, Permutation (o_jumps o l) l;
  s_bits : forall l, Permutation (o_bits o l) l;
  s_aliases : forall l, Permutation (o_aliases o l) l;
  s_palette : forall l, Permutation (o_palette o l) l
}.
