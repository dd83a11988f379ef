(** Property C40: identities of source files. *)
From Coq Require Import List String Ascii Bool Arith Lia.
From Verif Require Import Base Files SpecFiles FilesProofs.
Import ListNotations.
Open Scope string_scope.
Open Scope list_scope.
Local Open Scope nat_scope.

(** A file loaded once is returned again, with its id and contents, by every later request for its path,
    whatever was requested in between and whatever the file system then holds. *)
Theorem C40_loaded_once : forall wd before s w root name p f s1 between w2 root2 name2 p2,
  s = after (new_files wd) before -> path_of w s root name = Ok p -> load w s root name = Ok (f, s1) ->
  path_of w2 (after s1 between) root2 name2 = Ok p2 -> same_path p p2 ->
  load w2 (after s1 between) root2 name2 = Ok (f, after s1 between).
Proof.
  intros wd before s w root name p f s1 between w2 root2 name2 p2 -> P H P2 S.
  destruct (after_well before _ (new_well wd)) as [W _].
  destruct (load_inv _ _ _ _ _ _ W H) as (q & Q & W1 & E & N & _). rewrite P in Q. injection Q as <-.
  destruct (after_well between _ W1) as [W2 [_ G]]. eapply load_again; eauto.
  apply path_eqb_eq. apply path_eqb_eq in E. apply path_eqb_same in S. apply path_eqb_eq in S. congruence.
Qed.
Print Assumptions C40_loaded_once.

(** Two loads return the same id exactly if they asked for the same path; then it is the same file. *)
Theorem C40_same_id_iff : forall wd before s w root name p f s1 between w2 root2 name2 p2 f2 s2,
  s = after (new_files wd) before -> path_of w s root name = Ok p -> load w s root name = Ok (f, s1) ->
  path_of w2 (after s1 between) root2 name2 = Ok p2 -> load w2 (after s1 between) root2 name2 = Ok (f2, s2) ->
  (sf_id f = sf_id f2 <-> same_path p p2) /\ (sf_id f = sf_id f2 -> f = f2).
Proof.
  intros wd before s w root name p f s1 between w2 root2 name2 p2 f2 s2 E P H P2 H2. subst s.
  destruct (after_well before _ (new_well wd)) as [W _].
  destruct (load_inv _ _ _ _ _ _ W H) as (q & Q & W1 & EQ & N & _). rewrite P in Q. injection Q as <-.
  destruct (after_well between _ W1) as [W2 [_ G]].
  destruct (load_inv _ _ _ _ _ _ W2 H2) as (q & Q & W3 & EQ2 & N2 & _). rewrite P2 in Q. injection Q as <-.
  destruct (load_grows _ _ _ _ _ _ W2 H2) as [_ G2].
  assert (SAME: sf_id f = sf_id f2 -> f = f2).
  { intros X. apply G, G2 in N. rewrite X in N. rewrite N in N2. now injection N2. }
  split; auto. split.
  - intros X. apply SAME in X. subst f2. apply path_eqb_same, path_eqb_eq. apply path_eqb_eq in EQ, EQ2. congruence.
  - intros S. assert (L := C40_loaded_once wd before _ w root name p f s1 between w2 root2 name2 p2 eq_refl P H P2 S).
    rewrite L in H2. now injection H2 as <- _.
Qed.
Print Assumptions C40_same_id_iff.

(** An id given out keeps standing for its file. *)
Theorem C40_id_stable : forall wd before s w root name f s1 later,
  s = after (new_files wd) before -> load w s root name = Ok (f, s1) -> for_id (after s1 later) (sf_id f) = Some f.
Proof.
  intros wd before s w root name f s1 later -> H.
  destruct (after_well before _ (new_well wd)) as [W _].
  destruct (load_inv _ _ _ _ _ _ W H) as (q & _ & W1 & _ & N & _).
  destruct (after_well later _ W1) as [_ [_ G]]. apply G in N. unfold for_id.
  rewrite (proj2 (Nat.ltb_lt _ _)); auto. apply nth_error_Some. congruence.
Qed.
Print Assumptions C40_id_stable.

(** The contents returned are those found by this request or by an earlier one for the same path. *)
Theorem C40_contents : forall wd before s w root name p f s1,
  s = after (new_files wd) before -> path_of w s root name = Ok p -> load w s root name = Ok (f, s1) ->
  same_path (sf_name f) p /\
  ((read_bytes w p = Some (sf_contents f) /\ forall g, In g (sf_list s) -> ~ same_path (sf_name g) p) \/ In f (sf_list s)).
Proof.
  intros wd before s w root name p f s1 -> P H.
  destruct (after_well before _ (new_well wd)) as [W _].
  destruct (load_inv _ _ _ _ _ _ W H) as (q & Q & W1 & EQ & N & _ & C). rewrite P in Q. injection Q as <-.
  split; [now apply path_eqb_same|]. destruct C as [->|(L & R & E & NN)].
  - right. eapply nth_error_In. exact N.
  - left. split; auto. intros g I S. apply In_nth_error in I as (i & I). apply path_eqb_same in S.
    rewrite (NN _ _ I) in S. discriminate.
Qed.
Print Assumptions C40_contents.

Local Definition world (a b : string) : fs :=
  mkFs (fun p => String.eqb p "/src/main.s" || String.eqb p "/src/lib/m.s")%bool (fun p => String.eqb p "/src")
    (fun p => if path_eqb p "/src/main.s" then Some a else if path_eqb p "/src/lib/m.s" then Some b else None).

Example C40_case : exists f g s1 s2,
  load (world "one" "two") (new_files "/src") None "main.s" = Ok (f, s1) /\
  load (world "one" "two") s1 (Some "/src/main.s") "lib/m.s" = Ok (g, s2) /\
  load (world "other" "other") s2 (Some "/src/main.s") "lib//./m.s" = Ok (g, s2) /\
  sf_id f = 0 /\ sf_id g = 1 /\ sf_contents g = "two" /\ same_path "/src/lib/m.s" "/src/lib//./m.s".
Proof.
  eexists _, _, _, _. split; [vm_compute; reflexivity|]. split; [vm_compute; reflexivity|]. split; [vm_compute; reflexivity|].
  split; [reflexivity|]. split; [reflexivity|]. split; [reflexivity|].
  apply path_eqb_same. vm_compute. reflexivity.
Qed.

(** Paths are compared as they are written: one file reached by two routes is loaded twice. *)
Theorem C40_one_file_refuted : exists w s f g s1 s2,
  load w s None "main.s" = Ok (f, s1) /\ load w s1 None "lib/../main.s" = Ok (g, s2) /\ sf_id f <> sf_id g /\ s = new_files "/src".
Proof.
  exists (mkFs (fun _ => true) (fun _ => false) (fun _ => Some "nop")), (new_files "/src"). eexists _, _, _, _.
  split; [vm_compute; reflexivity|]. split; [vm_compute; reflexivity|]. split; [discriminate|reflexivity].
Qed.
Print Assumptions C40_one_file_refuted.
