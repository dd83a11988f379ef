(** Property C75: source files are UTF-8. *)
From Coq Require Import ZArith List String Ascii Bool Lia.
From Verif Require Import Base Files Img Span SpanInclude SpecUtf8 Utf8Proofs.
Import ListNotations.
Open Scope string_scope.
Open Scope list_scope.
Open Scope Z_scope.

(** A file is taken as it is if it can be read and its bytes are those of characters.  Otherwise the error says which of the two failed. *)
Theorem C75_load : forall w path,
  (forall text, load_file w path = Ok text <-> read_bytes w path = Some text /\ utf8 text) /\
  (load_file w path = Err (FileUtf8Error path) <-> exists text, read_bytes w path = Some text /\ ~ utf8 text) /\
  (load_file w path = Err (FileLoadFailure path) <-> read_bytes w path = None).
Proof.
  intros w path. unfold load_file. destruct (read_bytes w path) as [bytes|]; [destruct (valid_utf8 bytes) eqn:V|].
  - apply utf8_iff in V. split; [|split; split; try discriminate].
    + intros text. split; [intros H; injection H as <-; auto|]. intros [H _]. now injection H as <-.
    + intros (t & H & N). injection H as <-. contradiction.
  - apply not_utf8 in V. split; [|split; split; try discriminate].
    + intros text. split; [discriminate|]. intros [H U]. injection H as <-. contradiction.
    + intros _. now exists bytes.
    + reflexivity.
  - split; [|split; split; try discriminate]; auto.
    + intros text. split; [discriminate|]. now intros [H _].
    + intros (t & H & _). discriminate.
Qed.
Print Assumptions C75_load.

(** Whatever becomes of a run, the texts in its table of files, from which lines are quoted, are those on the disk, and are UTF-8. *)
Theorem C75_run : forall uuid pr fuel w pics wd name r T, assemble_file_s uuid pr fuel w pics (new_files wd) name = (r, T) ->
  Forall (fun f => read_bytes w (sf_name f) = Some (sf_contents f) /\ utf8 (sf_contents f)) (sf_list T).
Proof.
  intros uuid pr fuel w pics wd name r T H. pose proof (keep_run w uuid pr fuel pics (new_files wd) name (Forall_nil _)) as K. rewrite H in K. exact K.
Qed.
Print Assumptions C75_run.

(** Which characters a text consists of is never in doubt. *)
Theorem C75_unique : forall s points points', spells s points -> spells s points' -> points = points'.
Proof. intros s points points' [F E] [F' E']. apply spelled_once; auto. congruence. Qed.
Print Assumptions C75_unique.

Fixpoint read_back (bytes : list Z) : string :=
  match bytes with [] => "" | n :: t => String (ascii_of_nat (Z.to_nat n)) (read_back t) end.

Lemma octets_back : forall bytes, Forall (fun n => 0 <= n <= 255) bytes -> octets (read_back bytes) = bytes.
Proof.
  induction bytes as [|n bytes IH]; intros F; [reflexivity|]. inversion F; subst. cbn [read_back octets].
  rewrite nat_ascii_embedding by lia. rewrite IH by assumption. f_equal. lia.
Qed.

(** Every character can be written. *)
Theorem C75_every : forall points, Forall scalar points -> exists s, spells s points /\ forall w path, read_bytes w path = Some s -> load_file w path = Ok s.
Proof.
  intros points F. exists (read_back (List.concat (map encode points))).
  assert (S: spells (read_back (List.concat (map encode points))) points).
  { split; [exact F|]. apply octets_back. induction F as [|n l N F IH]; [constructor|]. cbn [map List.concat]. apply Forall_app. split; [|exact IH].
    destruct (encode_cases n N) as [[E R]|[(a & b & E & T & _)|[(a & b & c & E & T & _)|(a & b & c & d & E & T & _)]]]; rewrite E; try (unfold two, three, four in T);
    repeat constructor; split_bools; arith. }
  split; [exact S|]. intros w path R. apply (proj1 (C75_load w path)). split; [exact R|]. now exists points.
Qed.
Print Assumptions C75_every.

(** * Cases *)

(** "aé€" and U+1F600; what looks like a surrogate, a slash in two bytes, U+110000 and half a character. *)
Example C75_case :
  spells (String "097" (String "195" (String "169" (String "226" (String "130" (String "172" (String "240" (String "159" (String "152" (String "128" ""))))))))))
    [97; 233; 8364; 128512] /\
  (forall s, In s [String "237" (String "160" (String "128" "")); String "192" (String "175" ""); String "244" (String "144" (String "128" (String "128" ""))); String "226" (String "130" "")] ->
     ~ utf8 s).
Proof.
  split.
  - split; [repeat constructor; unfold scalar; lia|reflexivity].
  - intros s I. apply not_utf8. cbn [In] in I. repeat (destruct I as [<-|I]; [vm_compute; reflexivity|]). contradiction.
Qed.

Example C75_load_case :
  let w := mkFs (fun _ => true) (fun _ => false) (fun p => if String.eqb p "/a" then Some (String "195" (String "169" "")) else if String.eqb p "/b" then Some (String "233" "") else None) in
  load_file w "/a" = Ok (String "195" (String "169" "")) /\ load_file w "/b" = Err (FileUtf8Error "/b") /\ load_file w "/c" = Err (FileLoadFailure "/c").
Proof. repeat split; reflexivity. Qed.

(** A file with a comment that is not ASCII includes one that is not UTF-8: the first is in the table, the second is not. *)
Example C75_run_case :
  let main := ("; " ++ String "195" (String "169" (String "010" ".include ")) ++ String "034" ("/b" ++ String "034" ""))%string in
  let w := mkFs (fun _ => true) (fun _ => false) (fun p => if String.eqb p "/a" then Some main else if String.eqb p "/b" then Some (String "233" "") else None) in
  assemble_file_s (fun _ => "") Debug 3 w (fun _ => Err InvalidPath) (new_files "/") "/a" =
    (PErr (FileUtf8Error "/b") [], mkFiles "/" [mkFile 0 "/a" main]).
Proof. vm_compute. reflexivity. Qed.
