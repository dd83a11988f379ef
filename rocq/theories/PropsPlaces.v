(** Where the errors of a whole run point, and that they can be printed: C62. *)
From Coq Require Import ZArith List String Ascii Bool Arith Lia.
From Verif Require Import Base Expr Instr Ast Macro Lexer Parser CHeader Asm Files Img Include Report Message Span SpanParser SpanAsm SpanInclude.
From Verif Require Import SpecSpan SpecLex SpecReport SpecMessage SpecPlaces.
From Verif Require Import LexProofs LexProofs2 ReportProofs SpanAsmProofs SpanValid SpanValid2 SpanValid3 PropsReport PropsSpan.
Import ListNotations.
Open Scope string_scope.
Open Scope list_scope.
Local Open Scope nat_scope.

(** ** C62 *)

(** The decoders of pictures report no error that has a place in the source. *)
Definition no_places (pics : pictures) : Prop := forall path e, pics path = Err e -> place_count e = 0.

(** Reading, including, parsing, expanding and assembling with places gives what it gives without. *)
Theorem C62_same : forall uuid pr fuel w pics s name,
  unplaced (fun v => v) (fst (assemble_file_s uuid pr fuel w pics s name)) = assemble_file uuid pr fuel w pics s name.
Proof. exact assemble_file_same. Qed.
Print Assumptions C62_same.

Lemma run_count : forall uuid pr fuel w pics dir name e at_ files, no_places pics ->
  assemble_file_s uuid pr fuel w pics (new_files dir) name = (PErr e at_, files) ->
  Forall (true_place files) at_ /\ S (List.length at_) = count e.
Proof.
  intros uuid pr fuel w pics dir name e at_ files Q E.
  destruct (file_true uuid pr fuel w pics (new_files dir) name (fun path e H => placeless_count e (Q path e H)) (numbered_new dir)) as (_ & _ & H).
  rewrite E in H. exact H.
Qed.

(** A run only says that an instruction is used in a wrong way if there is such an instruction. *)
Lemma run_known : forall uuid pr fuel w pics dir name i at_ files, no_places pics ->
  assemble_file_s uuid pr fuel w pics (new_files dir) name = (PErr (WrongInstructionArgs i) at_, files) -> SpecMacro.known i.
Proof.
  intros uuid pr fuel w pics dir name i at_ files Q E.
  destruct (run_count uuid pr fuel w pics dir name _ at_ files Q E) as [_ L]. apply MacroProofs.knownb_known.
  unfold count in L. destruct (MacroProofs.knownb i); congruence.
Qed.

(** If a run fails, the error has as many places as its message shows, and each place, as well as each call it was
    expanded from, begins and ends in the text of a file that was read, with line and column as they are there. *)
Theorem C62_places_true : forall uuid pr fuel w pics dir name e at_ files, no_places pics ->
  assemble_file_s uuid pr fuel w pics (new_files dir) name = (PErr e at_, files) ->
  Forall (true_place files) at_ /\ List.length at_ = place_count e.
Proof.
  intros uuid pr fuel w pics dir name e at_ files Q E.
  destruct (run_count uuid pr fuel w pics dir name e at_ files Q E) as [T L]. split; [exact T|]. destruct (count_places e) as [[C _]|C]; congruence.
Qed.
Print Assumptions C62_places_true.

(** The text of a file in which every line can be quoted. *)
Definition quotable (pr : profile) (text : string) : Prop :=
  match pr with Debug => String.length text <> 1 | Release => text <> String "013" "" end.

Lemma quotes : forall pr pos text, pos <= String.length text -> quotable pr text -> exists q, line_for_pos pr pos text = Ok q.
Proof.
  intros pr pos [|c [|d t]] L Q.
  - destruct pos; [|cbn in L; lia]. exists "". now destruct pr.
  - destruct pr; [now destruct Q|]. destruct pos as [|[|pos]]; [| |cbn in L; lia].
    + rewrite one_byte. destruct (Ascii.eqb_spec c CR) as [->|_]; [now destruct Q|eauto].
    + unfold line_for_pos, end_of_line. cbn [start_of_line get String.length Nat.sub end_loop Nat.ltb Nat.leb bind].
      destruct (Ascii.eqb c LF); cbn; eauto.
  - destruct (C42_contains_offset pr pos (String c (String d t)) L) as (a & q & b & _ & E & _); [cbn; lia|eauto].
Qed.

Lemma about_exists : forall pr fs indent s msg, (forall f, In f (sf_list fs) -> quotable pr (sf_contents f)) -> true_span fs s ->
  exists b, about pr fs indent s msg b.
Proof.
  intros pr fs indent s msg Q [(file & before & after & N & C & X) _].
  assert (LT: l_file (s_start s) < List.length (sf_list fs)) by (apply nth_error_Some; congruence).
  destruct (quotes pr (Lexer.l_pos (s_start s)) (sf_contents file)) as [q E].
  - rewrite C, X, app_length_s. cbn [Lexer.l_pos place]. lia.
  - apply Q. eapply nth_error_In; eauto.
  - eexists. exists file, (shown_path fs file), q. split; [|split; [apply shown_called|split; [exact E|reflexivity]]].
    unfold for_id. rewrite (proj2 (Nat.ltb_lt _ _) LT). exact N.
Qed.

Lemma shown_exists : forall pr fs p msg, (forall f, In f (sf_list fs) -> quotable pr (sf_contents f)) -> true_place fs p ->
  exists b, shown pr fs (here p) (parents p) msg b /\ highlight_line pr fs p msg = Ok b.
Proof.
  intros pr fs p msg Q [H P]. destruct (about_exists pr fs "" (here p) msg Q H) as [first F].
  assert (B: exists blocks, Forall2 (fun c b => about pr fs "  | " c "" b) (parents p) blocks).
  { induction P as [|c l C L [bs IH]]; [now exists []|]. destruct (about_exists pr fs "  | " c "" Q C) as [b B]. exists (b :: bs). now constructor. }
  destruct B as [blocks B]. assert (S: shown pr fs (here p) (parents p) msg (first ++ String.concat "" (map (fun b => expanded_from ++ b) blocks))%string)
    by (now exists first, blocks).
  eexists. split; [exact S|]. apply C61_message; exact S.
Qed.

Lemma remarks_note : forall e n m, nth_error (remarks e) n = Some m -> m = note e n.
Proof.
  intros e n m. destruct e; cbn [remarks]; destruct n as [|[|n]]; cbn [nth_error]; intros H; try discriminate H; try (now injection H as <-);
  destruct n; discriminate.
Qed.

Lemma remarks_count : forall e, List.length (remarks e) = place_count e. Proof. now intros []. Qed.

(** The message about a failed run shows every place of the error, with the remark meant for it. *)
Theorem C62_message : forall uuid pr fuel w pics dir name e at_ files, no_places pics ->
  assemble_file_s uuid pr fuel w pics (new_files dir) name = (PErr e at_, files) ->
  (forall f, In f (sf_list files) -> quotable pr (sf_contents f)) ->
  exists blocks, print_error pr files e at_ = Ok blocks /\ List.length blocks = place_count e /\
    forall n p b, nth_error at_ n = Some p -> nth_error blocks n = Some b -> shown pr files (here p) (parents p) (note e n) b.
Proof.
  intros uuid pr fuel w pics dir name e at_ files NP E Q.
  destruct (C62_places_true _ _ _ _ _ _ _ _ _ _ NP E) as [T L]. unfold print_error. rewrite <- remarks_count in *.
  assert (R := remarks_note e). clear NP E. generalize dependent (remarks e). intros ms.
  assert (K: forall k at_, Forall (true_place files) at_ -> forall ms, List.length at_ = List.length ms ->
    (forall n m, nth_error ms n = Some m -> m = note e (k + n)) ->
    exists blocks, print_places pr files at_ ms = Ok blocks /\ List.length blocks = List.length ms /\
      forall n p b, nth_error at_ n = Some p -> nth_error blocks n = Some b -> shown pr files (here p) (parents p) (note e (k + n)) b).
  { clear - Q. intros k at_ T. revert k. induction T as [|p l P T IH]; intros k [|m ms] L R; try discriminate L.
    - exists []. split; [reflexivity|]. split; [reflexivity|]. intros [|n]; discriminate.
    - destruct (shown_exists pr files p m Q P) as (b & S & H).
      destruct (IH (Datatypes.S k) ms) as (bs & B & LB & X).
      + now injection L.
      + intros n m2 M. rewrite (R (Datatypes.S n) m2 M). f_equal. lia.
      + exists (b :: bs). cbn [print_places]. rewrite H, B. cbn [bind]. split; [reflexivity|]. split; [cbn; now rewrite LB|].
        intros [|n] q c; cbn [nth_error].
        * intros P1 C1. injection P1 as <-. injection C1 as <-. now rewrite <- (R 0 m eq_refl).
        * intros P1 C1. replace (k + Datatypes.S n) with (Datatypes.S k + n) by lia. eapply X; eauto. }
  intros L R. exact (K 0 at_ T ms L R).
Qed.
Print Assumptions C62_message.

(** The files of a directory with the same files under every working directory. *)
Definition disk_of (files : list (string * string)) : fs :=
  mkFs (fun p => existsb (fun f => String.eqb p (fst f)) files) (fun _ => false)
       (fun p => match find (fun f => String.eqb p (fst f)) files with Some f => Some (snd f) | None => None end).

Definition NL1 : string := String "010" "".
Definition Q1 : string := String "034" "".

(** A name defined in an included file and again, later, in the first one. *)
Definition two_files : list (string * string) :=
  [("/s/m.s", (".include " ++ Q1 ++ "l.s" ++ Q1 ++ NL1 ++ " nop" ++ NL1 ++ "Aa:  nop ; again" ++ NL1)%string);
   ("/s/l.s", ("  nop" ++ NL1 ++ "aA:" ++ NL1)%string)].

Example C62_case :
  let r := assemble_file_s (fun _ => "u") Debug 50 (disk_of two_files) (fun _ => Err ImageParseError) (new_files "/s") "/s/m.s" in
  no_places (fun _ => Err ImageParseError) /\
  fst r = PErr (NameAlreadyExists "aa") [mkP (mkSpan (mkLoc 0 20 3 0) (mkLoc 0 23 3 3)) []; mkP (mkSpan (mkLoc 1 6 2 0) (mkLoc 1 9 2 3)) []] /\
  Forall (fun f => quotable Debug (sf_contents f)) (sf_list (snd r)) /\
  print_error Debug (snd r) (NameAlreadyExists "aa")
    [mkP (mkSpan (mkLoc 0 20 3 0) (mkLoc 0 23 3 3)) []; mkP (mkSpan (mkLoc 1 6 2 0) (mkLoc 1 9 2 3)) []] =
    Ok [("m.s:3:0-3" ++ NL1 ++ "  Aa:  nop ; again" ++ NL1 ++ NL1 ++ "  ^^^ Duplicate" ++ NL1)%string;
        ("l.s:2:0-3" ++ NL1 ++ "  aA:" ++ NL1 ++ NL1 ++ "  ^^^ Original" ++ NL1)%string].
Proof.
  intros r. split; [intros p e H; now injection H as <-|].
  assert (R: r = (fst r, snd r)) by (now destruct r). vm_compute.
  split; [reflexivity|]. split; [repeat constructor; discriminate|]. reflexivity.
Qed.

(** A file of one byte is the exception: the message about it cannot be printed. *)
Theorem C62_one_byte_refuted : exists uuid fuel w pics dir name e at_ files, no_places pics /\
  assemble_file_s uuid Debug fuel w pics (new_files dir) name = (PErr e at_, files) /\ print_error Debug files e at_ = Panic.
Proof.
  exists (fun _ => "u"), 50, (disk_of [("/s/m.s", "+")]), (fun _ => Err ImageParseError), "/s", "/s/m.s".
  eexists _, _, _. split; [intros p e H; now injection H as <-|]. split; [vm_compute; reflexivity|]. vm_compute. reflexivity.
Qed.
Print Assumptions C62_one_byte_refuted.
