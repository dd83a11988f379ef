(** Property C59: which programs crash the assembler instead of giving an image or an error message. *)
From Coq Require Import ZArith List String Ascii Bool Arith Lia.
From Verif Require Import Base Expr Instr Ast Macro Asm Lexer Parser Files CHeader Img Include.
From Verif Require Import SpecExpr SpecAsm SpecImg SpecLex SpecParse SpecLine SpecFiles SpecHeader SpecInclude SpecPrint SpecExpand SpecCrash.
From Verif Require Import LexProofs5 IncludeProofs IncludeProofs3 ExpandProofs2 CrashProofs.
From Verif Require SpecUtf8 Utf8Proofs.
Import ListNotations.
Open Scope string_scope.
Open Scope list_scope.

(** Reading crashes only on a number that is too large in one of the files, on an include that is still
    there when bytes are included, on a speed that overflows and on pictures without a frame. *)
Theorem C59_reading : forall pr fuel w pics wd name, is_absolute wd = true -> rooted w ->
  (forall q, pics q <> Panic) -> (forall q ds, pics q = Ok ds -> byte_pictures ds) ->
  read_statements pr fuel w pics (new_files wd) name = Panic -> reading_hazard w pics wd name.
Proof. exact read_panic. Qed.
Print Assumptions C59_reading.

(** The whole assembler crashes only then, or when addresses or values leave the 32-bit range, or (with
    overflow checks) when a [.cnop] leads backwards.  Macros never crash it. *)
Theorem C59_crash : forall uuid pr fuel w pics wd name, proper_uuid uuid -> is_absolute wd = true -> rooted w ->
  (forall q, pics q <> Panic) -> (forall q ds, pics q = Ok ds -> byte_pictures ds) ->
  assemble_file uuid pr fuel w pics (new_files wd) name = Panic ->
  reading_hazard w pics wd name \/
  exists st ex, read_statements pr fuel w pics (new_files wd) name = Ok st /\ expand_macros uuid fuel st = Ok ex /\
    ~ (layout_small (st_list ex) /\ (pr = Debug -> forward_cnops (st_list ex)) /\ arithmetic_fits pr (st_list ex)).
Proof.
  intros uuid pr fuel w pics wd name U A R NP B H. unfold assemble_file in H.
  destruct (read_statements pr fuel w pics (new_files wd) name) as [st| | |] eqn:RS; try discriminate.
  2:{ left. exact (read_panic _ _ _ _ _ _ A R NP B RS). }
  right. cbn [bind] in H. destruct (expand_macros uuid fuel st) as [ex| | |] eqn:EX; try discriminate; [|now apply expand_macros_fine in EX].
  exists st, ex. split; [reflexivity|]. split; [exact EX|]. intros (LS & FC & AF).
  refine (proj1 (assemble_panic pr (st_list ex) _ LS FC AF) H). eapply expanded_good; eauto.
Qed.
Print Assumptions C59_crash.

(** The same for the expand command, which evaluates nothing: only reading can crash it. *)
Theorem C59_expand_command : forall uuid pr fuel w pics wd name, is_absolute wd = true -> rooted w ->
  (forall q, pics q <> Panic) -> (forall q ds, pics q = Ok ds -> byte_pictures ds) ->
  expand_file uuid pr fuel w pics (new_files wd) name = Panic -> reading_hazard w pics wd name.
Proof.
  intros uuid pr fuel w pics wd name A R NP B H. unfold expand_file in H.
  destruct (read_statements pr fuel w pics (new_files wd) name) as [st| | |] eqn:RS; try discriminate.
  - cbn [bind] in H. destruct (expand_macros uuid fuel st) as [ex| | |] eqn:EX; try discriminate. now apply expand_macros_fine in EX.
  - exact (read_panic _ _ _ _ _ _ A R NP B RS).
Qed.
Print Assumptions C59_expand_command.

(** In the main file such a number always crashes the assembler, wherever it stands. *)
Theorem C59_number : forall uuid pr fuel w pics wd name text, is_absolute wd = true ->
  read_bytes w (join wd name) = Some text -> SpecUtf8.utf8 text -> too_large text ->
  assemble_file uuid pr fuel w pics (new_files wd) name = Panic.
Proof.
  intros uuid pr fuel w pics wd name text A RB V T. apply Utf8Proofs.utf8_iff in V. unfold assemble_file, read_statements. cbn [path_of bind working_dir new_files].
  assert (J: join wd (join wd name) = join wd name) by (unfold join at 1; now rewrite (absolute_join wd name A)).
  unfold load. cbn [path_of bind working_dir new_files]. rewrite J. unfold get_id. cbn [sf_list new_files find_name bind].
  unfold load_file. cbn [sf_list new_files]. rewrite RB, V. cbn [bind sf_id sf_contents].
  rewrite (proj2 (lex_panic_iff _ _) T). reflexivity.
Qed.
Print Assumptions C59_number.

(** And so do the remaining includes and the sprites without a frame, once what stands before them is read. *)
Theorem C59_certain : forall pr w pics main s before x after done,
  byte_includes pr w pics main s before = Ok done -> explosive w pics main x ->
  (forall speed eye p, x <> SDirective (DInclude (IncIcon speed eye) p)) ->
  byte_includes pr w pics main s (before ++ x :: after) = Panic.
Proof.
  intros pr w pics main s before x after done E X N. revert done E.
  assert (P: byte_include pr w pics main s x = Panic).
  { destruct X as [p|p|e eye p F|speed t p q F F2|k p q F F2]; try reflexivity; [exfalso; eapply N; reflexivity|exfalso; eapply N; reflexivity|].
    cbn [byte_include]. apply path_some_iff with (s := s) in F. rewrite F. cbn [bind]. unfold sprite_statements, load_image. rewrite F2. reflexivity. }
  induction before as [|y before IH]; intros done E; cbn [app byte_includes] in *; [now rewrite P|].
  destruct (byte_include pr w pics main s y) as [a| | |]; try discriminate. cbn [bind] in *.
  destruct (byte_includes pr w pics main s before) as [b| | |]; try discriminate. now rewrite (IH b eq_refl).
Qed.
Print Assumptions C59_certain.

(** * Cases *)

Local Definition NL : string := String LF "".
Local Definition str (s : string) : string := String "034" (s ++ String "034" "").

Local Definition disk (files : list (string * string)) : fs :=
  mkFs (fun p => existsb (fun f => path_eqb p (fst f)) files) (fun p => path_eqb p "/s")
    (fun p => match find (fun f => path_eqb p (fst f)) files with Some f => Some (snd f) | None => None end).

Local Definition ids (n : nat) : string := match n with O => "0a1b" | _ => "77ff" end.

(** Every picture is a file without frames, or one without any dot. *)
Local Definition still : pictures := fun q => if path_eqb q "/s/e.gif" then Ok [] else Ok [mkDecoded 0 0 (fun _ _ => mkColor 0 0 0 0)].

Local Definition outcome_of (pr : profile) (files : list (string * string)) : outcome (list Z) :=
  assemble_file ids pr 5 (disk files) still (new_files "/s") "m.s".

Lemma path_eqb_parent p q : path_eqb p q = true -> parent p = parent q.
Proof. intros H. apply FilesProofs.path_eqb_eq in H. unfold parent. now rewrite H. Qed.

Lemma disk_rooted files : Forall (fun f => parent (fst f) <> None) files -> rooted (disk files).
Proof.
  intros F p H. cbn in H. destruct (find _ files) as [f|] eqn:E; [|congruence]. apply find_some in E as [I E].
  rewrite Forall_forall in F. rewrite (path_eqb_parent _ _ E). now apply F.
Qed.

(** The claim that the assembler always answers with an image or a message is false, in each of these ways. *)
Theorem C59_always_answers_refuted :
  (exists text, forall pr, outcome_of pr [("/s/m.s", text)] = Panic) /\
  (exists text header, forall pr, outcome_of pr [("/s/m.s", text); ("/s/a.h", header)] = Panic) /\
  (exists text header other, forall pr, outcome_of pr [("/s/m.s", text); ("/s/a.h", header); ("/s/b.s", other)] = Panic /\
     outcome_of pr [("/s/m.s", header); ("/s/b.s", other)] = Ok [0]%Z) /\
  (exists text, outcome_of Debug [("/s/m.s", text)] = Panic /\ exists er, outcome_of Release [("/s/m.s", text)] = Err er) /\
  (exists text, (forall pr, outcome_of pr [("/s/m.s", text)] = Panic) /\ still "/s/e.gif" = Ok []) /\
  (exists text, outcome_of Debug [("/s/m.s", text)] = Panic /\ outcome_of Release [("/s/m.s", text)] = Ok [0]%Z).
Proof.
  split; [exists " .byte 99999999999"%string; intros []; vm_compute; reflexivity|].
  split; [exists (".include cpp " ++ str "a.h")%string, "#define X 99999999999"%string; intros []; vm_compute; reflexivity|].
  split; [exists (".include cpp " ++ str "a.h" ++ NL)%string, (".include " ++ str "b.s" ++ NL)%string, " nop"%string;
    intros []; split; vm_compute; reflexivity|].
  split; [exists (".include icon " ++ str "i.gif" ++ " speed = 2147483647 + 1")%string; split; [|eexists]; vm_compute; reflexivity|].
  split; [exists (".include sprite " ++ str "e.gif")%string; split; [intros []|]; vm_compute; reflexivity|].
  exists " .byte <(2147483647 + 1)"%string. split; vm_compute; reflexivity.
Qed.
Print Assumptions C59_always_answers_refuted.

(** A program with an include, a header, a macro and a picture, to which the theorems apply. *)
Example C59_case :
  let files := [("/s/m.s", (".include " ++ str "l.s" ++ NL ++ ".include cpp " ++ str "a.h" ++ NL ++ " two #n" ++ NL ++
                            ".include sprite " ++ str "p.gif" ++ NL)%string);
                ("/s/l.s", ("%macro two %n" ++ NL ++ " mov %n, 4" ++ NL ++ "%end" ++ NL)%string); ("/s/a.h", ("#define N 3" ++ NL)%string)] in
  proper_uuid ids /\ rooted (disk files) /\ (forall q, still q <> Panic) /\ (forall q ds, still q = Ok ds -> byte_pictures ds) /\
  forall pr, outcome_of pr files = Ok [34; 4; 3; 0; 0]%Z.
Proof.
  intros files. split; [intros [|n]; cbn; tauto|]. split; [apply disk_rooted; repeat constructor; vm_compute; discriminate|].
  assert (V: forall pr, outcome_of pr files = Ok [34; 4; 3; 0; 0]%Z) by (intros []; vm_compute; reflexivity).
  split; [|split; [|exact V]]; clear; intros q; unfold still; destruct (path_eqb q "/s/e.gif"); try discriminate; intros ds H; injection H as <-; intros d x y I; [destruct I|].
  destruct I as [<-|[]]. unfold byte_color. cbn. unfold byte. repeat split; lia.
Qed.
