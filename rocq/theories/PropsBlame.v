(** What the errors of the passes of the assembler point at: C63. *)
From Coq Require Import ZArith List String Ascii Bool Arith Lia.
From Verif Require Import Base Expr Instr Ast Macro Lexer Parser Asm Files Img Include Span SpanParser SpanAsm SpanInclude.
From Verif Require Import SpecSpan SpecIsa SpecExpr SpecAsm SpecExpand SpecBlame.
From Verif Require Import SpanAsmProofs ExpandProofs2 CrashProofs BlameProofs2 PropsAsm PropsExpand PropsPlaces.
Import ListNotations.
Open Scope string_scope.
Open Scope list_scope.
Open Scope Z_scope.

(** ** C63 *)

(** An error of assembly names a name that is defined twice, with the two definitions, or an alignment that is not a
    number, or the first variable without a value, with the part of its definition that has none, or the first statement
    that cannot be emitted, with the first item or operand that cannot. *)
Theorem C63_blamed : forall pr l e at_, Forall typed (plainly l) -> layout_small (plainly l) ->
  assemble_s pr l = PErr e at_ -> faulty pr l e at_.
Proof. exact assemble_blamed. Qed.
Print Assumptions C63_blamed.

(** The same for a run on files: whatever is read and expanded. *)
Theorem C63_run : forall uuid pr fuel w pics s name st files ex n e at_ files2, proper_uuid uuid ->
  read_statements_s pr fuel w pics s name = (POk st, files) ->
  expand_list_s uuid fuel (ss_macros st) 0 (ss_list st) = POk (ex, n) -> layout_small (plainly ex) ->
  assemble_file_s uuid pr fuel w pics s name = (PErr e at_, files2) -> faulty pr ex e at_.
Proof.
  intros uuid pr fuel w pics s name st files ex n e at_ files2 U R X L A. apply assemble_blamed; [|exact L|].
  - assert (RS := read_same pr fuel w pics s name). rewrite R in RS. unfold only in RS. cbn [fst unplaced] in RS. symmetry in RS.
    assert (XS := expand_list_same uuid fuel (ss_macros st) (ss_list st) 0). rewrite X in XS. cbn [unplaced fst snd] in XS. symmetry in XS.
    assert (EX : expand_macros uuid fuel (erase_statements st) = Ok (mkStatements (erase_macros (ss_macros st)) (plainly ex))).
    { unfold expand_macros, erase_statements. cbn [st_macros st_list]. rewrite XS. reflexivity. }
    assert (G := expanded_good uuid pr fuel w pics s name _ _ U RS EX). cbn [st_list] in G.
    eapply Forall_impl; [|exact G]. intros a (H & _). now apply good_typed.
  - unfold assemble_file_s in A. rewrite R in A. cbn [tbind] in A. rewrite X in A. cbn [tbind fst] in A. now injection A.
Qed.
Print Assumptions C63_run.

(** Only a program that cannot be assembled is blamed. *)
Theorem C63_deserved : forall pr l e at_, faulty pr l e at_ -> ~ well_formed pr (plainly l).
Proof. exact faulty_broken. Qed.
Print Assumptions C63_deserved.

(** A program that cannot be assembled is blamed, unless it crashes the assembler. *)
Theorem C63_reported : forall pr l, Forall typed (plainly l) -> Forall plain (plainly l) -> Forall lower_label (plainly l) ->
  layout_small (plainly l) -> (pr = Debug -> forward_cnops (plainly l)) -> exprs_fit pr (plainly l) -> ~ well_formed pr (plainly l) ->
  exists e at_, assemble_s pr l = PErr e at_ /\ faulty pr l e at_.
Proof.
  intros pr l T P LL LS FC EF N. assert (C := C12_succeeds_iff pr (plainly l) T P LL LS FC EF). assert (D := C12_no_crash pr (plainly l) T P LL LS FC EF).
  assert (S0 := assemble_same pr l). fold (plainly l) in S0. destruct (assemble_s pr l) as [out|e at_| |] eqn:A; cbn [unplaced] in S0.
  - destruct N. apply C. now exists out.
  - exists e, at_. split; [reflexivity|]. now apply assemble_blamed.
  - destruct D as [(o & D)|(er & D)]; congruence.
  - destruct D as [(o & D)|(er & D)]; congruence.
Qed.
Print Assumptions C63_reported.

(** A place of one character in the first line. *)
Definition col (n : nat) : pspan := mkP (mkSpan (mkLoc 0 n 1 n) (mkLoc 0 (n + 1) 1 (n + 1))) [].
Definition num (n : nat) (v : Z) : sexpr := XNumber_ (col n) v Decimal.

(** One program for each kind of fault, most of them with a further fault that is found later. *)
Definition faults : list (list sstatement * (error * list pspan)) :=
  [([SSLabel (col 1) "a"; SSDirective (SDByte (col 2) [SBExpr (num 3 400)]); SSLabel (col 4) "A"], (NameAlreadyExists "a", [col 4; col 1]));
   ([SSVariable (col 1) "x" (num 2 5); SSLabel (col 3) "x"], (NameAlreadyExists "x", [col 1; col 3]));
   ([SSAlias (col 1) "x" (num 2 5); SSVariable (col 3) "X" (num 4 5)], (NameAlreadyExists "x", [col 3; col 1]));
   ([SSLabel (col 1) ".l"; SSLabel (col 2) "a"; SSLabel (col 3) ".l"; SSLabel (col 4) ".L"], (NameAlreadyExists ".l", [col 4; col 3]));
   ([SSDirective (SDCnop (col 1) (num 2 0) (XName_ (col 3) "n"))], (MustBeLiteralNumber, [col 3]));
   ([SSVariable (col 1) "x" (XBin BPlus (col 3) (num 2 5) (XName_ (col 4) "Y")); SSVariable (col 5) "y" (num 6 1)], (NameNotFound "Name" "Y", [col 4]));
   ([SSDirective (SDWord (col 1) [num 2 9; num 3 65536; num 4 (-40000)]); SSDirective (SDOrg (col 5) 70000)], (WordOutOfRange 65536, [col 3]));
   ([SSDirective (SDText (col 1) 2 [1; 2; 3])], (NumberOfBytesIsLongerThanLength 2 3, [col 1]));
   ([SSLabel (col 1) "a"; SSInstr (col 2) (Be_i8 (num 3 7) (XName_ (col 4) "b")); SSInstr (col 5) (Be_i8 (num 6 256) (num 7 999)); SSLabel (col 8) "b"],
    (NumOutOfRange 8 256, [col 6]))].

Example C63_case : Forall (fun x => Forall typed (plainly (fst x)) /\ layout_small (plainly (fst x)) /\
  assemble_s Debug (fst x) = PErr (fst (snd x)) (snd (snd x)) /\ faulty Debug (fst x) (fst (snd x)) (snd (snd x))) faults.
Proof.
  assert (H : forall x, Forall typed (plainly (fst x)) -> layout_small (plainly (fst x)) -> assemble_s Debug (fst x) = PErr (fst (snd x)) (snd (snd x)) ->
    Forall typed (plainly (fst x)) /\ layout_small (plainly (fst x)) /\
    assemble_s Debug (fst x) = PErr (fst (snd x)) (snd (snd x)) /\ faulty Debug (fst x) (fst (snd x)) (snd (snd x))).
  { intros x T L A. split; [exact T|]. split; [exact L|]. split; [exact A|]. now apply C63_blamed. }
  repeat (constructor; [apply H; [repeat constructor; cbn; lia || discriminate|
    intros k; do 5 (destruct k as [|k]; [vm_compute; split; intro; discriminate|]); rewrite firstn_all2 by (cbn; lia); vm_compute; split; intro; discriminate|
    vm_compute; reflexivity]|]). constructor.
Qed.

(** A macro called with a number that is too large: the error points at the sum in the second call. *)
Definition macro_files : list (string * string) :=
  [("/s/m.s", ("%macro put %a" ++ NL1 ++ " push %a" ++ NL1 ++ "%end" ++ NL1 ++ " put 7" ++ NL1 ++ " put 999+1" ++ NL1)%string)].

Definition one_id (n : nat) : string := "f0".

Example C63_run_case : proper_uuid one_id /\ exists st files ex n files2,
  read_statements_s Debug 50 (disk_of macro_files) (fun _ => Err ImageParseError) (new_files "/s") "/s/m.s" = (POk st, files) /\
  expand_list_s one_id 50 (ss_macros st) 0 (ss_list st) = POk (ex, n) /\ layout_small (plainly ex) /\
  assemble_file_s one_id Debug 50 (disk_of macro_files) (fun _ => Err ImageParseError) (new_files "/s") "/s/m.s" =
    (PErr (NumOutOfRange 9 1000) [mkP (mkSpan (mkLoc 0 40 5 5) (mkLoc 0 45 5 10)) []], files2).
Proof.
  split; [intros n; cbn; tauto|]. do 5 eexists. split; [vm_compute; reflexivity|]. split; [vm_compute; reflexivity|]. split.
  - intros k. do 5 (destruct k as [|k]; [vm_compute; split; intro; discriminate|]). vm_compute. split; intro; discriminate.
  - vm_compute. reflexivity.
Qed.

(** The two places of a name defined twice need not differ: a label that a macro defines is shown where the macro is
    written, without the calls. *)
Theorem C63_two_places_refuted : exists uuid pr fuel w pics s name x p files,
  assemble_file_s uuid pr fuel w pics s name = (PErr (NameAlreadyExists x) [p; p], files) /\ parents p = [].
Proof.
  exists one_id, Debug, 50%nat, (disk_of [("/s/m.s", ("%macro put %a" ++ NL1 ++ "back:" ++ NL1 ++ " push %a" ++ NL1 ++ "%end" ++ NL1 ++ " put 7" ++ NL1 ++ " put 9" ++ NL1)%string)]),
    (fun _ => Err ImageParseError), (new_files "/s"), "/s/m.s", "back", (mkP (mkSpan (mkLoc 0 14 2 0) (mkLoc 0 19 2 5)) []).
  eexists. split; [vm_compute; reflexivity|reflexivity].
Qed.
Print Assumptions C63_two_places_refuted.
