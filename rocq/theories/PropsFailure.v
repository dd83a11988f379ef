(** Why an assembly fails: C69. *)
From Coq Require Import ZArith List String Ascii Bool Arith Lia.
From Verif Require Import Base Expr Instr Ast Macro Lexer Parser Asm Files Img Include Span SpanParser SpanAsm SpanInclude.
From Verif Require Import SpecSpan SpecIsa SpecMacro SpecFiles SpecHeader SpecInclude SpecAsm SpecImg SpecCmd SpecExpand SpecBlame SpecData SpecReading SpecCalls.
From Verif Require CallProofs3 PropsPlaces PropsData PropsBlame PropsReading PropsCalls.
Import ListNotations.
Open Scope string_scope.
Open Scope list_scope.
Local Open Scope nat_scope.

(** ** C69 *)

(** Every error of an assembly, with its places and the files read by then: the program cannot be read, or it is read and the first wrong
    call is shown, or all calls are expanded and the expanded program is at fault. *)
Theorem C69_explained : exists black, shading black /\
  forall uuid pr fuel w pics wd name e at_ T, is_absolute wd = true -> picture_files pics -> proper_uuid uuid ->
  assemble_file_s uuid pr fuel w pics (new_files wd) name = (PErr e at_, T) ->
  unreadable black pr w pics (join wd name) T e at_ \/
  exists st, read_statements_s pr fuel w pics (new_files wd) name = (POk st, T) /\
    (wrong_list uuid (ss_macros st) 0 (ss_list st) e at_ \/
     exists ex n, list_at uuid (ss_macros st) 0 (ss_list st) ex n /\ (layout_small (plainly ex) -> faulty pr ex e at_)).
Proof.
  destruct PropsReading.C67_run as (black & SH & RW). exists black. split; [exact SH|].
  intros uuid pr fuel w pics wd name e at_ T AB PF PU H. assert (H0 := H). unfold assemble_file_s in H.
  destruct (read_statements_s pr fuel w pics (new_files wd) name) as [r T1] eqn:R. destruct r as [st|e1 a1| |]; cbn [tbind] in H; try discriminate H.
  - right. exists st.
    destruct (expand_list_s uuid fuel (ss_macros st) 0 (ss_list st)) as [[ex n]|e2 a2| |] eqn:X; cbn [tbind] in H; try discriminate H.
    + cbn [fst] in H. injection H as H <-. split; [reflexivity|]. right. exists ex, n. split; [exact (PropsCalls.C68_expands _ _ _ _ _ _ _ X)|].
      intros L. exact (PropsBlame.C63_run uuid pr fuel w pics (new_files wd) name st T1 ex n e at_ T1 PU R X L H0).
    + injection H as -> -> <-. split; [reflexivity|]. left. exact (PropsCalls.C68_wrong _ _ _ _ _ _ _ X).
  - left. injection H as -> -> <-. exact (RW pr fuel w pics wd name e at_ T1 AB PF R).
Qed.
Print Assumptions C69_explained.

(** An error of a call says nothing about the rest of the program, but neither of the other reasons is given for it. *)
Theorem C69_calls_first : forall uuid pr fuel w pics s name st T e at_,
  read_statements_s pr fuel w pics s name = (POk st, T) -> wrong_list uuid (ss_macros st) 0 (ss_list st) e at_ ->
  assemble_file_s uuid pr fuel w pics s name = (PErr e at_, T) \/ assemble_file_s uuid pr fuel w pics s name = (PDiverge, T).
Proof.
  intros uuid pr fuel w pics s name st T e at_ R W. unfold assemble_file_s. rewrite R. cbn [tbind].
  destruct (expand_list_s uuid fuel (ss_macros st) 0 (ss_list st)) as [[ex n]|e2 a2| |] eqn:X; cbn [tbind].
  - apply PropsCalls.C68_expands in X. now destruct (proj2 (proj2 (PropsCalls.C68_one_answer uuid (ss_macros st) 0 (ss_list st))) ex n e at_ X).
  - apply PropsCalls.C68_wrong in X. destruct (proj1 (proj2 (PropsCalls.C68_one_answer uuid (ss_macros st) 0 (ss_list st))) _ _ _ _ X W) as [-> ->]. now left.
  - now apply CallProofs3.list_calm in X.
  - now right.
Qed.
Print Assumptions C69_calls_first.

(** * Cases *)

Local Definition NL := PropsPlaces.NL1.
Local Definition Q := PropsData.quoted.
Local Definition disk := PropsPlaces.disk_of.
Local Definition nothing : pictures := fun _ => Err ImageParseError.
Local Definition sp (a b l c d : nat) : span := mkSpan (mkLoc 0 a l c) (mkLoc 0 b l d).

Lemma no_pictures : picture_files nothing.
Proof. intros q ds H. discriminate H. Qed.

Local Definition run (text : string) := assemble_file_s PropsBlame.one_id Debug 9 (disk [("/s/m.s", text)]) nothing (new_files "/s") "/s/m.s".

(** One program for each of the three reasons; the first two have faults of the later kinds as well. *)
Example C69_case :
  is_absolute "/s" = true /\ picture_files nothing /\ proper_uuid PropsBlame.one_id /\
  (let macro := ("%macro m %x" ++ NL ++ "ld %x" ++ NL ++ "%end" ++ NL)%string in
   fst (run (macro ++ ".byte 300" ++ NL ++ "m #1" ++ NL ++ "= 5")) = PErr UnexpectedToken [mkP (sp 38 39 6 0 1) []] /\
   fst (run (macro ++ ".byte 300" ++ NL ++ "m #1" ++ NL)) = PErr (WrongInstructionArgs "ld") [mkP (sp 12 17 2 0 5) [sp 33 37 5 0 4]] /\
   fst (run (macro ++ ".byte 300" ++ NL ++ "m 1" ++ NL)) = PErr (ByteOutOfRange 300) [mkP (sp 29 32 4 6 9) []]).
Proof. split; [reflexivity|]. split; [exact no_pictures|]. split; [intros n; cbn; tauto|]. repeat split; vm_compute; reflexivity. Qed.
