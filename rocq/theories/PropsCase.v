(** Property C20: letter case, for whole programs. *)
From Coq Require Import ZArith List String Ascii Bool Arith Lia.
From Verif Require Import Base Expr Instr Ast Lexer Parser Files CHeader Img Include SpecLex LexProofs LexProofs6 PropsLex.
From Verif Require Import SpecParse SpecLine SpecFiles SpecInclude SpecCase LineProofs3 FilesProofs IncludeProofs CaseProofs.
Import ListNotations.
Open Scope string_scope.
Open Scope list_scope.

(** If the files of two programs differ in the case of letters only, outside string literals, and files
    included as bytes or C headers are alike, then assembling them has the same outcome: the same image,
    the same error, or the same failure; and so has expanding them. *)
Theorem C20_program : forall uuid pr fuel w v pics wd name,
  recased w v -> headers_alike w v -> bytes_alike w v fuel wd name ->
  assemble_file uuid pr fuel w pics (new_files wd) name = assemble_file uuid pr fuel v pics (new_files wd) name /\
  expand_file uuid pr fuel w pics (new_files wd) name = expand_file uuid pr fuel v pics (new_files wd) name.
Proof.
  intros uuid pr fuel w v pics wd name R H B. unfold assemble_file, expand_file.
  rewrite (read_alike pr fuel w v pics wd name R H B). split; reflexivity.
Qed.
Print Assumptions C20_program.

(** * A case *)

Local Definition NL : string := String LF "".
Local Definition str (s : string) : string := quoted (written (map Plain (list_ascii_of_string s))).

Local Definition main1 : string := ("Foo: MOV #Size+$aB, ACC ; Hi" ++ NL ++ ".Include " ++ str "Lib.s" ++ NL ++ " .INCLUDE bytes " ++ str "Data" ++ NL)%string.
Local Definition main2 : string := ("foO: mov #SIZE+$Ab, acc ; hI" ++ NL ++ ".includE " ++ str "Lib.s" ++ NL ++ " .include BYTES " ++ str "Data" ++ NL)%string.
Local Definition lib1 : string := ("size = 3" ++ NL ++ "aCC = $100")%string.
Local Definition lib2 : string := ("SIZE = 3" ++ NL ++ "AcC = $100")%string.

Local Definition disk (main lib : string) : fs :=
  mkFs (fun p => existsb (path_eqb p) ["/src/main.s"; "/src/Lib.s"; "/src/Data"]) (fun p => path_eqb p "/src")
    (fun p => if path_eqb p "/src/main.s" then Some main else if path_eqb p "/src/Lib.s" then Some lib
              else if path_eqb p "/src/Data" then Some "Ab" else None).

Local Ltac letters := repeat (first
  [ apply rc_nil
  | apply rc_char; [letter|discriminate|discriminate|intros [? ?]; discriminate|cbn]]).

Lemma main_recased : recase true main1 main2.
Proof.
  unfold main1, main2. cbn. letters.
  apply (rc_comment false ";" " Hi" " hI"); [auto|repeat split; letter|apply rest_of_line_len; reflexivity|].
  cbn. letters.
  apply (rc_string false (map Plain (list_ascii_of_string "Lib.s"))); [repeat constructor; discriminate|]. letters.
  apply (rc_string false (map Plain (list_ascii_of_string "Data"))); [repeat constructor; discriminate|]. letters.
Qed.

Lemma lib_recased : recase true lib1 lib2.
Proof. unfold lib1, lib2. cbn. letters. Qed.

Local Definition no_cpp (toks : list token) : bool :=
  forallb (fun t => match t_type t with TName n => negb (String.eqb n "cpp") | _ => true end) toks.

Lemma no_cpp_ok toks line q : no_cpp toks = true -> In line (lines toks) -> ~ header_include (map t_type line) q.
Proof.
  intros H I C. unfold no_cpp in H. rewrite forallb_forall in H. inversion C as [p rest E].
  assert (X: In (TName "cpp") (map t_type line)) by (rewrite <- E; right; now left).
  apply in_map_iff in X as (t & ET & IT). specialize (H t). rewrite ET in H. 
  assert (IN: In t toks) by (rewrite (grouped_concat _ _ (lines_grouped toks)); apply in_concat; eauto).
  specialize (H IN). discriminate.
Qed.

Example C20_program_case :
  recased (disk main1 lib1) (disk main2 lib2) /\ headers_alike (disk main1 lib1) (disk main2 lib2) /\
  bytes_alike (disk main1 lib1) (disk main2 lib2) 5 "/src" "main.s" /\
  assemble_file (fun _ => "") Debug 5 (disk main1 lib1) (fun _ => Err InvalidPath) (new_files "/src") "main.s" =
  Ok [35; 0; 174; 65; 98]%Z.
Proof.
  split; [|split; [|split]].
  - split; [reflexivity|reflexivity|]. intros p. cbn [disk read_bytes].
    destruct (path_eqb p "/src/main.s"); [right; apply main_recased|]. destruct (path_eqb p "/src/Lib.s"); [right; apply lib_recased|].
    destruct (path_eqb p "/src/Data"); [now left|exact I].
  - left. intros p a i toks line q RB LX. cbn [disk read_bytes] in RB. apply no_cpp_ok.
    destruct (path_eqb p "/src/main.s"); [injection RB as <-; vm_compute in LX; injection LX as <-; vm_compute; reflexivity|].
    destruct (path_eqb p "/src/Lib.s"); [injection RB as <-; vm_compute in LX; injection LX as <-; vm_compute; reflexivity|].
    destruct (path_eqb p "/src/Data"); [injection RB as <-; vm_compute in LX; injection LX as <-; vm_compute; reflexivity|discriminate].
  - intros f s toks out T stmts p q L LX RI P I F. vm_compute in L. injection L as <- <-. vm_compute in LX. injection LX as <-.
    vm_compute in RI. injection RI as <- <-. vm_compute in P. injection P as <-. cbn in I.
    repeat (destruct I as [I|I]; [try discriminate I; injection I as <-; apply (path_some_iff _ (new_files "")) in F; vm_compute in F; injection F as <-; vm_compute; reflexivity|]). destruct I.
  - vm_compute. reflexivity.
Qed.
