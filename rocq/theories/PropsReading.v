(** Errors of reading: C67. *)
From Coq Require Import ZArith List String Ascii Bool Arith Lia.
From Verif Require Import Base Expr Instr Ast Macro Lexer Parser CHeader Asm Files Img Include Span SpanParser SpanAsm SpanInclude.
From Verif Require Import SpecLex SpecParse SpecSpan SpecIsa SpecMacro SpecLine LineProofs3.
From Verif Require Import SpecFiles SpecSyntax SpecHeader SpecInclude SpecAsm SpecImg SpecCmd SpecExpand SpecData.
From Verif Require Import ImgProofs2 IncludeProofs IncludeProofs3 ExpandProofs2 SpecReading ReadingProofs ReadingProofs2 ReadingProofs3 ReadingProofs4.
From Verif Require PropsPlaces PropsData.
Import ListNotations.
Open Scope string_scope.
Open Scope list_scope.
Local Open Scope nat_scope.

(** ** C67 *)

(** A text that is not made of tokens. *)
Theorem C67_text : forall f text e at_, lex_input_s (new_input f text) = PErr e at_ -> wrong_text f text e at_.
Proof. exact text_wrong. Qed.
Print Assumptions C67_text.

(** A C header with a wrong definition. *)
Theorem C67_header : forall f text e at_, header_lex_s (new_input f text) = PErr e at_ -> wrong_c_header f text e at_.
Proof. exact header_wrong. Qed.
Print Assumptions C67_header.

(** An include that fails, in the file [name] or in one that it includes. *)
Theorem C67_include : forall w s fuel name toks e at_ T, state w s -> replace_includes_s fuel w name s toks = (PErr e at_, T) ->
  exists ls, grouped toks ls /\ wrong_lines w T name ls e at_.
Proof.
  intros w s fuel name toks e at_ T S H. destruct (state_kept _ _ S) as [W D]. exists (lines toks). split; [now apply lines_iff|].
  now apply (includes_wrong w fuel name s).
Qed.
Print Assumptions C67_include.

(** Included data that is wrong. *)
Theorem C67_data : exists black, shading black /\
  forall pr w pics root s l e at_, picture_files pics -> Forall good_statement (map erase_statement l) ->
  byte_includes_s pr w pics root s l = PErr e at_ -> wrong_statements black pr w pics root l e at_.
Proof. exists is_black. split; [exact is_black_shading|]. exact data_wrong. Qed.
Print Assumptions C67_data.

(** A program that cannot be read. *)
Theorem C67_run : exists black, shading black /\
  forall pr fuel w pics wd name e at_ T, is_absolute wd = true -> picture_files pics ->
  read_statements_s pr fuel w pics (new_files wd) name = (PErr e at_, T) -> unreadable black pr w pics (join wd name) T e at_.
Proof. exists is_black. split; [exact is_black_shading|]. exact reading_wrong. Qed.
Print Assumptions C67_run.

(** * Cases *)

Local Definition NL := PropsPlaces.NL1.
Local Definition Q := PropsData.quoted.
Local Definition disk := PropsPlaces.disk_of.

Example C67_text_case : lex_input_s (new_input 3 ("nop" ++ NL ++ "  add ~")) =
  PErr (UnexpectedChar 9) [mkP (mkSpan (mkLoc 3 9 2 5) (mkLoc 3 9 2 5)) []].
Proof. vm_compute. reflexivity. Qed.

Example C67_header_case : header_lex_s (new_input 3 ("#define A 1" ++ NL ++ "#define 12 B" ++ NL ++ "int c")) =
  PErr (ExpectedTokenNotFound "Name") [mkP (mkSpan (mkLoc 3 20 2 8) (mkLoc 3 22 2 10)) []].
Proof. vm_compute. reflexivity. Qed.

Local Definition run (files : list (string * string)) (pics : pictures) : traced sstatements :=
  read_statements_s Debug 9 (disk files) pics (new_files "/s") "/s/m.s".
Local Definition plain_pics : pictures := fun _ => Err ImageParseError.

(** A missing file, a wrong text and a rest of a line, all in a file that is included. *)
Example C67_include_case :
  let main := ("nop" ++ NL ++ ".include " ++ Q "l.s" ++ NL)%string in
  let files l := [("/s/m.s", main); ("/s/l.s", l); ("/s/k.s", "nop")] in
  let T1 l := mkFiles "/s" [mkFile 0 "/s/m.s" main; mkFile 1 "/s/l.s" l] in
  let T2 l := mkFiles "/s" [mkFile 0 "/s/m.s" main; mkFile 1 "/s/l.s" l; mkFile 2 "/s/k.s" "nop"] in
  let l1 := ("ret" ++ NL ++ ".include " ++ Q "x.s")%string in
  let l2 := "ret ~" in
  let l3 := ("ret" ++ NL ++ ".include " ++ Q "k.s" ++ " nop")%string in
  (exists st, state (disk (files l1)) st /\
    replace_includes_s 9 (disk (files l1)) "/s/m.s" st
      (match lex_input (new_input 0 main) with Ok toks => toks | _ => [] end) = (PErr (FileLoadFailure "/s/x.s") [], T1 l1)) /\
  run (files l1) plain_pics = (PErr (FileLoadFailure "/s/x.s") [], T1 l1) /\
  run (files l2) plain_pics = (PErr (UnexpectedChar 3) [mkP (mkSpan (mkLoc 1 3 1 3) (mkLoc 1 3 1 3)) []], T1 l2) /\
  run (files l3) plain_pics = (PErr UnexpectedToken [mkP (mkSpan (mkLoc 1 19 2 15) (mkLoc 1 22 2 18)) []], T2 l3).
Proof.
  split; [|split; [vm_compute; reflexivity|split; vm_compute; reflexivity]].
  eexists. split; [apply (state_load _ "/s" "/s/m.s" (mkFile 0 "/s/m.s" ("nop" ++ NL ++ ".include " ++ Q "l.s" ++ NL)%string)); vm_compute; reflexivity|].
  vm_compute. reflexivity.
Qed.

(** A sprite that is too tall for its header: the place is that of the file name. *)
Local Definition tall : decoded := mkDecoded 1 256 (fun _ _ => mkColor 0 0 0 255).
Local Definition tall_pics : pictures := fun p => if String.eqb p "/s/t.png" then Ok [tall] else Err ImageParseError.

Lemma tall_files : picture_files tall_pics.
Proof.
  intros q ds. unfold tall_pics. destruct (String.eqb q "/s/t.png"); [|discriminate]. intros H. injection H as <-. split; [|split].
  - intros d x y [<-|[]]. cbn. unfold byte_color, byte; cbn; lia.
  - cbn. lia.
  - exists 1, 256. split; [lia|]. intros d [<-|[]]. split; reflexivity.
Qed.

Example C67_data_case :
  let files := [("/s/m.s", ("nop" ++ NL ++ ".include sprite " ++ Q "t.png" ++ " header=" ++ Q "yes")%string)] in
  let sp := mkP (mkSpan (mkLoc 0 20 2 16) (mkLoc 0 27 2 23)) [] in
  is_absolute "/s" = true /\ picture_files tall_pics /\
  byte_includes_s Debug (disk files) tall_pics "/s/m.s" (new_files "/s") [SSInstr sp Nop; SSDirective (SDInclude sp (SISprite Simple HeaderYes) "/s/t.png")] =
    PErr (SpriteTooTall 256) [sp] /\
  run files tall_pics = (PErr (SpriteTooTall 256) [sp], snd (run files tall_pics)).
Proof. split; [reflexivity|]. split; [exact tall_files|]. split; vm_compute; reflexivity. Qed.

(** Each kind of error of a whole program: a main file that is missing, and one that is no UTF-8 text; its text; its syntax; a missing file of data. *)
Example C67_run_case :
  run [] plain_pics = (PErr (FileLoadFailure "/s/m.s") [], new_files "/s") /\
  run [("/s/m.s", String "255" "")] plain_pics = (PErr (FileUtf8Error "/s/m.s") [], new_files "/s") /\
  fst (run [("/s/m.s", "nop ~")] plain_pics) = PErr (UnexpectedChar 3) [mkP (mkSpan (mkLoc 0 3 1 3) (mkLoc 0 3 1 3)) []] /\
  fst (run [("/s/m.s", "a = = 1")] plain_pics) = PErr InvalidExpression [mkP (mkSpan (mkLoc 0 4 1 4) (mkLoc 0 4 1 4)) []] /\
  fst (run [("/s/m.s", (".include bytes " ++ Q "b")%string)] plain_pics) = PErr (FileLoadFailure "/s/b") [].
Proof. repeat split; vm_compute; reflexivity. Qed.
