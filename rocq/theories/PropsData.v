(** Included data files: C64. *)
From Coq Require Import ZArith List String Ascii Bool Arith Lia.
From Verif Require Import Base Expr Instr Ast Lexer Parser Macro Asm Files CHeader Img Include.
From Verif Require Import SpecLine SpecFiles SpecInclude SpecAsm SpecImg SpecCmd SpecExpand SpecData.
From Verif Require Import ImgProofs ImgProofs2 IncludeProofs ExpandProofs ExpandProofs2 PrintProofs5 CrashProofs DataProofs PropsExpand PropsPlaces.
Import ListNotations.
Open Scope string_scope.
Open Scope list_scope.
Open Scope Z_scope.

(** ** C64 *)

(** The program in a file, with the source files it includes, before data is included. *)
Definition program_text (fuel : nat) (w : fs) (s : source_files) (name root : string) (s2 : source_files) (stmts : statements) : Prop :=
  path_of w s None name = Ok root /\
  exists f s1 raw toks, load w s None root = Ok (f, s1) /\ lex_input (new_input (sf_id f) (sf_contents f)) = Ok raw /\
    replace_includes fuel w root s1 raw = Ok (toks, s2) /\ parse toks = Ok stmts.

Lemma text_read pr fuel w pics s name root s2 stmts : program_text fuel w s name root s2 stmts ->
  read_statements pr fuel w pics s name = replace_byte_includes pr w pics root s2 stmts /\ good_statements stmts.
Proof.
  intros (P & f & s1 & raw & toks & L & LX & R & PA). split.
  - unfold read_statements. rewrite P. cbn [bind]. rewrite L. cbn [bind]. rewrite LX. cbn [bind]. rewrite R. cbn [bind]. now rewrite PA.
  - apply (parse_good _ _ PA). eapply includes_lexed; [|exact R]. eapply lex_lexed; eauto.
Qed.

(** In a program that assembles, what an include directive stands for lies in the image from the address of the directive on,
    and takes up as much room, except where something later is written over it. *)
Theorem C64_placed : exists black, shading black /\
  forall uuid pr fuel w pics s name root s2 stmts before t p after st ex image, proper_uuid uuid -> picture_files pics ->
  program_text fuel w s name root s2 stmts -> st_list stmts = before ++ SDirective (DInclude t p) :: after ->
  read_statements pr fuel w pics s name = Ok st -> expand_macros uuid fuel st = Ok ex -> (pr = Release -> cnop_small (st_list ex)) ->
  assemble_file uuid pr fuel w pics s name = Ok image ->
  exists bs l B n part A, contents black pr w pics root t p bs /\
    byte_includes pr w pics root s2 before = Ok l /\ expand_list uuid fuel (st_macros stmts) 0 l = Ok (B, n) /\
    st_list ex = B ++ part ++ A /\ addr (B ++ part) = addr B + Z.of_nat (List.length bs) /\
    forall i b, get_at bs i = Some b -> kept_from (st_list ex) (List.length (B ++ part)) (addr B + i) -> get_at image (addr B + i) = Some b.
Proof.
  exists is_black. split; [exact is_black_shading|].
  intros uuid pr fuel w pics s name root s2 stmts before t p after st ex image U PF PT E R X C A.
  destruct (text_read pr fuel w pics s name root s2 stmts PT) as [RE G]. assert (R0 := R). rewrite RE in R.
  unfold assemble_file in A. rewrite R0 in A. cbn [bind] in A. rewrite X in A. cbn [bind] in A.
  apply (include_placed uuid pr fuel w pics root s2 stmts st ex image before t p after); auto; [apply G|].
  eapply Forall_impl; [|exact (expanded_good _ _ _ _ _ _ _ _ _ U R0 X)]. intros x (H & _). now apply good_typed.
Qed.
Print Assumptions C64_placed.

(** In particular the bytes of an included file are copied. *)
Theorem C64_bytes : forall uuid pr fuel w pics s name root s2 stmts before p after st ex image, proper_uuid uuid -> picture_files pics ->
  program_text fuel w s name root s2 stmts -> st_list stmts = before ++ SDirective (DInclude IncBytes p) :: after ->
  read_statements pr fuel w pics s name = Ok st -> expand_macros uuid fuel st = Ok ex -> (pr = Release -> cnop_small (st_list ex)) ->
  assemble_file uuid pr fuel w pics s name = Ok image ->
  exists q c l B n part A, found w root p q /\ read_bytes w q = Some c /\
    byte_includes pr w pics root s2 before = Ok l /\ expand_list uuid fuel (st_macros stmts) 0 l = Ok (B, n) /\
    st_list ex = B ++ part ++ A /\ addr (B ++ part) = addr B + Z.of_nat (String.length c) /\
    forall i ch, String.get i c = Some ch -> kept_from (st_list ex) (List.length (B ++ part)) (addr B + Z.of_nat i) ->
      get_at image (addr B + Z.of_nat i) = Some (Z.of_nat (nat_of_ascii ch)).
Proof.
  intros uuid pr fuel w pics s name root s2 stmts before p after st ex image U PF PT E R X C A.
  destruct (text_read pr fuel w pics s name root s2 stmts PT) as [RE G]. assert (R0 := R). rewrite RE in R.
  unfold assemble_file in A. rewrite R0 in A. cbn [bind] in A. rewrite X in A. cbn [bind] in A.
  assert (T : Forall typed (st_list ex)).
  { eapply Forall_impl; [|exact (expanded_good _ _ _ _ _ _ _ _ _ U R0 X)]. intros x (H & _). now apply good_typed. }
  destruct (include_placed uuid pr fuel w pics root s2 stmts st ex image before IncBytes p after (proj1 G) T C PF R X A E)
    as (bs & l & B & n & part & A2 & CN & BI & EL & EX & AD & K).
  inversion CN as [p' q c F RB| |]; subst. exists q, c, l, B, n, part, A2. split; [exact F|]. split; [exact RB|]. split; [exact BI|]. split; [exact EL|].
  split; [exact EX|]. split; [rewrite AD; unfold codes; now rewrite map_length, length_list|].
  intros i ch GI KF. apply K; [|exact KF]. now apply get_codes.
Qed.
Print Assumptions C64_bytes.

(** Nothing else changes: the other statements stay, in the same order, between the data. *)
Theorem C64_kept : forall pr w pics root s stmts st, replace_byte_includes pr w pics root s stmts = Ok st ->
  st_macros st = st_macros stmts /\ exists parts, st_list st = List.concat parts /\
    Forall2 (fun x part => (forall t p, x <> SDirective (DInclude t p)) -> part = [x]) (st_list stmts) parts.
Proof.
  intros pr w pics root s stmts st H. unfold replace_byte_includes in H.
  destruct (byte_includes pr w pics root s (st_list stmts)) as [l| | |] eqn:B; try discriminate. cbn [bind] in H. injection H as <-.
  cbn [st_macros st_list]. split; [reflexivity|]. revert l B. induction (st_list stmts) as [|x r IH]; intros l B; cbn [byte_includes] in B.
  - injection B as <-. exists []. split; [reflexivity|constructor].
  - destruct (byte_include pr w pics root s x) as [a| | |] eqn:BA; try discriminate. cbn [bind] in B.
    destruct (byte_includes pr w pics root s r) as [b| | |] eqn:BB; try discriminate. cbn [bind] in B. injection B as <-.
    destruct (IH b eq_refl) as (parts & -> & F). exists (a :: parts). split; [reflexivity|]. constructor; [|exact F].
    intros N. destruct x as [d| | | | | |]; try (now injection BA). destruct d as [| | | | |t p|]; try (now injection BA). now destruct (N t p).
Qed.
Print Assumptions C64_kept.

(** A file that cannot be read is reported, unless something before it already is. *)
Theorem C64_missing : forall uuid pr fuel w pics s name root s2 stmts before p after l q,
  program_text fuel w s name root s2 stmts -> st_list stmts = before ++ SDirective (DInclude IncBytes p) :: after ->
  byte_includes pr w pics root s2 before = Ok l -> found w root p q -> read_bytes w q = None ->
  assemble_file uuid pr fuel w pics s name = Err (FileLoadFailure q).
Proof.
  intros uuid pr fuel w pics s name root s2 stmts before p after l q PT E B F R.
  destruct (text_read pr fuel w pics s name root s2 stmts PT) as [RE _]. unfold assemble_file. rewrite RE. unfold replace_byte_includes. rewrite E.
  assert (K : forall a l0, byte_includes pr w pics root s2 a = Ok l0 ->
    byte_includes pr w pics root s2 (a ++ SDirective (DInclude IncBytes p) :: after) = Err (FileLoadFailure q)).
  { induction a as [|x a IH]; intros l0 H.
    - cbn [app byte_includes byte_include]. rewrite (proj2 (path_some_iff w s2 root p q) F). cbn [bind]. now rewrite R.
    - cbn [app byte_includes] in H |- *. destruct (byte_include pr w pics root s2 x) as [u| | |]; try discriminate. cbn [bind] in H |- *.
      destruct (byte_includes pr w pics root s2 a) as [v| | |]; try discriminate. now rewrite (IH v eq_refl). }
  now rewrite (K before l B).
Qed.
Print Assumptions C64_missing.

(** * Cases *)

(** Bytes that are no text, and a sprite of 9 by 2 pixels, around an instruction; the last statement overwrites the first byte. *)
Definition nine : decoded := mkDecoded 9 2 (fun x y => if Nat.even (x + y) then mkColor 0 0 0 255 else mkColor 255 255 255 255).
Definition nine_pictures : pictures := fun p => if String.eqb p "/s/a.png" then Ok [nine] else Err ImageParseError.
Definition quoted (s : string) : string := String "034" (s ++ String "034" "").
Definition data_files : list (string * string) :=
  [("/s/m.s", (".org 2" ++ NL1 ++ " .include bytes " ++ quoted "d.bin" ++ NL1 ++ " ret" ++ NL1 ++ " .include sprite " ++ quoted "a.png" ++ " header=" ++ quoted "yes" ++ NL1 ++ " .org 2" ++ NL1 ++ " .byte 7" ++ NL1)%string);
   ("/s/d.bin", String "000" (String "255" (String "128" "a")))].

Lemma nine_files : picture_files nine_pictures.
Proof.
  intros q ds. unfold nine_pictures. destruct (String.eqb q "/s/a.png"); [|discriminate]. intros H. injection H as <-. split; [|split].
  - intros d x y [<-|[]]. cbn. destruct (Nat.even (x + y)); unfold byte_color, byte; cbn; lia.
  - cbn. lia.
  - exists 9%nat, 2%nat. split; [lia|]. intros d [<-|[]]. split; reflexivity.
Qed.

Definition one_uuid (n : nat) : string := "f0".

Example C64_case : proper_uuid one_uuid /\ picture_files nine_pictures /\ exists s2 stmts st ex,
  program_text 50 (disk_of data_files) (new_files "/s") "/s/m.s" "/s/m.s" s2 stmts /\
  st_list stmts = [SDirective (DOrg 2); SDirective (DInclude IncBytes "/s/d.bin"); SInstr Ret;
    SDirective (DInclude (IncSprite Simple HeaderYes) "/s/a.png"); SDirective (DOrg 2); SDirective (DByte [BVExpr (ENumber 7 Decimal)])] /\
  read_statements Release 50 (disk_of data_files) nine_pictures (new_files "/s") "/s/m.s" = Ok st /\
  expand_macros one_uuid 50 st = Ok ex /\ cnop_small (st_list ex) /\
  assemble_file one_uuid Release 50 (disk_of data_files) nine_pictures (new_files "/s") "/s/m.s" =
    Ok [0; 0; 7; 255; 128; 97; 160; 9; 2; 170; 128; 85; 0].
Proof.
  split; [intros n; cbn; tauto|]. split; [exact nine_files|].
  eexists _, (mkStatements [] _), _, _. split.
  { split; [vm_compute; reflexivity|]. eexists _, _, _, _. split; [vm_compute; reflexivity|]. split; [vm_compute; reflexivity|].
    split; [vm_compute; reflexivity|]. vm_compute. reflexivity. }
  split; [reflexivity|]. split; [vm_compute; reflexivity|]. split; [vm_compute; reflexivity|]. split; [|vm_compute; reflexivity].
  intros k a m. do 14 (destruct k as [|k]; [discriminate|]). discriminate.
Qed.

(** The first file is there but the second is not. *)
Example C64_missing_case : let files := [("/s/m.s", (" .include bytes " ++ quoted "d.bin" ++ NL1 ++ " .include bytes " ++ quoted "e.bin")%string); ("/s/d.bin", "ab")] in
  exists s2 stmts before, program_text 50 (disk_of files) (new_files "/s") "/s/m.s" "/s/m.s" s2 stmts /\
  st_list stmts = before ++ [SDirective (DInclude IncBytes "/s/e.bin")] /\
  byte_includes Debug (disk_of files) nine_pictures "/s/m.s" s2 before = Ok [SDirective (DByte [BVExpr (ENumber 97 Hex); BVExpr (ENumber 98 Hex)])] /\
  found (disk_of files) "/s/m.s" "/s/e.bin" "/s/e.bin" /\ read_bytes (disk_of files) "/s/e.bin" = None.
Proof.
  eexists _, (mkStatements [] _), [SDirective (DInclude IncBytes "/s/d.bin")]. split.
  { split; [vm_compute; reflexivity|]. eexists _, _, _, _. split; [vm_compute; reflexivity|]. split; [vm_compute; reflexivity|].
    split; [vm_compute; reflexivity|]. vm_compute. reflexivity. }
  split; [reflexivity|]. split; [vm_compute; reflexivity|]. split; [now apply fd_absolute|vm_compute; reflexivity].
Qed.

(** Unlike the paths of includes, that of an eyecatch is not looked for beside the file that names it, but beside the main
    file: an icon that uses the eyecatch lib/e.png when its file is assembled by itself uses another one when it is included. *)
Definition icon_files : list (string * string) :=
  [("/s/m.s", (".include " ++ quoted "lib/l.s" ++ NL1)%string);
   ("/s/lib/l.s", (".include icon " ++ quoted "i.png" ++ " eyecatch=" ++ quoted "e.png" ++ NL1)%string);
   ("/s/lib/i.png", ""); ("/s/lib/e.png", "")].

Theorem C64_eyecatch_refuted : exists pics,
  assemble_file one_uuid Debug 50 (disk_of icon_files) pics (new_files "/s") "/s/lib/l.s" = Err (InvalidIconSize 72 56) /\
  pics "/s/lib/e.png" = Ok [mkDecoded 1 1 (fun _ _ => black)] /\
  assemble_file one_uuid Debug 50 (disk_of icon_files) pics (new_files "/s") "/s/m.s" = Err (FileLoadFailure "/s/e.png").
Proof.
  exists (fun p => if String.eqb p "/s/lib/i.png" then Ok [mkDecoded 32 32 (fun _ _ => black)]
    else if String.eqb p "/s/lib/e.png" then Ok [mkDecoded 1 1 (fun _ _ => black)] else Err (FileLoadFailure p)).
  split; [vm_compute; reflexivity|]. split; vm_compute; reflexivity.
Qed.
Print Assumptions C64_eyecatch_refuted.
