(** Property C43: the text printed by the expand command assembles to the image of the original program. *)
From Coq Require Import ZArith List String Ascii Bool Arith Lia.
From Verif Require Import Base Expr Instr Ast Macro Asm Lexer Parser Printer Files CHeader Img Include.
From Verif Require Import SpecIsa SpecLex SpecLine SpecFiles SpecPrint SpecExpand PrintProofs5 ExpandProofs ExpandProofs2.
From Verif Require SpecUtf8 Utf8Proofs Utf8Proofs2.
Import ListNotations.
Open Scope string_scope.
Open Scope list_scope.

(** Whatever the program includes and whatever macros it uses, if its expanded statements are ordinary ones,
    then the printed text is UTF-8 (if its comments are, which hold the names of icon files) and, saved in any file of any file
    system, assembles with the same outcome: the same image or the same error. *)
Theorem C43_reassembles : forall uuid uuid2 pr fuel fuel2 w v pics pics2 wd wd2 name name2 st ex,
  proper_uuid uuid ->
  read_statements pr fuel w pics (new_files wd) name = Ok st -> expand_macros uuid fuel st = Ok ex ->
  Forall ordinary_statement (st_list ex) -> (forall c, In (SComment c) (st_list ex) -> SpecUtf8.utf8 c) ->
  exists text, expand_file uuid pr fuel w pics (new_files wd) name = Ok text /\ SpecUtf8.utf8 text /\
    (is_absolute wd2 = true -> read_bytes v (join wd2 name2) = Some text ->
     assemble_file uuid2 pr (S fuel2) v pics2 (new_files wd2) name2 = assemble_file uuid pr fuel w pics (new_files wd) name).
Proof.
  intros uuid uuid2 pr fuel fuel2 w v pics pics2 wd wd2 name name2 st ex U R X O C.
  assert (P := expanded_printable _ _ _ _ _ _ _ _ _ U R X O).
  destruct (expand_same uuid uuid2 pr fuel fuel2 w v pics pics2 wd wd2 name name2 st ex R X P) as (text & E & A).
  assert (V: valid_utf8 text = true).
  { unfold expand_file in E. rewrite R in E. cbn [bind] in E. rewrite X in E. cbn [bind] in E. injection E as <-.
    apply Utf8Proofs2.printed_utf8; [exact P|]. intros c I. apply Utf8Proofs.utf8_iff. auto. }
  exists text. split; [exact E|]. split; [now apply Utf8Proofs.utf8_iff|]. auto.
Qed.
Print Assumptions C43_reassembles.

(** Comments never influence the image. *)
Theorem C43_comments : forall pr l, assemble pr (filter (fun s => negb (is_comment s)) l) = assemble pr l.
Proof. exact assemble_filter. Qed.
Print Assumptions C43_comments.

(** * A case *)

Local Definition NL : string := String LF "".
Local Definition str (s : string) : string := String "034" (s ++ String "034" "").

Local Definition disk (files : list (string * string)) : fs :=
  mkFs (fun p => existsb (fun f => path_eqb p (fst f)) files) (fun p => path_eqb p "/src")
    (fun p => match find (fun f => path_eqb p (fst f)) files with Some f => Some (snd f) | None => None end).

Local Definition ids (n : nat) : string := match n with O => "0a1b" | _ => "77ff" end.
Local Definition no_pics : pictures := fun _ => Err InvalidPath.

Local Definition main : string :=
  (".include " ++ str "lib.s" ++ NL ++ "start: skip #2" ++ NL ++ " skip #SIZE+1" ++ NL ++ ".include bytes " ++ str "data" ++ NL ++
   " .cnop 0, 4" ++ NL ++ ".byte " ++ str "Hi" ++ ", <start" ++ NL)%string.
Local Definition lib : string := ("%macro skip %n" ++ NL ++ " be %n, done%" ++ NL ++ " nop" ++ NL ++ "done%:" ++ NL ++ "%end" ++ NL ++ "size = 3" ++ NL)%string.
Local Definition program_disk : fs := disk [("/src/main.s", main); ("/src/lib.s", lib); ("/src/data", "xy")].

Local Definition run (w : fs) : outcome statements := read_statements Debug 9 w no_pics (new_files "/src") "main.s".

Lemma ids_proper : proper_uuid ids.
Proof. intros [|n]; cbn; tauto. Qed.

Example C43_case : exists st ex text,
  run program_disk = Ok st /\ expand_macros ids 9 st = Ok ex /\ Forall ordinary_statement (st_list ex) /\
  (forall c, In (SComment c) (st_list ex) -> SpecUtf8.utf8 c) /\
  expand_file ids Debug 9 program_disk no_pics (new_files "/src") "main.s" = Ok text /\
  assemble_file ids Debug 9 program_disk no_pics (new_files "/src") "main.s" =
    Ok [49; 2; 1; 0; 49; 4; 1; 0; 120; 121; 0; 0; 72; 105; 0]%Z /\
  assemble_file (fun _ => "") Debug 1 (disk [("/src/main.s", text)]) no_pics (new_files "/src") "main.s" =
    Ok [49; 2; 1; 0; 49; 4; 1; 0; 120; 121; 0; 0; 72; 105; 0]%Z.
Proof.
  eexists _, _, _. split; [vm_compute; reflexivity|]. split; [vm_compute; reflexivity|].
  split; [|split; [|split; [vm_compute; reflexivity|split; [vm_compute; reflexivity|vm_compute; reflexivity]]]].
  2:{ cbn [st_list In]. intros c I. apply Utf8Proofs.utf8_iff.
      repeat (destruct I as [I|I]; [try discriminate; injection I as <-; vm_compute; reflexivity|]). destruct I. }
  cbn [st_list].
  assert (NE: forall i, (forall k ks e os, snd (key i) = k :: ks -> k <> I8 -> op_list i = inl e :: os -> ~ opens_with_equ e) -> ~ reads_as_equ i).
  { intros i H (k & ks & e & os & A & B & C & D). exact (H _ _ _ _ A B C D). }
  repeat (apply Forall_cons; [|]); try apply Forall_nil; cbn [ordinary_statement ordinary_expr op_list];
    repeat (match goal with
      | |- _ /\ _ => split
      | |- Forall _ _ => constructor
      | |- _ <> _ => discriminate
      | |- ~ reads_as_equ _ => apply NE; cbn; intros; try discriminate; congruence
      | |- printable_byte _ => split; [lia|cbn; intros Q; repeat (destruct Q as [Q|Q]; [discriminate|]); exact Q]
      end); cbn; auto; try lia; try tauto; repeat split; try discriminate; lia.
Qed.

(** * What gets lost *)

(** Assembles to one image, while the printed text assembles to another. *)
Local Definition differs (files : list (string * string)) (image image2 : outcome (list Z)) : Prop :=
  exists text, expand_file ids Debug 9 (disk files) no_pics (new_files "/src") "main.s" = Ok text /\
    assemble_file ids Debug 9 (disk files) no_pics (new_files "/src") "main.s" = image /\
    assemble_file ids Debug 9 (disk [("/src/main.s", text)]) no_pics (new_files "/src") "main.s" = image2.

(** An octal literal comes back as a hexadecimal one: a different image without any complaint. *)
Theorem C43_octal_refuted : exists files, differs files (Ok [15]%Z) (Ok [23]%Z).
Proof. exists [("/src/main.s", " .byte 0o17"%string)]. eexists. split; [vm_compute; reflexivity|]. split; [vm_compute; reflexivity|vm_compute; reflexivity]. Qed.
Print Assumptions C43_octal_refuted.

(** A quote in a string, and an empty included file, make the printed text unreadable. *)
Theorem C43_quote_refuted : exists files, differs files (Ok [97; 34]%Z) (Err (UnexpectedChar 11)).
Proof.
  exists [("/src/main.s", " .byte ""a\"""""%string)]. eexists. split; [vm_compute; reflexivity|]. split; [vm_compute; reflexivity|].
  vm_compute. reflexivity.
Qed.
Print Assumptions C43_quote_refuted.

Theorem C43_empty_file_refuted : exists files er, differs files (Ok []) (Err er).
Proof.
  exists [("/src/main.s", (".include bytes " ++ str "data")%string); ("/src/data", "")]. eexists _, _. split; [vm_compute; reflexivity|].
  split; [vm_compute; reflexivity|vm_compute; reflexivity].
Qed.
Print Assumptions C43_empty_file_refuted.

(** [.text] and [.string] are printed without quotes. *)
Theorem C43_text_refuted : exists files er, differs files (Ok [97; 98; 32]%Z) (Err er).
Proof.
  exists [("/src/main.s", (" .text 3 " ++ str "ab")%string)]. eexists _, _. split; [vm_compute; reflexivity|].
  split; [vm_compute; reflexivity|vm_compute; reflexivity].
Qed.
Print Assumptions C43_text_refuted.

(** An instruction behind a label on the same line, whose operand begins with a constant named [equ]: on its
    own line it becomes the definition of a constant, and vanishes from the image. *)
Theorem C43_equ_refuted : exists files, differs files (Ok [130; 4]%Z) (Ok []).
Proof.
  exists [("/src/main.s", ("l: add equ - 1" ++ NL ++ "equ = 5" ++ NL)%string)]. eexists. split; [vm_compute; reflexivity|].
  split; [vm_compute; reflexivity|vm_compute; reflexivity].
Qed.
Print Assumptions C43_equ_refuted.
