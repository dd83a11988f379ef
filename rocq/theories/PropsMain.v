(** The commands as a whole: C72. *)
From Coq Require Import ZArith List String Ascii Bool Lia.
From Verif Require Import Base Files Ast Img Include Cmd Vmi Span SpanInclude Report Message Heading Main.
From Verif Require Import SpecIsa SpecDisasm SpecMessage SpecHeading SpecMain MainProofs.
From Verif Require Expr Printer Asm Disasm SpecSpan SpecFiles SpecReport PropsPlaces PropsHeading PropsVmi PropsDisasm PropsRoundtrip.
Import ListNotations.
Open Scope string_scope.
Local Open Scope Z_scope.

(** ** C72 *)

(** A run that ends well has written the file its command is to write, if any, and no other.  A run that does not end
    well writes nothing, as long as the disk does not fail while a file is written.  Even then no file but the output is touched.
    The only exit codes are 0 and 1. *)
Theorem C72_files : forall y pr fuel c,
  let fx := run y pr fuel c in
  (ended fx = Exited 0 ->
     (forall p, writes c p -> exists bytes, written fx = [(p, bytes)]) /\ ((forall p, ~ writes c p) -> written fx = [])) /\
  (ended fx <> Exited 0 -> sound_disk y -> written fx = []) /\
  (forall p bytes, In (p, bytes) (written fx) -> writes c p) /\
  (forall n, ended fx = Exited n -> n = 0 \/ n = 1).
Proof.
  intros y pr fuel c. assert (S := run_shape y pr fuel c). cbv zeta. generalize dependent (run y pr fuel c). intros fx S.
  destruct S as [(E & H)|[(W & E)|(E & p & b & W & R & D)]].
  - rewrite E. split; [|split; [congruence|]].
    + intros _. destruct H as [(p & b & W & _ & R)|(N & R)]; split.
      * intros q K. rewrite (writes_unique _ _ _ K W). eauto.
      * intros N. now destruct (N p).
      * intros q K. now destruct (N q).
      * auto.
    + split; [|intros n [= <-]; auto]. intros q d. destruct H as [(p & b & W & _ & R)|(N & R)]; rewrite R; [|intros []].
      intros [[= <- <-]|[]]. exact W.
  - rewrite W. split; [|split; [auto|split; [intros q d []|]]].
    + intros K. rewrite K in E. destruct E as [|[|]]; discriminate.
    + intros n K. rewrite K in E. destruct E as [[= ->]|[|]]; auto; discriminate.
  - rewrite E. split; [discriminate|]. split; [|split; [|discriminate]].
    + intros _ S. exfalso. destruct (S p) as [A B]. destruct D as [D|(n & D)]; [auto|now apply (B n)].
    + intros q d. rewrite R. intros [[= <- <-]|[]]. exact W.
Qed.
Print Assumptions C72_files.

Local Definition files_at (l : list (string * string)) : fs :=
  mkFs (fun p => existsb (fun f => path_eqb p (fst f)) l) (fun p => path_eqb p "/w")
    (fun p => match find (fun f => path_eqb p (fst f)) l with Some f => Some (snd f) | None => None end).

Local Definition machine (l : list (string * string)) : system :=
  mkSystem (files_at l) (fun _ => Err ImageParseError) "/w" (mkDate 2026 11 16 7 30 5 Mon) (fun _ => "u") (fun _ _ => "{}")
    ["waterbear"] (fun _ => mkTexts "l" "p" "r" "w") (fun _ => "d") "v" (fun p => negb (String.eqb p "no/such")) (fun _ => None) (fun _ n => Some n).

Local Definition program : string := (" .org 0" ++ nl ++ " mov #1, $5" ++ nl ++ " nop" ++ nl)%string.

Example C72_files_case :
  sound_disk (machine []) /\
  run (machine [("/w/a.s", program)]) Debug 9 (Assemble "a.s" "a.vms") =
    mkEffects [("a.vms", [34; 5; 1; 0])] "" ("[OK] Assembled 4 bytes to a.vms." ++ nl) (Exited 0) /\
  run (machine [("/w/a.s", " mov acc")]) Debug 9 (Assemble "b.s" "a.vms") =
    mkEffects [] "" ("[ERROR] Failed to assemble b.s" ++ nl ++ nl ++ "✘ Error loading file /w/b.s: r" ++ nl ++ nl) (Exited 1) /\
  ended (run (machine [("/w/a.s", program)]) Debug 9 (Assemble "a.s" "no/such")) = Crashed /\
  run (machine [("/w/a.s", program)]) Debug 9 NoCommand = mkEffects [] "" ("No subcommand specified" ++ nl) (Exited 1).
Proof.
  split; [split; [reflexivity|discriminate]|]. split; [vm_compute; reflexivity|].
  split; [vm_compute; reflexivity|]. split; vm_compute; reflexivity.
Qed.

(** What [assemble] writes is the image, and it says how long it is and where it went; if it ends well, there was an image. *)
Theorem C72_assemble : forall y pr fuel i o,
  (forall bytes, assemble_file (uuids y) pr fuel (disk y) (album y) (new_files (directory y)) i = Ok bytes ->
     creatable y o = true -> room y o = None ->
     run y pr fuel (Assemble i o) =
     mkEffects [(o, bytes)] "" ("[OK] Assembled " ++ Printer.show_dec (Z.of_nat (List.length bytes)) ++ " bytes to " ++ o ++ "." ++ nl) (Exited 0)) /\
  (ended (run y pr fuel (Assemble i o)) = Exited 0 ->
     exists bytes, assemble_file (uuids y) pr fuel (disk y) (album y) (new_files (directory y)) i = Ok bytes /\
       written (run y pr fuel (Assemble i o)) = [(o, bytes)]).
Proof.
  intros y pr fuel i o. rewrite <- PropsPlaces.C62_same. cbn [run]. unfold run_assemble.
  destruct (assemble_file_s _ _ _ _ _ _ _) as [[bytes|e at_| |] files]; cbn [fst SpecSpan.unplaced]; split; try discriminate.
  - intros b [= <-] C R. unfold store. rewrite C, R. reflexivity.
  - intros E. exists bytes. split; [reflexivity|]. destruct (store_cases y o bytes
      ("[OK] Assembled " ++ Printer.show_dec (Z.of_nat (List.length bytes)) ++ " bytes to " ++ o ++ "." ++ nl)) as [K|[(n & _ & _ & K)|(_ & K)]];
      rewrite K in *; [discriminate|discriminate|reflexivity].
  - intros E. destruct (fail_cases y pr "assemble" i files e at_) as [_ [K|[K|K]]]; rewrite K in E; discriminate.
Qed.
Print Assumptions C72_assemble.

Example C72_assemble_case :
  assemble_file (fun _ => "u") Debug 9 (files_at [("/w/a.s", program)]) (fun _ => Err ImageParseError) (new_files "/w") "a.s" = Ok [34; 5; 1; 0] /\
  creatable (machine []) "a.vms" = true /\ room (machine []) "a.vms" = None.
Proof. split; [vm_compute; reflexivity|]. split; reflexivity. Qed.

(** If a program is wrong, and the files read can be quoted, [assemble] says so, says what is wrong, and exits with 1. *)
Theorem C72_wrong : forall y pr fuel i o e at_ files, PropsPlaces.no_places (album y) ->
  assemble_file_s (uuids y) pr fuel (disk y) (album y) (new_files (directory y)) i = (PErr e at_, files) ->
  (forall f, In f (sf_list files) -> PropsPlaces.quotable pr (sf_contents f)) ->
  let fx := run y pr fuel (Assemble i o) in
  ended fx = Exited 1 /\ written fx = [] /\ printed fx = "" /\
  starts_with ("[ERROR] Failed to assemble " ++ i ++ nl) (told fx) /\ Forall (fun p => within p (told fx)) (phrases (foreign y e) e).
Proof.
  intros y pr fuel i o e at_ files NP E Q fx.
  destruct (PropsHeading.C71_message _ _ _ _ _ _ _ _ _ _ (foreign y e) NP E Q) as (head & blocks & mid & tail & T & P & _).
  unfold fx. cbn [run]. unfold run_assemble. rewrite E. unfold fail. rewrite T. cbn [ended written printed told].
  split; [reflexivity|]. split; [reflexivity|]. split; [reflexivity|]. split.
  - apply starts_head. reflexivity.
  - eapply Forall_impl; [|exact P]. intros p H. apply within_right, H.
Qed.
Print Assumptions C72_wrong.

Local Definition wrong_program : string := (" nop" ++ nl ++ " brx 1, 2" ++ nl)%string.

Example C72_wrong_case : exists at_ files,
  assemble_file_s (fun _ => "u") Debug 9 (files_at [("/w/a.s", wrong_program)]) (fun _ => Err ImageParseError) (new_files "/w") "a.s" =
    (PErr (NoSuchMacro "brx") at_, files) /\
  PropsPlaces.no_places (fun _ => Err ImageParseError) /\ (forall f, In f (sf_list files) -> PropsPlaces.quotable Debug (sf_contents f)) /\
  run (machine [("/w/a.s", wrong_program)]) Debug 9 (Assemble "a.s" "a.vms") =
    mkEffects [] "" ("[ERROR] Failed to assemble a.s" ++ nl ++ nl ++ "✘ No macro definition found for name brx." ++ nl ++ nl ++
      "a.s:2:1-9" ++ nl ++ "   brx 1, 2" ++ nl ++ nl ++ "   ^^^^^^^^" ++ nl) (Exited 1).
Proof.
  eexists _, _. split; [vm_compute; reflexivity|]. split; [intros p e H; now injection H as <-|]. split; [|vm_compute; reflexivity].
  intros f [<-|[]]. vm_compute. discriminate.
Qed.

(** [expand] prints the expanded program and never touches a file. *)
Theorem C72_expand : forall y pr fuel i,
  (forall text, expand_file (uuids y) pr fuel (disk y) (album y) (new_files (directory y)) i = Ok text <->
     run y pr fuel (Expand i) = mkEffects [] text "" (Exited 0)) /\
  written (run y pr fuel (Expand i)) = [].
Proof.
  intros y pr fuel i. rewrite <- expand_file_same. cbn [run]. unfold run_expand.
  destruct (expand_file_s _ _ _ _ _ _ _) as [[text|e at_| |] files]; cbn [fst SpecSpan.unplaced written]; split; try reflexivity;
    try (intros t; split; intros H; try discriminate; now inversion H).
  - intros t. split; [discriminate|]. intros H. apply (f_equal ended) in H.
    destruct (fail_cases y pr "expand" i files e at_) as [_ [K|[K|K]]]; rewrite K in H; discriminate.
  - apply fail_cases.
Qed.
Print Assumptions C72_expand.

Example C72_expand_case :
  run (machine [("/w/a.s", program)]) Debug 9 (Expand "a.s") =
    mkEffects [] ("  .org 0" ++ nl ++ "  mov   #1, $05" ++ nl ++ "  nop" ++ nl) "" (Exited 0).
Proof. vm_compute. reflexivity. Qed.

(** [vmi] ends well exactly if the file can be read and reaches to the end of the description and the output can be created; then
    it has written 108 bytes.  If the file cannot be read, it says so and exits with 1; if it is too short, it crashes. *)
Theorem C72_vmi : forall y pr fuel i o c (game : bool), sound_disk y ->
  (forall bytes p, holds (disk y) i bytes -> (if game then 560 else 48) <= Z.of_nat (List.length bytes) ->
     writes (MakeVmi i o c game) p -> creatable y p = true ->
     exists out, List.length out = 108%nat /\ run y pr fuel (MakeVmi i o c game) = mkEffects [(p, out)] "" "" (Exited 0)) /\
  (forall bytes, holds (disk y) i bytes -> Z.of_nat (List.length bytes) < (if game then 560 else 48) ->
     run y pr fuel (MakeVmi i o c game) = mkEffects [] "" "" Crashed) /\
  (read_bytes (disk y) i = None ->
     ended (run y pr fuel (MakeVmi i o c game)) = Exited 1 /\ within i (told (run y pr fuel (MakeVmi i o c game)))).
Proof.
  intros y pr fuel i o c game S. assert (OF: vmi_offset game + 48 = if game then 560 else 48) by (destruct game; reflexivity).
  assert (OP: 0 <= vmi_offset game) by (destruct game; discriminate). rewrite <- OF.
  cbn [run]. unfold run_vmi. split; [|split].
  - intros bytes p (text & -> & <-) L W C. rewrite (writes_unique _ _ _ W (vmi_writes i o c game)) in *.
    destruct (VmiProofs.generated i (str_bytes text) (match c with Some c => c | None => "" end) (vmi_offset game) (clock y))
      as (r0 & r1 & r2 & r3 & tl & RE & G); [exact OP|exact L|].
    rewrite G. unfold store. rewrite C, (proj1 (S _)). eexists. split; [|reflexivity].
    unfold VmiProofs.layout. rewrite !app_length. cbn [VmiProofs.v_checksum VmiProofs.v_description VmiProofs.v_copyright VmiProofs.v_year VmiProofs.v_time VmiProofs.v_version VmiProofs.v_number VmiProofs.v_resource VmiProofs.v_file VmiProofs.v_mode VmiProofs.v_unknown VmiProofs.v_size].
    rewrite !map_length, !seq_length, !le_bytes_length, firstn_length_le by (rewrite skipn_length; lia). reflexivity.
  - intros bytes (text & -> & <-) L. rewrite (proj2 (PropsVmi.C38_panics_iff i (str_bytes text) _ game (clock y))); [reflexivity|lia].
  - intros ->. cbn [ended told]. split; [reflexivity|]. eexists "[ERROR] Failed to generate VMI from ", _. reflexivity.
Qed.
Print Assumptions C72_vmi.

Example C72_vmi_case :
  sound_disk (machine [("a.vms", "0123456789abcdefA description of thirty-two chars")]) /\
  holds (files_at [("a.vms", "0123456789abcdefA description of thirty-two chars")]) "a.vms" (str_bytes "0123456789abcdefA description of thirty-two chars") /\
  writes (MakeVmi "a.vms" None None false) "a.vmi" /\
  (exists out, run (machine [("a.vms", "0123456789abcdefA description of thirty-two chars")]) Debug 0 (MakeVmi "a.vms" None None false) =
     mkEffects [("a.vmi", out)] "" "" (Exited 0)) /\
  ended (run (machine [("a.vms", "0123456789abcdefA description of thirty-two cha")]) Debug 0 (MakeVmi "a.vms" None None false)) = Crashed /\
  ended (run (machine []) Debug 0 (MakeVmi "a.vms" None None false)) = Exited 1.
Proof.
  split; [split; [reflexivity|discriminate]|]. split; [eexists; split; reflexivity|]. split; [constructor; left; exists "a"; split; reflexivity|].
  split; [eexists; vm_compute; reflexivity|]. split; vm_compute; reflexivity.
Qed.

(** A VMI file is never written over the VMS file it describes, unless this is asked for. *)
Theorem C72_vmi_beside : forall y pr fuel i c game p bytes,
  In (p, bytes) (written (run y pr fuel (MakeVmi i None c game))) -> named_after i p /\ p <> i.
Proof.
  intros y pr fuel i c game p bytes H. destruct (C72_files y pr fuel (MakeVmi i None c game)) as (_ & _ & K & _).
  apply K in H. inversion H; subst. split; [assumption|]. intros ->. now apply (named_other i i).
Qed.
Print Assumptions C72_vmi_beside.

Example C72_vmi_beside_case : named_after "d/game.vms" "d/game.vmi" /\ named_after "game.vms.bak" "game.vms.bak.vmi" /\ ~ named_after "game" "game.vms".
Proof.
  split; [left; exists "d/game"; split; reflexivity|]. split.
  - right. split; [|reflexivity]. intros b H. do 13 (destruct b as [|? b]; [discriminate H|]). discriminate H.
  - intros [(b & E & _)|(_ & E)]; [|discriminate]. do 5 (destruct b as [|? b]; [discriminate E|]). discriminate E.
Qed.

(** Where the disassembler begins. *)
Theorem C72_begins : forall type,
  (forall l a, Disasm.entry_points_of type = Some l -> (In a l <-> begins type a)) /\
  (Disasm.entry_points_of type = None <-> forall a, ~ begins type a).
Proof.
  intros type. unfold Disasm.entry_points_of, begins.
  assert (G: (String.eqb type "game" || String.eqb type "file" || String.eqb type "raw")%bool = true <-> In type ["game"; "file"; "raw"]).
  { rewrite !Bool.orb_true_iff, !String.eqb_eq. cbn. intuition congruence. }
  assert (V: forall a, vector a <-> In a [0; 3; 11; 19; 27; 35; 43; 51; 59; 67; 75]).
  { intros a. unfold vector. cbn [In]. split; [|intros H; destruct H as [<-|H]; [now left|right]; exists ((a - 3) / 8);
      repeat (destruct H as [<-|H]; [split; [split; vm_compute; discriminate|reflexivity]|]); destruct H].
    intros [->|(k & B & ->)]; [now left|]. assert (K: In k [0; 1; 2; 3; 4; 5; 6; 7; 8; 9]) by (cbn [In]; lia).
    cbn [In] in K. lia. }
  destruct (_ || _ || _)%bool eqn:B.
  - assert (I := proj1 G eq_refl). split; [|split; [discriminate|]].
    + intros l a [= <-]. rewrite V. cbn [In]. split; [|intros [[_ [H|H]]|[-> _]]; [lia|lia|]].
      * intros H. left. split; [exact I|]. lia.
      * cbn in B. discriminate.
    + intros H. destruct (H 0). left. split; [exact I|]. left. now left.
  - assert (I: ~ In type ["game"; "file"; "raw"]) by (intros H; apply G in H; congruence).
    destruct (String.eqb_spec type "bios") as [->|N].
    + split; [|split; [discriminate|]].
      * intros l a [= <-]. rewrite V. unfold firmware_call. cbn [In]. split; [|intros [[H _]|[_ H]]; [now destruct I|lia]].
        intros H. right. split; [reflexivity|]. lia.
      * intros H. destruct (H 0). right. split; [reflexivity|]. left. now left.
    + split; [discriminate|]. split; [|reflexivity]. intros _ a [[H _]|[H _]]; auto.
Qed.
Print Assumptions C72_begins.

Example C72_begins_case : begins "game" 0x4B /\ begins "bios" 0x1F0 /\ ~ begins "game" 0x1F0 /\ ~ begins "elf" 0.
Proof.
  split; [left; split; [cbn; auto|]; left; right; exists 9; lia|]. split; [right; split; [reflexivity|]; right; cbn; auto 9|].
  split; intros [[H K]|[H K]]; try discriminate.
  - destruct K as [[K|(k & B & K)]|K]; lia.
  - cbn in H. intuition discriminate.
Qed.

(** The disassemble command ends, however the jumps of the binary are tangled: well, or with a message and the exit code 1, unless the
    output cannot be created. *)
Theorem C72_disassemble_ends : forall y pr fuel positions flag type i o, sound_disk y -> creatable y o = true ->
  (forall bytes, holds (disk y) i bytes -> (List.length bytes + 2 <= fuel)%nat) ->
  ended (run y pr fuel (Disassemble positions flag type i o)) = Exited 0 \/
  ended (run y pr fuel (Disassemble positions flag type i o)) = Exited 1.
Proof.
  intros y pr fuel positions flag type i o S C F. cbn [run]. unfold run_disassemble. unfold holds in F.
  destruct (read_bytes (disk y) i) as [text|]; [|now right]. specialize (F (str_bytes text) (ex_intro _ text (conj eq_refl eq_refl))).
  unfold Disasm.disassemble_cmd. destruct (Disasm.entry_points_of _) as [entries|] eqn:EP; [|now right].
  assert (E: Forall (fun e => 0 <= e) entries).
  { unfold Disasm.entry_points_of in EP. destruct (_ || _ || _)%bool; [|destruct (String.eqb _ "bios"); [|discriminate]];
      injection EP as <-; repeat constructor; lia. }
  destruct (PropsDisasm.C34_total fuel flag entries (str_bytes text) (bytes_of_text text) E F) as ([l|e] & ->); cbn [bind]; [|now right].
  left. unfold store. now rewrite C, (proj1 (S o)).
Qed.
Print Assumptions C72_disassemble_ends.

(** Disassembling a file and assembling what was written reproduces the file up to zeros at the end, if no instructions
    overlap in the listing: two runs, on machines that need only agree on the listing. *)
Theorem C72_round : forall y1 y2 pr1 pr2 fuel1 fuel2 flag type i mid o bytes listing image,
  holds (disk y1) i bytes -> moderate bytes ->
  ended (run y1 pr1 fuel1 (Disassemble false flag type i mid)) = Exited 0 ->
  written (run y1 pr1 fuel1 (Disassemble false flag type i mid)) = [(mid, listing)] ->
  (forall entries l, Disasm.entry_points_of (match type with Some t => t | None => "raw" end) = Some entries ->
     Disasm.disassemble fuel1 flag entries bytes = Ok (inl l) -> no_overlap (map (fun d => (Disasm.d_pos d, Disasm.d_statement d)) l)) ->
  is_absolute (directory y2) = true -> holds (disk y2) (join (directory y2) mid) listing ->
  ended (run y2 pr2 (S fuel2) (Assemble mid o)) = Exited 0 -> written (run y2 pr2 (S fuel2) (Assemble mid o)) = [(o, image)] ->
  same_image image bytes.
Proof.
  intros y1 y2 pr1 pr2 fuel1 fuel2 flag type i mid o bytes listing image (text & R1 & <-) M E1 W1 N A (text2 & R2 & L2) E2 W2.
  destruct (C72_assemble y2 pr2 (S fuel2) mid o) as [_ K]. destruct (K E2) as (b & X & W). rewrite W2 in W. injection W as <-. clear K E2 W2.
  cbn [run] in E1, W1. unfold run_disassemble in E1, W1. rewrite R1 in E1, W1.
  destruct (Disasm.disassemble_cmd fuel1 false flag _ (str_bytes text)) as [[t|e]|e| |] eqn:D; try discriminate.
  destruct (store_cases y1 mid (str_bytes t) "") as [Q|[(n & _ & _ & Q)|(_ & Q)]]; rewrite Q in E1, W1; try discriminate.
  cbn [written] in W1. injection W1 as W1. rewrite <- L2 in W1. apply text_of_bytes in W1. subst t.
  assert (D2 := D). unfold Disasm.disassemble_cmd in D2. destruct (Disasm.entry_points_of _) as [entries|] eqn:EP; [|discriminate].
  destruct (Disasm.disassemble fuel1 flag entries (str_bytes text)) as [[l|e]|e| |] eqn:DD; try discriminate.
  eapply PropsRoundtrip.C33_command; [apply bytes_of_text|exact M|exact D|exact EP|exact DD|exact (N _ _ eq_refl DD)|exact A|exact R2|exact X].
Qed.
Print Assumptions C72_round.

Local Definition binary : string :=
  String "034" (String "005" (String "001" (String "000" (String "001" (String "250" (String "000" (String "160" ""))))))).
Local Definition listing : string :=
  match Disasm.disassemble_cmd 20 false false "game" (str_bytes binary) with Ok (inl t) => t | _ => "" end.

Example C72_disassemble_ends_case : sound_disk (machine [("a.bin", binary)]) /\ holds (files_at [("a.bin", binary)]) "a.bin" (str_bytes binary) /\
  (List.length (str_bytes binary) + 2 <= 10)%nat /\
  ended (run (machine [("a.bin", binary)]) Debug 10 (Disassemble true false (Some "elf") "a.bin" "a.s")) = Exited 1.
Proof.
  split; [split; [reflexivity|discriminate]|]. split; [eexists; split; reflexivity|]. split; [cbn; lia|]. vm_compute. reflexivity.
Qed.

Example C72_round_case :
  let y1 := machine [("a.bin", binary)] in let y2 := machine [("/w/a.s", listing)] in
  holds (disk y1) "a.bin" (str_bytes binary) /\ moderate (str_bytes binary) /\
  run y1 Debug 20 (Disassemble false false (Some "game") "a.bin" "a.s") = mkEffects [("a.s", str_bytes listing)] "" "" (Exited 0) /\
  (forall entries l, Disasm.entry_points_of "game" = Some entries ->
     Disasm.disassemble 20 false entries (str_bytes binary) = Ok (inl l) -> no_overlap (map (fun d => (Disasm.d_pos d, Disasm.d_statement d)) l)) /\
  holds (disk y2) (join "/w" "a.s") (str_bytes listing) /\
  exists image, run y2 Debug 20 (Assemble "a.s" "b.bin") = mkEffects [("b.bin", image)] "" ("[OK] Assembled 520 bytes to b.bin." ++ nl) (Exited 0).
Proof.
  cbv zeta. split; [eexists; split; reflexivity|]. split; [vm_compute; discriminate|]. split; [vm_compute; reflexivity|]. split; [|split].
  - intros entries l EP D. apply PropsRoundtrip.apart_checked.
    assert (C: match Disasm.entry_points_of "game" with
               | Some e => match Disasm.disassemble 20 false e (str_bytes binary) with
                           | Ok (inl l) => PropsRoundtrip.apart_check (map (fun d => (Disasm.d_pos d, Disasm.d_statement d)) l)
                           | _ => true end
               | None => true end = true) by (vm_compute; reflexivity).
    rewrite EP, D in C. exact C.
  - exists listing. split; reflexivity.
  - eexists. vm_compute. reflexivity.
Qed.

(** The output of [image] may come out short though the run ends well: the text is handed over in one call, which need not take all of it. *)
Theorem C72_image_refuted : exists y pr fuel i o text n, sound_disk y /\
  image_cmd (json_text y) (album y) i (Some o) None = Ok (Some o, text) /\
  run y pr fuel (Image i (Some o) None) = mkEffects [(o, firstn n (str_bytes text))] "" "" (Exited 0) /\ (n < List.length (str_bytes text))%nat.
Proof.
  exists (mkSystem (files_at []) (fun _ => Ok [mkDecoded 8 1 (fun _ _ => mkColor 0 0 0 255)]) "/w" (mkDate 2026 11 16 7 30 5 Mon) (fun _ => "u") (fun _ _ => "{}")
    ["waterbear"] (fun _ => mkTexts "l" "p" "r" "w") (fun _ => "d") "v" (fun _ => true) (fun _ => None) (fun _ _ => Some 5%nat)), Debug, 0%nat, "a.png", "a.s".
  eexists _, 5%nat. split; [split; [reflexivity|discriminate]|]. split; [vm_compute; reflexivity|]. split; [vm_compute; reflexivity|]. vm_compute. lia.
Qed.
Print Assumptions C72_image_refuted.

(** If the call takes the whole text, the file has the whole text. *)
Theorem C72_image : forall y pr fuel i o f text, image_cmd (json_text y) (album y) i (Some o) f = Ok (Some o, text) ->
  creatable y o = true -> (forall n, taken y o n = Some n) ->
  run y pr fuel (Image i (Some o) f) = mkEffects [(o, str_bytes text)] "" "" (Exited 0).
Proof. intros y pr fuel i o f text I C T. cbn [run]. unfold run_image. rewrite I, C, T, firstn_all. reflexivity. Qed.
Print Assumptions C72_image.

Example C72_image_case : exists text,
  image_cmd (fun _ _ => "{}") (fun _ => Ok [mkDecoded 8 1 (fun _ _ => mkColor 0 0 0 255)]) "a.png" (Some "a.s") (Some "json") = Ok (Some "a.s", text) /\
  creatable (machine []) "a.s" = true /\ taken (machine []) "a.s" 2 = Some 2%nat.
Proof. eexists. split; [vm_compute; reflexivity|]. split; reflexivity. Qed.

(** A picture that cannot be read is reported by [icon], but crashes [image]. *)
Theorem C72_unreadable : forall y pr fuel i e, album y i = Err e ->
  (forall eye, ended (run y pr fuel (Icon i None eye)) = Exited 1 /\ told (run y pr fuel (Icon i None eye)) <> "") /\
  (forall o f, ended (run y pr fuel (Image i o f)) = Crashed).
Proof.
  intros y pr fuel i e H. split.
  - intros eye. cbn [run]. unfold run_icon, icon_cmd, to_icon, load_image. cbn [speed_argument bind]. rewrite H. cbn [bind ended told].
    split; [reflexivity|]. destruct e; discriminate.
  - intros o f. cbn [run]. unfold run_image, image_cmd, load_image. rewrite H. reflexivity.
Qed.
Print Assumptions C72_unreadable.

Example C72_unreadable_case : album (machine []) "a.png" = Err ImageParseError /\
  told (run (machine []) Debug 0 (Icon "a.png" None None)) = ("Error parsing image p: r" ++ nl ++ nl)%string.
Proof. split; reflexivity. Qed.
