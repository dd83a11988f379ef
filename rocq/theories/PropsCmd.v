(** Property C58: the texts printed by the icon and image commands assemble to the icon and the sprites. *)
From Coq Require Import ZArith List String Ascii Bool Lia.
From Verif Require Import Base Expr Ast Asm Macro Printer Files CHeader Img Include Cmd SpecImg SpecLex SpecPrint SpecFiles SpecCmd.
From Verif Require Import ImgProofs2 ImgProofs5 PropsImg CmdProofs CmdProofs2.
Import ListNotations.
Open Scope string_scope.
Open Scope list_scope.
Open Scope Z_scope.

(** What the icon command prints, saved in any file of any file system and assembled, gives the icon: header,
    palette, frames and eyecatch as in C35, C36 and C50. *)
Theorem C58_icon : forall pics args path speed n eye ds e kind,
  icon_input pics path ds -> eyecatch_input pics eye e kind -> speed_given speed n ->
  one_line path -> (forall p, eye = Some p -> one_line p) -> Forall one_line args ->
  exists text out, icon_cmd pics args path speed eye = Ok text /\ icon_layout out ds n kind e /\
    forall uuid pr fuel v pics2 wd name, is_absolute wd = true -> read_bytes v (join wd name) = Some text ->
      assemble_file uuid pr (S fuel) v pics2 (new_files wd) name = Ok out.
Proof. exact icon_command. Qed.
Print Assumptions C58_icon.

(** What the image command prints or writes in the formats 1bit-asm and 1bit-asm-masked gives the sprites with their headers, as in C37. *)
Theorem C58_image : exists black, shading black /\
  forall json pics path output format masked ds,
  pics path = Ok ds -> sprite_input true masked ds -> (forall d, In d ds -> (0 < d_width d)%nat) -> asm_format format masked ->
  exists text out, image_cmd json pics path output format = Ok (output, text) /\ sprite_layout black masked ds out /\
    forall uuid pr fuel v pics2 wd name, is_absolute wd = true -> read_bytes v (join wd name) = Some text ->
      assemble_file uuid pr (S fuel) v pics2 (new_files wd) name = Ok out.
Proof. exists is_black. split; [exact is_black_shading|]. exact image_command. Qed.
Print Assumptions C58_image.

Lemma row_pixels : forall (A : Type) (f : nat -> A) n k, (k < n)%nat -> nth_error (map f (seq 0 n)) k = Some (f k).
Proof.
  intros A f n k L. rewrite (map_nth_error f k (seq 0 n) (d := k)); [reflexivity|].
  rewrite (nth_error_nth' (seq 0 n) 0%nat); [|rewrite seq_length; exact L]. now rewrite seq_nth.
Qed.

(** In the formats json and json-pretty, what is handed to the JSON writer are the frames of the picture, pixel by pixel, and the text it
    gives is the output, with a line break if it goes to the terminal; it is asked for a pretty text in the second case only. *)
Theorem C58_json : forall pics path ds, pics path = Ok ds ->
  exists frames, Forall2 pixels_of frames ds /\
    forall json output pretty, image_cmd json pics path output (Some (if pretty : bool then "json-pretty" else "json")) =
      Ok (output, match output with Some _ => json pretty frames | None => (json pretty frames ++ String "010" "")%string end).
Proof.
  intros pics path ds H. exists (map to_frame ds). split.
  - clear H. induction ds as [|d ds IH]; [constructor|]. cbn [map]. constructor; [|exact IH]. unfold to_frame. split.
    + now rewrite map_length, seq_length.
    + intros y Y. exists (map (fun x => d_pixel d x y) (seq 0 (d_width d))). split.
      * now apply (row_pixels _ (fun y => map (fun x => d_pixel d x y) (seq 0 (d_width d)))).
      * split; [now rewrite map_length, seq_length|]. intros x X. now apply (row_pixels _ (fun x => d_pixel d x y)).
  - intros json output pretty. unfold image_cmd, load_image. rewrite H. destruct pretty, output; reflexivity.
Qed.
Print Assumptions C58_json.

Example C58_json_case :
  let d := mkDecoded 2 1 (fun x _ => mkColor (Z.of_nat x) 7 9 255) in
  let dump := fun (pretty : bool) (i : image) => if pretty then "pretty" else String.concat "," (map (fun f => show_dec (width f)) i) in
  image_cmd dump (fun _ => Ok [d; d]) "a.gif" None (Some "json") = Ok (None, ("2,2" ++ String "010" "")%string) /\
  image_cmd dump (fun _ => Ok [d; d]) "a.gif" (Some "o") (Some "json-pretty") = Ok (Some "o", "pretty") /\
  pixels_of [[mkColor 0 7 9 255; mkColor 1 7 9 255]] d.
Proof.
  cbv zeta. split; [reflexivity|]. split; [reflexivity|]. split; [reflexivity|]. cbn [d_height d_width]. intros y Y. exists [mkColor 0 7 9 255; mkColor 1 7 9 255].
  destruct y; [|lia]. split; [reflexivity|]. split; [reflexivity|]. intros [|[|x]] X; [reflexivity|reflexivity|lia].
Qed.

(** The speed is taken if it is written as a decimal number up to 65535: then the command succeeds, fails or panics as the
    making of the icon with this speed does.  Anything else is a panic. *)
Theorem C58_speed : forall pics args path speed eye,
  (forall n, speed_given (Some speed) n ->
     ((exists text, icon_cmd pics args path (Some speed) eye = Ok text) <-> (exists stmts, to_icon pics path (Some n) eye = Ok stmts)) /\
     (forall er, icon_cmd pics args path (Some speed) eye = Err er <-> to_icon pics path (Some n) eye = Err er) /\
     (icon_cmd pics args path (Some speed) eye = Panic <-> to_icon pics path (Some n) eye = Panic)) /\
  ((forall n, ~ speed_given (Some speed) n) -> icon_cmd pics args path (Some speed) eye = Panic).
Proof.
  intros pics args path speed eye. split.
  - intros n G. unfold icon_cmd, speed_argument. rewrite (proj2 (parse_iff_u16 speed n) G). cbn [bind].
    destruct (to_icon pics path (Some n) eye) as [stmts|e| |]; cbn [bind].
    + split; [split; eauto|]. split; [intros er|]; split; discriminate.
    + split; [split; intros (x & [=])|]. split; [intros er; split; intros [= <-]; reflexivity|split; discriminate].
    + split; [split; intros (x & [=])|]. split; [intros er; split; discriminate|tauto].
    + split; [split; intros (x & [=])|]. split; [intros er; split; discriminate|split; discriminate].
  - intros H. unfold icon_cmd. rewrite (no_speed _ H). reflexivity.
Qed.
Print Assumptions C58_speed.

(** * Cases *)

Definition cmd_disk (path text : string) : fs :=
  mkFs (fun p => path_eqb p path) (fun p => path_eqb p "/w") (fun p => if path_eqb p path then Some text else None).
Definition no_pictures : pictures := fun _ => Err InvalidPath.

Lemma plain_line s : line_b s = true -> one_line s.
Proof. exact (line_by s). Qed.

Example C58_icon_case :
  let args := ["waterbear"; "icon"; "icon.gif"; "-s"; "+12"; "-e"; "eye.png"] in
  icon_input icon_pictures "icon.gif" [icon_frame 17; icon_frame 250] /\
  eyecatch_input icon_pictures (Some "eye.png") (Some eyecatch_picture) 2 /\
  speed_given (Some "+12") 12 /\ one_line "icon.gif" /\ one_line "eye.png" /\ Forall one_line args.
Proof.
  cbv zeta. destruct icon_case as (A & B & _). split; [exact A|]. split; [exact B|]. split; [apply parse_iff_u16; reflexivity|].
  split; [now apply plain_line|]. split; [now apply plain_line|]. repeat (apply Forall_cons; [now apply plain_line|]). apply Forall_nil.
Qed.

(** An animation of one frame, as text and as bytes: 32 bytes of header, a palette with one colour, 512 bytes of zeros. *)
Definition grey : decoded := mkDecoded 32 32 (fun _ _ => mkColor 34 34 34 255).
Definition grey_pictures (paths : list string) (path : string) : outcome (list decoded) :=
  if existsb (String.eqb path) paths then Ok [grey] else Err InvalidPath.
Definition grey_icon : list Z := [1; 0; 10; 0; 0; 0] ++ repeat 0 26 ++ [34; 242] ++ repeat 0 542.

Example C58_icon_bytes : exists text,
  icon_cmd (grey_pictures ["a.png"]) ["waterbear"; "icon"; "a.png"] "a.png" None None = Ok text /\
  prefix ("  ;; NOTE: This file was generated by the waterbear assembler:" ++ String "010" "  ;; waterbear icon a.png" ++
    String "010" (String "010" "  ;; ""a.png"" Frames: 1, Speed: 10") ++ String "010" "  .word $01, $0A")%string text = true /\
  assemble_file (fun _ => "") Debug 1 (cmd_disk "/w/i.s" text) no_pictures (new_files "/w") "i.s" = Ok grey_icon.
Proof. eexists. split; [vm_compute; reflexivity|]. split; [vm_compute; reflexivity|vm_compute; reflexivity]. Qed.

Example C58_image_case :
  let ds := [sample 0; sample 90] in
  let pics := fun _ : string => Ok ds in
  sprite_input true true ds /\ (forall d, In d ds -> (0 < d_width d)%nat) /\ asm_format (Some "1bit-asm-masked") true /\
  exists text, image_cmd (fun _ _ => "") pics "a.gif" (Some "a.s") (Some "1bit-asm-masked") = Ok (Some "a.s", text) /\
    assemble_file (fun _ => "") Debug 1 (cmd_disk "/w/a.s" text) no_pictures (new_files "/w") "a.s" = Ok
      [9; 3; 85; 127; 170; 255; 85; 127; 170; 128; 85; 0; 170; 128; 9; 3; 85; 127; 170; 255; 85; 127; 170; 128; 85; 0; 170; 128].
Proof.
  cbv zeta. destruct C37_layout_case as (A & _). split; [exact A|]. split; [intros d [<-|[<-|[]]]; cbn; lia|]. split; [reflexivity|].
  eexists. split; [vm_compute; reflexivity|vm_compute; reflexivity].
Qed.

Example C58_image_default_case : asm_format None false /\ asm_format (Some "png") false.
Proof. split; (split; [discriminate|split; discriminate]). Qed.

Example C58_speed_case : speed_given (Some "65535") 65535 /\
  (forall s n, In s [""; "+"; "-1"; "65536"; "1 "; "++1"; "0x10"] -> ~ speed_given (Some s) n).
Proof.
  split; [apply parse_iff_u16; reflexivity|].
  intros s n I G. apply parse_iff_u16 in G. cbn [In] in I. repeat (destruct I as [<-|I]; [vm_compute in G; discriminate|]). exact I.
Qed.

(** * What goes wrong *)

(** A line break in a file name ends the comment: the rest of the name becomes a line of the program. *)
Theorem C58_line_break_refuted : exists path text out,
  icon_input (grey_pictures [path]) path [grey] /\
  icon_cmd (grey_pictures [path]) [] path None None = Ok text /\
  assemble_file (fun _ => "") Debug 1 (cmd_disk "/w/i.s" text) no_pictures (new_files "/w") "i.s" = Ok out /\ out <> grey_icon.
Proof.
  exists ("a" ++ String "010" ".byte 7 ;")%string. eexists _, _. split; [|split; [vm_compute; reflexivity|split; [vm_compute; reflexivity|vm_compute; discriminate]]].
  split; [reflexivity|].
  assert (B: byte_pictures [grey]) by (intros d x y [<-|[]]; cbn; unfold byte_color, byte; cbn; lia).
  split; [exact B|]. split; [intros d [<-|[]]; split; reflexivity|]. split; [|cbn; lia].
  exists 1. split; [|lia]. apply colors_len; [exact B|]. vm_compute. reflexivity.
Qed.
Print Assumptions C58_line_break_refuted.

(** Unlike the directive for sprites, the image command does not check the size: its text for a picture that is too wide does not assemble. *)
Theorem C58_wide_refuted : exists pics text er,
  image_cmd (fun _ _ => "") pics "a.png" None None = Ok (None, text) /\
  assemble_file (fun _ => "") Debug 1 (cmd_disk "/w/a.s" text) no_pictures (new_files "/w") "a.s" = Err er.
Proof.
  exists (fun _ => Ok [mkDecoded 256 1 (fun _ _ => black)]). eexists _, _. split; [vm_compute; reflexivity|]. vm_compute. reflexivity.
Qed.
Print Assumptions C58_wide_refuted.

(** Nor does it report a file that cannot be read: it panics. *)
Theorem C58_unreadable : forall json pics path output format er, pics path = Err er -> image_cmd json pics path output format = Panic.
Proof. intros json pics path output format er H. unfold image_cmd, load_image. rewrite H. reflexivity. Qed.
Print Assumptions C58_unreadable.

Example C58_unreadable_case : grey_pictures ["a.png"] "b.png" = Err InvalidPath.
Proof. reflexivity. Qed.
