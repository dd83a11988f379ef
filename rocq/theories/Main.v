(** The commands as a whole: what [run_command] does once clap has read the arguments, /repo/src/lib.rs 111-345, with
    [generate_vmi] (348-474), [disassemble_cmd] (476-527), [expand_cmd] (529-535) and [assemble_cmd] (537-560). *)
From Coq Require Import ZArith List String Ascii Bool.
From Verif Require Import Base Files Ast Printer Img Cmd Vmi Span SpanParser SpanAsm SpanInclude Report Message Heading.
From Verif Require Disasm.
Import ListNotations.
Open Scope string_scope.
Open Scope Z_scope.

(** What clap hands to [run_command], /repo/src/lib.rs 122, 147, 159, 224, 247, 278, 304 and 342; reading it off the
    command line is external. *)
Inductive command : Type :=
| Assemble (input output : string)
| Disassemble (positions arrived_from : bool) (type : option string) (input output : string)
| Icon (input : string) (speed eyecatch : option string)
| Image (input : string) (output format : option string)
| MakeVmi (input : string) (output copyright : option string) (game : bool)
| Expand (input : string)
| Version
| NoCommand.

(** What the commands find outside: the files ([File::open], /repo/src/lib.rs 357 and 484, and files.rs), the
    pictures, the working directory (files.rs 79-92), the time (lib.rs 441), [Uuid::new_v4] (asm.rs 761), serde_json
    (lib.rs 232-233), the arguments of the program (172), the texts of external errors (562-1043) and the debug form of
    a [DisasmError] (155), the text of [version] (305-341).  [creatable]: does [File::create] succeed (lib.rs 240,
    470, 509, 545)?  [room]: [Some n] if [write_all] fails after [n] bytes (471, 513-522, 546).  [taken]: how many of
    so many bytes one call of [write] takes, or [None] if it fails (241). *)
Record system : Type := mkSystem {
  disk : fs;
  album : pictures;
  directory : string;
  clock : datetime;
  uuids : nat -> string;
  json_text : bool -> image -> string;
  arguments : list string;
  foreign : error -> texts;
  debug_text : option Disasm.disasm_error -> string;
  version_text : string;
  creatable : string -> bool;
  room : string -> option nat;
  taken : string -> nat -> option nat
}.

(** How a run ends: [std::process::exit] or the end of [run_command], a panic, or not at all (/repo/src/lib.rs 111-345). *)
Inductive ending : Type := Exited (code : Z) | Crashed | Running.

(** What a run leaves behind, /repo/src/lib.rs 111-345: the files created, by the path given to [File::create], with
    what was written; the text on the two streams; and how it ended.  Simplified: the colours, the messages of panics
    and the warnings of files.rs 146-151 are left out, and the streams take all that is written to them. *)
Record effects : Type := mkEffects { written : list (string * list Z); printed : string; told : string; ended : ending }.

(** [File::create(path).unwrap()] and [write_all(bytes).unwrap()], then what follows: /repo/src/lib.rs 470-473, 509-526
    and 545-559.  For the listing (511-523) the pieces are written one after the other; here they are one text. *)
Definition store (y : system) (path : string) (bytes : list Z) (message : string) : effects :=
  if creatable y path then
    match room y path with
    | Some n => if (n <? List.length bytes)%nat then mkEffects [(path, firstn n bytes)] "" "" Crashed
                else mkEffects [(path, bytes)] "" message (Exited 0)
    | None => mkEffects [(path, bytes)] "" message (Exited 0)
    end
  else mkEffects [] "" "" Crashed.

(** The report of a failure and [std::process::exit(1)], /repo/src/lib.rs 128-144 and 284-302; [what] is
    "assemble" or "expand".  If [print_error] panics, so does the run. *)
Definition fail (y : system) (pr : profile) (what input : string) (files : source_files) (e : error) (at_ : list pspan) : effects :=
  let head := "[ERROR] Failed to " ++ what ++ " " ++ input ++ nl ++ nl ++ "✘ " in
  match print_error_text pr files (foreign y e) e at_ with
  | Ok text => mkEffects [] "" (head ++ text) (Exited 1)
  | Diverge => mkEffects [] "" head Running
  | _ => mkEffects [] "" head Crashed
  end.

(** [assemble_cmd] and its caller, /repo/src/lib.rs 122-146 and 537-560. *)
Definition run_assemble (y : system) (pr : profile) (fuel : nat) (input output : string) : effects :=
  match assemble_file_s (uuids y) pr fuel (disk y) (album y) (new_files (directory y)) input with
  | (POk bytes, _) =>
      store y output bytes
        ("[OK] Assembled " ++ show_dec (Z.of_nat (List.length bytes)) ++ " bytes to " ++ output ++ "." ++ nl)
  | (PErr e at_, files) => fail y pr "assemble" input files e at_
  | (PPanic, _) => mkEffects [] "" "" Crashed
  | (PDiverge, _) => mkEffects [] "" "" Running
  end.

(** [expand_file], /repo/src/asm.rs 29-34: the text printed, or the error with its places. *)
Definition expand_file_s (uuid : nat -> string) (pr : profile) (fuel : nat) (w : fs) (pics : pictures)
    (s : source_files) (name : string) : traced string :=
  tbind (read_statements_s pr fuel w pics s name) (fun stmts s2 =>
  tbind (expand_list_s uuid fuel (ss_macros stmts) 0 (ss_list stmts), s2) (fun expanded s2 =>
  (POk (expand_output (map erase_statement (fst expanded))), s2))).

(** [expand_cmd] and its caller, /repo/src/lib.rs 278-303 and 529-535. *)
Definition run_expand (y : system) (pr : profile) (fuel : nat) (input : string) : effects :=
  match expand_file_s (uuids y) pr fuel (disk y) (album y) (new_files (directory y)) input with
  | (POk text, _) => mkEffects [] text "" (Exited 0)
  | (PErr e at_, files) => fail y pr "expand" input files e at_
  | (PPanic, _) => mkEffects [] "" "" Crashed
  | (PDiverge, _) => mkEffects [] "" "" Running
  end.

(** [disassemble_cmd] and its caller, /repo/src/lib.rs 147-158 and 476-527; [None] as an error is [NoSuchFile]. *)
Definition run_disassemble (y : system) (fuel : nat) (positions arrived_from : bool) (type : option string)
    (input output : string) : effects :=
  let refuse e := mkEffects [] "" ("ERROR: " ++ debug_text y e ++ nl) (Exited 1) in
  match read_bytes (disk y) input with
  | None => refuse None
  | Some contents =>
      match Disasm.disassemble_cmd fuel positions arrived_from (match type with Some t => t | None => "raw" end) (str_bytes contents) with
      | Ok (inl text) => store y output (str_bytes text) ""
      | Ok (inr e) => refuse (Some e)
      | Diverge => mkEffects [] "" "" Running
      | _ => mkEffects [] "" "" Crashed
      end
  end.

(** The report of an [IconError], /repo/src/lib.rs 177-222. *)
Definition icon_message (x : texts) (e : error) : string :=
  match e with
  | InvalidPaletteSize size expected =>
      "[ERROR] Too many colors in " ++ x_path x ++ ": " ++ show_dec size ++ ". Must be " ++ show_dec expected ++ " or less." ++ nl
  | InvalidIconSize w h =>
      "[ERROR] Image " ++ x_path x ++ " is the wrong size. It should be " ++ show_dec w ++ "x" ++ show_dec h ++ "." ++ nl
  | FileLoadFailure name => "Error loading file " ++ name ++ ": " ++ x_reason x ++ nl ++ nl
  | _ => "Error parsing image " ++ x_path x ++ ": " ++ x_reason x ++ nl ++ nl
  end.

(** The icon command, /repo/src/lib.rs 159-223. *)
Definition run_icon (y : system) (input : string) (speed eyecatch : option string) : effects :=
  match icon_cmd (album y) (arguments y) input speed eyecatch with
  | Ok text => mkEffects [] text "" (Exited 0)
  | Err e => mkEffects [] "" (icon_message (foreign y e) e) (Exited 1)
  | Panic => mkEffects [] "" "" Crashed
  | Diverge => mkEffects [] "" "" Running
  end.

(** The image command, /repo/src/lib.rs 224-246: the file gets what one call of [write] takes. *)
Definition run_image (y : system) (input : string) (output format : option string) : effects :=
  match image_cmd (json_text y) (album y) input output format with
  | Ok (Some path, text) =>
      let bytes := str_bytes text in
      if creatable y path then
        match taken y path (List.length bytes) with
        | Some n => mkEffects [(path, firstn n bytes)] "" "" (Exited 0)
        | None => mkEffects [(path, [])] "" "" Crashed
        end
      else mkEffects [] "" "" Crashed
  | Ok (None, text) => mkEffects [] text "" (Exited 0)
  | Diverge => mkEffects [] "" "" Running
  | _ => mkEffects [] "" "" Crashed
  end.

(** The name of the output of [vmi], /repo/src/lib.rs 250-252. *)
Definition vmi_output (input : string) (output : option string) : string :=
  match output with Some path => path | None => strip_vms input ++ ".vmi" end.

(** The vmi command, /repo/src/lib.rs 247-277 and 348-474. *)
Definition run_vmi (y : system) (input : string) (output copyright : option string) (game : bool) : effects :=
  match read_bytes (disk y) input with
  | None => mkEffects [] "" ("[ERROR] Failed to generate VMI from " ++ input ++ nl ++ nl ++ "✘ ") (Exited 1)
  | Some contents =>
      match generate_vmi input (str_bytes contents) (match copyright with Some c => c | None => "" end) (vmi_offset game) (clock y) with
      | Ok bytes => store y (vmi_output input output) bytes ""
      | Diverge => mkEffects [] "" "" Running
      | _ => mkEffects [] "" "" Crashed
      end
  end.

(** [run_command], /repo/src/lib.rs 122-345. *)
Definition run (y : system) (pr : profile) (fuel : nat) (c : command) : effects :=
  match c with
  | Assemble input output => run_assemble y pr fuel input output
  | Disassemble positions arrived_from type input output => run_disassemble y fuel positions arrived_from type input output
  | Icon input speed eyecatch => run_icon y input speed eyecatch
  | Image input output format => run_image y input output format
  | MakeVmi input output copyright game => run_vmi y input output copyright game
  | Expand input => run_expand y pr fuel input
  | Version => mkEffects [] (version_text y) "" (Exited 0)
  | NoCommand => mkEffects [] "" ("No subcommand specified" ++ nl) (Exited 1)
  end.
