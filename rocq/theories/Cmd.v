(** The icon and image commands: /repo/src/lib.rs 159-176 and 224-246. *)
From Coq Require Import ZArith List String Ascii Bool.
From Verif Require Import Base Expr Ast Printer Img.
Import ListNotations.
Open Scope string_scope.
Open Scope list_scope.
Open Scope Z_scope.

(** [unwrap] of a result, /repo/src/lib.rs 162 and 228: an error becomes a panic. *)
Definition unwrap {A : Type} (o : outcome A) : outcome A :=
  match o with Err _ => Panic | _ => o end.

(** The digits of [s.parse::<u16>()], /repo/src/lib.rs 162: [u16::from_str] fails on anything but a digit
    and on overflow. *)
Fixpoint u16_digits (acc : Z) (s : string) : option Z :=
  match s with
  | EmptyString => Some acc
  | String c t =>
      let d := Z.of_nat (nat_of_ascii c) - 48 in
      if (0 <=? d) && (d <=? 9) then
        let n := 10 * acc + d in
        if n <=? 65535 then u16_digits n t else None
      else None
  end.

(** [s.parse::<u16>()], /repo/src/lib.rs 162: one plus sign is allowed in front, and there must be a digit. *)
Definition parse_u16 (s : string) : option Z :=
  match s with
  | EmptyString => None
  | String c t =>
      if Ascii.eqb c "+" then (match t with EmptyString => None | _ => u16_digits 0 t end)
      else u16_digits 0 s
  end.

(** [matches.value_of("SPEED").map(|s| s.parse::<u16>().unwrap())], /repo/src/lib.rs 162. *)
Definition speed_argument (speed : option string) : outcome (option Z) :=
  match speed with
  | None => Ok None
  | Some s => match parse_u16 s with Some n => Ok (Some n) | None => Panic end
  end.

(** The icon command, /repo/src/lib.rs 159-176: the text written to the standard output.  [args] are the
    arguments of the program; [input], [speed] and [eyecatch] are what clap finds in them (external).
    Simplified: an error, which is reported and ends the program (177-222), is just returned. *)
Definition icon_cmd (pics : pictures) (args : list string) (input : string) (speed eyecatch : option string) : outcome string :=
  let! s := speed_argument speed in
  let! stmts := to_icon pics input s eyecatch in
  Ok (show_statement (SComment "NOTE: This file was generated by the waterbear assembler:") ++ String "010" "" ++
      show_statement (SComment (String.concat " " args)) ++ String "010" "" ++
      show_statements stmts ++ String "010" "")%string.

(** [ImageFormat], /repo/src/img.rs 36-42. *)
Inductive image_format : Type := Json | JsonPretty | Asm1Bit | Asm1BitMasked.

(** [ImageFormat::from], /repo/src/img.rs 55-63. *)
Definition format_from (name : string) : option image_format :=
  if String.eqb name "json" then Some Json
  else if String.eqb name "json-pretty" then Some JsonPretty
  else if String.eqb name "1bit-asm" then Some Asm1Bit
  else if String.eqb name "1bit-asm-masked" then Some Asm1BitMasked
  else None.

(** The image command, /repo/src/lib.rs 224-246: the file written, if it is not the standard output, and the
    text.  [json] stands for serde_json, which is external; [bool] tells whether it prints prettily.
    Simplified: the output file can be created and takes the whole text at once ([outfile.write], 241, may write less). *)
Definition image_cmd (json : bool -> image -> string) (pics : pictures) (input : string) (output format : option string)
  : outcome (option string * string) :=
  let fmt := match format_from (match format with Some f => f | None => "" end) with Some f => f | None => Asm1Bit end in
  let! img := unwrap (load_image pics input) in
  let! text :=
    match fmt with
    | Json => Ok (json false img)
    | JsonPretty => Ok (json true img)
    | Asm1Bit => let! stmts := image_1bit img false true in Ok (show_statements stmts)
    | Asm1BitMasked => let! stmts := image_1bit img true true in Ok (show_statements stmts)
    end in
  match output with
  | Some path => Ok (Some path, text)
  | None => Ok (None, text ++ String "010" "")%string
  end.
