(** The disassembler and the icon writer with the iteration orders of their hash maps made explicit: the
    loops of /repo/src/disasm.rs 72, 190-200, 290, 979, 988 and 1047 and of /repo/src/img.rs 364. *)
From Coq Require Import ZArith List String Ascii Bool.
From Verif Require Import Base Expr Instr Ast Img Disasm.
Import ListNotations.
Open Scope string_scope.
Open Scope list_scope.
Open Scope Z_scope.

(** The orders in which [HashMap::keys] and [HashSet::iter] deliver the entries of a map or set in one run
    of the program; each takes the entries in the order of the model to the order of the run.
    [o_labels] is for /repo/src/disasm.rs 290, [o_lift] for 1047, [o_lifted] for 190-200, [o_jumps] for 72,
    [o_bits] for 979, [o_aliases] for 988 and [o_palette] for /repo/src/img.rs 364. *)
Record orders : Type := mkOrders {
  o_labels : list (Z * instr Z Z) -> list (Z * instr Z Z);
  o_lift : list (Z * instr Z Z) -> list (Z * instr Z Z);
  o_lifted : list (Z * instr expr imode) -> list (Z * instr expr imode);
  o_jumps : list (Z * Z) -> list (Z * Z);
  o_bits : list (Z * string) -> list (Z * string);
  o_aliases : list (Z * string) -> list (Z * string);
  o_palette : palette -> palette
}.

(** [build_names], /repo/src/disasm.rs 202-208, with the loop of line 290 in the order of the run; the
    entries of the two other maps come in their own orders. *)
Definition build_names_in (o : orders) (g : graph) : dnames :=
  mkDnames (fold_left (label_of g) (o_labels o (g_instrs g)) []) (o_bits o psw_bits) (o_aliases o aliases).

(** [disassemble], /repo/src/disasm.rs 16-135, with every loop over a hash map in the order of the run. *)
Definition disassemble_in (o : orders) (fuel : nat) (flag : bool) (entry_points bytes : list Z)
  : fallible (list dstatement) :=
  let! r := build_instruction_graph fuel entry_points bytes in
  match r with
  | inr e => Ok (inr e)
  | inl g =>
      let n := build_names_in o g in
      let! lifted := lift_instrs g n (o_lift o (g_instrs g)) in
      let c := mkListing flag entry_points bytes (mkGraph (g_instrs g) (o_jumps o (g_jumps g))) (o_lifted o lifted) n in
      let! r := emit (S (List.length bytes)) c (fun _ => false) 0 in
      Ok (inl (r ++ tail_part c))
  end.

(** [Image::to_icon], /repo/src/img.rs 344-437, with the loop of line 365 in the order of the run. *)
Definition image_to_icon_in (o : orders) (i : image) (p : palette) (name : string) : outcome (list statement) :=
  let len := if pal_len p <=? 16 then 16%nat else if pal_len p <=? 256 then 256%nat else 0%nat in
  if (0 <? len)%nat then
    let! table := fill_palette (o_palette o p) (repeat black len) in
    let! pixels := if (len =? 16)%nat then nibble_frames p (1 <? List.length i)%nat 1 i else index_frames p i in
    Ok (SComment (String "010" "Palette for """ ++ name ++ """") :: palette_lines table ++
        SComment (String "010" "Pixel data for """ ++ name ++ """") :: pixels)
  else Ok (true_color i).

(** [to_icon], /repo/src/img.rs 553-635, as [to_icon] in Img.v but with the order of the run. *)
Definition to_icon_in (o : orders) (pics : pictures) (icon_path : string) (speed : option Z) (eyecatch_file : option string)
  : outcome (list statement) :=
  let! loaded := load_image pics icon_path in
  let icon := scale_image 15 loaded in
  let p := get_palette icon in
  if 16 <? pal_len p then Err (InvalidPaletteSize (pal_len p) 16)
  else if negb (image_is_size icon 32 32) then Err (InvalidIconSize 32 32)
  else
    let! eyecatch :=
      match eyecatch_file with
      | Some path =>
          let! l := load_image pics path in
          let! s := as_still l in
          Ok (Some (path, scale_image 15 s))
      | None => Ok None
      end in
    let ep := match eyecatch with Some (_, img) => Some (get_palette img) | None => None end in
    let! data := image_to_icon_in o icon p icon_path in
    let stmts :=
      count_and_speed icon icon_path (match speed with Some s => s | None => 10 end) ++
      icon_header (eyecatch_type ep) ++ data in
    match eyecatch, ep with
    | Some (path, img), Some q =>
        if negb (image_is_size img 72 56) then Err (InvalidIconSize 72 56)
        else
          let! more := image_to_icon_in o img q path in
          Ok (stmts ++ more)
    | _, _ => Ok stmts
    end.
