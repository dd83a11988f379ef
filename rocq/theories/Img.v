(** Pictures, icons and sprites: /repo/src/img.rs, and the include arms of /repo/src/asm.rs 160-223. *)
From Coq Require Import ZArith List String Ascii Bool SpecFloat.
From Verif Require Import Base Expr Ast Printer.
Import ListNotations.
Open Scope string_scope.
Open Scope list_scope.
Open Scope Z_scope.

(** ** [f64] arithmetic: the IEEE 754 binary64 operations of Coq's standard library, used for the
    [f64] expressions of /repo/src/img.rs 87-92 and 104-107. *)

(** Multiplication, rounding to nearest even (/repo/src/img.rs 89). *)
Definition fmul (x y : spec_float) : spec_float := SFmul 53 1024 x y.

(** Addition (/repo/src/img.rs 104-106). *)
Definition fadd (x y : spec_float) : spec_float := SFadd 53 1024 x y.

(** Division (/repo/src/img.rs 89). *)
Definition fdiv (x y : spec_float) : spec_float := SFdiv 53 1024 x y.

(** [c as f64] for a byte and the literal [255.0f64] (/repo/src/img.rs 87, 89): exact. *)
Definition of_int (n : Z) : spec_float := binary_normalize 53 1024 n 0 false.

(** The literal [0.3f64] (/repo/src/img.rs 104): the double nearest to 3/10, which is the quotient. *)
Definition f03 : spec_float := fdiv (of_int 3) (of_int 10).

(** The literal [0.59f64] (/repo/src/img.rs 105). *)
Definition f059 : spec_float := fdiv (of_int 59) (of_int 100).

(** The literal [0.11f64] (/repo/src/img.rs 106). *)
Definition f011 : spec_float := fdiv (of_int 11) (of_int 100).

(** [.round() as u8] (/repo/src/img.rs 89-92 and 107): to the nearest integer, halves away from zero;
    then the cast saturates, and maps NaN to 0. *)
Definition round_u8 (x : spec_float) : Z :=
  match x with
  | S754_zero _ | S754_nan => 0
  | S754_infinity s => if s then 0 else 255
  | S754_finite s m e =>
      if s then 0
      else
        let n := match e with
                 | Z0 => Z.pos m
                 | Zpos _ => Z.pos m * 2 ^ e
                 | Zneg p => (2 * Z.pos m + 2 ^ Z.pos p) / (2 * 2 ^ Z.pos p)
                 end in
        if 255 <? n then 255 else n
  end.

(** ** Colours *)

(** [Color], /repo/src/img.rs 66-72. *)
Record color : Type := mkColor { red : Z; green : Z; blue : Z; alpha : Z }.

(** Derived [PartialEq], /repo/src/img.rs 66. *)
Definition color_eqb (a b : color) : bool :=
  (red a =? red b) && (green a =? green b) && (blue a =? blue b) && (alpha a =? alpha b).

(** [Color::default], /repo/src/img.rs 74-83. *)
Definition black : color := mkColor 0 0 0 0.

(** One line of [Color::scale_channels], /repo/src/img.rs 89. *)
Definition scale (max c : Z) : Z := round_u8 (fdiv (fmul (of_int max) (of_int c)) (of_int 255)).

(** [Color::scale_channels], /repo/src/img.rs 86-94. *)
Definition scale_color (max : Z) (c : color) : color :=
  mkColor (scale max (red c)) (scale max (green c)) (scale max (blue c)) (scale max (alpha c)).

(** [Color::to_palette_color], /repo/src/img.rs 96-101. *)
Definition to_palette_color (c : color) : Z :=
  Z.lor (Z.lor (Z.lor (Z.shiftl (Z.land (alpha c) 15) 12) (Z.shiftl (Z.land (red c) 15) 8))
               (Z.shiftl (Z.land (green c) 15) 4))
        (Z.land (blue c) 15).

(** The grey level computed by [Color::grayscale], /repo/src/img.rs 103-107. *)
Definition gray_level (c : color) : Z :=
  round_u8 (fadd (fadd (fmul f03 (of_int (red c))) (fmul f059 (of_int (green c)))) (fmul f011 (of_int (blue c)))).

(** [Color::grayscale], /repo/src/img.rs 103-114. *)
Definition grayscale (c : color) : color :=
  let g := gray_level c in mkColor g g g (alpha c).

(** [Color::transparency], /repo/src/img.rs 117-123. *)
Definition transparency (c : color) : Z := if alpha c <=? 127 then 1 else 0.

(** ** Frames *)

(** [Frame], /repo/src/img.rs 126-130: its rows.  Simplified: the delay, which is only copied, is dropped. *)
Definition frame : Type := list (list color).

(** What the image decoders deliver for one frame, /repo/src/img.rs 509-516: dimensions and pixels.
    The decoders themselves (crate [image]) are not modelled. *)
Record decoded : Type := mkDecoded { d_width : nat; d_height : nat; d_pixel : nat -> nat -> color }.

(** [to_frame], /repo/src/img.rs 509-530. *)
Definition to_frame (d : decoded) : frame :=
  map (fun y => map (fun x => d_pixel d x y) (seq 0 (d_width d))) (seq 0 (d_height d)).

(** [Frame::height], /repo/src/img.rs 144-146. *)
Definition height (f : frame) : Z := Z.of_nat (List.length f).

(** [Frame::width], /repo/src/img.rs 148-154; with [height] also [Frame::size], 133-142. *)
Definition width (f : frame) : Z := match f with [] => 0 | row :: _ => Z.of_nat (List.length row) end.

(** [bytes[last_idx] = g(bytes[last_idx])], /repo/src/img.rs 198-201 and 222-224; with no bytes the
    subtraction [bytes.len() - 1] or the indexing panics. *)
Fixpoint set_last (g : Z -> Z) (bytes : list Z) : outcome (list Z) :=
  match bytes with
  | [] => Panic
  | [b] => Ok [g b]
  | b :: t => let! t' := set_last g t in Ok (b :: t')
  end.

(** The loop over a row of the mask, /repo/src/img.rs 193-204. *)
Fixpoint mask_row (row : list color) (bytes : list Z) (idx : Z) : outcome (list Z) :=
  match row with
  | [] => Ok bytes
  | c :: t =>
      let bit := transparency c in
      let! bytes' :=
        if idx mod 8 =? 0 then Ok (bytes ++ [Z.lor 127 (Z.shiftl bit 7)])
        else
          let p := 7 - idx mod 8 in
          set_last (fun byte => Z.lor (Z.land byte (Z.lxor 255 (Z.shiftl 1 p))) (Z.shiftl bit p)) bytes in
      mask_row t bytes' (idx + 1)
  end.

(** The loop over a row of the image, /repo/src/img.rs 216-227. *)
Fixpoint image_row (row : list color) (bytes : list Z) (idx : Z) : outcome (list Z) :=
  match row with
  | [] => Ok bytes
  | c :: t =>
      let bit := if red (grayscale c) <=? 127 then 1 else 0 in
      let! bytes' :=
        if idx mod 8 =? 0 then Ok (bytes ++ [Z.shiftl bit 7])
        else set_last (fun byte => Z.lor byte (Z.shiftl bit (7 - idx mod 8))) bytes in
      image_row t bytes' (idx + 1)
  end.

(** [Expr::binary], /repo/src/expression.rs 83-85, wrapped as in /repo/src/img.rs 205-209 and 228-232. *)
Definition binary_bytes (l : list Z) : statement :=
  SDirective (DByte (map (fun b => BVExpr (ENumber b Binary)) l)).

(** The loops over the rows, /repo/src/img.rs 190-210 and 213-233; [pack] is the inner loop. *)
Fixpoint pack_rows (pack : list color -> outcome (list Z)) (rows : list (list color)) : outcome (list statement) :=
  match rows with
  | [] => Ok []
  | row :: t =>
      let! bytes := pack row in
      let! rest := pack_rows pack t in
      Ok (binary_bytes bytes :: rest)
  end.

(** [Frame::to_1bit_asm], /repo/src/img.rs 169-236 ([as i32] of the dimensions wraps). *)
Definition frame_1bit (f : frame) (masked include_header : bool) : outcome (list statement) :=
  let header :=
    SComment ("Width: " ++ show_dec (width f) ++ ", Height: " ++ show_dec (height f)) ::
    (if include_header
     then [SDirective (DByte [BVExpr (ENumber (wrap32 (width f)) Decimal); BVExpr (ENumber (wrap32 (height f)) Decimal)])]
     else []) in
  let! mask := if masked then pack_rows (fun row => mask_row row [] 0) f else Ok [] in
  let! image := pack_rows (fun row => image_row row [] 0) f in
  Ok (header ++ mask ++ image).

(** [Frame::is_size], /repo/src/img.rs 238-248. *)
Definition frame_is_size (f : frame) (w h : Z) : bool :=
  (h =? height f) && forallb (fun row => Z.of_nat (List.length row) =? w) f.

(** ** Images *)

(** [Image], /repo/src/img.rs 251-254. *)
Definition image : Type := list frame.

(** [Image::width], /repo/src/img.rs 257-259. *)
Definition image_width (i : image) : outcome Z := match i with [] => Panic | f :: _ => Ok (width f) end.

(** [Image::height], /repo/src/img.rs 261-263. *)
Definition image_height (i : image) : outcome Z := match i with [] => Panic | f :: _ => Ok (height f) end.

(** [Image::as_still], /repo/src/img.rs 269-273. *)
Definition as_still (i : image) : outcome image := match i with [] => Panic | f :: _ => Ok [f] end.

(** [Image::scale_channels], /repo/src/img.rs 275-292. *)
Definition scale_image (max : Z) (i : image) : image := map (map (map (scale_color max))) i.

(** [HashMap<Color, usize>], /repo/src/img.rs 294: an association list. *)
Definition palette : Type := list (color * Z).

(** [palette_map[key]], [contains_key], /repo/src/img.rs 300 and 402. *)
Fixpoint pal_get (p : palette) (c : color) : option Z :=
  match p with
  | [] => None
  | (k, v) :: t => if color_eqb k c then Some v else pal_get t c
  end.

(** Body of the innermost loop of [get_palette], /repo/src/img.rs 300-303. *)
Definition pal_add (st : palette * Z) (c : color) : palette * Z :=
  let '(p, index) := st in
  match pal_get p c with
  | Some _ => (p, index)
  | None => ((c, index) :: p, index + 1)
  end.

(** [Image::get_palette], /repo/src/img.rs 294-308: the three loops run over all pixels in order. *)
Definition get_palette (i : image) : palette :=
  fst (fold_left (fun st f => fold_left (fun st row => fold_left pal_add row st) f st) i ([], 0)).

(** [palette_map.len()], /repo/src/img.rs 354. *)
Definition pal_len (p : palette) : Z := Z.of_nat (List.length p).

(** [Expr::num], /repo/src/expression.rs 79-81. *)
Definition num (n : Z) : expr := ENumber n Hex.

(** [Image::to_frame_count_and_speed], /repo/src/img.rs 310-328. *)
Definition count_and_speed (i : image) (name : string) (speed : Z) : list statement :=
  let n := Z.of_nat (List.length i) in
  [SComment (String "010" (String """" name) ++ """ Frames: " ++ show_dec n ++ ", Speed: " ++ show_dec speed);
   SDirective (DWord [num (wrap32 n); num speed])].

(** [Image::to_1bit_asm], /repo/src/img.rs 330-342. *)
Fixpoint image_1bit (i : image) (masked include_header : bool) : outcome (list statement) :=
  match i with
  | [] => Ok []
  | f :: t =>
      let! a := frame_1bit f masked include_header in
      let! b := image_1bit t masked include_header in
      Ok (a ++ b)
  end.

(** Filling the palette, /repo/src/img.rs 364-367: the loop over the keys.  The order in which a hash
    map delivers its keys is arbitrary; here it is that of the list. *)
Fixpoint fill_palette (p : palette) (table : list color) : outcome (list color) :=
  match p with
  | [] => Ok table
  | (key, idx) :: t => let! table' := write_at table idx key in fill_palette t table'
  end.

(** One line of the palette, /repo/src/img.rs 372-379. *)
Definition palette_line (table : list color) (y : nat) : statement :=
  SDirective (DWord (map (fun x => num (to_palette_color (nth (y * 8 + x) table black))) (seq 0 8))).

(** The lines of the palette, /repo/src/img.rs 371-380. *)
Definition palette_lines (table : list color) : list statement :=
  map (palette_line table) (seq 0 (List.length table / 8)).

(** Looking up a colour, /repo/src/img.rs 402-403 and 416. *)
Definition index_of (p : palette) (c : color) : outcome Z :=
  match pal_get p c with Some i => Ok i | None => Panic end.

(** The pixels of a row with a palette of 16 colours, /repo/src/img.rs 399-406: a row of odd length
    panics. *)
Fixpoint nibbles (p : palette) (row : list color) : outcome (list byte_value) :=
  match row with
  | [] => Ok []
  | [_] => Panic
  | c1 :: c2 :: t =>
      let! i1 := index_of p c1 in
      let! i2 := index_of p c2 in
      let! rest := nibbles p t in
      Ok (BVExpr (num (Z.lor (Z.shiftl (Z.land i1 15) 4) (Z.land i2 15))) :: rest)
  end.

(** The pixels of a row with a palette of 256 colours, /repo/src/img.rs 415-418. *)
Fixpoint indices (p : palette) (row : list color) : outcome (list byte_value) :=
  match row with
  | [] => Ok []
  | c :: t =>
      let! i := index_of p c in
      let! rest := indices p t in
      Ok (BVExpr (num (Z.land i 255)) :: rest)
  end.

(** Rows as [.byte] statements, /repo/src/img.rs 397-408 and 413-420. *)
Fixpoint byte_rows (pack : list color -> outcome (list byte_value)) (f : frame) : outcome (list statement) :=
  match f with
  | [] => Ok []
  | row :: t =>
      let! items := pack row in
      let! rest := byte_rows pack t in
      Ok (SDirective (DByte items) :: rest)
  end.

(** The frames with a palette of 16 colours, /repo/src/img.rs 387-410; [many] tells whether there are
    several frames. *)
Fixpoint nibble_frames (p : palette) (many : bool) (idx : Z) (i : image) : outcome (list statement) :=
  match i with
  | [] => Ok []
  | f :: t =>
      let title :=
        if many then
          [SComment (if idx =? 1 then "Frame " ++ show_dec idx else String "010" "Frame " ++ show_dec idx)]
        else [] in
      let! rows := byte_rows (nibbles p) f in
      let! rest := nibble_frames p many (idx + 1) t in
      Ok (title ++ rows ++ rest)
  end.

(** The frames with a palette of 256 colours, /repo/src/img.rs 412-421. *)
Fixpoint index_frames (p : palette) (i : image) : outcome (list statement) :=
  match i with
  | [] => Ok []
  | f :: t =>
      let! rows := byte_rows (indices p) f in
      let! rest := index_frames p t in
      Ok (rows ++ rest)
  end.

(** The frames without palette, /repo/src/img.rs 424-433. *)
Definition true_color (i : image) : list statement :=
  flat_map (map (fun row => SDirective (DWord (map (fun c => num (Z.land (to_palette_color c) 65535)) row)))) i.

(** [Image::to_icon], /repo/src/img.rs 344-437. *)
Definition image_to_icon (i : image) (p : palette) (name : string) : outcome (list statement) :=
  let len := if pal_len p <=? 16 then 16%nat else if pal_len p <=? 256 then 256%nat else 0%nat in
  if (0 <? len)%nat then
    let! table := fill_palette p (repeat black len) in
    let! pixels := if (len =? 16)%nat then nibble_frames p (1 <? List.length i)%nat 1 i else index_frames p i in
    Ok (SComment (String "010" "Palette for """ ++ name ++ """") :: palette_lines table ++
        SComment (String "010" "Pixel data for """ ++ name ++ """") :: pixels)
  else Ok (true_color i).

(** [Image::is_size], /repo/src/img.rs 439-446. *)
Definition image_is_size (i : image) (w h : Z) : bool := forallb (fun f => frame_is_size f w h) i.

(** ** Icons and sprites as included *)

(** Decoding the file at a path, /repo/src/img.rs 449-507: file access and the decoders are
    external, so this is a parameter of the functions below.  It yields the frames or an error. *)
Definition pictures : Type := string -> outcome (list decoded).

(** [load_image], /repo/src/img.rs 449-507, on top of the decoders. *)
Definition load_image (pics : pictures) (path : string) : outcome image :=
  let! l := pics path in Ok (map to_frame l).

(** [eyecatch_type], /repo/src/img.rs 538-551. *)
Definition eyecatch_type (p : option palette) : Z :=
  match p with
  | Some p => if pal_len p <=? 16 then 3 else if pal_len p <=? 256 then 2 else 1
  | None => 0
  end.

(** The comment for the eyecatch type, /repo/src/img.rs 595-601. *)
Definition eyecatch_comment (t : Z) : string :=
  if t =? 0 then "Eyecatch type is 0: there is no eyecatch image."
  else if t =? 1 then "Eyecatch type is 1: the eyecatch is stored as a 16-bit true color image."
  else if t =? 2 then "Eyecatch type is 2: the eyecatch image has a 256-color palette."
  else "Eyecatch type is 3: the eyecatch image has a 16-color palette.".

(** The statements between frame count and icon data, /repo/src/img.rs 603-614. *)
Definition icon_header (t : Z) : list statement :=
  [SComment (String "010" (eyecatch_comment t));
   SDirective (DWord [num t]);
   SComment (String "010" "Placeholder for CRC checksum.");
   SDirective (DWord [num 0]);
   SComment (String "010" "Placeholder for file data size.");
   SDirective (DWord [num 0; num 0]);
   SComment (String "010" "Reserved bytes.");
   SDirective (DByte (repeat (BVExpr (num 0)) 10));
   SDirective (DByte (repeat (BVExpr (num 0)) 10))].

(** [to_icon], /repo/src/img.rs 553-635.  Simplified: paths in errors are dropped; [Path::display] and
    [to_string_lossy] are the path itself. *)
Definition to_icon (pics : pictures) (icon_path : string) (speed : option Z) (eyecatch_file : option string)
  : outcome (list statement) :=
  let! loaded := load_image pics icon_path in
  let icon := scale_image 15 loaded in
  let p := get_palette icon in
  if 16 <? pal_len p then Err (InvalidPaletteSize (pal_len p) 16)
  else if negb (image_is_size icon 32 32) then Err (InvalidIconSize 32 32)
  else
    let! eyecatch :=
      match eyecatch_file with
      | Some path =>
          let! l := load_image pics path in
          let! s := as_still l in
          Ok (Some (path, scale_image 15 s))
      | None => Ok None
      end in
    let ep := match eyecatch with Some (_, img) => Some (get_palette img) | None => None end in
    let! data := image_to_icon icon p icon_path in
    let stmts :=
      count_and_speed icon icon_path (match speed with Some s => s | None => 10 end) ++
      icon_header (eyecatch_type ep) ++ data in
    match eyecatch, ep with
    | Some (path, img), Some q =>
        if negb (image_is_size img 72 56) then Err (InvalidIconSize 72 56)
        else
          let! more := image_to_icon img q path in
          Ok (stmts ++ more)
    | _, _ => Ok stmts
    end.

(** [as u16] of an [i32], /repo/src/asm.rs 162. *)
Definition wrap16 (z : Z) : Z := z mod 65536.

(** Sprite includes once the path is known, /repo/src/asm.rs 184-223. *)
Definition sprite_statements (pics : pictures) (t : sprite_type) (h : include_header) (path : string)
  : outcome (list statement) :=
  let! img := load_image pics path in
  let! _ :=
    match h with
    | HeaderYes =>
        let! w := image_width img in
        if 255 <? w then Err (SpriteTooWide w)
        else
          let! n := image_height img in
          if 255 <? n then Err (SpriteTooTall n) else Ok tt
    | HeaderNo => Ok tt
    end in
  let hdr := match h with HeaderYes => true | HeaderNo => false end in
  let! stmts := image_1bit img (match t with Simple => false | Masked => true end) hdr in
  Ok (SComment (String "010" "Sprite """ ++ path ++ """ (" ++ show_sprite_type t ++ ", " ++
                (if hdr then "include" else "exclude") ++ " header)") :: stmts).
