(** Specification side of pictures: colour reduction, packed bits, the layout of sprites and icons. *)
From Coq Require Import ZArith List String Bool.
From Verif Require Import Base Img.
Import ListNotations.
Open Scope Z_scope.

Definition byte (n : Z) : Prop := 0 <= n <= 255.

Definition byte_color (c : color) : Prop := byte (red c) /\ byte (green c) /\ byte (blue c) /\ byte (alpha c).

(** [l] is the 4-bit level whose 8-bit expansion is nearest to [c]. *)
Definition nearest (c l : Z) : Prop := 0 <= l <= 15 /\ forall k, 0 <= k <= 15 -> Z.abs (17 * l - c) <= Z.abs (17 * k - c).

(** The colour with 4 bits per channel. *)
Definition reduced (c r : color) : Prop :=
  nearest (red c) (red r) /\ nearest (green c) (green r) /\ nearest (blue c) (blue r) /\ nearest (alpha c) (alpha r).

(** A colour packed as ARGB4444. *)
Definition argb4444 (c : color) : Z := 4096 * alpha c + 256 * red c + 16 * green c + blue c.

(** ** Sprites *)

(** Bytes per row. *)
Definition row_bytes (d : decoded) : Z := (Z.of_nat (d_width d) + 7) / 8.

(** Bytes of a bit plane. *)
Definition plane (d : decoded) : Z := Z.of_nat (d_height d) * row_bytes d.

(** Bytes of a frame. *)
Definition frame_bytes (header masked : bool) (d : decoded) : Z :=
  (if header then 2 else 0) + (if masked then 2 else 1) * plane d.

(** Offset of frame [k]. *)
Definition frame_offset (header masked : bool) (ds : list decoded) (k : nat) : Z :=
  fold_right (fun d a => frame_bytes header masked d + a) 0 (firstn k ds).

(** In [out], the bit plane at [base] has [bit] at each pixel and [pad] in the unused bits of a row. *)
Definition bit_plane (out : list Z) (base : Z) (d : decoded) (bit : color -> bool) (pad : bool) : Prop :=
  forall x y, (y < d_height d)%nat -> 0 <= x < 8 * row_bytes d ->
    exists b, get_at out (base + Z.of_nat y * row_bytes d + x / 8) = Some b /\
      Z.testbit b (7 - x mod 8) =
        if x <? Z.of_nat (d_width d) then bit (d_pixel d (Z.to_nat x) y) else pad.

(** Hundredfold brightness; pixels below half brightness (127.5) are black. *)
Definition brightness (c : color) : Z := 30 * red c + 59 * green c + 11 * blue c.

(** A decision between black and white that is right wherever the brightness is not exactly one half. *)
Definition shading (black : color -> bool) : Prop :=
  forall c, byte_color c -> (brightness c < 12750 -> black c = true) /\ (12750 < brightness c -> black c = false).

Definition clear (c : color) : bool := alpha c <? 128.

(** The pictures have pixels made of bytes, and as many frames and pixels as fit into an image. *)
Definition sprite_input (header masked : bool) (ds : list decoded) : Prop :=
  (forall d, In d ds -> (header = true -> 0 < Z.of_nat (d_height d) <= 255 /\ Z.of_nat (d_width d) <= 255) /\
     forall x y, byte_color (d_pixel d x y)) /\
  frame_offset header masked ds (List.length ds) <= 2147483646.

(** ** Icons *)

(** Pixels are made of bytes. *)
Definition byte_pictures (ds : list decoded) : Prop := forall d x y, In d ds -> byte_color (d_pixel d x y).

(** The colours of the pictures, reduced to 4 bits per channel. *)
Definition used (ds : list decoded) (r : color) : Prop :=
  exists d x y, In d ds /\ (x < d_width d)%nat /\ (y < d_height d)%nat /\ reduced (d_pixel d x y) r.

(** There are exactly [n] of them. *)
Definition colors (ds : list decoded) (n : Z) : Prop :=
  exists l, NoDup l /\ (forall r, In r l <-> used ds r) /\ Z.of_nat (List.length l) = n.

Definition dims (w h : nat) (d : decoded) : Prop := d_width d = w /\ d_height d = h.

(** The 16-bit number, low byte first, at an offset. *)
Definition word_at (out : list Z) (o v : Z) : Prop :=
  exists lo hi, get_at out o = Some lo /\ get_at out (o + 1) = Some hi /\ byte lo /\ byte hi /\ v = lo + 256 * hi.

(** Pixel [n] (counting from zero) of the 4-bit pixels at [base], two in a byte, the first in the high half. *)
Definition nibble_at (out : list Z) (base n i : Z) : Prop :=
  exists b, get_at out (base + n / 2) = Some b /\ byte b /\ i = if n mod 2 =? 0 then b / 16 else b mod 16.

(** The eyecatch type for a number of colours, and the length of its block. *)
Definition eyecatch_kind (n : Z) : Z := if n <=? 16 then 3 else if n <=? 256 then 2 else 1.
Definition eyecatch_length (kind : Z) : Z :=
  if kind =? 3 then 2048 else if kind =? 2 then 4544 else if kind =? 1 then 8064 else 0.

(** Pixels [0 .. w*h) of a picture in reading order. *)
Definition pixel_no (d : decoded) (n : Z) : color :=
  d_pixel d (Z.to_nat (n mod Z.of_nat (d_width d))) (Z.to_nat (n / Z.of_nat (d_width d))).

(** The word at [o] is the reduced colour [c]. *)
Definition color_at (out : list Z) (o : Z) (c : color) : Prop :=
  exists r, reduced c r /\ word_at out o (argb4444 r).

(** The pixels of [d] are at [pixels] as 4-bit indices into the palette at [table]. *)
Definition indexed4 (out : list Z) (table pixels : Z) (d : decoded) : Prop :=
  forall n, 0 <= n < Z.of_nat (d_width d) * Z.of_nat (d_height d) ->
    exists i, nibble_at out pixels n i /\ color_at out (table + 2 * i) (pixel_no d n).

(** The same with indices of 8 bits. *)
Definition indexed8 (out : list Z) (table pixels : Z) (d : decoded) : Prop :=
  forall n, 0 <= n < Z.of_nat (d_width d) * Z.of_nat (d_height d) ->
    exists i, get_at out (pixels + n) = Some i /\ byte i /\ color_at out (table + 2 * i) (pixel_no d n).

(** The pixels themselves. *)
Definition direct (out : list Z) (pixels : Z) (d : decoded) : Prop :=
  forall n, 0 <= n < Z.of_nat (d_width d) * Z.of_nat (d_height d) -> color_at out (pixels + 2 * n) (pixel_no d n).

(** The block of an eyecatch of a kind. *)
Definition eyecatch_block (out : list Z) (base kind : Z) (d : decoded) : Prop :=
  if kind =? 3 then indexed4 out base (base + 32) d
  else if kind =? 2 then indexed8 out base (base + 512) d
  else direct out base d.

(** The eyecatch, if any: its first picture and its kind. *)
Inductive eyecatch_input (pics : pictures) : option string -> option decoded -> Z -> Prop :=
  | no_eyecatch : eyecatch_input pics None None 0
  | an_eyecatch path e more n : pics path = Ok (e :: more) -> byte_pictures [e] -> dims 72 56 e -> colors [e] n ->
      eyecatch_input pics (Some path) (Some e) (eyecatch_kind n).

(** The icon pictures: 32 by 32 pixels, at most 16 colours, as many as can be counted in 16 bits. *)
Definition icon_input (pics : pictures) (path : string) (ds : list decoded) : Prop :=
  pics path = Ok ds /\ byte_pictures ds /\ (forall d, In d ds -> dims 32 32 d) /\
  (exists n, colors ds n /\ n <= 16) /\ Z.of_nat (List.length ds) <= 65535.

(** A speed that is a 16-bit number; without one it is 10. *)
Definition speed_value (speed : option Z) (v : Z) : Prop := v = match speed with Some s => s | None => 10 end /\ 0 <= v <= 65535.
