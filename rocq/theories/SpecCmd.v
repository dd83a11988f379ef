(** Specification side of the icon and image commands. *)
From Coq Require Import ZArith List String Ascii Bool.
From Verif Require Import Base Img SpecImg SpecLex SpecPrint Files.
From Verif Require SpecUtf8.
Import ListNotations.
Open Scope string_scope.
Open Scope Z_scope.

(** The value of a string of decimal digits. *)
Fixpoint value (acc : Z) (s : string) : Z :=
  match s with EmptyString => acc | String c t => value (10 * acc + (Z.of_nat (nat_of_ascii c) - 48)) t end.

Definition decimal_digit (c : ascii) : Prop := (48 <= nat_of_ascii c <= 57)%nat.

(** A number as written for the animation speed: digits, possibly behind a plus sign. *)
Definition speed_text (s : string) (n : Z) : Prop :=
  exists digits, (s = digits \/ s = String "+" digits) /\ digits <> "" /\ all_chars decimal_digit digits /\ value 0 digits = n.

(** The speed asked for: 10 if there is none. *)
Definition speed_given (speed : option string) (n : Z) : Prop :=
  match speed with None => n = 10 | Some s => speed_text s n /\ n <= 65535 end.

(** Text on one line, in UTF-8, as all text in Rust. *)
Definition one_line (s : string) : Prop := all_chars no_break s /\ SpecUtf8.utf8 s.

(** The layout of an icon (C35, C36 and C50). *)
Definition icon_layout (out : list Z) (ds : list decoded) (speed kind : Z) (e : option decoded) : Prop :=
  let frames := Z.of_nat (List.length ds) in
  Z.of_nat (List.length out) = 64 + 512 * frames + eyecatch_length kind /\
  word_at out 0 frames /\ word_at out 2 speed /\ word_at out 4 kind /\ word_at out 6 0 /\ word_at out 8 0 /\ word_at out 10 0 /\
  (forall o, 12 <= o < 32 -> get_at out o = Some 0) /\
  (forall k d, nth_error ds k = Some d -> indexed4 out 32 (64 + 512 * Z.of_nat k) d) /\
  (forall d, e = Some d -> eyecatch_block out (64 + 512 * frames) kind d).

(** The layout of sprites with headers (C37). *)
Definition sprite_layout (black : color -> bool) (masked : bool) (ds : list decoded) (out : list Z) : Prop :=
  Z.of_nat (List.length out) = frame_offset true masked ds (List.length ds) /\
  forall k d, nth_error ds k = Some d ->
    let base := frame_offset true masked ds k in
    get_at out base = Some (Z.of_nat (d_width d)) /\ get_at out (base + 1) = Some (Z.of_nat (d_height d)) /\
    (masked = true -> bit_plane out (base + 2) d clear true) /\
    bit_plane out (base + 2 + (if masked then plane d else 0)) d black false.

(** Whether a format asks for masks; other names than those of formats count as [1bit-asm]. *)
Definition asm_format (format : option string) (masked : bool) : Prop :=
  if masked then format = Some "1bit-asm-masked"
  else format <> Some "json" /\ format <> Some "json-pretty" /\ format <> Some "1bit-asm-masked".

(** Rows of pixels that are those of a picture. *)
Definition pixels_of (rows : list (list color)) (d : decoded) : Prop :=
  List.length rows = d_height d /\
  forall y, (y < d_height d)%nat -> exists row, nth_error rows y = Some row /\ List.length row = d_width d /\
    forall x, (x < d_width d)%nat -> nth_error row x = Some (d_pixel d x y).
