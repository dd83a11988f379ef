(** What included data files should put into the image. *)
From Coq Require Import ZArith List String Ascii Bool.
From Verif Require Import Base Expr Ast Files Img SpecLine SpecInclude SpecAsm SpecImg SpecCmd.
Import ListNotations.
Open Scope string_scope.
Open Scope list_scope.
Open Scope Z_scope.

(** The animation speed of an icon: 10, or the low 16 bits of an expression without names. *)
Definition icon_speed (pr : profile) (speed : option expr) (v : Z) : Prop :=
  match speed with
  | None => v = 10
  | Some e => exists n, eval pr (mkEnv "HashMap" (fun _ => None)) e = Ok n /\ v = n mod 65536
  end.

(** The eyecatch file of an icon: its path is a string. *)
Inductive eyecatch_path (w : fs) (root : string) : option byte_value -> option string -> Prop :=
| ep_none : eyecatch_path w root None None
| ep_some : forall t q, found w root t q -> eyecatch_path w root (Some (BVString (codes t))) (Some q).

(** The layout of sprites (C37): each frame is the header, if asked for, the mask, if masked, and the image. *)
Definition sprites (black : color -> bool) (header masked : bool) (ds : list decoded) (out : list Z) : Prop :=
  Z.of_nat (List.length out) = frame_offset header masked ds (List.length ds) /\
  forall k d, nth_error ds k = Some d ->
    let base := frame_offset header masked ds k in
    let mask := base + (if header then 2 else 0) in
    (header = true -> get_at out base = Some (Z.of_nat (d_width d)) /\ get_at out (base + 1) = Some (Z.of_nat (d_height d))) /\
    (masked = true -> bit_plane out mask d clear true) /\
    bit_plane out (mask + (if masked then plane d else 0)) d black false.

(** [contents black pr w pics root t p bs]: an include directive of kind [t] with the path [p] in a program whose main file is
    [root] stands for the bytes [bs]. *)
Inductive contents (black : color -> bool) (pr : profile) (w : fs) (pics : pictures) (root : string)
  : include_type -> string -> list Z -> Prop :=
| cn_bytes : forall p q c, found w root p q -> read_bytes w q = Some c -> contents black pr w pics root IncBytes p (codes c)
| cn_icon : forall speed eye p q v eq ds e kind bs, found w root p q -> pics q = Ok ds ->
    icon_speed pr speed v -> eyecatch_path w root eye eq -> eyecatch_input pics eq e kind ->
    icon_layout bs ds v kind e -> contents black pr w pics root (IncIcon speed eye) p bs
| cn_sprite : forall t h p q ds bs, found w root p q -> pics q = Ok ds ->
    sprites black (match h with HeaderYes => true | HeaderNo => false end) (match t with Masked => true | Simple => false end) ds bs ->
    contents black pr w pics root (IncSprite t h) p bs.

(** Pictures as the decoders give them: channels of 8 bits, frames of one size, and not more than 65535 of them. *)
Definition picture_files (pics : pictures) : Prop :=
  forall q ds, pics q = Ok ds -> byte_pictures ds /\ Z.of_nat (List.length ds) <= 65535 /\
    exists w h, (0 < h)%nat /\ forall d, In d ds -> dims w h d.

(** No statement from position [k] on writes at offset [o]. *)
Definition kept_from (prog : list statement) (k : nat) (o : Z) : Prop :=
  forall j, (k <= j)%nat -> ~ (addr (firstn j prog) <= o < addr (firstn (S j) prog)).
