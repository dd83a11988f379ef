(** Pictures: colour reduction, sprites, icons and eyecatches (C35, C36, C37, C39, C50). *)
From Coq Require Import ZArith List String Ascii Bool Lia.
From Verif Require Import Base Expr Ast Asm Img SpecImg ImgProofs ImgProofs2 ImgProofs3 ImgProofs5.
Import ListNotations.
Open Scope string_scope.
Open Scope list_scope.
Open Scope Z_scope.

(** ** C39 *)

(** Scaling gives the nearest of the 16 levels. *)
Theorem C39_nearest c : byte c -> nearest c (scale 15 c).
Proof. apply scale_nearest. Qed.
Print Assumptions C39_nearest.

Example C39_nearest_case : byte 127 /\ scale 15 127 = 7 /\ ~ nearest 127 8.
Proof. split; [unfold byte; lia|]. split; [reflexivity|]. intros H. apply nearest_iff in H; [discriminate|unfold byte; lia]. Qed.

(** There is only one such level. *)
Theorem C39_unique c k : byte c -> nearest c k -> k = scale 15 c.
Proof. intros B H. apply nearest_iff in H; auto. now rewrite scale_value. Qed.
Print Assumptions C39_unique.

Theorem C39_monotone c c' : byte c -> byte c' -> c <= c' -> scale 15 c <= scale 15 c'.
Proof. intros B B' H. rewrite !scale_value by assumption. apply Z.div_le_mono; lia. Qed.
Print Assumptions C39_monotone.

Example C39_monotone_case : byte 8 /\ byte 9 /\ scale 15 8 = 0 /\ scale 15 9 = 1.
Proof. unfold byte. repeat split; lia || reflexivity. Qed.

(** Scaling the 8-bit expansion of a level gives the level again. *)
Theorem C39_idempotent l : 0 <= l <= 15 -> scale 15 (17 * l) = l.
Proof. intros H. rewrite scale_value by (unfold byte; lia). symmetry. apply (Z.div_unique _ 34 _ 17); lia. Qed.
Print Assumptions C39_idempotent.

Example C39_idempotent_case : scale 15 (17 * scale 15 200) = scale 15 200 /\ scale 15 200 = 12.
Proof. split; reflexivity. Qed.

(** The whole colour is reduced, and the packed word determines it. *)
Theorem C39_color c : byte_color c -> reduced c (scale_color 15 c).
Proof. apply scale_color_reduced. Qed.
Print Assumptions C39_color.

Theorem C39_packing c w : byte_color c -> w = to_palette_color (scale_color 15 c) ->
  0 <= w <= 65535 /\ scale_color 15 c = mkColor (w / 256 mod 16) (w / 16 mod 16) (w mod 16) (w / 4096).
Proof.
  intros B ->. pose proof (scale_levels c B) as L. rewrite (palette_color _ L).
  pose proof (argb_range _ L) as R. split; [exact R|]. destruct (scale_color 15 c) as [r g b a]. unfold levels, argb4444 in *. cbn [red green blue alpha] in *.
  f_equal.
  - replace (4096 * a + 256 * r + 16 * g + b) with ((16 * a + r) * 256 + (16 * g + b)) by lia.
    rewrite Z.div_add_l by lia. rewrite (Z.div_small (16 * g + b)) by lia. apply (Z.mod_unique _ 16 a); lia.
  - replace (4096 * a + 256 * r + 16 * g + b) with ((256 * a + 16 * r + g) * 16 + b) by lia.
    rewrite Z.div_add_l by lia. rewrite (Z.div_small b) by lia. apply (Z.mod_unique _ 16 (16 * a + r)); lia.
  - apply (Z.mod_unique _ 16 (256 * a + 16 * r + g)); lia.
  - apply (Z.div_unique _ 4096 _ (256 * r + 16 * g + b)); lia.
Qed.
Print Assumptions C39_packing.

Example C39_packing_case : byte_color (mkColor 255 130 9 200) /\ to_palette_color (scale_color 15 (mkColor 255 130 9 200)) = 53121.
Proof. split; [unfold byte_color, byte; cbn; lia|reflexivity]. Qed.

(** ** C37 *)

(** Sprites: each frame is the header (if asked for), the mask (if masked) and the image.  One shading [black]
    serves for all pixels of all sprites. *)
Theorem C37_layout : exists black, shading black /\
  forall pr pics t h path ds, pics path = Ok ds -> ds <> [] ->
  let header := match h with HeaderYes => true | HeaderNo => false end in
  let masked := match t with Simple => false | Masked => true end in
  sprite_input header masked ds ->
  exists stmts out, sprite_statements pics t h path = Ok stmts /\ assemble pr stmts = Ok out /\
    Z.of_nat (List.length out) = frame_offset header masked ds (List.length ds) /\
    forall k d, nth_error ds k = Some d ->
      let base := frame_offset header masked ds k in
      let mask := base + (if header then 2 else 0) in
      (header = true -> get_at out base = Some (Z.of_nat (d_width d)) /\ get_at out (base + 1) = Some (Z.of_nat (d_height d))) /\
      (masked = true -> bit_plane out mask d clear true) /\
      bit_plane out (mask + (if masked then plane d else 0)) d black false.
Proof. exists is_black. split; [exact is_black_shading|]. exact sprite_spec. Qed.
Print Assumptions C37_layout.

(** A picture of 9 by 3 pixels in two frames. *)
Definition sample (v : Z) : decoded :=
  mkDecoded 9 3 (fun x y => if Nat.even (x + y) then mkColor v v v 255 else mkColor 255 200 v 0).

Example C37_layout_case :
  let pics := fun _ : string => Ok [sample 0; sample 90] in
  sprite_input true true [sample 0; sample 90] /\
  exists stmts, sprite_statements pics Masked HeaderYes "a.gif" = Ok stmts /\
    assemble Debug stmts = Ok
      [9; 3; 85; 127; 170; 255; 85; 127; 170; 128; 85; 0; 170; 128; 9; 3; 85; 127; 170; 255; 85; 127; 170; 128; 85; 0; 170; 128].
Proof.
  split.
  - split; [|vm_compute; discriminate].
    intros d [<-|[<-|[]]]; (split; [intros _; cbn; lia|]); intros x y; cbn; destruct (Nat.even (x + y)); unfold byte_color, byte; cbn; lia.
  - eexists. split; [vm_compute; reflexivity|vm_compute; reflexivity].
Qed.

(** The size limits: with a header, a first frame that is too wide or too tall is rejected. *)
Theorem C37_too_large pics t path d ds : pics path = Ok (d :: ds) -> (0 < d_height d)%nat ->
  (255 < Z.of_nat (d_width d) -> sprite_statements pics t HeaderYes path = Err (SpriteTooWide (Z.of_nat (d_width d)))) /\
  (Z.of_nat (d_width d) <= 255 < Z.of_nat (d_height d) ->
   sprite_statements pics t HeaderYes path = Err (SpriteTooTall (Z.of_nat (d_height d)))).
Proof.
  intros Hp H0. unfold sprite_statements, load_image. rewrite Hp. cbn [bind map image_width image_height].
  rewrite frame_dims, frame_height by assumption. split; intros H.
  - destruct (Z.ltb_spec 255 (Z.of_nat (d_width d))); [reflexivity|lia].
  - destruct (Z.ltb_spec 255 (Z.of_nat (d_width d))); [lia|]. cbn [bind].
    destruct (Z.ltb_spec 255 (Z.of_nat (d_height d))); [reflexivity|lia].
Qed.
Print Assumptions C37_too_large.

Example C37_too_large_case : (0 < d_height (mkDecoded 256 1 (fun _ _ => black)))%nat /\ 255 < Z.of_nat (d_width (mkDecoded 256 1 (fun _ _ => black))).
Proof. split; [cbn; lia|reflexivity]. Qed.

(** Pixels of exactly half brightness go either way, so black and white is not a function of the brightness. *)
Theorem C37_by_brightness_refuted : exists c c', byte_color c /\ byte_color c' /\ brightness c = brightness c' /\
  sprite_statements (fun _ => Ok [mkDecoded 1 1 (fun _ _ => c)]) Simple HeaderNo "a.png" <>
  sprite_statements (fun _ => Ok [mkDecoded 1 1 (fun _ _ => c')]) Simple HeaderNo "a.png".
Proof.
  exists (mkColor 0 201 81 255), (mkColor 0 179 199 255). split; [unfold byte_color, byte; cbn; lia|]. split; [unfold byte_color, byte; cbn; lia|].
  split; [reflexivity|]. vm_compute. discriminate.
Qed.
Print Assumptions C37_by_brightness_refuted.

(** ** C35, C36, C50 *)

(** Looking up the 4-bit indices of each frame in the palette gives the reduced colours. *)
Theorem C35_pixels pr pics path speed v eye ds e kind :
  icon_input pics path ds -> eyecatch_input pics eye e kind -> speed_value speed v ->
  exists stmts out, to_icon pics path speed eye = Ok stmts /\ assemble pr stmts = Ok out /\
    forall k d, nth_error ds k = Some d -> indexed4 out 32 (64 + 512 * Z.of_nat k) d.
Proof.
  intros I Y S. destruct (icon_spec pr pics path speed v eye ds e kind I Y S) as (stmts & out & E & A & F).
  exists stmts, out. split; [exact E|]. split; [exact A|]. apply F.
Qed.
Print Assumptions C35_pixels.

(** The header fields and the lengths. *)
Theorem C36_layout pr pics path speed v eye ds e kind :
  icon_input pics path ds -> eyecatch_input pics eye e kind -> speed_value speed v ->
  exists stmts out, to_icon pics path speed eye = Ok stmts /\ assemble pr stmts = Ok out /\
    Z.of_nat (List.length out) = 32 + 32 + 512 * Z.of_nat (List.length ds) + eyecatch_length kind /\
    word_at out 0 (Z.of_nat (List.length ds)) /\ word_at out 2 v /\ word_at out 4 kind /\
    word_at out 6 0 /\ word_at out 8 0 /\ word_at out 10 0 /\ forall o, 12 <= o < 32 -> get_at out o = Some 0.
Proof.
  intros I Y S. destruct (icon_spec pr pics path speed v eye ds e kind I Y S) as (stmts & out & E & A & F).
  exists stmts, out. split; [exact E|]. split; [exact A|]. destruct F as (F0 & F1 & F2 & F3 & F4 & F5 & F6 & F7 & _).
  repeat (split; [assumption|]). exact F7.
Qed.
Print Assumptions C36_layout.

(** The eyecatch block: palette of 16, palette of 256 or true colour, by the number of colours. *)
Theorem C50_eyecatch pr pics path speed v eye ds e kind :
  icon_input pics path ds -> eyecatch_input pics (Some eye) (Some e) kind -> speed_value speed v ->
  exists stmts out, to_icon pics path speed (Some eye) = Ok stmts /\ assemble pr stmts = Ok out /\
    eyecatch_block out (64 + 512 * Z.of_nat (List.length ds)) kind e.
Proof.
  intros I Y S. destruct (icon_spec pr pics path speed v (Some eye) ds (Some e) kind I Y S) as (stmts & out & E & A & F).
  exists stmts, out. split; [exact E|]. split; [exact A|]. now apply F.
Qed.
Print Assumptions C50_eyecatch.

(** An icon of two frames with four colours and an eyecatch of 24 colours. *)
Definition icon_frame (v : Z) : decoded :=
  mkDecoded 32 32 (fun x y => if Nat.even x then mkColor v 0 (if Nat.even y then 255 else 0) 255 else mkColor 0 0 0 0).
Definition eyecatch_picture : decoded :=
  mkDecoded 72 56 (fun x y => mkColor (Z.of_nat (Nat.modulo x 12) * 17) 0 (if Nat.even y then 255 else 0) 255).
Definition icon_pictures (path : string) : outcome (list decoded) :=
  if String.eqb path "icon.gif" then Ok [icon_frame 17; icon_frame 250]
  else if String.eqb path "eye.png" then Ok [eyecatch_picture] else Err (FileLoadFailure path).

Lemma icon_frame_bytes v : 0 <= v <= 255 -> forall x y, byte_color (d_pixel (icon_frame v) x y).
Proof. intros V x y. cbn. destruct (Nat.even x), (Nat.even y); unfold byte_color, byte; cbn; lia. Qed.

Lemma icon_pictures_bytes : byte_pictures [icon_frame 17; icon_frame 250].
Proof. intros d x y [<-|[<-|[]]]; apply icon_frame_bytes; lia. Qed.

Lemma eyecatch_bytes : byte_pictures [eyecatch_picture].
Proof.
  intros d x y [<-|[]]. cbn [d_pixel eyecatch_picture]. assert (x mod 12 < 12)%nat by (apply Nat.mod_upper_bound; lia).
  destruct (Nat.even y); unfold byte_color, byte; cbn [red green blue alpha]; lia.
Qed.

Example icon_case : icon_input icon_pictures "icon.gif" [icon_frame 17; icon_frame 250] /\
  eyecatch_input icon_pictures (Some "eye.png") (Some eyecatch_picture) 2 /\ speed_value None 10.
Proof.
  split; [|split].
  - split; [reflexivity|]. split; [exact icon_pictures_bytes|]. split; [intros d [<-|[<-|[]]]; split; reflexivity|].
    split; [|vm_compute; discriminate]. exists 5. split; [|lia]. apply colors_len; [exact icon_pictures_bytes|]. vm_compute. reflexivity.
  - apply (an_eyecatch icon_pictures "eye.png" eyecatch_picture [] 24); [reflexivity|exact eyecatch_bytes|split; reflexivity|].
    apply colors_len; [exact eyecatch_bytes|]. vm_compute. reflexivity.
  - unfold speed_value. split; [reflexivity|lia].
Qed.

Example icon_length_case : exists stmts out, to_icon icon_pictures "icon.gif" None (Some "eye.png") = Ok stmts /\
  assemble Debug stmts = Ok out /\ Z.of_nat (List.length out) = 32 + 32 + 2 * 512 + 4544.
Proof.
  destruct icon_case as (A & B & C). destruct (C36_layout Debug _ _ _ _ _ _ _ _ A B C) as (stmts & out & E & F & L & _).
  exists stmts, out. split; [exact E|]. split; [exact F|exact L].
Qed.

(** Too many colours, wrong dimensions and an eyecatch of wrong dimensions are rejected, in this order. *)
Theorem C36_rejected pics path speed eye ds n : pics path = Ok ds -> byte_pictures ds -> colors ds n ->
  (16 < n -> to_icon pics path speed eye = Err (InvalidPaletteSize n 16)) /\
  (n <= 16 -> (exists d, In d ds /\ ~ dims 32 32 d) -> to_icon pics path speed eye = Err (InvalidIconSize 32 32)) /\
  (forall file e more, icon_input pics path ds -> eye = Some file -> pics file = Ok (e :: more) -> ~ dims 72 56 e ->
     to_icon pics path speed eye = Err (InvalidIconSize 72 56)).
Proof.
  intros Hp B C. split; [now apply icon_many with (ds := ds)|]. split.
  - intros N (d & I & W). eapply icon_wrong; eauto.
  - intros file e more I -> He W. eapply icon_wrong_eyecatch; eauto.
Qed.
Print Assumptions C36_rejected.

Definition many_colors : decoded := mkDecoded 32 32 (fun x y => mkColor (Z.of_nat (Nat.modulo x 16) * 17) (if Nat.even y then 255 else 0) 0 255).

Lemma many_bytes : byte_pictures [many_colors].
Proof.
  intros d x y [<-|[]]. cbn [d_pixel many_colors]. assert (x mod 16 < 16)%nat by (apply Nat.mod_upper_bound; lia).
  destruct (Nat.even y); unfold byte_color, byte; cbn [red green blue alpha]; lia.
Qed.

Example C36_rejected_case : byte_pictures [many_colors] /\ colors [many_colors] 32 /\
  (exists d, In d [icon_frame 17; sample 0] /\ ~ dims 32 32 d) /\ ~ dims 72 56 (icon_frame 17).
Proof.
  split; [exact many_bytes|]. split; [apply colors_len; [exact many_bytes|vm_compute; reflexivity]|].
  split; [exists (sample 0); split; [now right; left|]|]; intros [E _]; discriminate.
Qed.

(** Only icons with these properties are accepted. *)
Theorem C36_accepted pics path speed eye stmts : (forall q ds, pics q = Ok ds -> byte_pictures ds) ->
  to_icon pics path speed eye = Ok stmts ->
  (exists ds n, pics path = Ok ds /\ (forall d, In d ds -> dims 32 32 d) /\ colors ds n /\ n <= 16) /\
  exists e kind, eyecatch_input pics eye e kind.
Proof. apply icon_accepted. Qed.
Print Assumptions C36_accepted.

Example C36_accepted_case : (forall q ds, icon_pictures q = Ok ds -> byte_pictures ds) /\
  exists stmts, to_icon icon_pictures "icon.gif" (Some 3) (Some "eye.png") = Ok stmts.
Proof.
  split.
  - intros q ds. unfold icon_pictures. destruct (String.eqb q "icon.gif"); [intros [= <-]; exact icon_pictures_bytes|].
    destruct (String.eqb q "eye.png"); [intros [= <-]; exact eyecatch_bytes|discriminate].
  - destruct icon_case as (A & B & _). assert (C: speed_value (Some 3) 3) by (unfold speed_value; split; [reflexivity|lia]).
    destruct (C36_layout Debug _ _ _ _ _ _ _ _ A B C) as (stmts & _ & E & _). now exists stmts.
Qed.
