(** Icons as a whole. *)
From Coq Require Import ZArith List String Ascii Bool Lia.
From Verif Require Import Base Expr Instr Ast Asm Img SpecIsa SpecExpr SpecAsm SpecImg AsmProofs AsmProofs5 AsmProofs8 ImgProofs ImgProofs2 ImgProofs3 ImgProofs4.
Import ListNotations.
Open Scope list_scope.
Open Scope Z_scope.

Definition scaled (d : decoded) : frame := map (map (scale_color 15)) (to_frame d).
Definition scaled_all (ds : list decoded) : image := map scaled ds.

Lemma scale_image_frames ds : scale_image 15 (map to_frame ds) = scaled_all ds.
Proof. unfold scale_image, scaled_all. now rewrite map_map. Qed.

Lemma in_frame d c : In c (List.concat (to_frame d)) <-> exists x y, (x < d_width d)%nat /\ (y < d_height d)%nat /\ c = d_pixel d x y.
Proof.
  rewrite in_concat. unfold to_frame. split.
  - intros (row & Ir & Ic). apply in_map_iff in Ir as (y & <- & Iy). apply in_map_iff in Ic as (x & <- & Ix).
    apply in_seq in Ix, Iy. exists x, y. repeat split; lia.
  - intros (x & y & X & Y & ->). exists (map (fun x => d_pixel d x y) (seq 0 (d_width d))). split.
    + apply in_map_iff. exists y. split; [reflexivity|]. apply in_seq. lia.
    + apply in_map_iff. exists x. split; [reflexivity|]. apply in_seq. lia.
Qed.

Lemma scaled_pixels d : List.concat (scaled d) = map (scale_color 15) (List.concat (to_frame d)).
Proof. unfold scaled. now rewrite map_concat. Qed.

Lemma used_iff ds r : byte_pictures ds -> (used ds r <-> In r (all_pixels (scaled_all ds))).
Proof.
  intros B. unfold all_pixels, scaled_all. split.
  - intros (d & x & y & I & X & Y & R). apply reduced_scale in R; [|now apply B].
    apply in_concat. exists (map (scale_color 15) (map (fun x => d_pixel d x y) (seq 0 (d_width d)))). split.
    + apply in_concat. exists (scaled d). split; [now apply in_map|]. unfold scaled, to_frame. apply in_map.
      apply (in_map (fun y => map (fun x => d_pixel d x y) (seq 0 (d_width d)))). apply in_seq. lia.
    + subst r. apply in_map. apply (in_map (fun x => d_pixel d x y)). apply in_seq. lia.
  - intros I. apply in_concat in I as (row & Ir & Ic). apply in_concat in Ir as (f & If & Ir).
    apply in_map_iff in If as (d & <- & Id).
    assert (J : In r (List.concat (scaled d))) by (apply in_concat; eauto). rewrite scaled_pixels in J.
    apply in_map_iff in J as (c & <- & J). apply in_frame in J as (x & y & X & Y & ->). exists d, x, y. repeat (split; [assumption|]).
    apply scale_color_reduced. now apply B.
Qed.

Lemma colors_len ds n : byte_pictures ds -> (colors ds n <-> pal_len (get_palette (scaled_all ds)) = n).
Proof.
  intros B. destruct (palette_good (scaled_all ds)) as [G M]. set (p := get_palette (scaled_all ds)) in *.
  assert (L : pal_len p = Z.of_nat (List.length (map fst p))) by (unfold pal_len; now rewrite map_length). split.
  - intros (l & N & H & <-). rewrite L. f_equal. apply Nat.le_antisymm; apply NoDup_incl_length; auto using good_nodup.
    + intros c I. apply H, used_iff; auto. now apply M.
    + intros c I. apply M, used_iff; auto. now apply H.
  - intros <-. exists (map fst p). split; [now apply good_nodup|]. split; [|now rewrite L].
    intros r. rewrite M. symmetry. now apply used_iff.
Qed.

(** ** Pixels in reading order *)

Lemma get_at_nth {A : Type} (l : list A) n : get_at l (Z.of_nat n) = nth_error l n.
Proof. unfold get_at. destruct (Z.ltb_spec (Z.of_nat n) 0); [lia|]. now rewrite Nat2Z.id. Qed.

Lemma get_at_map {A B : Type} (f : A -> B) l n c : get_at l n = Some c -> get_at (map f l) n = Some (f c).
Proof.
  unfold get_at. destruct (n <? 0); [discriminate|]. intros E. now rewrite (map_nth_error f _ _ E).
Qed.

Lemma pixel_order w h d n : dims w h d -> 0 <= n < Z.of_nat w * Z.of_nat h -> get_at (List.concat (to_frame d)) n = Some (pixel_no d n).
Proof.
  intros [W H] N. destruct (frame_rows d) as [LH LW]. assert (W0 : 0 < Z.of_nat w) by nia.
  set (y := n / Z.of_nat w). set (x := n mod Z.of_nat w).
  assert (E : n = Z.of_nat w * y + x) by (apply Z.div_mod; lia).
  assert (X : 0 <= x < Z.of_nat w) by (apply Z.mod_pos_bound; lia).
  assert (Y : 0 <= y < Z.of_nat h) by (split; [apply Z.div_pos; lia|apply Z.div_lt_upper_bound; lia]).
  unfold pixel_no. rewrite W. fold x y. rewrite E.
  replace (Z.of_nat w * y + x) with (Z.of_nat (Z.to_nat y) * Z.of_nat w + x) by (rewrite Z2Nat.id by lia; lia).
  destruct (nth_error (to_frame d) (Z.to_nat y)) as [row|] eqn:Er; [|apply nth_error_None in Er; lia].
  destruct (frame_pixel d _ _ Er) as [_ ->].
  eapply concat_uniform; [|exact Er|].
  - apply Forall_forall. intros l I. unfold zlen. rewrite (LW l I). now rewrite W.
  - unfold get_at. destruct (Z.ltb_spec x 0); [lia|]. rewrite W.
    apply (map_nth_error (fun x => d_pixel d x (Z.to_nat y))). rewrite (nth_error_nth' _ 0%nat) by (rewrite seq_length; lia).
    now rewrite seq_nth by lia.
Qed.

Lemma frame_count w h d : dims w h d -> List.length (List.concat (to_frame d)) = (w * h)%nat.
Proof.
  intros [W H]. destruct (frame_rows d) as [LH LW]. apply Nat2Z.inj. fold (zlen (List.concat (to_frame d))).
  rewrite (concat_len _ (Z.of_nat w)); [unfold zlen; rewrite LH, H; lia|].
  apply Forall_forall. intros l I. unfold zlen. now rewrite (LW l I), W.
Qed.

Lemma scaled_order w h d n : dims w h d -> 0 <= n < Z.of_nat w * Z.of_nat h ->
  get_at (List.concat (scaled d)) n = Some (scale_color 15 (pixel_no d n)).
Proof. intros D N. rewrite scaled_pixels. apply get_at_map. now apply (pixel_order w h). Qed.

Lemma scaled_count w h d : dims w h d -> List.length (List.concat (scaled d)) = (w * h)%nat.
Proof. intros D. rewrite scaled_pixels, map_length. now apply frame_count. Qed.

Lemma scaled_even w h k d : dims w h d -> w = (2 * k)%nat -> even_rows (scaled d).
Proof.
  intros [W _] E row I. unfold scaled in I. apply in_map_iff in I as (r & <- & I). exists k. rewrite map_length.
  rewrite (proj2 (frame_rows d) r I). congruence.
Qed.

Lemma pixel_no_byte ds d n : byte_pictures ds -> In d ds -> byte_color (pixel_no d n).
Proof. intros B I. unfold pixel_no. now apply B. Qed.

(** ** The three kinds of picture data *)

Section Icon.
Variables (ds : list decoded) (w h : nat).
Hypothesis B : byte_pictures ds.
Hypothesis D : forall d, In d ds -> dims w h d.

Let i := scaled_all ds.
Let p := get_palette i.

Lemma scaled_member f c : In f i -> In c (List.concat f) -> In c (map fst p).
Proof.
  intros I J. apply (proj2 (palette_good i)). unfold all_pixels. apply in_concat in J as (row & Ir & Ic).
  apply in_concat. exists row. split; [|exact Ic]. apply in_concat. eauto.
Qed.

Lemma scaled_levels f c : In f i -> In c (List.concat f) -> levels c.
Proof.
  intros I J. apply in_map_iff in I as (d & <- & Id). rewrite scaled_pixels in J. apply in_map_iff in J as (c' & <- & J).
  apply in_frame in J as (x & y & _ & _ & ->). apply scale_levels. now apply B.
Qed.

Lemma key_levels c : In c (map fst p) -> levels c.
Proof.
  intros J. apply (proj2 (palette_good i)) in J. apply in_concat in J as (row & Ir & Ic). apply in_concat in Ir as (f & If & Ir).
  apply (scaled_levels f); [exact If|]. apply in_concat. eauto.
Qed.

(** The table of a palette with room for it. *)
Lemma table_spec k : pal_len p <= 8 * Z.of_nat k -> exists table, fill_palette p (repeat black (8 * k)) = Ok table /\
  data (palette_lines table) = Some (words (map to_palette_color table)) /\ zlen (words (map to_palette_color table)) = 16 * Z.of_nat k /\
  forall d n, In d ds -> 0 <= n < Z.of_nat w * Z.of_nat h ->
    color_at (words (map to_palette_color table)) (2 * idx p (scale_color 15 (pixel_no d n))) (pixel_no d n).
Proof.
  intros L. destruct (palette_good i) as [G M]. destruct (fill_spec p G (repeat black (8 * k))) as (table & E & Z1 & P1 & _ & P3).
  { unfold zlen. rewrite repeat_length. lia. }
  assert (Lt : List.length table = (8 * k)%nat) by (unfold zlen in Z1; rewrite repeat_length in Z1; lia).
  assert (Ft : Forall levels table).
  { apply Forall_forall. intros c I. destruct (P3 c I) as [J|J]; [|now apply key_levels].
    apply repeat_spec in J. subst c. unfold levels, black. cbn. lia. }
  exists table. split; [exact E|]. split; [now apply (palette_lines_data table k)|].
  split; [rewrite words_len; unfold zlen; rewrite map_length, Lt; lia|].
  intros d n I N. assert (Hb : byte_color (pixel_no d n)) by (now apply (pixel_no_byte ds)).
  assert (Ix : In (scale_color 15 (pixel_no d n)) (map fst p)).
  { apply (scaled_member (scaled d)); [now apply in_map|]. pose proof (scaled_order w h d n (D d I) N) as O.
    unfold get_at in O. destruct (n <? 0); [discriminate|]. eapply nth_error_In; eauto. }
  destruct (index_ok _ _ Ix) as [_ Pg]. pose proof (P1 _ _ Pg) as Gt. pose proof (pal_range _ _ _ G Pg) as R.
  exists (scale_color 15 (pixel_no d n)). split; [now apply scale_color_reduced|].
  rewrite <- palette_color by now apply scale_levels. rewrite <- (Z2Nat.id (idx p _)) by lia.
  apply words_at; [|apply palette_word; now apply scale_levels].
  apply map_nth_error. unfold get_at in Gt. destruct (_ <? 0); [discriminate|exact Gt].
Qed.

Lemma icon_four k name : pal_len p <= 16 -> w = (2 * k)%nat ->
  exists stmts out, image_to_icon i p name = Ok stmts /\ data stmts = Some out /\
    zlen out = 32 + Z.of_nat (List.length ds) * (Z.of_nat k * Z.of_nat h) /\
    forall j d n, nth_error ds j = Some d -> 0 <= n < Z.of_nat w * Z.of_nat h ->
      exists x, nibble_at out (32 + Z.of_nat j * (Z.of_nat k * Z.of_nat h)) n x /\ color_at out (2 * x) (pixel_no d n).
Proof.
  intros L Hw. destruct (palette_good i) as [G M]. destruct (table_spec 2) as (table & E & Dt & Zt & C); [lia|]. change (8 * 2)%nat with 16%nat in E.
  destruct (nibble_frames_data p (1 <? List.length i)%nat i G L) with (n := 1) as (px & Ep & Dp).
  { intros f I. apply in_map_iff in I as (d & <- & Id). eapply scaled_even; eauto. }
  { apply scaled_member. }
  set (ls := map (fun f => pairs p (List.concat f)) i) in *.
  assert (U : Forall (fun l => zlen l = Z.of_nat k * Z.of_nat h) ls).
  { apply Forall_forall. intros l I. apply in_map_iff in I as (f & <- & I). apply in_map_iff in I as (d & <- & I).
    rewrite (pairs_len p (k * h)); [lia|]. rewrite (scaled_count w h) by auto. rewrite Hw. lia. }
  unfold image_to_icon. destruct (Z.leb_spec (pal_len p) 16); [|lia]. change (0 <? 16)%nat with true. change (16 =? 16)%nat with true. cbv iota.
  rewrite E. cbn [bind]. rewrite Ep. cbn [bind].
  eexists _, (words (map to_palette_color table) ++ List.concat ls). split; [reflexivity|].
  split; [apply (data_cons _ _ []); [reflexivity|]; apply data_app; [exact Dt|]; apply (data_cons _ _ []); [reflexivity|exact Dp]|].
  split.
  { rewrite zlen_app, Zt, (concat_len ls _ U). unfold zlen, ls, i, scaled_all. rewrite !map_length. lia. }
  intros j d n Hj N. assert (I : In d ds) by (eapply nth_error_In; eauto).
  exists (idx p (scale_color 15 (pixel_no d n))). split.
  - replace (words (map to_palette_color table) ++ List.concat ls) with (words (map to_palette_color table) ++ List.concat ls ++ []) by now rewrite app_nil_r.
    apply nibble_at_shift; [exact Zt|].
    destruct (pairs_at p (k * h) G L (List.concat (scaled d)) n (scale_color 15 (pixel_no d n))) as (v & V1 & V2).
    + rewrite (scaled_count w h) by auto. rewrite Hw. lia.
    + intros c. apply scaled_member. now apply in_map.
    + apply (scaled_order w h); auto.
    + exists v. split; [|exact V2].
      eapply concat_uniform; [exact U| |exact V1].
      apply (map_nth_error (fun f => pairs p (List.concat f))). now apply map_nth_error.
  - exact (color_at_shift [] _ (List.concat ls) 0 _ _ eq_refl (C d n I N)).
Qed.

Lemma icon_eight name : 16 < pal_len p <= 256 ->
  exists stmts out, image_to_icon i p name = Ok stmts /\ data stmts = Some out /\
    zlen out = 512 + Z.of_nat (List.length ds) * (Z.of_nat w * Z.of_nat h) /\
    forall j d n, nth_error ds j = Some d -> 0 <= n < Z.of_nat w * Z.of_nat h ->
      exists x, get_at out (512 + Z.of_nat j * (Z.of_nat w * Z.of_nat h) + n) = Some x /\ byte x /\ color_at out (2 * x) (pixel_no d n).
Proof.
  intros L. destruct (palette_good i) as [G M]. destruct (table_spec 32) as (table & E & Dt & Zt & C); [lia|]. change (8 * 32)%nat with 256%nat in E.
  destruct (index_frames_data p i G) as (px & Ep & Dp); [lia|apply scaled_member|].
  set (ls := map (fun f => map (idx p) (List.concat f)) i) in *.
  assert (U : Forall (fun l => zlen l = Z.of_nat w * Z.of_nat h) ls).
  { apply Forall_forall. intros l I. apply in_map_iff in I as (f & <- & I). apply in_map_iff in I as (d & <- & I).
    unfold zlen. rewrite map_length, (scaled_count w h) by auto. lia. }
  unfold image_to_icon. destruct (Z.leb_spec (pal_len p) 16); [lia|]. destruct (Z.leb_spec (pal_len p) 256); [|lia].
  change (0 <? 256)%nat with true. change (256 =? 16)%nat with false. cbv iota.
  rewrite E. cbn [bind]. rewrite Ep. cbn [bind].
  eexists _, (words (map to_palette_color table) ++ List.concat ls). split; [reflexivity|].
  split; [apply (data_cons _ _ []); [reflexivity|]; apply data_app; [exact Dt|]; apply (data_cons _ _ []); [reflexivity|exact Dp]|].
  split.
  { rewrite zlen_app, Zt, (concat_len ls _ U). unfold zlen, ls, i, scaled_all. rewrite !map_length. lia. }
  intros j d n Hj N. assert (I : In d ds) by (eapply nth_error_In; eauto).
  exists (idx p (scale_color 15 (pixel_no d n))). split; [|split].
  - replace 512 with (zlen (words (map to_palette_color table))) by (rewrite Zt; reflexivity). rewrite <- Z.add_assoc. apply get_at_app_r.
    eapply concat_uniform; [exact U| |].
    + apply (map_nth_error (fun f => map (idx p) (List.concat f))). exact (map_nth_error scaled j ds Hj).
    + apply get_at_map. apply (scaled_order w h); auto.
  - assert (Ix : In (scale_color 15 (pixel_no d n)) (map fst p)).
    { apply (scaled_member (scaled d)); [now apply in_map|]. pose proof (scaled_order w h d n (D d I) N) as O.
      unfold get_at in O. destruct (n <? 0); [discriminate|]. eapply nth_error_In; eauto. }
    destruct (index_ok _ _ Ix) as [_ Pg]. destruct (pal_range _ _ _ G Pg) as [R1 R2]. destruct L as [_ L].
    split; [exact R1|]. apply Z.lt_succ_r. exact (Z.lt_le_trans _ _ _ R2 L).
  - exact (color_at_shift [] _ (List.concat ls) 0 _ _ eq_refl (C d n I N)).
Qed.

Lemma icon_true name : 256 < pal_len p ->
  exists stmts out, image_to_icon i p name = Ok stmts /\ data stmts = Some out /\
    zlen out = Z.of_nat (List.length ds) * (2 * (Z.of_nat w * Z.of_nat h)) /\
    forall j d n, nth_error ds j = Some d -> 0 <= n < Z.of_nat w * Z.of_nat h ->
      color_at out (Z.of_nat j * (2 * (Z.of_nat w * Z.of_nat h)) + 2 * n) (pixel_no d n).
Proof.
  intros L. set (ls := map (fun f => words (map to_palette_color (List.concat f))) i) in *.
  assert (U : Forall (fun l => zlen l = 2 * (Z.of_nat w * Z.of_nat h)) ls).
  { apply Forall_forall. intros l I. apply in_map_iff in I as (f & <- & I). apply in_map_iff in I as (d & <- & I).
    rewrite words_len. unfold zlen. rewrite map_length, (scaled_count w h) by auto. lia. }
  unfold image_to_icon. destruct (Z.leb_spec (pal_len p) 16); [lia|]. destruct (Z.leb_spec (pal_len p) 256); [lia|].
  change (0 <? 0)%nat with false. cbv iota. eexists _, (List.concat ls). split; [reflexivity|].
  split; [apply true_color_data, scaled_levels|].
  split; [rewrite (concat_len ls _ U); unfold zlen, ls, i, scaled_all; rewrite !map_length; lia|].
  intros j d n Hj N. assert (I : In d ds) by (eapply nth_error_In; eauto).
  assert (Hb : byte_color (pixel_no d n)) by (now apply (pixel_no_byte ds)).
  exists (scale_color 15 (pixel_no d n)). split; [now apply scale_color_reduced|].
  rewrite <- palette_color by now apply scale_levels.
  destruct (words_at (map to_palette_color (List.concat (scaled d))) (Z.to_nat n) (to_palette_color (scale_color 15 (pixel_no d n)))) as (lo & hi & A1 & A2 & A3).
  - apply map_nth_error. pose proof (scaled_order w h d n (D d I) N) as O. unfold get_at in O. destruct (n <? 0); [discriminate|exact O].
  - apply palette_word. now apply scale_levels.
  - rewrite Z2Nat.id in A1, A2 by lia.
    assert (Hl : nth_error ls j = Some (words (map to_palette_color (List.concat (scaled d))))).
    { apply (map_nth_error (fun f => words (map to_palette_color (List.concat f)))). now apply map_nth_error. }
    exists lo, hi. split; [eapply concat_uniform; eauto|]. split; [|exact A3]. rewrite <- Z.add_assoc. eapply concat_uniform; eauto.
Qed.

End Icon.

(** ** Everything together *)

Lemma indexed4_shift a b c base t x d : zlen a = base -> indexed4 b t x d -> indexed4 (a ++ b ++ c) (base + t) (base + x) d.
Proof.
  intros L P n N. destruct (P n N) as (i & Ni & C). exists i. split; [now apply nibble_at_shift|].
  rewrite <- Z.add_assoc. now apply color_at_shift.
Qed.

Lemma indexed8_shift a b c base t x d : zlen a = base -> indexed8 b t x d -> indexed8 (a ++ b ++ c) (base + t) (base + x) d.
Proof.
  intros L P n N. destruct (P n N) as (i & Ni & Bi & C). exists i. rewrite <- !Z.add_assoc. split; [now apply get_at_shift|].
  split; [exact Bi|now apply color_at_shift].
Qed.

Lemma direct_shift a b c base x d : zlen a = base -> direct b x d -> direct (a ++ b ++ c) (base + x) d.
Proof. intros L P n N. rewrite <- Z.add_assoc. apply color_at_shift; auto. Qed.

Lemma size_iff w h d : (0 < h)%nat -> frame_is_size (scaled d) (Z.of_nat w) (Z.of_nat h) = true <-> dims w h d.
Proof.
  intros H. destruct (frame_rows d) as [LH LW]. unfold frame_is_size, dims, height, scaled. rewrite map_length, LH, andb_true_iff, Z.eqb_eq, forallb_forall. split.
  - intros [E F]. split; [|lia]. destruct (to_frame d) as [|row t] eqn:Et; [cbn in LH; lia|].
    specialize (F (map (scale_color 15) row)). rewrite map_length, LW, Z.eqb_eq in F by now left.
    apply Nat2Z.inj, F. cbn. now left.
  - intros [<- <-]. split; [reflexivity|]. intros row I. apply in_map_iff in I as (r & <- & I). apply Z.eqb_eq.
    now rewrite map_length, LW.
Qed.

Lemma image_size_iff w h ds : (0 < h)%nat -> image_is_size (scaled_all ds) (Z.of_nat w) (Z.of_nat h) = true <-> forall d, In d ds -> dims w h d.
Proof.
  intros H. unfold image_is_size, scaled_all. rewrite forallb_forall. split.
  - intros F d I. apply size_iff; auto. apply F. now apply in_map.
  - intros F f I. apply in_map_iff in I as (d & <- & I). apply size_iff; auto.
Qed.

Definition header_bytes (frames speed kind : Z) : list Z :=
  words [frames; speed] ++ words [kind] ++ words [0] ++ words [0; 0] ++ repeat 0 10 ++ repeat 0 10.

Lemma header_data icon name speed kind : Z.of_nat (List.length icon) <= 65535 -> 0 <= speed <= 65535 -> 0 <= kind <= 3 ->
  data (count_and_speed icon name speed ++ icon_header kind) = Some (header_bytes (Z.of_nat (List.length icon)) speed kind).
Proof.
  intros H1 H2 H3. unfold count_and_speed, icon_header, header_bytes. replace (wrap32 (Z.of_nat (List.length icon))) with (Z.of_nat (List.length icon)) by (unfold wrap32; rewrite Z.mod_small; lia).
  set (m := Z.of_nat (List.length icon)) in *. assert (0 <= m) by (unfold m; lia). clearbody m.
  assert (A : stmt_data (SDirective (DWord [num m; num speed])) = Some (words [m; speed])).
  { apply (words_data [m; speed]). repeat constructor; unfold word16; lia. }
  assert (B : stmt_data (SDirective (DWord [num kind])) = Some (words [kind])).
  { apply (words_data [kind]). repeat constructor; unfold word16; lia. }
  unfold data. cbn [all_data app]. rewrite A, B. reflexivity.
Qed.

Lemma header_facts frames speed kind : word16 frames -> word16 speed -> 0 <= kind <= 3 ->
  zlen (header_bytes frames speed kind) = 32 /\
  word_at (header_bytes frames speed kind) 0 frames /\ word_at (header_bytes frames speed kind) 2 speed /\
  word_at (header_bytes frames speed kind) 4 kind /\ word_at (header_bytes frames speed kind) 6 0 /\
  word_at (header_bytes frames speed kind) 8 0 /\ word_at (header_bytes frames speed kind) 10 0 /\
  forall o, 12 <= o < 32 -> get_at (header_bytes frames speed kind) o = Some 0.
Proof.
  intros F S K. replace (header_bytes frames speed kind) with (words [frames; speed; kind; 0; 0; 0] ++ repeat 0 20) by reflexivity.
  assert (W : forall k v, nth_error [frames; speed; kind; 0; 0; 0] k = Some v -> word_at (words [frames; speed; kind; 0; 0; 0] ++ repeat 0 20) (2 * Z.of_nat k) v).
  { intros k v E. assert (V : word16 v).
    { do 6 (destruct k as [|k]; [injection E as <-; unfold word16 in *; lia|]). destruct k; discriminate. }
    exact (word_at_shift [] _ (repeat 0 20) 0 _ _ eq_refl (words_at _ k v E V)). }
  split; [reflexivity|]. split; [exact (W 0%nat _ eq_refl)|]. split; [exact (W 1%nat _ eq_refl)|]. split; [exact (W 2%nat _ eq_refl)|].
  split; [exact (W 3%nat _ eq_refl)|]. split; [exact (W 4%nat _ eq_refl)|]. split; [exact (W 5%nat _ eq_refl)|].
  intros o O. replace o with (zlen (words [frames; speed; kind; 0; 0; 0]) + (o - 12)) by (change (zlen (words [frames; speed; kind; 0; 0; 0])) with 12; lia).
  apply get_at_app_r. apply (get_at_repeat 0 20). lia.
Qed.

Lemma eyecatch_kind_range n : 1 <= eyecatch_kind n <= 3.
Proof. unfold eyecatch_kind. destruct (n <=? 16); [lia|]. destruct (n <=? 256); lia. Qed.

Lemma eyecatch_spec e n name : byte_pictures [e] -> dims 72 56 e -> colors [e] n ->
  exists stmts out, image_to_icon (scaled_all [e]) (get_palette (scaled_all [e])) name = Ok stmts /\ data stmts = Some out /\
    zlen out = eyecatch_length (eyecatch_kind n) /\ eyecatch_block out 0 (eyecatch_kind n) e.
Proof.
  intros B D C. apply colors_len in C; [|exact B]. set (p := get_palette (scaled_all [e])) in *.
  assert (Da : forall d, In d [e] -> dims 72 56 d) by (intros d [<-|[]]; exact D).
  assert (DW : Z.of_nat (d_width e) * Z.of_nat (d_height e) = Z.of_nat 72 * Z.of_nat 56) by (destruct D as [-> ->]; reflexivity).
  unfold eyecatch_kind, eyecatch_block. destruct (Z.leb_spec n 16).
  - destruct (icon_four [e] 72 56 B Da 36 name) as (stmts & out & E & Dd & L & P); [fold p; lia|reflexivity|].
    exists stmts, out. split; [exact E|]. split; [exact Dd|]. split; [exact L|].
    change (3 =? 3) with true. cbv iota. intros m M. rewrite DW in M. exact (P 0%nat e m eq_refl M).
  - destruct (Z.leb_spec n 256).
    + destruct (icon_eight [e] 72 56 B Da name) as (stmts & out & E & Dd & L & P); [fold p; lia|].
      exists stmts, out. split; [exact E|]. split; [exact Dd|]. split; [exact L|].
      change (2 =? 3) with false. change (2 =? 2) with true. cbv iota. intros m M. rewrite DW in M. exact (P 0%nat e m eq_refl M).
    + destruct (icon_true [e] 72 56 B Da name) as (stmts & out & E & Dd & L & P); [fold p; lia|].
      exists stmts, out. split; [exact E|]. split; [exact Dd|]. split; [exact L|].
      change (1 =? 3) with false. change (1 =? 2) with false. cbv iota. intros m M. rewrite DW in M. exact (P 0%nat e m eq_refl M).
Qed.

Definition icon_facts (out : list Z) (ds : list decoded) (speed kind : Z) (e : option decoded) : Prop :=
  let frames := Z.of_nat (List.length ds) in
  zlen out = 64 + 512 * frames + eyecatch_length kind /\
  word_at out 0 frames /\ word_at out 2 speed /\ word_at out 4 kind /\ word_at out 6 0 /\ word_at out 8 0 /\ word_at out 10 0 /\
  (forall o, 12 <= o < 32 -> get_at out o = Some 0) /\
  (forall k d, nth_error ds k = Some d -> indexed4 out 32 (64 + 512 * Z.of_nat k) d) /\
  (forall d, e = Some d -> eyecatch_block out (64 + 512 * frames) kind d).

Lemma icon_data pics path speed v eye ds e kind : icon_input pics path ds -> eyecatch_input pics eye e kind -> speed_value speed v ->
  exists stmts out, to_icon pics path speed eye = Ok stmts /\ (data stmts = Some out /\ zlen out <= 2147483646) /\ icon_facts out ds v kind e.
Proof.
  intros (Hp & B & D & (n & C & N) & F) Y [-> V]. apply colors_len in C; [|exact B].
  assert (K : 0 <= kind <= 3) by (destruct Y as [|? ? ? m]; [lia|pose proof (eyecatch_kind_range m); lia]).
  set (icon := scaled_all ds) in *. set (p := get_palette icon) in *. set (sp := match speed with Some s => s | None => 10 end) in *.
  destruct (icon_four ds 32 32 B D 16 path) as (is & io & Ei & Di & Li & Pi); [fold icon p; lia|reflexivity|]. fold icon p in Ei.
  assert (Ye : exists es eo, data es = Some eo /\ zlen eo = eyecatch_length kind /\ (forall d, e = Some d -> eyecatch_block eo 0 kind d) /\
    to_icon pics path speed eye = Ok (count_and_speed icon path sp ++ icon_header kind ++ is ++ es)).
  { unfold to_icon, load_image. rewrite Hp. cbn [bind]. rewrite scale_image_frames. fold icon. fold p.
    destruct (Z.ltb_spec 16 (pal_len p)); [lia|].
    assert (S : image_is_size icon 32 32 = true) by (apply (image_size_iff 32 32); [lia|exact D]). rewrite S. cbn [negb].
    destruct Y as [|path' e more m Hm Be De Ce].
    - exists [], []. split; [reflexivity|]. split; [reflexivity|]. split; [discriminate|]. cbn [bind]. rewrite Ei. cbn [bind].
      rewrite app_nil_r. reflexivity.
    - destruct (eyecatch_spec e m path' Be De Ce) as (es & eo & Ee & Dee & Le & Pe). exists es, eo.
      split; [exact Dee|]. split; [exact Le|]. split; [intros d [= <-]; exact Pe|].
      rewrite Hm. cbn [bind map as_still].
      change (scale_image 15 [to_frame e]) with (scaled_all [e]). rewrite Ei. cbn [bind].
      assert (Se : image_is_size (scaled_all [e]) 72 56 = true) by (apply (image_size_iff 72 56); [lia|intros d [<-|[]]; exact De]).
      rewrite Se. cbn [negb]. rewrite Ee. cbn [bind eyecatch_type]. apply colors_len in Ce; [|exact Be]. rewrite Ce. fold (eyecatch_kind m).
      rewrite <- !app_assoc. reflexivity. }
  destruct Ye as (es & eo & De & Le & Pe & Et).
  assert (Hd : data (count_and_speed icon path sp ++ icon_header kind) = Some (header_bytes (Z.of_nat (List.length ds)) sp kind)).
  { replace (List.length ds) with (List.length icon) in * by apply map_length. now apply header_data. }
  destruct (header_facts (Z.of_nat (List.length ds)) sp kind) as (H0 & H1 & H2 & H3 & H4 & H5 & H6 & H7); [unfold word16; lia|exact V|exact K|].
  set (hb := header_bytes (Z.of_nat (List.length ds)) sp kind) in *.
  assert (Da : data (count_and_speed icon path sp ++ icon_header kind ++ is ++ es) = Some (hb ++ io ++ eo)).
  { rewrite app_assoc. apply data_app; [exact Hd|]. now apply data_app. }
  assert (Lo : zlen (hb ++ io ++ eo) = 64 + 512 * Z.of_nat (List.length ds) + eyecatch_length kind).
  { rewrite !zlen_app, H0, Li, Le. change (Z.of_nat 16 * Z.of_nat 32) with 512. lia. }
  assert (Lb : 0 <= eyecatch_length kind <= 8064) by (unfold eyecatch_length; destruct (kind =? 3); [lia|]; destruct (kind =? 2); [lia|]; destruct (kind =? 1); lia).
  exists (count_and_speed icon path sp ++ icon_header kind ++ is ++ es), (hb ++ io ++ eo). split; [exact Et|].
  split; [split; [exact Da|lia]|].
  assert (W : forall o x, word_at hb o x -> word_at (hb ++ io ++ eo) o x) by (intros o x X; exact (word_at_shift [] hb (io ++ eo) 0 o x eq_refl X)).
  split; [exact Lo|]. repeat (split; [now apply W|]). split; [intros o O; now apply get_at_app_l, H7|]. split.
  - intros k d Hk n0 N0. destruct (D d (nth_error_In _ _ Hk)) as [E1 E2]. rewrite E1, E2 in N0.
    destruct (Pi k d n0 Hk N0) as (x & X1 & X2). exists x. change (Z.of_nat 16 * Z.of_nat 32) with 512 in X1. split.
    + replace (64 + 512 * Z.of_nat k) with (32 + (32 + Z.of_nat k * 512)) by lia. now apply nibble_at_shift.
    + now apply color_at_shift.
  - intros d Ed. specialize (Pe d Ed). assert (Lp : zlen (hb ++ io) = 64 + 512 * Z.of_nat (List.length ds)).
    { rewrite zlen_app, H0, Li. change (Z.of_nat 16 * Z.of_nat 32) with 512. lia. }
    rewrite app_assoc. set (a := hb ++ io) in *. set (base := 64 + 512 * Z.of_nat (List.length ds)) in *. clearbody a base.
    unfold eyecatch_block in *. rewrite <- (app_nil_r eo). destruct (kind =? 3); [|destruct (kind =? 2)].
    + rewrite <- (Z.add_0_r base) at 1. now apply indexed4_shift.
    + rewrite <- (Z.add_0_r base) at 1. now apply indexed8_shift.
    + rewrite <- (Z.add_0_r base). now apply direct_shift.
Qed.

Lemma icon_spec pr pics path speed v eye ds e kind : icon_input pics path ds -> eyecatch_input pics eye e kind -> speed_value speed v ->
  exists stmts out, to_icon pics path speed eye = Ok stmts /\ assemble pr stmts = Ok out /\ icon_facts out ds v kind e.
Proof.
  intros I Y S. destruct (icon_data pics path speed v eye ds e kind I Y S) as (stmts & out & E & [D L] & F).
  exists stmts, out. split; [exact E|]. split; [now apply data_assembles|exact F].
Qed.

(** What is rejected. *)
Lemma icon_many pics path speed eye ds n : pics path = Ok ds -> byte_pictures ds -> colors ds n -> 16 < n ->
  to_icon pics path speed eye = Err (InvalidPaletteSize n 16).
Proof.
  intros Hp B C N. apply colors_len in C; [|exact B]. unfold to_icon, load_image. rewrite Hp. cbn [bind].
  rewrite scale_image_frames, C. destruct (Z.ltb_spec 16 n); [reflexivity|lia].
Qed.

Lemma icon_wrong pics path speed eye ds n d : pics path = Ok ds -> byte_pictures ds -> colors ds n -> n <= 16 -> In d ds -> ~ dims 32 32 d ->
  to_icon pics path speed eye = Err (InvalidIconSize 32 32).
Proof.
  intros Hp B C N I W. apply colors_len in C; [|exact B]. unfold to_icon, load_image. rewrite Hp. cbn [bind].
  rewrite scale_image_frames, C. destruct (Z.ltb_spec 16 n); [lia|].
  destruct (image_is_size (scaled_all ds) 32 32) eqn:S; [|reflexivity]. exfalso. apply W.
  apply (proj1 (image_size_iff 32 32 ds ltac:(lia)) S). exact I.
Qed.

Lemma icon_wrong_eyecatch pics path speed eye ds e more : icon_input pics path ds -> pics eye = Ok (e :: more) -> ~ dims 72 56 e ->
  to_icon pics path speed (Some eye) = Err (InvalidIconSize 72 56).
Proof.
  intros (Hp & B & D & (n & C & N) & F) He W. apply colors_len in C; [|exact B].
  destruct (icon_four ds 32 32 B D 16 path) as (is & io & Ei & Di & Li & Pi); [lia|reflexivity|].
  unfold to_icon, load_image. rewrite Hp. cbn [bind].
  rewrite scale_image_frames. destruct (Z.ltb_spec 16 (pal_len (get_palette (scaled_all ds)))); [lia|].
  assert (S : image_is_size (scaled_all ds) 32 32 = true) by (apply (image_size_iff 32 32); [lia|exact D]). rewrite S. cbn [negb].
  rewrite He. cbn [bind map as_still]. rewrite Ei. cbn [bind]. change (scale_image 15 [to_frame e]) with (scaled_all [e]).
  destruct (image_is_size (scaled_all [e]) 72 56) eqn:Se; [|reflexivity]. exfalso. apply W.
  apply (proj1 (image_size_iff 72 56 [e] ltac:(lia)) Se). now left.
Qed.

(** What is accepted. *)
Lemma icon_accepted pics path speed eye stmts : (forall q ds, pics q = Ok ds -> byte_pictures ds) ->
  to_icon pics path speed eye = Ok stmts ->
  (exists ds n, pics path = Ok ds /\ (forall d, In d ds -> dims 32 32 d) /\ colors ds n /\ n <= 16) /\
  exists e kind, eyecatch_input pics eye e kind.
Proof.
  intros B H. unfold to_icon, load_image in H. destruct (pics path) as [ds| | |] eqn:Hp; try discriminate. cbn [bind] in H.
  rewrite scale_image_frames in H. specialize (B path ds Hp) as Bd.
  destruct (Z.ltb_spec 16 (pal_len (get_palette (scaled_all ds)))) as [|L]; [discriminate|].
  destruct (image_is_size (scaled_all ds) 32 32) eqn:S; [|discriminate]. cbn [negb] in H. split.
  - exists ds, (pal_len (get_palette (scaled_all ds))). split; [reflexivity|]. split; [apply (image_size_iff 32 32); [lia|exact S]|].
    split; [now apply colors_len|exact L].
  - destruct eye as [eye|]; [|exists None, 0; constructor]. destruct (pics eye) as [es| | |] eqn:He; try discriminate. cbn [bind] in H.
    destruct es as [|e more]; [discriminate|]. cbn [map as_still bind] in H. change (scale_image 15 [to_frame e]) with (scaled_all [e]) in H.
    destruct (image_to_icon _ _ path); try discriminate. cbn [bind] in H.
    destruct (image_is_size (scaled_all [e]) 72 56) eqn:Se; [|discriminate].
    assert (Be : byte_pictures [e]) by (intros d x y [<-|[]]; apply (B eye (e :: more) He); now left).
    exists (Some e), (eyecatch_kind (pal_len (get_palette (scaled_all [e])))). apply (an_eyecatch pics eye e more); auto.
    + apply (proj1 (image_size_iff 72 56 [e] ltac:(lia)) Se). now left.
    + now apply colors_len.
Qed.
