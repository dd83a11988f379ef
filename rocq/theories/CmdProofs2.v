(** What the icon and image commands print. *)
From Coq Require Import ZArith List String Ascii Bool Arith Lia.
From Verif Require Import Base Expr Instr Ast Macro Asm Lexer Parser Printer Files CHeader Img Include Cmd.
From Verif Require Import SpecIsa SpecLex SpecPrint SpecImg SpecCmd LexProofs LexProofs3 PrintProofs PrintProofs4 ExpandProofs.
From Verif Require Import ImgProofs ImgProofs2 ImgProofs3 ImgProofs4 ImgProofs5 CmdProofs.
From Verif Require Utf8Proofs.
Import ListNotations.
Open Scope string_scope.
Open Scope list_scope.
Open Scope Z_scope.

(** * Lines *)

Lemma chars_app (P : ascii -> Prop) a b : all_chars P a -> all_chars P b -> all_chars P (a ++ b).
Proof. induction a as [|c a IH]; [auto|]. cbn. intuition. Qed.

Lemma line_app a b : one_line a -> one_line b -> one_line (a ++ b).
Proof. intros [A1 A2] [B1 B2]. split; [now apply chars_app|]. apply Utf8Proofs.utf8_iff in A2. apply Utf8Proofs.utf8_iff in B2. apply Utf8Proofs.utf8_iff. now apply utf8_join. Qed.

Lemma digit_break v : 0 <= v < 16 -> no_break (digit_char v).
Proof.
  intros V. assert (H: forallb (fun v => negb (Ascii.eqb (digit_char v) "010") && negb (Ascii.eqb (digit_char v) "013"))%bool [0;1;2;3;4;5;6;7;8;9;10;11;12;13;14;15] = true) by reflexivity.
  rewrite forallb_forall in H. specialize (H v ltac:(cbn [In]; lia)). rewrite andb_true_iff, !negb_true_iff, !Ascii.eqb_neq in H. exact H.
Qed.

Lemma dec_line n : one_line (show_dec n).
Proof.
  split; [|apply Utf8Proofs.utf8_iff; apply dec_utf8].
  assert (G: forall f n acc, all_chars no_break acc -> all_chars no_break (digits f digit_char 10 n acc)).
  { induction f as [|f IH]; intros m acc A; [exact A|]. cbn [digits].
    assert (Q: all_chars no_break (String (digit_char (m mod 10)) acc)) by (split; [apply digit_break; pose proof (Z.mod_pos_bound m 10); lia|exact A]).
    destruct (m / 10 =? 0); [exact Q|]. now apply IH. }
  unfold show_dec. destruct (n <? 0); [split; [split; discriminate|]|]; apply G; exact Logic.I.
Qed.

Definition line_b (s : string) : bool :=
  (fix go (s : string) : bool :=
     match s with "" => true | String c t => (negb (Ascii.eqb c "010") && negb (Ascii.eqb c "013") && go t)%bool end) s && valid_utf8 s.

Lemma line_by s : line_b s = true -> one_line s.
Proof.
  unfold line_b. rewrite andb_true_iff. intros [A B]. split; [|now apply Utf8Proofs.utf8_iff]. clear B. induction s as [|c s IH]; [exact Logic.I|].
  rewrite !andb_true_iff, !negb_true_iff, !Ascii.eqb_neq in A. split; [split; tauto|]. apply IH. tauto.
Qed.

Lemma join_line sep l : one_line sep -> Forall one_line l -> one_line (String.concat sep l).
Proof.
  intros S. induction 1 as [|x l H F IH]; [now apply line_by|]. destruct l as [|y l]; [exact H|].
  change (one_line (x ++ sep ++ String.concat sep (y :: l))). now repeat apply line_app.
Qed.

(** * Icons *)

Definition full (f : frame) : Prop := Forall (fun row => row <> []) f.

Lemma number_num n : number (num n).
Proof. exists n, Hex. split; [reflexivity|discriminate]. Qed.

Lemma tidy_words es : es <> [] -> Forall number es -> tidy (SDirective (DWord es)).
Proof. intros; split; assumption. Qed.

Lemma palette_tidy table : Forall tidy (palette_lines table).
Proof.
  unfold palette_lines. apply Forall_forall. intros s I. apply in_map_iff in I as (y & <- & _). split; [discriminate|].
  apply Forall_forall. intros e I. apply in_map_iff in I as (x & <- & _). apply number_num.
Qed.

Lemma rows_tidy pack f : full f -> (forall row items, row <> [] -> pack row = Ok items -> items <> [] /\ Forall (fun b => exists e, b = BVExpr e /\ number e) items) ->
  forall ss, byte_rows pack f = Ok ss -> Forall tidy ss.
Proof.
  intros F P. induction F as [|row f H F IH]; intros ss E; cbn [byte_rows] in E; [injection E as <-; constructor|].
  destruct (pack row) as [items| | |] eqn:E1; try discriminate. cbn [bind] in E. destruct (byte_rows pack f) as [rest| | |]; try discriminate.
  injection E as <-. constructor; [exact (P _ _ H E1)|now apply IH].
Qed.

Lemma nibbles_all p : forall n row items, (List.length row <= n)%nat -> nibbles p row = Ok items -> Forall (fun b => exists e, b = BVExpr e /\ number e) items.
Proof.
  induction n as [|n IH]; intros row items L E.
  - destruct row; [|cbn in L; lia]. injection E as <-. constructor.
  - destruct row as [|a [|b row]]; cbn [nibbles] in E; [injection E as <-; constructor|discriminate|].
    destruct (index_of p a); try discriminate. cbn [bind] in E. destruct (index_of p b); try discriminate. cbn [bind] in E.
    destruct (nibbles p row) as [rest| | |] eqn:R; try discriminate. injection E as <-.
    constructor; [eexists; split; [reflexivity|apply number_num]|]. apply (IH row); [cbn in L; lia|exact R].
Qed.

Lemma nibbles_tidy p row items : row <> [] -> nibbles p row = Ok items -> items <> [] /\ Forall (fun b => exists e, b = BVExpr e /\ number e) items.
Proof.
  intros N E. split; [|exact (nibbles_all p _ row items (le_n _) E)]. intros ->. destruct row as [|a [|b row]]; cbn [nibbles] in E; [congruence|discriminate|].
  destruct (index_of p a); try discriminate. cbn [bind] in E. destruct (index_of p b); try discriminate. cbn [bind] in E.
  destruct (nibbles p row); discriminate.
Qed.

Lemma indices_tidy p : forall row items, row <> [] -> indices p row = Ok items -> items <> [] /\ Forall (fun b => exists e, b = BVExpr e /\ number e) items.
Proof.
  induction row as [|c row IH]; intros items N E; [congruence|]. cbn [indices] in E. destruct (index_of p c); try discriminate. cbn [bind] in E.
  destruct (indices p row) as [rest| | |] eqn:R; try discriminate. injection E as <-. split; [discriminate|].
  constructor; [eexists; split; [reflexivity|apply number_num]|]. destruct row as [|d row]; [injection R as <-; constructor|]. now apply (IH rest).
Qed.

Lemma nibble_frames_tidy p many : forall i idx ss, Forall full i -> nibble_frames p many idx i = Ok ss -> Forall tidy ss.
Proof.
  induction i as [|f i IH]; intros idx ss F E; cbn [nibble_frames] in E; [injection E as <-; constructor|].
  inversion F as [|? ? F1 F2]; subst. destruct (byte_rows (nibbles p) f) as [rows| | |] eqn:R; try discriminate. cbn [bind] in E.
  destruct (nibble_frames p many (idx + 1) i) as [rest| | |] eqn:Q; try discriminate. injection E as <-.
  apply Forall_app. split; [|apply Forall_app; split].
  - destruct many; [|constructor]. constructor; [|constructor]. exists ("Frame " ++ show_dec idx)%string.
    split; [destruct (idx =? 1); auto|]. apply line_app; [now apply line_by|apply dec_line].
  - apply (rows_tidy _ _ F1 (nibbles_tidy p) _ R).
  - exact (IH _ _ F2 Q).
Qed.

Lemma index_frames_tidy p : forall i ss, Forall full i -> index_frames p i = Ok ss -> Forall tidy ss.
Proof.
  induction i as [|f i IH]; intros ss F E; cbn [index_frames] in E; [injection E as <-; constructor|].
  inversion F as [|? ? F1 F2]; subst. destruct (byte_rows (indices p) f) as [rows| | |] eqn:R; try discriminate. cbn [bind] in E.
  destruct (index_frames p i) as [rest| | |] eqn:Q; try discriminate. injection E as <-.
  apply Forall_app. split; [apply (rows_tidy _ _ F1 (indices_tidy p) _ R)|exact (IH _ F2 eq_refl)].
Qed.

Lemma true_color_tidy i : Forall full i -> Forall tidy (true_color i).
Proof.
  intros F. apply Forall_forall. intros s I. apply in_flat_map in I as (f & If & I). apply in_map_iff in I as (row & <- & Ir).
  rewrite Forall_forall in F. specialize (F f If). unfold full in F. rewrite Forall_forall in F. specialize (F row Ir).
  split; [destruct row; [congruence|discriminate]|]. apply Forall_forall. intros e I. apply in_map_iff in I as (c & <- & _). apply number_num.
Qed.

Lemma titled a name : one_line a -> one_line name -> tidy (SComment (String "010" a ++ name ++ """")).
Proof. intros A N. exists (a ++ name ++ """")%string. split; [now right|]. apply line_app; [exact A|]. apply line_app; [exact N|now apply line_by]. Qed.

Lemma icon_tidy i p name ss : Forall full i -> one_line name -> image_to_icon i p name = Ok ss -> Forall tidy ss.
Proof.
  intros F N. unfold image_to_icon. set (len := if pal_len p <=? 16 then 16%nat else _). destruct (0 <? len)%nat; [|intros [= <-]; now apply true_color_tidy].
  destruct (fill_palette p (repeat black len)) as [table| | |]; try discriminate. cbn [bind].
  destruct (if (len =? 16)%nat then _ else _) as [pixels| | |] eqn:E; try discriminate. intros [= <-].
  constructor; [apply (titled "Palette for """); [now apply line_by|exact N]|]. apply Forall_app. split; [apply palette_tidy|].
  constructor; [apply (titled "Pixel data for """); [now apply line_by|exact N]|].
  destruct (len =? 16)%nat; [exact (nibble_frames_tidy _ _ _ _ _ F E)|exact (index_frames_tidy _ _ _ F E)].
Qed.

Lemma size_full i w h : 0 < w -> image_is_size i w h = true -> Forall full i.
Proof.
  intros W. unfold image_is_size. rewrite forallb_forall. intros H. apply Forall_forall. intros f I. specialize (H f I).
  unfold frame_is_size in H. apply andb_true_iff in H as [_ H]. rewrite forallb_forall in H. apply Forall_forall. intros row Ir E. subst row.
  specialize (H [] Ir). apply Z.eqb_eq in H. cbn in H. lia.
Qed.

Lemma still_full i s : Forall full i -> as_still i = Ok s -> Forall full s.
Proof. destruct i as [|f i]; [discriminate|]. intros F [= <-]. inversion F; subst. now repeat constructor. Qed.

Lemma header_tidy t : Forall tidy (icon_header t).
Proof.
  unfold icon_header. assert (L: one_line (eyecatch_comment t)).
  { unfold eyecatch_comment. destruct (t =? 0); [|destruct (t =? 1); [|destruct (t =? 2)]]; now apply line_by. }
  assert (C: forall u, one_line u -> tidy (SComment (String "010" u))) by (intros u U; exists u; auto).
  assert (Z0: forall k, (0 < k)%nat -> tidy (SDirective (DByte (repeat (BVExpr (num 0)) k)))).
  { intros k K. split; [destruct k; [lia|discriminate]|]. apply Forall_forall. intros b I. apply repeat_spec in I as ->. eexists. split; [reflexivity|apply number_num]. }
  repeat (apply Forall_cons; [|]); try apply Forall_nil; try (apply C; first [exact L|now apply line_by]); try (apply Z0; lia);
    (apply tidy_words; [discriminate|]); repeat constructor; apply number_num.
Qed.

Lemma to_icon_tidy pics path speed eye ss : one_line path -> (forall p, eye = Some p -> one_line p) -> to_icon pics path speed eye = Ok ss -> Forall tidy ss.
Proof.
  intros LP LE. unfold to_icon. destruct (load_image pics path) as [loaded| | |]; try discriminate. cbn [bind].
  set (icon := scale_image 15 loaded). set (p := get_palette icon). destruct (16 <? pal_len p); [discriminate|].
  destruct (image_is_size icon 32 32) eqn:SZ; [|discriminate]. cbn [negb]. apply size_full in SZ; [|lia].
  set (sp := match speed with Some s => s | None => 10 end).
  assert (CS: Forall tidy (count_and_speed icon path sp)).
  { unfold count_and_speed. constructor; [|constructor; [|constructor]].
    - exists (String """" path ++ """ Frames: " ++ show_dec (Z.of_nat (List.length icon)) ++ ", Speed: " ++ show_dec sp)%string. split; [now right|].
      apply line_app; [change (String """" path) with ("""" ++ path)%string; apply line_app; [now apply line_by|exact LP]|].
      apply line_app; [now apply line_by|]. apply line_app; [apply dec_line|]. apply line_app; [now apply line_by|apply dec_line].
    - apply tidy_words; [discriminate|]. repeat constructor; apply number_num. }
  destruct eye as [ep|].
  - destruct (load_image pics ep) as [l| | |]; try discriminate. cbn [bind]. destruct (as_still l) as [s| | |]; try discriminate. cbn [bind].
    destruct (image_to_icon icon p path) as [dt| | |] eqn:E; try discriminate. cbn [bind].
    destruct (image_is_size (scale_image 15 s) 72 56) eqn:SE; [|discriminate]. cbn [negb]. apply size_full in SE; [|lia].
    destruct (image_to_icon (scale_image 15 s) (get_palette (scale_image 15 s)) ep) as [more| | |] eqn:E2; try discriminate. intros Q. apply (f_equal (fun o => match o with Ok x => x | _ => [] end)) in Q. cbv beta iota in Q. subst ss.
    apply Forall_app. split; [|exact (icon_tidy _ _ _ _ SE (LE _ eq_refl) E2)]. apply Forall_app. split; [exact CS|].
    apply Forall_app. split; [apply header_tidy|exact (icon_tidy _ _ _ _ SZ LP E)].
  - cbn [bind]. destruct (image_to_icon icon p path) as [dt| | |] eqn:E; try discriminate. intros Q. apply (f_equal (fun o => match o with Ok x => x | _ => [] end)) in Q. cbv beta iota in Q. subst ss.
    apply Forall_app. split; [exact CS|]. apply Forall_app. split; [apply header_tidy|exact (icon_tidy _ _ _ _ SZ LP E)].
Qed.

(** * Sprites *)

Lemma mask_row_grows row : forall bytes idx out, mask_row row bytes idx = Ok out -> (List.length bytes <= List.length out)%nat.
Proof.
  assert (SL: forall g b o, set_last g b = Ok o -> List.length o = List.length b).
  { intros g b. induction b as [|x [|y b] IH]; intros o E; [discriminate|injection E as <-; reflexivity|].
    change (set_last g (x :: y :: b)) with (let! t := set_last g (y :: b) in Ok (x :: t)) in E.
    destruct (set_last g (y :: b)) as [t| | |] eqn:Q; try discriminate. injection E as <-. cbn [List.length]. f_equal. now apply IH. }
  induction row as [|c row IH]; intros bytes idx out E; cbn [mask_row] in E; [injection E as <-; lia|].
  destruct (idx mod 8 =? 0); cbn [bind] in E.
  - apply IH in E. rewrite app_length in E. cbn in E. lia.
  - match type of E with (let! _ := set_last ?g bytes in _) = _ => destruct (set_last g bytes) as [b| | |] eqn:Q; try discriminate end.
    cbn [bind] in E. apply IH in E. apply SL in Q. lia.
Qed.

Lemma image_row_grows row : forall bytes idx out, image_row row bytes idx = Ok out -> (List.length bytes <= List.length out)%nat.
Proof.
  assert (SL: forall g b o, set_last g b = Ok o -> List.length o = List.length b).
  { intros g b. induction b as [|x [|y b] IH]; intros o E; [discriminate|injection E as <-; reflexivity|].
    change (set_last g (x :: y :: b)) with (let! t := set_last g (y :: b) in Ok (x :: t)) in E.
    destruct (set_last g (y :: b)) as [t| | |] eqn:Q; try discriminate. injection E as <-. cbn [List.length]. f_equal. now apply IH. }
  induction row as [|c row IH]; intros bytes idx out E; cbn [image_row] in E; [injection E as <-; lia|].
  destruct (idx mod 8 =? 0); cbn [bind] in E.
  - apply IH in E. rewrite app_length in E. cbn in E. lia.
  - match type of E with (let! _ := set_last ?g bytes in _) = _ => destruct (set_last g bytes) as [b| | |] eqn:Q; try discriminate end.
    cbn [bind] in E. apply IH in E. apply SL in Q. lia.
Qed.

Lemma pack_tidy pack f : full f -> (forall row bytes, row <> [] -> pack row = Ok bytes -> bytes <> []) -> forall ss, pack_rows pack f = Ok ss -> Forall tidy ss.
Proof.
  intros F P. induction F as [|row f H F IH]; intros ss E; cbn [pack_rows] in E; [injection E as <-; constructor|].
  destruct (pack row) as [bytes| | |] eqn:E1; try discriminate. cbn [bind] in E. destruct (pack_rows pack f) as [rest| | |]; try discriminate.
  injection E as <-. constructor; [|now apply IH]. pose proof (P _ _ H E1) as NE. split; [destruct bytes; [congruence|discriminate]|].
  apply Forall_forall. intros b I. apply in_map_iff in I as (n & <- & _). eexists. split; [reflexivity|]. exists n, Binary. split; [reflexivity|discriminate].
Qed.

Lemma frame_tidy f masked header ss : full f -> frame_1bit f masked header = Ok ss -> Forall tidy ss.
Proof.
  intros F. unfold frame_1bit. set (hs := if header then _ else _).
  assert (M: forall row bytes, row <> [] -> mask_row row [] 0 = Ok bytes -> bytes <> []).
  { intros [|c row] bytes N E; [congruence|]. cbn [mask_row] in E. change (0 mod 8 =? 0) with true in E. cbn [bind app] in E. apply mask_row_grows in E. intros ->. cbn in E. lia. }
  assert (G: forall row bytes, row <> [] -> image_row row [] 0 = Ok bytes -> bytes <> []).
  { intros [|c row] bytes N E; [congruence|]. cbn [image_row] in E. change (0 mod 8 =? 0) with true in E. cbn [bind app] in E. apply image_row_grows in E. intros ->. cbn in E. lia. }
  destruct (if masked then _ else _) as [mask| | |] eqn:EM; try discriminate. cbn [bind].
  destruct (pack_rows (fun row => image_row row [] 0) f) as [img| | |] eqn:EI; try discriminate. intros [= <-].
  assert (H: Forall tidy hs).
  { unfold hs. destruct header; [|constructor]. constructor; [|constructor]. split; [discriminate|].
    constructor; [|constructor; [|constructor]]; (eexists; split; [reflexivity|]); eexists _, _; (split; [reflexivity|discriminate]). }
  change (Forall tidy (SComment ("Width: " ++ show_dec (width f) ++ ", Height: " ++ show_dec (height f)) :: hs ++ mask ++ img)).
  constructor.
  - eexists. split; [now left|]. apply line_app; [now apply line_by|]. apply line_app; [apply dec_line|]. apply line_app; [now apply line_by|apply dec_line].
  - apply Forall_app. split; [exact H|]. apply Forall_app. split; [|exact (pack_tidy _ _ F G _ EI)].
    destruct masked; [exact (pack_tidy _ _ F M _ EM)|]. injection EM as <-. constructor.
Qed.

Lemma image_tidy masked header : forall i ss, Forall full i -> image_1bit i masked header = Ok ss -> Forall tidy ss.
Proof.
  induction i as [|f i IH]; intros ss F E; cbn [image_1bit] in E; [injection E as <-; constructor|]. inversion F as [|? ? F1 F2]; subst.
  destruct (frame_1bit f masked header) as [a| | |] eqn:E1; try discriminate. cbn [bind] in E.
  destruct (image_1bit i masked header) as [b| | |]; try discriminate. injection E as <-.
  apply Forall_app. split; [exact (frame_tidy _ _ _ _ F1 E1)|now apply IH].
Qed.

Lemma frames_full ds : (forall d, In d ds -> (0 < d_width d)%nat) -> Forall full (map to_frame ds).
Proof.
  intros H. apply Forall_forall. intros f I. apply in_map_iff in I as (d & <- & I). specialize (H d I). apply Forall_forall. intros row Ir E. subst row.
  unfold to_frame in Ir. apply in_map_iff in Ir as (y & E & _). destruct (d_width d); [lia|discriminate].
Qed.

(** * The speed *)

Lemma digits_iff : forall s acc n, 0 <= acc <= 65535 -> (u16_digits acc s = Some n <-> all_chars decimal_digit s /\ value acc s = n /\ n <= 65535).
Proof.
  assert (V: forall s a b, a <= b -> 0 <= a -> all_chars decimal_digit s -> a <= value a s /\ value a s <= value b s).
  { induction s as [|c s IH]; intros a b AB A D; [cbn; lia|]. cbn [value]. destruct D as [D1 D2]. unfold decimal_digit in D1.
    specialize (IH (10 * a + (Z.of_nat (nat_of_ascii c) - 48)) (10 * b + (Z.of_nat (nat_of_ascii c) - 48)) ltac:(lia) ltac:(lia) D2). lia. }
  induction s as [|c s IH]; intros acc n A.
  - cbn. split; [intros [= <-]; repeat split; lia|intros (_ & -> & _); reflexivity].
  - cbn [u16_digits all_chars value]. unfold decimal_digit at 1. set (d := Z.of_nat (nat_of_ascii c) - 48).
    destruct (Z.leb_spec 0 d); cbn [andb]; [|split; [discriminate|intros ((D & _) & _); lia]].
    destruct (Z.leb_spec d 9); [|split; [discriminate|intros ((D & _) & _); lia]].
    destruct (Z.leb_spec (10 * acc + d) 65535).
    + rewrite IH by lia. split; intros (X1 & X2 & X3); repeat split; try tauto; lia.
    + split; [discriminate|]. intros ((_ & D) & E & L). destruct (V s (10 * acc + d) (10 * acc + d) ltac:(lia) ltac:(lia) D). lia.
Qed.

Lemma parse_iff_u16 s n : parse_u16 s = Some n <-> speed_text s n /\ n <= 65535.
Proof.
  unfold parse_u16, speed_text. destruct s as [|c t].
  - split; [discriminate|]. intros ((digits & [<- |E] & N & _) & _); [congruence|discriminate].
  - destruct (Ascii.eqb_spec c "+") as [-> |NE].
    + destruct t as [|c t].
      * split; [discriminate|]. intros ((digits & [<- |E] & N & D & _) & _); [destruct D as [D _]; unfold decimal_digit in D; cbn in D; lia|injection E as <-; congruence].
      * rewrite digits_iff by lia. split.
        -- intros (D & V & L). split; [|exact L]. exists (String c t). split; [auto|]. split; [discriminate|]. split; [exact D|exact V].
        -- intros ((digits & [<- |E] & N & D & V) & L); [destruct D as [D _]; unfold decimal_digit in D; cbn in D; lia|]. injection E as <-. auto.
    + rewrite digits_iff by lia. split.
      * intros (D & V & L). split; [|exact L]. exists (String c t). split; [auto|]. split; [discriminate|]. split; [exact D|exact V].
      * intros ((digits & [<- |E] & N & D & V) & L); [auto|]. injection E as E _. congruence.
Qed.

Lemma speed_arg speed n : speed_given speed n -> exists s, speed_argument speed = Ok s /\ speed_value s n.
Proof.
  destruct speed as [s|]; cbn [speed_given].
  - intros [T L]. exists (Some n). unfold speed_argument. rewrite (proj2 (parse_iff_u16 s n) (conj T L)). split; [reflexivity|]. split; [reflexivity|].
    split; [|exact L]. destruct T as (digits & _ & _ & D & <-).
    assert (V: forall s a, 0 <= a -> all_chars decimal_digit s -> 0 <= value a s).
    { clear. induction s as [|c s IH]; intros a A D; [exact A|]. cbn [value]. destruct D as [D1 D2]. unfold decimal_digit in D1. apply IH; [lia|exact D2]. }
    apply V; [lia|exact D].
  - intros ->. exists None. split; [reflexivity|]. split; [reflexivity|lia].
Qed.

Lemma no_speed speed : (forall n, ~ speed_given speed n) -> speed_argument speed = Panic.
Proof.
  destruct speed as [s|]; cbn [speed_given]; intros H; [|exfalso; exact (H 10 eq_refl)]. unfold speed_argument. destruct (parse_u16 s) as [n|] eqn:E; [|reflexivity].
  apply parse_iff_u16 in E. exfalso. exact (H n E).
Qed.

(** * The commands *)

Theorem icon_command pics args path speed n eye ds e kind :
  icon_input pics path ds -> eyecatch_input pics eye e kind -> speed_given speed n ->
  one_line path -> (forall p, eye = Some p -> one_line p) -> Forall one_line args ->
  exists text out, icon_cmd pics args path speed eye = Ok text /\ icon_layout out ds n kind e /\
    forall uuid pr fuel v pics2 wd name, is_absolute wd = true -> read_bytes v (join wd name) = Some text ->
      assemble_file uuid pr (S fuel) v pics2 (new_files wd) name = Ok out.
Proof.
  intros I Y S LP LE LA. destruct (speed_arg speed n S) as (s & ES & SV).
  destruct (icon_data pics path s n eye ds e kind I Y SV) as (stmts & out & E & [D L] & F).
  unfold icon_cmd. rewrite ES. cbn [bind]. rewrite E. cbn [bind]. eexists _, out. split; [reflexivity|]. split; [exact F|].
  intros uuid pr fuel v pics2 wd name A R. set (note := "NOTE: This file was generated by the waterbear assembler:") in *.
  set (l := SComment note :: SComment (String.concat " " args) :: stmts).
  assert (NE: stmts <> []).
  { intros ->. unfold data in D. cbn in D. injection D as <-. destruct F as [F _]. change (0 = 64 + 512 * Z.of_nat (List.length ds) + eyecatch_length kind) in F.
    assert (0 <= eyecatch_length kind) by (unfold eyecatch_length; destruct (kind =? 3), (kind =? 2), (kind =? 1); lia). lia. }
  assert (T: Forall tidy l).
  { constructor; [exists note; split; [now left|now apply line_by]|]. constructor; [|exact (to_icon_tidy _ _ _ _ _ LP LE E)].
    exists (String.concat " " args). split; [now left|]. apply join_line; [now apply line_by|exact LA]. }
  assert (X: (show_statement (SComment note) ++ String "010" "" ++ show_statement (SComment (String.concat " " args)) ++ String "010" "" ++
    show_statements stmts ++ String "010" "")%string = expand_output l).
  { unfold expand_output, l. rewrite !statements_cons by (assumption || discriminate). rewrite !app_assoc_s. reflexivity. }
  rewrite X in R.
  assert (DL: data l = Some out) by (unfold data, l; cbn [all_data stmt_data app]; fold (data stmts); now rewrite D).
  rewrite (text_assembles uuid pr fuel v pics2 wd name _ l (tidy_printable _ _ T DL) (or_intror eq_refl) (tidy_output _ T) A R).
  now apply data_assembles.
Qed.

Theorem image_command json pics path output format masked ds :
  pics path = Ok ds -> sprite_input true masked ds -> (forall d, In d ds -> (0 < d_width d)%nat) -> asm_format format masked ->
  exists text out, image_cmd json pics path output format = Ok (output, text) /\ sprite_layout is_black masked ds out /\
    forall uuid pr fuel v pics2 wd name, is_absolute wd = true -> read_bytes v (join wd name) = Some text ->
      assemble_file uuid pr (S fuel) v pics2 (new_files wd) name = Ok out.
Proof.
  intros P [SI SL] W AF. destruct (image_1bit_spec true masked ds) as (stmts & out & E & D & L & FA); [intros d I; apply (SI d I)|].
  pose proof (image_tidy masked true _ _ (frames_full ds W) E) as T. pose proof (tidy_printable _ _ T D) as PR.
  assert (C: image_cmd json pics path output format = Ok (output, match output with Some _ => show_statements stmts | None => expand_output stmts end)).
  { unfold image_cmd, load_image. rewrite P. cbn [bind unwrap].
    assert (FM: match format_from (match format with Some f => f | None => "" end) with Some f => f | None => Asm1Bit end = if masked then Asm1BitMasked else Asm1Bit).
    { unfold asm_format in AF. destruct masked; [now subst format|]. destruct AF as (A1 & A2 & A3). destruct format as [f|]; [|reflexivity]. unfold format_from.
      destruct (String.eqb_spec f "json") as [->|]; [congruence|]. destruct (String.eqb_spec f "json-pretty") as [->|]; [congruence|].
      destruct (String.eqb_spec f "1bit-asm"); [reflexivity|]. destruct (String.eqb_spec f "1bit-asm-masked") as [->|]; [congruence|reflexivity]. }
    rewrite FM. destruct masked; rewrite E; cbn [bind]; destruct output; reflexivity. }
  eexists _, out. split; [exact C|]. split.
  - split; [exact L|]. intros k d Hk. destruct (FA k d Hk) as (H1 & H2 & H3). destruct (H1 eq_refl). auto.
  - intros uuid pr fuel v pics2 wd name A R.
    assert (X: assemble_file uuid pr (S fuel) v pics2 (new_files wd) name = assemble pr stmts).
    { destruct output; [exact (text_assembles uuid pr fuel v pics2 wd name _ stmts PR (or_introl eq_refl) (tidy_text _ T) A R)|].
      exact (text_assembles uuid pr fuel v pics2 wd name _ stmts PR (or_intror eq_refl) (tidy_output _ T) A R). }
    rewrite X.
    apply data_assembles; [exact D|]. rewrite L. exact SL.
Qed.
