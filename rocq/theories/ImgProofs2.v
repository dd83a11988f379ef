(** Lemmas about sprites: bits packed into rows, rows into planes, planes into frames. *)
From Coq Require Import ZArith List String Ascii Bool Lia.
From Verif Require Import Base Expr Ast Asm Img SpecImg AsmProofs AsmProofs8 ImgProofs GrayProofs.
Import ListNotations.
Open Scope list_scope.
Open Scope Z_scope.
Ltac Zify.zify_post_hook ::= Z.div_mod_to_equations.

(** [bytes] holds [bits], the rest of the last byte is [pad]. *)
Definition packed (pad : bool) (bits : list bool) (bytes : list Z) : Prop :=
  zlen bytes = (zlen bits + 7) / 8 /\ Forall byte bytes /\
  forall x, 0 <= x < 8 * zlen bytes -> exists v, get_at bytes (x / 8) = Some v /\
    Z.testbit v (7 - x mod 8) = if x <? zlen bits then nth (Z.to_nat x) bits false else pad.

Lemma set_last_snoc g l b : set_last g (l ++ [b]) = Ok (l ++ [g b]).
Proof.
  induction l as [|h t IH]; [reflexivity|]. cbn [app]. change (set_last g (h :: t ++ [b])) with
    (match t ++ [b] with [] => Ok [g h] | _ => let! t' := set_last g (t ++ [b]) in Ok (h :: t') end).
  rewrite IH. destruct t; reflexivity.
Qed.

Lemma snoc_cases {A : Type} (l : list A) : l = [] \/ exists a b, l = a ++ [b].
Proof. destruct l as [|x l _] using rev_ind; [auto|right; eauto]. Qed.

Lemma zlen_snoc {A : Type} (l : list A) b : zlen (l ++ [b]) = zlen l + 1.
Proof. rewrite zlen_app. reflexivity. Qed.

Lemma get_snoc_old {A : Type} (l : list A) b i : 0 <= i < zlen l -> get_at (l ++ [b]) i = get_at l i.
Proof. intros H. destruct (get_at_some l i H) as (x & E). rewrite E. now apply get_at_app_l. Qed.

Lemma get_snoc_new {A : Type} (l : list A) b : get_at (l ++ [b]) (zlen l) = Some b.
Proof. rewrite <- (Z.add_0_r (zlen l)). now apply get_at_app_r. Qed.

Lemma nth_snoc_old (l : list bool) b x : 0 <= x < zlen l -> nth (Z.to_nat x) (l ++ [b]) false = nth (Z.to_nat x) l false.
Proof. unfold zlen. intros H. apply app_nth1. lia. Qed.

Lemma nth_snoc_new (l : list bool) b : nth (Z.to_nat (zlen l)) (l ++ [b]) false = b.
Proof. unfold zlen. rewrite app_nth2; rewrite Nat2Z.id; [|lia]. now rewrite Nat.sub_diag. Qed.

Lemma pack_step pad bits bytes b first upd : packed pad bits bytes ->
  byte first -> (forall j, 0 <= j < 8 -> Z.testbit first (7 - j) = if j =? 0 then b else pad) ->
  (forall v, byte v -> Z.testbit v (7 - zlen bits mod 8) = pad -> byte (upd v) /\
     forall j, 0 <= j < 8 -> Z.testbit (upd v) (7 - j) = if j =? zlen bits mod 8 then b else Z.testbit v (7 - j)) ->
  exists bytes', (if zlen bits mod 8 =? 0 then Ok (bytes ++ [first]) else set_last upd bytes) = Ok bytes' /\
    packed pad (bits ++ [b]) bytes'.
Proof.
  intros (L & F & P) Bf Hf Hu. pose proof (zlen_nonneg bits) as N. set (n := zlen bits) in *.
  destruct (Z.eqb_spec (n mod 8) 0) as [E|E].
  - exists (bytes ++ [first]). split; [reflexivity|]. unfold packed. rewrite (zlen_snoc bits). fold n. rewrite ?zlen_snoc.
    split; [lia|]. split; [apply Forall_app; auto|]. intros x X.
    destruct (Z.lt_ge_cases x (8 * zlen bytes)) as [C|C].
    + destruct (P x) as (v & Ev & Tv); [lia|]. exists v. rewrite get_snoc_old by lia. split; [exact Ev|]. rewrite Tv.
      destruct (Z.ltb_spec x n); [|lia]. destruct (Z.ltb_spec x (n + 1)); [|lia]. now rewrite nth_snoc_old by lia.
    + exists first. replace (x / 8) with (zlen bytes) by lia. rewrite get_snoc_new. split; [reflexivity|].
      rewrite Hf by lia. destruct (Z.eqb_spec (x mod 8) 0).
      * replace x with n by lia. destruct (Z.ltb_spec n (n + 1)); [|lia]. symmetry. apply nth_snoc_new.
      * destruct (Z.ltb_spec x (n + 1)); [lia|reflexivity].
  - destruct (snoc_cases bytes) as [->|(l & v & ->)]; [rewrite zlen_nil in L; lia|].
    rewrite set_last_snoc. exists (l ++ [upd v]). split; [reflexivity|].
    rewrite zlen_snoc in L. apply Forall_app in F as [Fl Fv]. inversion Fv as [|? ? Bv _]; subst.
    destruct (Hu v Bv) as [Bu Tu].
    { destruct (P n) as (u & Eu & Tu); [rewrite zlen_snoc; lia|].
      replace (n / 8) with (zlen l) in Eu by lia. rewrite get_snoc_new in Eu. injection Eu as <-.
      rewrite Z.ltb_irrefl in Tu. exact Tu. }
    unfold packed. rewrite (zlen_snoc bits). fold n. rewrite ?zlen_snoc.
    split; [lia|]. split; [apply Forall_app; auto|]. intros x X.
    destruct (P x) as (u & Eu & Tx); [rewrite zlen_snoc; lia|].
    destruct (Z.lt_ge_cases x (8 * zlen l)) as [C|C].
    + exists u. rewrite get_snoc_old in * by lia. split; [exact Eu|]. rewrite Tx.
      destruct (Z.ltb_spec x n); [|lia]. destruct (Z.ltb_spec x (n + 1)); [|lia]. now rewrite nth_snoc_old by lia.
    + replace (x / 8) with (zlen l) in * by lia. rewrite get_snoc_new in *. injection Eu as <-. exists (upd v). split; [reflexivity|].
      rewrite Tu by lia. destruct (Z.eqb_spec (x mod 8) (n mod 8)).
      * replace x with n by lia. destruct (Z.ltb_spec n (n + 1)); [|lia]. symmetry. apply nth_snoc_new.
      * rewrite Tx. destruct (Z.ltb_spec x n).
        -- destruct (Z.ltb_spec x (n + 1)); [|lia]. now rewrite nth_snoc_old by lia.
        -- destruct (Z.ltb_spec x (n + 1)); [lia|reflexivity].
Qed.

Lemma eight j (Q : Z -> Prop) : 0 <= j < 8 -> Q 0 -> Q 1 -> Q 2 -> Q 3 -> Q 4 -> Q 5 -> Q 6 -> Q 7 -> Q j.
Proof.
  intros H. intros. assert (j = 0 \/ j = 1 \/ j = 2 \/ j = 3 \/ j = 4 \/ j = 5 \/ j = 6 \/ j = 7) as D by lia.
  destruct D as [->|[->|[->|[->|[->|[->|[->| ->]]]]]]]; assumption.
Qed.

(** Setting a bit of a byte, checked on all bytes. *)
Lemma byte_bits v (Q : Z -> bool) : byte v -> bytes_ok Q = true -> Q v = true.
Proof. intros B H. now apply (bytes_ok_spec Q v H). Qed.

Definition below8 (Q : Z -> bool) : bool := forallb Q [0; 1; 2; 3; 4; 5; 6; 7].

Lemma below8_spec Q j : below8 Q = true -> 0 <= j < 8 -> Q j = true.
Proof.
  intros H R. unfold below8 in H. cbn [forallb] in H. repeat (apply andb_true_iff in H as [? H]). now apply (eight j (fun j => Q j = true)).
Qed.

Lemma mask_update_all : bytes_ok (fun v => below8 (fun k => forallb (fun b : bool =>
  let u := Z.lor (Z.land v (Z.lxor 255 (Z.shiftl 1 (7 - k)))) (Z.shiftl (if b then 1 else 0) (7 - k)) in
  (0 <=? u) && (u <=? 255) &&
  below8 (fun j => Bool.eqb (Z.testbit u (7 - j)) (if j =? k then b else Z.testbit v (7 - j)))) [true; false])) = true.
Proof. vm_compute. reflexivity. Qed.

Lemma image_update_all : bytes_ok (fun v => below8 (fun k => forallb (fun b : bool =>
  let u := Z.lor v (Z.shiftl (if b then 1 else 0) (7 - k)) in
  Z.testbit v (7 - k) || (0 <=? u) && (u <=? 255) &&
  below8 (fun j => Bool.eqb (Z.testbit u (7 - j)) (if j =? k then b else Z.testbit v (7 - j)))) [true; false])) = true.
Proof. vm_compute. reflexivity. Qed.

Lemma mask_update v k (b : bool) : byte v -> 0 <= k < 8 ->
  let u := Z.lor (Z.land v (Z.lxor 255 (Z.shiftl 1 (7 - k)))) (Z.shiftl (if b then 1 else 0) (7 - k)) in
  byte u /\ forall j, 0 <= j < 8 -> Z.testbit u (7 - j) = if j =? k then b else Z.testbit v (7 - j).
Proof.
  intros B K. pose proof (byte_bits v _ B mask_update_all) as H. cbv beta in H. assert (H' := below8_spec _ k H K). clear H. rename H' into H. cbv beta in H.
  rewrite forallb_forall in H. specialize (H b). assert (I : In b [true; false]) by (destruct b; cbn; auto). specialize (H I).
  cbv zeta in H |- *. apply andb_true_iff in H as [H1 H2]. apply andb_true_iff in H1 as [H0 H1]. apply Z.leb_le in H0, H1.
  split; [split; assumption|]. intros j J. assert (H3 := below8_spec _ j H2 J). cbv beta in H3. now apply eqb_prop.
Qed.

Lemma image_update v k (b : bool) : byte v -> 0 <= k < 8 -> Z.testbit v (7 - k) = false ->
  let u := Z.lor v (Z.shiftl (if b then 1 else 0) (7 - k)) in
  byte u /\ forall j, 0 <= j < 8 -> Z.testbit u (7 - j) = if j =? k then b else Z.testbit v (7 - j).
Proof.
  intros B K T. pose proof (byte_bits v _ B image_update_all) as H. cbv beta in H. assert (H' := below8_spec _ k H K). clear H. rename H' into H. cbv beta in H.
  rewrite forallb_forall in H. specialize (H b). assert (I : In b [true; false]) by (destruct b; cbn; auto). specialize (H I).
  cbv zeta in H |- *. rewrite T in H. cbn [orb] in H. apply andb_true_iff in H as [H1 H2]. apply andb_true_iff in H1 as [H0 H1]. apply Z.leb_le in H0, H1.
  split; [split; assumption|]. intros j J. assert (H3 := below8_spec _ j H2 J). cbv beta in H3. now apply eqb_prop.
Qed.

Lemma clear_bit c : transparency c = if clear c then 1 else 0.
Proof. unfold transparency, clear. destruct (Z.leb_spec (alpha c) 127), (Z.ltb_spec (alpha c) 128); auto; lia. Qed.

Lemma mask_row_packed row : forall bits bytes, packed true bits bytes ->
  exists bytes', mask_row row bytes (zlen bits) = Ok bytes' /\ packed true (bits ++ map clear row) bytes'.
Proof.
  induction row as [|c t IH]; intros bits bytes P; [exists bytes; now rewrite app_nil_r|]. cbn [mask_row map].
  destruct (pack_step true bits bytes (clear c) (Z.lor 127 (Z.shiftl (transparency c) 7))
    (fun byte => Z.lor (Z.land byte (Z.lxor 255 (Z.shiftl 1 (7 - zlen bits mod 8)))) (Z.shiftl (transparency c) (7 - zlen bits mod 8))) P)
    as (b1 & E1 & P1).
  - rewrite clear_bit. destruct (clear c); vm_compute; intuition discriminate.
  - intros j J. rewrite clear_bit. apply (eight j (fun j => Z.testbit _ (7 - j) = if j =? 0 then clear c else true)); auto; destruct (clear c); reflexivity.
  - intros v B _. rewrite clear_bit. apply mask_update; auto. lia.
  - rewrite E1. cbn [bind]. destruct (IH _ _ P1) as (b2 & E2 & P2). rewrite zlen_snoc in E2.
    exists b2. split; [exact E2|]. now rewrite <- app_assoc in P2.
Qed.

(** The decision the program takes. *)
Definition is_black (c : color) : bool := gray_level c <=? 127.

Lemma is_black_shading : shading is_black.
Proof.
  intros c (R & G & B & _). unfold is_black, brightness, byte in *. split; intros H.
  - apply Z.leb_le. now apply gray_dark.
  - apply Z.leb_gt. assert (128 <= gray_level c) by now apply gray_light. lia.
Qed.

Lemma image_row_packed row : forall bits bytes, packed false bits bytes ->
  exists bytes', image_row row bytes (zlen bits) = Ok bytes' /\ packed false (bits ++ map is_black row) bytes'.
Proof.
  induction row as [|c t IH]; intros bits bytes P; [exists bytes; now rewrite app_nil_r|]. cbn [image_row map].
  change (red (grayscale c)) with (gray_level c). fold (is_black c).
  destruct (pack_step false bits bytes (is_black c) (Z.shiftl (if is_black c then 1 else 0) 7)
    (fun byte => Z.lor byte (Z.shiftl (if is_black c then 1 else 0) (7 - zlen bits mod 8))) P)
    as (b1 & E1 & P1).
  - destruct (is_black c); vm_compute; intuition discriminate.
  - intros j J. apply (eight j (fun j => Z.testbit _ (7 - j) = if j =? 0 then is_black c else false)); auto; destruct (is_black c); reflexivity.
  - intros v B T. apply image_update; auto. lia.
  - rewrite E1. cbn [bind]. destruct (IH _ _ P1) as (b2 & E2 & P2). rewrite zlen_snoc in E2.
    exists b2. split; [exact E2|]. now rewrite <- app_assoc in P2.
Qed.

Lemma packed_nil pad : packed pad [] [].
Proof. split; [reflexivity|]. split; [constructor|]. intros x H. cbn in H. lia. Qed.

Lemma binary_bytes_data l : Forall byte l -> stmt_data (binary_bytes l) = Some l.
Proof.
  intros H. unfold binary_bytes. cbn [stmt_data]. induction H as [|b t B T IH]; [reflexivity|]. cbn [map all_data].
  rewrite IH. destruct B as [B0 B1]. apply Z.leb_le in B0, B1. cbn [item_data]. now rewrite B0, B1.
Qed.

Lemma pack_rows_data pack pad bit rows : (forall row, exists bytes, pack row = Ok bytes /\ packed pad (map bit row) bytes) ->
  exists stmts ls, pack_rows pack rows = Ok stmts /\ data stmts = Some (List.concat ls) /\
    Forall2 (fun row bytes => packed pad (map bit row) bytes) rows ls.
Proof.
  intros H. induction rows as [|row t (stmts & ls & E & D & F)]; [exists [], []; repeat split; constructor|].
  destruct (H row) as (bytes & Eb & P). exists (binary_bytes bytes :: stmts), (bytes :: ls). cbn [pack_rows]. rewrite Eb, E. cbn [bind].
  split; [reflexivity|]. split; [|constructor; auto]. unfold data. cbn [all_data]. fold (data stmts). rewrite D.
  rewrite binary_bytes_data by apply P. reflexivity.
Qed.

Lemma frame_rows d : List.length (to_frame d) = d_height d /\ forall row, In row (to_frame d) -> List.length row = d_width d.
Proof.
  unfold to_frame. split; [now rewrite map_length, seq_length|]. intros row H. apply in_map_iff in H as (y & <- & _).
  now rewrite map_length, seq_length.
Qed.

Lemma frame_pixel d y row : nth_error (to_frame d) y = Some row -> (y < d_height d)%nat /\
  row = map (fun x => d_pixel d x y) (seq 0 (d_width d)).
Proof.
  unfold to_frame. intros H. assert (L : (y < d_height d)%nat).
  { rewrite <- (seq_length (d_height d) 0), <- (map_length (fun y => map (fun x => d_pixel d x y) (seq 0 (d_width d)))).
    apply nth_error_Some. congruence. }
  split; [exact L|]. rewrite (map_nth_error _ y (seq 0 (d_height d)) (d := y)) in H; [congruence|].
  rewrite (nth_error_nth' _ 0%nat) by (now rewrite seq_length). now rewrite seq_nth.
Qed.

Lemma concat_len {A : Type} (ls : list (list A)) n : Forall (fun l => zlen l = n) ls -> zlen (List.concat ls) = zlen ls * n.
Proof. induction 1 as [|l t H T IH]; [reflexivity|]. cbn [List.concat]. rewrite zlen_app, zlen_cons, H, IH. lia. Qed.

Lemma concat_uniform {A : Type} (ls : list (list A)) n y r k v : Forall (fun l => zlen l = n) ls -> nth_error ls y = Some r ->
  get_at r k = Some v -> get_at (List.concat ls) (Z.of_nat y * n + k) = Some v.
Proof.
  intros F E G. pose proof (concat_at ls y r k v E G) as C. rewrite <- C. f_equal. f_equal.
  rewrite (concat_len (firstn y ls) n).
  - unfold zlen. rewrite firstn_length_le; [lia|]. apply Nat.lt_le_incl, nth_error_Some. congruence.
  - rewrite Forall_forall in *. intros l I. apply F. eapply in_firstn_in || (rewrite <- (firstn_skipn y ls); apply in_or_app; now left).
Qed.

(** A plane of packed rows. *)
Lemma plane_spec d bit pad ls : Forall2 (fun row bytes => packed pad (map bit row) bytes) (to_frame d) ls ->
  zlen (List.concat ls) = plane d /\ bit_plane (List.concat ls) 0 d bit pad.
Proof.
  intros F. destruct (frame_rows d) as [LH LW].
  assert (U : Forall (fun l => zlen l = row_bytes d) ls).
  { clear LH. induction F as [|row bytes t ls' P F IH]; constructor.
    - destruct P as (L & _). rewrite L. unfold zlen. rewrite map_length, (LW row) by (now left). reflexivity.
    - apply IH. intros r I. apply LW. now right. }
  assert (LL : List.length ls = d_height d) by (rewrite <- LH; clear -F; induction F; cbn; congruence).
  split; [rewrite (concat_len ls _ U); unfold zlen, plane; now rewrite LL|].
  intros x y Hy Hx. destruct (nth_error (to_frame d) y) as [row|] eqn:Er; [|apply nth_error_None in Er; lia].
  destruct (forall2_nth _ _ _ F y row Er) as (bytes & Eb & (L & B & P)).
  destruct (frame_pixel d y row Er) as [_ ->].
  assert (W : zlen (map bit (map (fun x => d_pixel d x y) (seq 0 (d_width d)))) = Z.of_nat (d_width d)) by (unfold zlen; now rewrite !map_length, seq_length).
  rewrite W in L, P. fold (row_bytes d) in L. destruct (P x) as (v & Ev & Tv); [lia|].
  exists v. split.
  - replace (0 + Z.of_nat y * row_bytes d + x / 8) with (Z.of_nat y * row_bytes d + x / 8) by lia. eapply concat_uniform; eauto.
  - rewrite Tv. destruct (Z.ltb_spec x (Z.of_nat (d_width d))); [|reflexivity].
    rewrite map_map. rewrite (nth_indep _ false (bit (d_pixel d 0 y))) by (rewrite map_length, seq_length; lia).
    rewrite (map_nth (fun x => bit (d_pixel d x y))). now rewrite seq_nth by lia.
Qed.

Lemma get_at_shift (a b c : list Z) base o v : zlen a = base -> get_at b o = Some v -> get_at (a ++ b ++ c) (base + o) = Some v.
Proof. intros <- H. apply get_at_app_r. now apply get_at_app_l. Qed.

Lemma bit_plane_shift a b c base o d bit pad : zlen a = base -> bit_plane b o d bit pad -> bit_plane (a ++ b ++ c) (base + o) d bit pad.
Proof.
  intros L P x y Hy Hx. destruct (P x y Hy Hx) as (v & E & T). exists v. split; [|exact T].
  rewrite <- !Z.add_assoc in *. now apply get_at_shift.
Qed.

(** A frame in the output at [base]. *)
Definition frame_at (out : list Z) (base : Z) (header masked : bool) (d : decoded) : Prop :=
  (header = true -> get_at out base = Some (Z.of_nat (d_width d)) /\ get_at out (base + 1) = Some (Z.of_nat (d_height d))) /\
  (masked = true -> bit_plane out (base + (if header then 2 else 0)) d clear true) /\
  bit_plane out (base + (if header then 2 else 0) + (if masked then plane d else 0)) d is_black false.

Lemma frame_at_shift a b c base o h m d : zlen a = base -> frame_at b o h m d -> frame_at (a ++ b ++ c) (base + o) h m d.
Proof.
  intros L (H & M & I). split; [|split].
  - intros E. destruct (H E) as [H1 H2]. split; [now apply get_at_shift|]. rewrite <- Z.add_assoc. now apply get_at_shift.
  - intros E. rewrite <- Z.add_assoc. apply bit_plane_shift; auto.
  - rewrite <- !Z.add_assoc. apply bit_plane_shift; auto. now rewrite Z.add_assoc.
Qed.

Lemma frame_dims d : (0 < d_height d)%nat -> width (to_frame d) = Z.of_nat (d_width d).
Proof.
  intros H. destruct (frame_rows d) as [LH LW]. unfold width. destruct (to_frame d) as [|row t] eqn:E; [cbn in LH; lia|].
  rewrite LW by (now left). reflexivity.
Qed.

Lemma frame_height d : height (to_frame d) = Z.of_nat (d_height d).
Proof. unfold height. now rewrite (proj1 (frame_rows d)). Qed.

Lemma wrap32_small z : 0 <= z <= 255 -> wrap32 z = z.
Proof. unfold wrap32. lia. Qed.

Lemma frame_1bit_spec d masked header :
  (header = true -> 0 < Z.of_nat (d_height d) <= 255 /\ Z.of_nat (d_width d) <= 255) ->
  exists stmts out, frame_1bit (to_frame d) masked header = Ok stmts /\ data stmts = Some out /\
    zlen out = frame_bytes header masked d /\ frame_at out 0 header masked d.
Proof.
  intros Hh.
  destruct (pack_rows_data (fun row => mask_row row [] 0) true clear (to_frame d)) as (ms & mls & Em & Dm & Fm).
  { intros row. apply (mask_row_packed row [] [] (packed_nil true)). }
  destruct (pack_rows_data (fun row => image_row row [] 0) false is_black (to_frame d)) as (is & ils & Ei & Di & Fi).
  { intros row. apply (image_row_packed row [] [] (packed_nil false)). }
  destruct (plane_spec d clear true mls Fm) as [Lm Pm]. destruct (plane_spec d is_black false ils Fi) as [Li Pi].
  unfold frame_1bit. rewrite Ei.
  set (hs := if header then _ else _). set (hd := if header then [Z.of_nat (d_width d); Z.of_nat (d_height d)] else []).
  set (c := SComment _). set (mo := if masked then List.concat mls else []).
  assert (Dh : data (c :: hs) = Some hd).
  { unfold hs, hd. destruct header; [|reflexivity]. destruct (Hh eq_refl) as [[H1 H2] H3].
    rewrite frame_dims, frame_height, !wrap32_small by lia. unfold data. cbn [all_data stmt_data item_data c].
    destruct (Z.leb_spec 0 (Z.of_nat (d_width d))); [|lia]. destruct (Z.leb_spec (Z.of_nat (d_width d)) 255); [|lia].
    destruct (Z.leb_spec 0 (Z.of_nat (d_height d))); [|lia]. destruct (Z.leb_spec (Z.of_nat (d_height d)) 255); [|lia]. reflexivity. }
  assert (Zh : zlen hd = if header then 2 else 0) by (unfold hd; now destruct header).
  assert (Zm : zlen mo = if masked then plane d else 0) by (unfold mo; destruct masked; auto).
  assert (Eo : (let! mask := if masked then pack_rows (fun row => mask_row row [] 0) (to_frame d) else Ok [] in
                let! image := Ok is in Ok ((c :: hs) ++ mask ++ image)) = Ok ((c :: hs) ++ (if masked then ms else []) ++ is)).
  { destruct masked; [rewrite Em|]; reflexivity. }
  assert (Dmo : data (if masked then ms else []) = Some mo) by (unfold mo; destruct masked; auto).
  exists ((c :: hs) ++ (if masked then ms else []) ++ is), (hd ++ mo ++ List.concat ils).
  split; [exact Eo|]. split; [apply all_data_app; [exact Dh|apply all_data_app; [exact Dmo|exact Di]]|].
  split; [rewrite !zlen_app, Li, Zm, Zh; unfold frame_bytes; destruct masked; lia|].
  split; [|split].
  - intros ->. unfold hd. cbn. auto.
  - intros ->. unfold mo. rewrite <- Zh. rewrite Z.add_0_l, <- (Z.add_0_r (zlen hd)). now apply bit_plane_shift.
  - rewrite Z.add_0_l, <- Zh, <- Zm, <- zlen_app. rewrite app_assoc, <- (app_nil_r (List.concat ils)), <- (Z.add_0_r (zlen _)). now apply bit_plane_shift.
Qed.

Lemma image_1bit_spec header masked ds :
  (forall d, In d ds -> header = true -> 0 < Z.of_nat (d_height d) <= 255 /\ Z.of_nat (d_width d) <= 255) ->
  exists stmts out, image_1bit (map to_frame ds) masked header = Ok stmts /\ data stmts = Some out /\
    zlen out = frame_offset header masked ds (List.length ds) /\
    forall k d, nth_error ds k = Some d -> frame_at out (frame_offset header masked ds k) header masked d.
Proof.
  induction ds as [|d t IH]; intros H.
  - exists [], []. repeat split; destruct k; discriminate.
  - destruct IH as (s2 & o2 & E2 & D2 & L2 & P2); [intros d' I; apply H; now right|].
    destruct (frame_1bit_spec d masked header) as (s1 & o1 & E1 & D1 & L1 & P1); [apply H; now left|].
    exists (s1 ++ s2), (o1 ++ o2). cbn [map image_1bit]. rewrite E1, E2. cbn [bind]. split; [reflexivity|].
    split; [now apply all_data_app|]. split; [rewrite zlen_app, L1, L2; reflexivity|].
    intros [|k] d' Hk; cbn in Hk.
    + injection Hk as <-. exact (frame_at_shift [] o1 o2 0 0 header masked d eq_refl P1).
    + change (frame_offset header masked (d :: t) (S k)) with (frame_bytes header masked d + frame_offset header masked t k).
      rewrite <- (app_nil_r o2). now apply frame_at_shift; [|apply P2].
Qed.

Lemma sprite_spec pr pics t h path ds : pics path = Ok ds -> ds <> [] ->
  let header := match h with HeaderYes => true | HeaderNo => false end in
  let masked := match t with Simple => false | Masked => true end in
  sprite_input header masked ds ->
  exists stmts out, sprite_statements pics t h path = Ok stmts /\ assemble pr stmts = Ok out /\
    zlen out = frame_offset header masked ds (List.length ds) /\
    forall k d, nth_error ds k = Some d -> frame_at out (frame_offset header masked ds k) header masked d.
Proof.
  intros Hp Hd header masked [Hi Hl].
  destruct (image_1bit_spec header masked ds) as (stmts & out & E & D & L & P); [intros d I; apply (Hi d I)|].
  unfold sprite_statements, load_image. rewrite Hp. cbn [bind].
  destruct ds as [|d0 ds]; [congruence|].
  assert (C : match h with
    | HeaderYes =>
        let! w := image_width (map to_frame (d0 :: ds)) in
        if 255 <? w then Err (SpriteTooWide w)
        else
          let! n := image_height (map to_frame (d0 :: ds)) in
          if 255 <? n then Err (SpriteTooTall n) else Ok tt
    | HeaderNo => Ok tt
    end = Ok tt).
  { destruct h; [|reflexivity]. cbn [map image_width image_height bind]. destruct (Hi d0) as [Hs _]; [now left|].
    destruct (Hs eq_refl) as [H1 H2]. rewrite frame_dims, frame_height by lia.
    destruct (Z.ltb_spec 255 (Z.of_nat (d_width d0))); [lia|]. destruct (Z.ltb_spec 255 (Z.of_nat (d_height d0))); [lia|]. reflexivity. }
  rewrite C. cbn [bind]. fold header masked. rewrite E. cbn [bind].
  eexists _, out. split; [reflexivity|]. split; [|auto]. apply data_assembles; [|unfold zlen in *; lia].
  unfold data. cbn [all_data stmt_data]. fold (data stmts). now rewrite D.
Qed.
