(** Proofs about included data that is wrong. *)
From Coq Require Import ZArith List String Ascii Bool Arith Lia.
From Verif Require Import Base Expr Instr Ast Macro Lexer Parser CHeader Asm Files Img Include Span SpanParser SpanAsm SpanInclude.
From Verif Require Import SpecLex SpecParse SpecSpan SpanProofs SpanProofs2 SpanProofs3 SpanAsmProofs SpecIsa SpecMacro SpecLine.
From Verif Require Import SpecFiles SpecSyntax SpecHeader SpecInclude SpecAsm SpecImg SpecCmd SpecExpand SpecData ImgProofs ImgProofs2 ImgProofs3 ImgProofs5.
From Verif Require Import IncludeProofs ExpandProofs2 DataProofs SpecReading ReadingProofs2.
Import ListNotations.
Open Scope string_scope.
Open Scope list_scope.
Local Open Scope Z_scope.

Lemma dims_dec : forall w h d, dims w h d \/ ~ dims w h d.
Proof.
  intros w h d. unfold dims. destruct (Nat.eq_dec (d_width d) w), (Nat.eq_dec (d_height d) h); tauto.
Qed.

Lemma size_wrong : forall w h ds, (0 < h)%nat -> image_is_size (scaled_all ds) (Z.of_nat w) (Z.of_nat h) = false -> exists d, In d ds /\ ~ dims w h d.
Proof.
  intros w h ds H. unfold image_is_size, scaled_all. induction ds as [|d ds IH]; [discriminate|]. cbn [map forallb]. intros F.
  destruct (dims_dec w h d) as [D|D]; [|exists d; split; [now left|exact D]]. apply (size_iff w h d H) in D. rewrite D in F. cbn [andb] in F.
  destruct (IH F) as (x & I & N). exists x. split; [now right|exact N].
Qed.

Lemma icon_error : forall pics q speed eye e, picture_files pics -> to_icon pics q speed eye = Err e -> wrong_icon pics q eye e.
Proof.
  intros pics q speed eye e PF H. assert (H0 := H). unfold to_icon, load_image in H. destruct (pics q) as [ds|e1| |] eqn:Q; cbn [bind] in H; try discriminate.
  - destruct (PF _ _ Q) as (B & F & _). rewrite scale_image_frames in H.
    set (n := pal_len (get_palette (scaled_all ds))) in *. assert (C: colors ds n) by now apply colors_len.
    destruct (Z.ltb_spec 16 n).
    + injection H as <-. now apply (wn_colors pics q eye ds n).
    + destruct (image_is_size (scaled_all ds) 32 32) eqn:S; cbn [negb] in H.
      * assert (DM := proj1 (image_size_iff 32 32 ds ltac:(lia)) S).
        assert (IN: icon_input pics q ds). { split; [exact Q|]. split; [exact B|]. split; [exact DM|]. split; [now exists n|exact F]. }
        destruct (icon_four ds 32 32 B DM 16 q) as (is & io & EI & _); [fold n; lia|reflexivity|].
        rewrite EI in H. destruct eye as [eye|]; cbn [bind] in H; [|discriminate].
        destruct (pics eye) as [es|e1| |] eqn:Y; cbn [bind] in H; try discriminate.
        -- destruct es as [|d more]; cbn [map as_still bind] in H; [discriminate|].
           change (scale_image 15 [to_frame d]) with (scaled_all [d]) in H.
           destruct (image_is_size (scaled_all [d]) 72 56) eqn:SE; cbn [negb] in H.
           ++ exfalso. assert (DE: dims 72 56 d) by (apply (proj1 (image_size_iff 72 56 [d] ltac:(lia)) SE); now left).
              destruct (PF _ _ Y) as (BY & _). assert (BD: byte_pictures [d]). { intros x a b [<-|[]]. apply BY. now left. }
              destruct (eyecatch_spec d (pal_len (get_palette (scaled_all [d]))) eye BD DE) as (s2 & o2 & E2 & _); [now apply colors_len|].
              rewrite E2 in H. discriminate H.
           ++ injection H as <-. destruct (size_wrong 72 56 [d] ltac:(lia) SE) as (x & [<-|[]] & N). eapply wn_eyecatch_size; eauto.
        -- injection H as <-. eapply wn_eyecatch_file; eauto.
      * injection H as <-. destruct (size_wrong 32 32 ds ltac:(lia) S) as (d & I & N). eapply wn_size; eauto.
  - injection H as <-. now apply wn_file.
Qed.

Lemma sprite_error : forall pr w pics root p q sp t h e at_, picture_files pics -> found w root p q -> sprite_s pics sp t h q = PErr e at_ ->
  wrong_data pr w pics root sp (SISprite t h) p e at_.
Proof.
  intros pr w pics root p q sp t h e at_ PF FD H. unfold sprite_s, load_image in H. destruct (pics q) as [ds|e1| |] eqn:Q; cbn [bind no_place pbind] in H; try discriminate.
  - destruct (PF _ _ Q) as (B & F & wd & ht & H0 & DM).
    assert (X: forall hdr masked, (hdr = true -> forall d, In d ds -> Z.of_nat (d_height d) <= 255 /\ Z.of_nat (d_width d) <= 255) ->
      exists st, image_1bit (map to_frame ds) masked hdr = Ok st).
    { intros hdr masked SZ. destruct (image_1bit_spec hdr masked ds) as (st & bs & E & _); [|now exists st].
      intros d I HY. destruct (SZ HY d I). destruct (DM d I) as [_ ->]. destruct (DM d I) as [_ E]. rewrite E in *. lia. }
    destruct h; cbn [pbind] in H.
    + destruct ds as [|d0 ds]; [discriminate|]. destruct (DM d0 ltac:(now left)) as [W0 G0].
      cbn [map image_width image_height no_place pbind] in H. rewrite frame_dims, frame_height in H by lia.
      destruct (Z.ltb_spec 255 (Z.of_nat (d_width d0))); cbn [pbind] in H.
      * injection H as <- <-. now apply (wd_wide pr w pics root sp t p q d0 ds).
      * destruct (Z.ltb_spec 255 (Z.of_nat (d_height d0))); cbn [pbind] in H.
        -- injection H as <- <-. now apply (wd_tall pr w pics root sp t p q d0 ds).
        -- destruct (X true (match t with Simple => false | Masked => true end)) as (st & E).
           { intros _ d I. destruct (DM d I) as [-> ->]. rewrite <- W0, <- G0. lia. }
           change (to_frame d0 :: map to_frame ds) with (map to_frame (d0 :: ds)) in H. rewrite E in H. discriminate H.
    + destruct (X false (match t with Simple => false | Masked => true end)) as (st & E); [discriminate|]. rewrite E in H. discriminate H.
  - injection H as <- <-. eapply wd_sprite; eauto.
Qed.

Lemma include_error : forall pr w pics root s sp t p e at_, picture_files pics -> good_statement (SDirective (DInclude (erase_include t) p)) ->
  byte_include_s pr w pics root s (SSDirective (SDInclude sp t p)) = PErr e at_ -> wrong_data pr w pics root sp t p e at_.
Proof.
  intros pr w pics root s sp t p e at_ PF G H. cbn [byte_include_s] in H. destruct t as [| | |speed eye|k h]; try discriminate.
  - destruct (path_of w s (Some root) p) as [q|e1| |] eqn:P; cbn [no_place pbind] in H; try discriminate; [|now apply path_no_err in P].
    apply path_some_iff in P. destruct (read_bytes w q) eqn:R; [discriminate|]. injection H as <- <-. now apply wd_bytes.
  - destruct (match speed with Some _ => _ | None => _ end) as [x|e1 at1| |] eqn:SP; cbn [pbind] in H; try discriminate.
    + assert (V: exists v, icon_speed pr (option_map erase speed) v).
      { destruct speed as [ex|]; [|exists 10; reflexivity].
        destruct (eval_s pr (mkEnv "HashMap" (fun _ => None)) ex) as [m|e1 at1| |] eqn:EV; try discriminate SP.
        exists (m mod 65536). cbn. exists m. split; [|reflexivity]. rewrite <- eval_same, EV. reflexivity. }
      destruct V as (v & V).
      assert (KEY: forall y eq, eyecatch_path w root (option_map erase_byte eye) eq ->
        (let? p0 := no_place (path_of w s (Some root) p) in
         let? eye0 := match y with Some e0 => let? q := no_place (path_of w s (Some root) e0) in POk (Some q) | None => POk None end in
         let? l := no_place (to_icon pics p0 x eye0) in POk (map made_statement l)) = PErr e at_ ->
        match y with Some t0 => exists q, eq = Some q /\ path_of w s (Some root) t0 = Ok q | None => eq = None end ->
        wrong_data pr w pics root sp (SIIcon speed eye) p e at_).
      { intros y eq EP HH YY. destruct (path_of w s (Some root) p) as [q|e1| |] eqn:P; cbn [no_place pbind] in HH; try discriminate; [|now apply path_no_err in P].
        apply path_some_iff in P.
        assert (HH2: (let? l := no_place (to_icon pics q x eq) in POk (map made_statement l)) = PErr e at_).
        { destruct y as [t0|]; [destruct YY as (q1 & -> & Q1); rewrite Q1 in HH; exact HH|subst eq; exact HH]. }
        destruct (to_icon pics q x eq) as [l|e1| |] eqn:TI; cbn [no_place pbind] in HH2; try discriminate. injection HH2 as <- <-.
        eapply wd_icon; eauto. eapply icon_error; eauto. }
      destruct eye as [[ex|s1 value]|]; cbn [pbind] in H.
      * injection H as <- <-. eapply wd_eyecatch; eauto.
      * cbn in G. destruct (proj2 G value eq_refl) as (txt & ->). rewrite text_codes in H.
        destruct (path_of w s (Some root) txt) as [q2|e1| |] eqn:P2.
        -- apply (KEY (Some txt) (Some q2)).
           ++ cbn. constructor. now apply path_some_iff in P2.
           ++ rewrite P2. exact H.
           ++ now exists q2.
        -- now apply path_no_err in P2.
        -- exfalso. destruct (path_of w s (Some root) p) as [q|e1| |] eqn:P; try discriminate H. now apply path_no_err in P.
        -- exfalso. destruct (path_of w s (Some root) p) as [q|e1| |] eqn:P; try discriminate H. now apply path_no_err in P.
      * apply (KEY None None); [constructor|exact H|reflexivity].
    + injection H as <- <-. destruct speed as [ex|]; [|discriminate]. destruct (eval_s pr (mkEnv "HashMap" (fun _ => None)) ex) as [m|e2 at2| |] eqn:EV; try discriminate SP.
      injection SP as <- <-. now apply wd_speed.
  - destruct (path_of w s (Some root) p) as [q|e1| |] eqn:P; cbn [no_place pbind] in H; try discriminate; [|now apply path_no_err in P].
    apply path_some_iff in P. eapply sprite_error; eauto.
Qed.

Lemma data_wrong : forall pr w pics root s l e at_, picture_files pics -> Forall good_statement (map erase_statement l) ->
  byte_includes_s pr w pics root s l = PErr e at_ -> wrong_statements is_black pr w pics root l e at_.
Proof.
  intros pr w pics root s l e at_ PF. induction l as [|x l IH]; intros G H; [discriminate|]. cbn [map] in G. inversion G as [|? ? G1 G2]; subst.
  cbn [byte_includes_s] in H. destruct (byte_include_s pr w pics root s x) as [a|e1 at1| |] eqn:A; cbn [pbind] in H; try discriminate.
  - destruct (byte_includes_s pr w pics root s l) as [b|e2 at2| |] eqn:B; cbn [pbind] in H; try discriminate. injection H as <- <-.
    specialize (IH G2 eq_refl). inversion IH as [before sp t p after e3 at3 F W E1 E2 E3]; subst.
    rewrite app_comm_cons. constructor; [|exact W]. constructor; [|exact F]. intros sp1 t1 p1 ->.
    assert (S := byte_include_same pr w pics root s (SSDirective (SDInclude sp1 t1 p1))). rewrite A in S. cbn [unplaced] in S. symmetry in S.
    destruct (include_data _ _ _ _ _ _ _ _ PF G1 S) as (bs & _ & C). now exists bs.
  - injection H as <- <-. destruct x as [d| | | | | |]; try discriminate A. destruct d as [| | | | |sp t p|]; try discriminate A.
    apply (ws_data _ _ _ _ _ []); [constructor|]. eapply include_error; eauto.
Qed.
