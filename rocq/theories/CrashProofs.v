(** Which programs can crash the assembler. *)
From Coq Require Import ZArith List String Ascii Bool Arith Lia.
From Verif Require Import Base Expr Instr Ast Macro Asm Lexer Parser Files CHeader Img Include.
From Verif Require Import SpecIsa SpecExpr SpecAsm SpecImg SpecLex SpecParse SpecLine SpecFiles SpecHeader SpecInclude SpecPrint SpecExpand SpecCrash.
From Verif Require Import ExprProofs AsmProofs AsmProofs8 MacroProofs MacroProofs2 LexProofs LexProofs2 LexProofs3 LexProofs4 LexProofs5.
From Verif Require Import ParseProofs LineProofs LineProofs2 LineProofs3 FilesProofs HeaderProofs HeaderProofs2 IncludeProofs IncludeProofs2 IncludeProofs3.
From Verif Require Import ImgProofs ImgProofs2 ImgProofs3 ImgProofs4 ImgProofs5 PrintProofs5 ExpandProofs ExpandProofs2.
Import ListNotations.
Open Scope string_scope.
Open Scope list_scope.

(** * Headers *)

Lemma c_lex_panic : forall k f before text, lex_loop skip_c k (inp f before text) = Panic -> too_large_header text.
Proof.
  induction k as [|k IH]; intros f before text H; [discriminate|]. cbn [lex_loop] in H.
  destruct (skip_c_inp f before text) as (g & rest & E & S & G & Q).
  unfold read_token in H. rewrite S in H. unfold eof in H. cbn [inp i_rest] in H.
  destruct rest as [|c t]; [discriminate|].
  fold (inp f (before ++ g) (String c t)) in H. rewrite first_match_pick in H. cbn [inp i_rest] in H.
  fold (inp f (before ++ g) (String c t)) in H.
  destruct (pick matchers (String c t)) as [[n conv]|] eqn:P; [|discriminate].
  apply pick_sound in P as (tx & r & ty & E2 & -> & W & C & V).
  assert (N: no_comment tx r) by (eapply writes_c_quiet; [exact W|]; now rewrite <- E2).
  rewrite E2 in H. rewrite substring_app, V in H. rewrite E2 in E, G.
  destruct (result_inv ty) as [[F R]|[F R]]; rewrite R in H.
  - rewrite update_inp in H by (eapply writes_cut; eauto). cbn [bind t_type] in H.
    rewrite not_eof_step in H by (intros X; rewrite X in W; eapply writes_not_eof; eauto).
    destruct (lex_loop skip_c k _) as [l| | |] eqn:LL; try discriminate.
    apply IH in LL as (ps & gp & lit & rest & n & rd & -> & PO & GT & NU & CO & BIG).
    exists (mkPiece g tx ty :: ps), gp, lit, rest, n, rd. cbn [source p_gap p_text c_pieces_ok p_type]. repeat split; auto.
  - destruct ty; cbn in F; try (exfalso; apply F; exact Logic.I).
    exists [], g, tx, r, num, r0. cbn [source c_pieces_ok]. repeat split; auto; [|lia].
    inversion W; subst; auto. match goal with I : In _ _ |- _ => cbn in I; repeat (destruct I as [I|I]; [discriminate|]); contradiction end.
Qed.

Lemma header_panic f text : header_lex (new_input f text) = Panic -> too_large_header text.
Proof.
  unfold header_lex. destruct (lex_for_ws skip_c (new_input f text)) as [raw| | |] eqn:E; try discriminate; cbn [bind].
  - intros H. destruct (header_lines_total (lines raw)) as [(o & X)|(er & X)]; rewrite X in H; discriminate.
  - intros _. unfold lex_for_ws in E. rewrite new_inp in E. exact (c_lex_panic _ _ _ _ E).
Qed.

Lemma lex_panic f text : lex_input (new_input f text) = Panic -> too_large text.
Proof. intros H. apply lex_panic_iff in H. exact H. Qed.

(** * Paths and files *)

Lemma path_panic w s root p : path_of w s (Some root) p = Panic -> parent root = None.
Proof.
  unfold path_of. destruct (is_absolute p); cbn [bind]; [destruct (_ || _)%bool; discriminate|].
  destruct (is_dir w root); cbn [bind]; [destruct (_ || _)%bool; discriminate|].
  destruct (parent root); cbn [bind]; [destruct (_ || _)%bool; discriminate|reflexivity].
Qed.

Lemma load_panic w s root name : load w s root name = Panic -> path_of w s root name = Panic.
Proof.
  unfold load. destruct (path_of w s root name) as [p| | |] eqn:P; cbn [bind]; try discriminate; [|reflexivity].
  unfold get_id. destruct (find_name (sf_list s) 0 p) as [i|] eqn:FN.
  - apply find_name_some in FN as (g & _ & N & _). rewrite Nat.sub_0_r in N. rewrite N. discriminate.
  - unfold load_file. destruct (read_bytes w p); [|discriminate]. destruct (valid_utf8 _); discriminate.
Qed.

(** * Includes *)

Definition there (w : fs) (main : string) : Prop :=
  (exists g text, reached w main g /\ read_bytes w g = Some text /\ too_large text) \/
  (exists g text, reached_header w main g /\ read_bytes w g = Some text /\ too_large_header text).

Lemma lines_in toks l : In l (lines toks) -> exists ls, grouped toks ls /\ In l ls.
Proof. intros I. exists (lines toks). split; [apply lines_grouped|exact I]. Qed.

Section Crash.
Variable w : fs.
Variable main : string.
Hypothesis R : rooted w.

Definition panics_there (rec : rec_type) : Prop := forall name s id text toks, well_kept s -> as_on_disk w s -> reached w main name ->
  read_bytes w name = Some text -> lex_input (new_input id text) = Ok toks -> rec name s toks = Panic -> there w main.

Lemma line_panic rec name s l : panics_there rec -> well_kept s -> as_on_disk w s -> reached w main name ->
  line_of w name l -> include_line rec w name s l = Panic -> there w main.
Proof.
  intros K W D RC LO H. assert (PN: parent name <> None).
  { apply R. destruct LO as (text & _ & _ & _ & E & _). congruence. }
  unfold include_line, stream_of in H. destruct (fine_directive (map t_type l)) as [F1 F2].
  destruct (parse_directive (map t_type l)) as [[[stmt|] r]| | |] eqn:E; try discriminate; [|congruence].
  destruct (directive_sound _ _ _ E) as (front & d & A & -> & DD).
  destruct d as [|?|?|? ?|? ?|t p|? ?]; cbn [fixup_paths bind] in H; try discriminate.
  destruct (path_of w s (Some name) p) as [q| | |] eqn:P; try discriminate; [|now apply path_panic in P]. cbn [bind] in H. apply path_some_iff in P.
  assert (LM: forall f s2, load w s (Some name) q = Ok (f, s2) -> exists m, meant w name p m /\ same_path (sf_name f) m /\
    well_kept s2 /\ as_on_disk w s2 /\ read_bytes w (sf_name f) = Some (sf_contents f)).
  { intros f s2 L. destruct (load_inv _ _ _ _ _ _ W L) as (m & M & W2 & EQ & N & _). destruct (load_disk _ _ _ _ _ _ W D L) as [D2 IN].
    exists m. split; [exists q; split; [exact P|now apply path_some_iff in M]|]. split; [now apply path_eqb_same|]. split; [exact W2|]. split; [exact D2|now apply D2]. }
  destruct t as [| | |speed eye|k h]; try discriminate.
  - destruct (load w s (Some name) q) as [[f s2]| | |] eqn:L; try discriminate.
    2:{ apply load_panic, path_panic in L. contradiction. }
    cbn [bind] in H. destruct (LM f s2 eq_refl) as (m & M & SP & W2 & D2 & RB).
    assert (RG: reached w main (sf_name f)).
    { eapply rc_include with (f := name) (l := l) (p := p); eauto. rewrite A. inversion DD as [| | | | | |s0|w0 t0 s0 I| |]; subst; [apply op_plain|].
      cbn in I. destruct I as [I|[I|[I|[]]]]; injection I as <-; try discriminate. apply op_typed. }
    destruct (lex_input (new_input (sf_id f) (sf_contents f))) as [toks| | |] eqn:LX; try discriminate.
    + cbn [bind] in H. destruct (rec (sf_name f) s2 toks) as [[new s3]| | |] eqn:RR; try discriminate.
      * cbn [bind] in H. destruct (negb (is_empty r)); [|discriminate]. destruct (fine_next r) as [G1 G2].
        destruct (next r) as [[? ?]| | |]; cbn [bind] in H; congruence.
      * exact (K _ _ _ _ _ W2 D2 RG RB LX RR).
    + left. exists (sf_name f), (sf_contents f). split; [exact RG|]. split; [exact RB|exact (lex_panic _ _ LX)].
  - destruct (load w s (Some name) q) as [[f s2]| | |] eqn:L; try discriminate.
    2:{ apply load_panic, path_panic in L. contradiction. }
    cbn [bind] in H. destruct (LM f s2 eq_refl) as (m & M & SP & W2 & D2 & RB).
    destruct (header_lex (new_input (sf_id f) (sf_contents f))) as [toks| | |] eqn:LX; try discriminate.
    right. exists (sf_name f), (sf_contents f). split; [|split; [exact RB|exact (header_panic _ _ LX)]].
    exists name, l, p, m. repeat split; auto. rewrite A. inversion DD as [| | | | | | |w0 t0 s0 I| |]; subst.
    cbn in I. destruct I as [I|[I|[I|[]]]]; injection I as <-; try discriminate. cbn [app]. constructor.
Qed.

Lemma lines_panic rec name : keeps w rec -> panics_there rec -> reached w main name -> forall ls s, well_kept s -> as_on_disk w s ->
  (forall l, In l ls -> line_of w name l) -> include_lines rec w name s ls = Panic -> there w main.
Proof.
  intros KP K RC. induction ls as [|l ls IH]; intros s W D LO H; cbn [include_lines] in H; [discriminate|].
  destruct (include_line rec w name s l) as [[a s2]| | |] eqn:E; try discriminate; cbn [bind] in H.
  - destruct (include_lines rec w name s2 ls) as [[b s3]| | |] eqn:E2; try discriminate.
    destruct (line_keeps _ _ _ _ _ _ _ KP W D E) as (W2 & D2 & _). apply (IH s2); auto. intros x I. apply LO. now right.
  - apply (line_panic rec name s l); auto. apply LO. now left.
Qed.

Lemma includes_panic : forall fuel, panics_there (replace_includes fuel w).
Proof.
  induction fuel as [|fuel IH]; intros name s id text toks W D RC RB LX H; [discriminate|]. cbn [replace_includes] in H.
  refine (lines_panic _ name (includes_keeps w fuel) IH RC (lines toks) s W D _ H).
  intros l I. destruct (lines_in _ _ I) as (ls & G & I2). exists text, id, toks, ls. auto.
Qed.
End Crash.

(** * Data *)

Lemma pack_fine pack rows : (forall r, pack r <> Panic) -> pack_rows pack rows <> Panic.
Proof.
  intros K. induction rows as [|r rows IH]; cbn [pack_rows]; [discriminate|]. specialize (K r). destruct (pack r); cbn [bind]; try congruence; try discriminate.
  destruct (pack_rows pack rows); cbn [bind]; congruence.
Qed.

Lemma frame_fine f masked h : frame_1bit f masked h <> Panic.
Proof.
  unfold frame_1bit. cbv zeta.
  assert (KM: forall r, mask_row r [] 0%Z <> Panic).
  { intros r. destruct (mask_row_packed r [] [] (packed_nil true)) as (b' & E' & _). change (zlen (@nil bool)) with 0%Z in E'. rewrite E'. discriminate. }
  assert (KI: forall r, image_row r [] 0%Z <> Panic).
  { intros r. destruct (image_row_packed r [] [] (packed_nil false)) as (b' & E' & _). change (zlen (@nil bool)) with 0%Z in E'. rewrite E'. discriminate. }
  assert (A: (if masked then pack_rows (fun row => mask_row row [] 0%Z) f else Ok []) <> Panic) by (destruct masked; [now apply pack_fine|discriminate]).
  assert (B: pack_rows (fun row => image_row row [] 0%Z) f <> Panic) by now apply pack_fine.
  destruct (if masked then _ else _); cbn [bind]; try congruence; try discriminate. destruct (pack_rows _ f); cbn [bind]; congruence.
Qed.

Lemma sprite_fine i masked h : image_1bit i masked h <> Panic.
Proof.
  induction i as [|f i IH]; cbn [image_1bit]; [discriminate|]. pose proof (frame_fine f masked h). destruct (frame_1bit f masked h); cbn [bind]; try congruence; try discriminate.
  destruct (image_1bit i masked h); cbn [bind]; congruence.
Qed.

Lemma sprite_panic pics t h path : pics path <> Panic -> sprite_statements pics t h path = Panic -> h = HeaderYes /\ pics path = Ok [].
Proof.
  intros P. unfold sprite_statements, load_image. destruct (pics path) as [ds| | |]; try discriminate; [|congruence]. cbn [bind].
  pose proof (sprite_fine (map to_frame ds) (match t with Simple => false | Masked => true end) (match h with HeaderYes => true | HeaderNo => false end)) as F.
  destruct h.
  - destruct ds as [|d ds]; [auto|]. cbn [map image_width image_height bind]. destruct (_ <? _)%Z; [discriminate|]. destruct (_ <? _)%Z; [discriminate|]. cbn [bind].
    destruct (image_1bit _ _ _); cbn [bind]; try discriminate. now destruct F.
  - cbn [bind]. destruct (image_1bit _ _ _); cbn [bind]; try discriminate. now destruct F.
Qed.

Lemma icon_panic pics path speed eye : (forall q, pics q <> Panic) -> (forall q ds, pics q = Ok ds -> byte_pictures ds) ->
  to_icon pics path speed eye = Panic -> exists q, eye = Some q /\ pics q = Ok [].
Proof.
  intros NP B H. unfold to_icon, load_image in H. pose proof (NP path) as N1. destruct (pics path) as [ds| | |] eqn:Hp; try discriminate; [|congruence]. cbn [bind] in H.
  rewrite scale_image_frames in H. specialize (B path ds Hp) as Bd.
  destruct (Z.ltb_spec 16 (pal_len (get_palette (scaled_all ds)))) as [|L]; [discriminate|].
  destruct (image_is_size (scaled_all ds) 32 32) eqn:S; [|discriminate]. cbn [negb] in H.
  destruct (icon_four ds 32 32 Bd (proj1 (image_size_iff 32 32 ds ltac:(lia)) S) 16 path) as (is & io & Ei & _); [lia|reflexivity|].
  destruct eye as [eye|]; [|cbn [bind] in H; rewrite Ei in H; discriminate].
  pose proof (NP eye) as N2. destruct (pics eye) as [es| | |] eqn:He; try discriminate; [|congruence]. cbn [bind] in H.
  destruct es as [|e more]; [eauto|]. exfalso. cbn [map as_still bind] in H. rewrite Ei in H. cbn [bind] in H.
  change (scale_image 15 [to_frame e]) with (scaled_all [e]) in H.
  destruct (image_is_size (scaled_all [e]) 72 56) eqn:Se; [|discriminate]. cbn [negb] in H.
  assert (Be : byte_pictures [e]) by (intros d x y [<-|[]]; apply (B eye (e :: more) He); now left).
  assert (De : dims 72 56 e) by (apply (proj1 (image_size_iff 72 56 [e] ltac:(lia)) Se); now left).
  destruct (eyecatch_spec e (pal_len (get_palette (scaled_all [e]))) eye Be De) as (es & eo & Ee & _); [now apply colors_len|].
  rewrite Ee in H. discriminate.
Qed.

Lemma text_codes s : text_of (codes s) = s.
Proof.
  unfold text_of, codes. rewrite map_map. induction s as [|c s IH]; [reflexivity|]. cbn [list_ascii_of_string map string_of_list_ascii].
  rewrite IH, Nat2Z.id, ascii_nat_embedding. reflexivity.
Qed.

Lemma named_lits e : named e -> lits_ok e.
Proof. induction e; cbn; try tauto. unfold in32. lia. Qed.

Lemma byte_include_panic pr w pics main s stmt : parent main <> None -> (forall q, pics q <> Panic) -> (forall q ds, pics q = Ok ds -> byte_pictures ds) ->
  good_statement stmt -> byte_include pr w pics main s stmt = Panic -> explosive w pics main stmt.
Proof.
  intros PM NP B G H. assert (PA: forall p, path_of w s (Some main) p <> Panic) by (intros p E; now apply path_panic in E).
  destruct stmt as [d| | | | | |]; try discriminate. destruct d as [| | | | |t p|]; try discriminate. cbn [byte_include] in H.
  destruct t as [| | |speed eye|k h].
  - apply xp_asm.
  - specialize (PA p). destruct (path_of w s (Some main) p) as [q| | |]; try discriminate; [|congruence]. cbn [bind] in H. destruct (read_bytes w q); discriminate.
  - apply xp_header.
  - cbn [good_statement] in G. destruct G as [G1 G2].
    destruct (match speed with Some _ => _ | None => _ end) as [v| | |] eqn:SP; try discriminate; cbn [bind] in H.
    2:{ destruct speed as [e|]; [|discriminate]. apply xp_speed. intros F.
        rewrite (eval_sem pr (mkEnv "HashMap" (fun _ => None)) e) in SP; [|intros n z E; discriminate E|now apply named_lits, G1|exact F].
        destruct (sem _ _ e); discriminate. }
    destruct (match eye with Some _ => _ | None => _ end) as [y| | |] eqn:EY; try discriminate; cbn [bind] in H.
    2:{ destruct eye as [[?|?]|]; discriminate. }
    pose proof (PA p) as P1. destruct (path_of w s (Some main) p) as [q| | |]; try discriminate; [|congruence]. cbn [bind] in H.
    destruct y as [y|]; cbn [bind] in H.
    + pose proof (PA y) as P2. destruct (path_of w s (Some main) y) as [q2| | |] eqn:PY; try discriminate; [|congruence]. cbn [bind] in H.
      apply icon_panic in H as (q3 & E & E2); auto. injection E as <-. apply path_some_iff in PY.
      destruct eye as [[?|bs]|]; try discriminate. injection EY as <-. destruct (G2 _ eq_refl) as (txt & ->). rewrite text_codes in PY.
      eapply xp_eyecatch; eauto.
    + apply icon_panic in H as (q3 & E & _); auto. discriminate.
  - pose proof (PA p) as P1. destruct (path_of w s (Some main) p) as [q| | |] eqn:PQ; try discriminate; [|congruence]. cbn [bind] in H.
    apply sprite_panic in H as [-> E]; auto. apply path_some_iff in PQ. eapply xp_sprite; eauto.
Qed.

Lemma byte_includes_panic pr w pics main s : parent main <> None -> (forall q, pics q <> Panic) -> (forall q ds, pics q = Ok ds -> byte_pictures ds) ->
  forall l, Forall good_statement l -> byte_includes pr w pics main s l = Panic -> exists x, In x l /\ explosive w pics main x.
Proof.
  intros PM NP B. induction l as [|x l IH]; intros G H; cbn [byte_includes] in H; [discriminate|]. inversion G; subst.
  destruct (byte_include pr w pics main s x) as [a| | |] eqn:EA; try discriminate; cbn [bind] in H.
  - destruct (byte_includes pr w pics main s l) as [b| | |] eqn:EB; try discriminate. destruct IH as (y & I & X); auto. exists y. split; [now right|exact X].
  - exists x. split; [now left|]. eapply byte_include_panic; eauto.
Qed.

Lemma fine_parse ts : fine (parse ts).
Proof.
  unfold parse, parse_macros. apply fine_bind; [apply fine_scan|]. intros [? ?] _. apply fine_bind; [apply fine_lines|]. intros ? _. apply fine_ok.
Qed.

(** * Reading *)

Theorem read_panic pr fuel w pics wd name : is_absolute wd = true -> rooted w -> (forall q, pics q <> Panic) ->
  (forall q ds, pics q = Ok ds -> byte_pictures ds) ->
  read_statements pr fuel w pics (new_files wd) name = Panic -> reading_hazard w pics wd name.
Proof.
  intros A R NP B H. unfold read_statements in H. cbn [path_of bind working_dir new_files] in H.
  assert (J: join wd (join wd name) = join wd name) by (unfold join at 1; now rewrite (absolute_join wd name A)).
  destruct (load w (new_files wd) None (join wd name)) as [[f s]| | |] eqn:L; try discriminate.
  2:{ apply load_panic in L. discriminate. }
  cbn [bind] in H. destruct (state_kept _ _ (state_load _ _ _ _ _ L)) as [W D].
  assert (NM: sf_name f = join wd name /\ read_bytes w (join wd name) = Some (sf_contents f)).
  { destruct (load_inv w (new_files wd) None (join wd name) f s) as (p & P & _ & _ & N & _ & [->|(_ & RB & N2 & _)]);
      [split; [intros [|i] g; discriminate|intros [|i] j g h; discriminate]|exact L| |].
    - destruct (sf_id f); discriminate N.
    - cbn [path_of working_dir new_files] in P. rewrite J in P. injection P as <-. auto. }
  destruct NM as [NM RB].
  destruct (lex_input (new_input (sf_id f) (sf_contents f))) as [toks| | |] eqn:LX; try discriminate.
  2:{ eapply rh_number; [apply rc_main|exact RB|exact (lex_panic _ _ LX)]. }
  cbn [bind] in H. destruct (replace_includes fuel w (join wd name) s toks) as [[out T]| | |] eqn:RI; try discriminate.
  2:{ destruct (includes_panic w (join wd name) R fuel _ _ _ _ _ W D (rc_main _ _) RB LX RI) as [(g & t & X1 & X2 & X3)|(g & t & X1 & X2 & X3)];
      [eapply rh_number|eapply rh_header]; eauto. }
  cbn [bind] in H. destruct (fine_parse out) as [F1 F2]. destruct (parse out) as [st| | |] eqn:P; try discriminate; [|congruence]. cbn [bind] in H.
  unfold replace_byte_includes in H. destruct (byte_includes pr w pics (join wd name) T (st_list st)) as [l| | |] eqn:BI; try discriminate.
  assert (G: good_statements st) by (apply (parse_good out); [exact P|]; eapply includes_lexed; [|exact RI]; eapply lex_lexed; eauto).
  apply byte_includes_panic in BI as (x & I & X); auto; [|apply R; congruence|apply G].
  destruct (includes_follow w fuel _ _ _ _ _ T W D RI (grows_refl T)) as (L0 & -> & EX).
  destruct (includes_keeps w fuel _ _ _ _ _ W D RI) as (_ & DT & _).
  eapply rh_statement; [|exact I|exact X]. exists (sf_id f), (sf_contents f), toks, (lines toks), L0, T, st.
  repeat split; auto. apply lines_grouped.
Qed.

(** * Macros *)

Lemma replace_fine L A : forall fuel e, replace_expr fuel L A e <> Panic.
Proof.
  induction fuel as [|fuel IHf]; intros e; induction e; cbn; intros H;
    repeat match goal with H : bind _ _ = Panic |- _ => apply bind_panic in H as [H|(? & ? & H)] end;
    try contradiction; try discriminate;
    try (destruct (mget L name); discriminate);
    destruct (mget A name) as [[]|]; try discriminate. exact (IHf _ H).
Qed.

Lemma replace_args_fine L A fuel : forall l, replace_args fuel L A l <> Panic.
Proof.
  induction l as [|a l IH]; cbn [replace_args]; [discriminate|]. intros H.
  apply bind_panic in H as [H|(? & ? & H)].
  - destruct a; try discriminate; try (apply bind_panic in H as [H|(? & ? & H)]; [exact (replace_fine _ _ _ _ H)|discriminate]). destruct (mget A _); discriminate.
  - apply bind_panic in H as [H|(? & ? & H)]; [contradiction|discriminate].
Qed.

Section Uuid.
Variable uuid : nat -> string.

Lemma gen_labels_keep : forall body L n L' n' x, gen_labels uuid L n body = Ok (L', n') -> mget L x <> None -> mget L' x <> None.
Proof.
  induction body as [|s body IH]; intros L n L' n' x E N; cbn [gen_labels] in E; [injection E as <- <-; exact N|].
  destruct s as [m args|m|m]; try (exact (IH _ _ _ _ _ E N)). destruct (mcontains L m); [discriminate|].
  refine (IH _ _ _ _ _ E _). rewrite mget_insert. destruct (String.eqb x m); [discriminate|exact N].
Qed.

Lemma gen_labels_all : forall body L n L' n', gen_labels uuid L n body = Ok (L', n') ->
  forall x, In (MMacroLabel x) body -> mget L' x <> None.
Proof.
  induction body as [|s body IH]; intros L n L' n' E x I; [destruct I|]. cbn [gen_labels] in E.
  destruct I as [->|I].
  - destruct (mcontains L x); [discriminate|]. refine (gen_labels_keep _ _ _ _ _ _ E _). rewrite mget_insert, String.eqb_refl. discriminate.
  - destruct s as [m args|m|m]; try (exact (IH _ _ _ _ E x I)). destruct (mcontains L m); [discriminate|]. exact (IH _ _ _ _ E x I).
Qed.

Lemma gen_labels_fine : forall body L n, gen_labels uuid L n body <> Panic.
Proof.
  induction body as [|s body IH]; intros L n; cbn [gen_labels]; [discriminate|]. destruct s; auto. destruct (mcontains L _); [discriminate|auto].
Qed.

Lemma body_fine call fuel ms L A : (forall n name args, call n name args <> Panic) -> forall body n,
  (forall x, In (MMacroLabel x) body -> mget L x <> None) -> expand_body call fuel ms L A n body <> Panic.
Proof.
  intros K. induction body as [|s body IH]; intros n G; cbn [expand_body]; [discriminate|]. intros H.
  apply bind_panic in H as [H|([here n1] & _ & H)].
  - destruct s as [m args|m|m]; try discriminate.
    + destruct (find_macro ms m _); (apply bind_panic in H as [H|(? & ? & H)]; [exact (replace_args_fine _ _ _ _ H)|]).
      * exact (K _ _ _ H).
      * apply bind_panic in H as [H|(? & ? & H)]; [|discriminate]. destruct (fine_make m x) as [F _]. contradiction.
    + specialize (G m (or_introl eq_refl)). destruct (mget L m); [discriminate|congruence].
  - apply bind_panic in H as [H|([? ?] & ? & H)]; [|discriminate]. refine (IH _ _ H). intros x I. apply G. now right.
Qed.

Lemma expand_fine ms : forall fuel n name args, expand uuid fuel ms n name args <> Panic.
Proof.
  induction fuel as [|fuel IH]; intros n name args; cbn [expand]; [discriminate|].
  destruct (find_macro ms name _) as [d|]; [|discriminate]. destruct (Nat.eqb _ _); [|discriminate]. intros H.
  apply bind_panic in H as [H|([L n1] & E & H)].
  - exact (gen_labels_fine _ _ _ H).
  - refine (body_fine _ _ _ _ _ IH _ _ _ H). exact (gen_labels_all _ _ _ _ _ E).
Qed.

Lemma expand_list_fine ms fuel : forall l n, expand_list uuid fuel ms n l <> Panic.
Proof.
  induction l as [|s l IH]; intros n; cbn [expand_list]; [discriminate|]. intros H.
  destruct s; (apply bind_panic in H as [H|([? ?] & ? & H)]; [|try discriminate]);
    try (exact (IH _ H)); try (exact (expand_fine _ _ _ _ _ H)).
  apply bind_panic in H as [H|([? ?] & ? & H)]; [exact (IH _ H)|discriminate].
Qed.
End Uuid.

Theorem expand_macros_fine uuid fuel st : expand_macros uuid fuel st <> Panic.
Proof. unfold expand_macros. intros H. apply bind_panic in H as [H|([? ?] & ? & H)]; [exact (expand_list_fine _ _ _ _ _ H)|discriminate]. Qed.

(** * Assembling *)

Lemma good_typed s : good_statement s -> typed s.
Proof.
  destruct s as [[]| | | | | |]; cbn [good_statement typed]; try tauto; try lia. intros [P _] ->. exact P.
Qed.

Lemma good_lits s e : good_statement s -> In e (stmt_exprs s) -> lits_ok e.
Proof.
  intros G I. destruct s as [[items| |ws| | | |]| |i| | | |]; cbn [stmt_exprs] in I; try contradiction; cbn [good_statement] in G.
  - apply in_flat_map in I as (b & Ib & I). destruct b; [|destruct I]. destruct I as [<-|[]]. rewrite Forall_forall in G. apply named_lits. exact (G _ Ib).
  - rewrite Forall_forall in G. now apply named_lits, G.
  - apply in_flat_map in I as (o & Io & I). destruct o as [x|]; [|destruct I]. destruct I as [<-|[]]. clear - G Io.
    induction G as [|k y ks os K G IH]; [destruct Io|]. destruct Io as [->|Io]; [|auto]. apply named_lits. exact (proj1 K).
Qed.

Theorem assemble_panic pr l : Forall (fun x => good_statement x /\ is_include x = false /\ is_call x = false) l ->
  layout_small l -> (pr = Debug -> forward_cnops l) -> arithmetic_fits pr l ->
  assemble pr l <> Panic /\ assemble pr l <> Diverge.
Proof.
  intros G LS FC [AF1 AF2]. assert (GI: forall k s, nth_error l k = Some s -> good_statement s).
  { intros k s E. apply nth_error_In in E. rewrite Forall_forall in G. apply (G _ E). }
  destruct (assemble_outcome pr l) as [[(out & E) _]|[(er & E) _]]; try (rewrite E; split; discriminate); auto.
  - eapply Forall_impl; [|exact G]. cbn. intros a H. now apply good_typed.
  - eapply Forall_impl; [|exact G]. cbn. intros a (_ & N1 & N2). destruct a as [[]| | | | | |]; try exact Logic.I; discriminate.
  - eapply Forall_impl; [|exact G]. cbn. intros a (X & _). destruct a; try exact Logic.I. exact (proj2 X).
  - split; [|intros; split; [eapply good_lits; eauto|eauto]]. intros k s n e E V. split; [|eapply AF1; eauto]. apply GI in E. apply named_lits.
    destruct s; try discriminate; injection V as <- <-; apply E.
Qed.
