(** Proofs about included data. *)
From Coq Require Import ZArith List String Ascii Bool Arith Lia.
From Verif Require Import Base Expr Instr Ast Lexer Parser Macro Asm Files CHeader Img Include.
From Verif Require Import SpecLine SpecFiles SpecInclude SpecAsm SpecImg SpecCmd SpecExpand SpecData.
From Verif Require Import AsmProofs AsmProofs2 AsmProofs3 AsmProofs4 AsmProofs5 AsmProofs6 AsmProofs7 AsmProofs8 ImgProofs ImgProofs2 ImgProofs3 ImgProofs5.
From Verif Require Import LineProofs IncludeProofs ExpandProofs2 CrashProofs.
Import ListNotations.
Open Scope string_scope.
Open Scope list_scope.
Open Scope Z_scope.

Notation literal_data := ImgProofs.data.

(** * Data in the middle of a program *)

Lemma data_placed pr B part A out bs i b : Forall typed (B ++ part ++ A) -> (pr = Release -> cnop_small (B ++ part ++ A)) ->
  assemble pr (B ++ part ++ A) = Ok out -> literal_data part = Some bs -> get_at bs i = Some b ->
  kept_from (B ++ part ++ A) (List.length B + List.length part) (addr B + i) -> get_at out (addr B + i) = Some b.
Proof.
  intros T C H D E K. destruct (data_nth part bs i b D E) as (k & s & y & j & N & SD & GY & ->).
  set (prog := B ++ part ++ A) in *.
  assert (KL : (k < List.length part)%nat) by (apply nth_error_Some; congruence).
  assert (FA : forall m, (m <= List.length part)%nat -> exists x z, literal_data (firstn m part) = Some x /\ bs = x ++ z /\
    firstn (List.length B + m) prog = B ++ firstn m part /\ addr (firstn (List.length B + m) prog) = addr B + zlen x).
  { intros m M. destruct (data_prefix part bs m D) as (x & z & X & Z0). exists x, z. split; [exact X|]. split; [exact Z0|].
    assert (F : firstn (List.length B + m) prog = B ++ firstn m part).
    { unfold prog. rewrite firstn_app_2, firstn_app. replace (m - List.length part)%nat with 0%nat by lia. cbn [firstn]. now rewrite app_nil_r. }
    split; [exact F|]. rewrite F. unfold addr. rewrite fold_left_app. exact (data_addr_gen _ _ _ X). }
  destruct (FA k ltac:(lia)) as (x & z & X & _ & _ & AX).
  assert (NP : nth_error prog (List.length B + k) = Some s).
  { unfold prog. rewrite nth_error_app2 by lia. replace (List.length B + k - List.length B)%nat with k by lia. now rewrite nth_error_app1. }
  rewrite (data_addr _ _ X) in *.
  destruct (placed pr prog out (List.length B + k) s T C H NP) as (get & bs2 & _ & EM & P).
  rewrite (emits_functional _ _ _ _ _ _ SD EM) in P. rewrite AX in P. rewrite Z.add_assoc. apply P; [exact GY|].
  intros m L. rewrite <- Z.add_assoc. destruct (Nat.lt_ge_cases m (List.length B + List.length part)) as [M|M]; [|now apply K].
  destruct (FA (m - List.length B)%nat ltac:(lia)) as (x2 & z2 & X2 & _ & _ & A2).
  replace (List.length B + (m - List.length B))%nat with m in A2 by lia. rewrite A2.
  assert (zlen x + zlen y <= zlen x2).
  { assert (X3 : literal_data (firstn (S k) part) = Some (x ++ y)).
    { rewrite (firstn_S_snoc _ _ _ N). apply data_app; [exact X|]. unfold literal_data. cbn [all_data]. rewrite SD. now rewrite app_nil_r. }
    destruct (data_prefix (firstn (m - List.length B) part) x2 (S k) X2) as (u & v & U & ->).
    rewrite firstn_firstn, Nat.min_l in U by lia. rewrite X3 in U. injection U as <-. rewrite !zlen_app. pose proof (zlen_nonneg v). lia. }
  apply get_at_range in GY. unfold zlen in *. lia.
Qed.

(** * What each directive becomes *)

Lemma bytes_data c : literal_data [SDirective (DByte (byte_values c))] = Some (codes c).
Proof.
  unfold literal_data. cbn [all_data stmt_data]. unfold byte_values, codes.
  assert (E : all_data item_data (map (fun ch => BVExpr (num (Z.of_nat (nat_of_ascii ch)))) (list_ascii_of_string c)) =
    Some (map (fun ch => Z.of_nat (nat_of_ascii ch)) (list_ascii_of_string c))).
  { induction (list_ascii_of_string c) as [|ch l IH]; [reflexivity|]. cbn [map all_data]. rewrite IH. cbn [item_data num].
    pose proof (nat_ascii_bounded ch). destruct (Z.leb_spec 0 (Z.of_nat (nat_of_ascii ch))); [|lia].
    destruct (Z.leb_spec (Z.of_nat (nat_of_ascii ch)) 255); [|lia]. reflexivity. }
  rewrite E. now rewrite app_nil_r.
Qed.

Lemma text_codes t : text_of (codes t) = t.
Proof.
  unfold text_of, codes. rewrite map_map. rewrite (map_ext _ (fun c => c)).
  - now rewrite map_id, string_of_list_ascii_of_string.
  - intros c. rewrite Nat2Z.id. apply ascii_nat_embedding.
Qed.

Lemma sprite_data pics t h path stmts : picture_files pics -> sprite_statements pics t h path = Ok stmts ->
  exists ds bs, pics path = Ok ds /\ literal_data stmts = Some bs /\
    sprites is_black (match h with HeaderYes => true | HeaderNo => false end) (match t with Masked => true | Simple => false end) ds bs.
Proof.
  intros PF H. unfold sprite_statements, load_image in H. destruct (pics path) as [ds| | |] eqn:Hp; try discriminate. cbn [bind] in H.
  destruct (PF _ _ Hp) as (B & F & wd & ht & H0 & DM).
  destruct (match h with HeaderYes => _ | HeaderNo => _ end) as [u| | |] eqn:CK; try discriminate. cbn [bind] in H.
  set (header := match h with HeaderYes => true | HeaderNo => false end) in *.
  assert (SZ : forall d, In d ds -> header = true -> 0 < Z.of_nat (d_height d) <= 255 /\ Z.of_nat (d_width d) <= 255).
  { intros d I HY. destruct h; [|discriminate]. destruct ds as [|d0 ds]; [destruct I|]. cbn [map image_width image_height bind] in CK.
    destruct (DM d0 ltac:(now left)) as [W0 G0]. destruct (DM d I) as [W1 G1]. rewrite frame_dims, frame_height in CK by lia.
    destruct (Z.ltb_spec 255 (Z.of_nat (d_width d0))); [discriminate|]. cbn [bind] in CK.
    destruct (Z.ltb_spec 255 (Z.of_nat (d_height d0))); [discriminate|]. lia. }
  destruct (image_1bit_spec header (match t with Simple => false | Masked => true end) ds SZ) as (st & bs & E & D & L & P).
  rewrite E in H. cbn [bind] in H. injection H as <-. exists ds, bs. split; [reflexivity|]. split.
  - unfold literal_data. cbn [all_data stmt_data]. fold (literal_data st). now rewrite D.
  - split; [exact L|]. exact P.
Qed.

Lemma include_data pr w pics root s t p part : picture_files pics -> good_statement (SDirective (DInclude t p)) ->
  byte_include pr w pics root s (SDirective (DInclude t p)) = Ok part ->
  exists bs, literal_data part = Some bs /\ contents is_black pr w pics root t p bs.
Proof.
  intros PF G H. cbn [byte_include] in H. destruct t as [| | |speed eye|k h]; try discriminate.
  - destruct (path_of w s (Some root) p) as [q| | |] eqn:P; try discriminate. cbn [bind] in H. apply path_some_iff in P.
    destruct (read_bytes w q) as [c|] eqn:R; [|discriminate]. injection H as <-. exists (codes c). split; [apply bytes_data|].
    now apply (cn_bytes _ _ _ _ _ p q c).
  - destruct (match speed with Some _ => _ | None => _ end) as [x| | |] eqn:SP; try discriminate. cbn [bind] in H.
    destruct (match eye with Some _ => _ | None => _ end) as [y| | |] eqn:EY; try discriminate. cbn [bind] in H.
    destruct (path_of w s (Some root) p) as [q| | |] eqn:P; try discriminate. cbn [bind] in H. apply path_some_iff in P.
    destruct (match y with Some _ => _ | None => _ end) as [z| | |] eqn:EZ; try discriminate. cbn [bind] in H.
    destruct (icon_accepted _ _ _ _ _ (fun q ds X => proj1 (PF q ds X)) H) as [(ds & n & Hp & D & C & N) (e & kind & EI)].
    destruct (PF _ _ Hp) as (B & F & _).
    set (v := match x with Some v => v | None => 10 end).
    assert (V : icon_speed pr speed v /\ speed_value x v).
    { destruct speed as [ex|]; cbn [icon_speed].
      - destruct (eval pr (mkEnv "HashMap" (fun _ => None)) ex) as [m| | |] eqn:EV; try discriminate. cbn [bind] in SP. injection SP as <-.
        unfold v, wrap16. split; [now exists m|]. split; [reflexivity|]. pose proof (Z.mod_pos_bound m 65536 ltac:(lia)). lia.
      - injection SP as <-. unfold v. split; [reflexivity|]. split; [reflexivity|lia]. }
    destruct V as [V1 V2].
    assert (EP : eyecatch_path w root eye z).
    { destruct eye as [[ex|value]|]; try discriminate.
      - injection EY as <-. destruct (proj2 G value eq_refl) as (txt & ->). rewrite text_codes in EZ.
        destruct (path_of w s (Some root) txt) as [eq| | |] eqn:PE; try discriminate. cbn [bind] in EZ. injection EZ as <-.
        apply path_some_iff in PE. now constructor.
      - injection EY as <-. injection EZ as <-. constructor. }
    destruct (icon_data pics q x v z ds e kind) as (stmts & bs & TI & [DT _] & LF); [|exact EI|exact V2|].
    { split; [exact Hp|]. split; [exact B|]. split; [exact D|]. split; [now exists n|exact F]. }
    rewrite H in TI. injection TI as <-. exists bs. split; [exact DT|]. eapply cn_icon; eauto.
  - destruct (path_of w s (Some root) p) as [q| | |] eqn:P; try discriminate. cbn [bind] in H. apply path_some_iff in P.
    destruct (sprite_data _ _ _ _ _ PF H) as (ds & bs & Hp & DT & SP). exists bs. split; [exact DT|]. eapply cn_sprite; eauto.
Qed.

Lemma length_list s : List.length (list_ascii_of_string s) = String.length s.
Proof. induction s as [|c s IH]; [reflexivity|]. cbn. now rewrite IH. Qed.

Lemma get_codes : forall s i c, String.get i s = Some c -> get_at (codes s) (Z.of_nat i) = Some (Z.of_nat (nat_of_ascii c)).
Proof.
  intros s i c H. rewrite get_at_nth. unfold codes. revert i H. induction s as [|d s IH]; intros [|i] H; try discriminate; cbn in H |- *.
  - now injection H as <-.
  - now apply IH.
Qed.

(** * The passes *)

Lemma byte_includes_app pr w pics root s : forall a b out, byte_includes pr w pics root s (a ++ b) = Ok out ->
  exists x y, byte_includes pr w pics root s a = Ok x /\ byte_includes pr w pics root s b = Ok y /\ out = x ++ y.
Proof.
  induction a as [|h a IH]; intros b out H.
  - exists [], out. auto.
  - cbn [app byte_includes] in H. destruct (byte_include pr w pics root s h) as [u| | |] eqn:EU; try discriminate. cbn [bind] in H.
    destruct (byte_includes pr w pics root s (a ++ b)) as [v| | |] eqn:EV; try discriminate. cbn [bind] in H. injection H as <-.
    destruct (IH b v EV) as (x & y & X & Y & ->). exists (u ++ x), y. cbn [byte_includes]. rewrite EU, X. cbn [bind].
    split; [reflexivity|]. split; [exact Y|apply app_assoc].
Qed.

Lemma expand_list_app uuid fuel ms : forall a n b out n2, expand_list uuid fuel ms n (a ++ b) = Ok (out, n2) ->
  exists x m y, expand_list uuid fuel ms n a = Ok (x, m) /\ expand_list uuid fuel ms m b = Ok (y, n2) /\ out = x ++ y.
Proof.
  induction a as [|h a IH]; intros n b out n2 H.
  - exists [], n, out. auto.
  - assert (K : expand_list uuid fuel ms n (h :: a ++ b) = (let! (rest, n3) := expand_list uuid fuel ms n (a ++ b) in Ok (h :: rest, n3)) ->
      (forall l, expand_list uuid fuel ms n (h :: l) = (let! (rest, n3) := expand_list uuid fuel ms n l in Ok (h :: rest, n3))) ->
      exists x m y, expand_list uuid fuel ms n (h :: a) = Ok (x, m) /\ expand_list uuid fuel ms m b = Ok (y, n2) /\ out = x ++ y).
    { intros E1 E2. cbn [app] in H. rewrite E1 in H. destruct (expand_list uuid fuel ms n (a ++ b)) as [[r n3]| | |] eqn:ER; try discriminate.
      cbn [bind] in H. injection H as <- <-. destruct (IH n b r n3 ER) as (x & m & y & X & Y & ->).
      exists (h :: x), m, y. rewrite E2, X. cbn [bind]. auto. }
    destruct h as [| | | | | |name args]; try (apply K; reflexivity). clear K. cbn [app expand_list] in H |- *.
    destruct (expand uuid fuel ms n name args) as [[here n1]| | |] eqn:EH; try discriminate. cbn [bind] in H |- *.
    destruct (expand_list uuid fuel ms n1 (a ++ b)) as [[r n3]| | |] eqn:ER; try discriminate. cbn [bind] in H. injection H as <- <-.
    destruct (IH n1 b r n3 ER) as (x & m & y & X & Y & ->). exists (here ++ x), m, y. rewrite X. cbn [bind].
    split; [reflexivity|]. split; [exact Y|apply app_assoc].
Qed.

Lemma expand_data uuid fuel ms n : forall l bs, literal_data l = Some bs -> expand_list uuid fuel ms n l = Ok (l, n).
Proof.
  intros l bs D. apply data_inert in D. induction D as [|s l I F IH]; [reflexivity|].
  destruct (inert_cases s I) as [(c & ->)|[(c & ->)|(c & ->)]]; cbn [expand_list]; rewrite IH; reflexivity.
Qed.

(** An include directive in the middle of a program. *)
Lemma include_placed uuid pr fuel w pics root s stmts st ex image before t p after :
  Forall good_statement (st_list stmts) -> Forall typed (st_list ex) -> (pr = Release -> cnop_small (st_list ex)) -> picture_files pics ->
  replace_byte_includes pr w pics root s stmts = Ok st -> expand_macros uuid fuel st = Ok ex -> assemble pr (st_list ex) = Ok image ->
  st_list stmts = before ++ SDirective (DInclude t p) :: after ->
  exists bs l B n part A, contents is_black pr w pics root t p bs /\
    byte_includes pr w pics root s before = Ok l /\ expand_list uuid fuel (st_macros stmts) 0 l = Ok (B, n) /\
    st_list ex = B ++ part ++ A /\ addr (B ++ part) = addr B + Z.of_nat (List.length bs) /\
    forall i b, get_at bs i = Some b -> kept_from (st_list ex) (List.length (B ++ part)) (addr B + i) -> get_at image (addr B + i) = Some b.
Proof.
  intros G T C PF R X S0 E. unfold replace_byte_includes in R. destruct (byte_includes pr w pics root s (st_list stmts)) as [l0| | |] eqn:BI; try discriminate.
  cbn [bind] in R. injection R as <-. unfold expand_macros in X. cbn [st_macros st_list] in X.
  destruct (expand_list uuid fuel (st_macros stmts) 0 l0) as [[l1 n1]| | |] eqn:EL; try discriminate. cbn [bind] in X. injection X as <-.
  cbn [st_list] in *. rewrite E in BI, G. apply Forall_app in G as [_ G]. inversion G as [|? ? G1 G2]; subst. clear G.
  apply byte_includes_app in BI as (l & r & BL & BR & ->).
  change (SDirective (DInclude t p) :: after) with ([SDirective (DInclude t p)] ++ after) in BR. apply byte_includes_app in BR as (part & r2 & BP & BA & ->).
  unfold byte_includes in BP. destruct (byte_include pr w pics root s (SDirective (DInclude t p))) as [part2| | |] eqn:BX; try discriminate.
  cbn [bind] in BP. injection BP as BP. rewrite app_nil_r in BP. subst part2.
  destruct (include_data _ _ _ _ _ _ _ _ PF G1 BX) as (bs & D & CN).
  apply expand_list_app in EL as (B & m & y & XB & XY & ->). apply expand_list_app in XY as (part2 & m2 & A & XP & XA & ->).
  rewrite (expand_data _ _ _ _ _ _ D) in XP. injection XP as <- <-.
  exists bs, l, B, m, part, A. split; [exact CN|]. split; [exact BL|]. split; [exact XB|]. split; [reflexivity|]. split.
  - unfold addr. rewrite fold_left_app. apply (data_addr_gen _ _ _ D).
  - intros i b GB K. rewrite app_length in K. eapply data_placed; eauto.
Qed.
