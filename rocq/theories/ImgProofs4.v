(** Lemmas about the pixel data of icons, and icons as a whole. *)
From Coq Require Import ZArith List String Ascii Bool Lia.
From Verif Require Import Base Expr Instr Ast Asm Img SpecIsa SpecExpr SpecAsm SpecImg AsmProofs AsmProofs5 AsmProofs8 ImgProofs ImgProofs2 ImgProofs3.
Import ListNotations.
Open Scope list_scope.
Open Scope Z_scope.

(** ** The palette lines *)

Lemma skip_nth {A : Type} n (l : list A) k d : nth k (skipn n l) d = nth (n + k) l d.
Proof. revert l. induction n as [|n IH]; intros l; [reflexivity|]. destruct l; [now destruct k|]. cbn. apply IH. Qed.

Lemma eights (k : nat) : forall table : list color, List.length table = (8 * k)%nat ->
  List.concat (map (fun y => map (fun x => nth (y * 8 + x) table black) (seq 0 8)) (seq 0 k)) = table.
Proof.
  induction k as [|k IH]; intros table L.
  - destruct table; [reflexivity|discriminate].
  - cbn [seq map List.concat]. rewrite <- (firstn_skipn 8 table) at 9. f_equal.
    + do 8 (destruct table as [|? table]; [cbn in L; lia|]). reflexivity.
    + rewrite <- (IH (skipn 8 table)) by (rewrite skipn_length; lia). rewrite <- seq_shift, map_map. f_equal.
      apply map_ext. intros y. cbn [seq map]. rewrite !skip_nth. repeat (f_equal; try lia).
Qed.

Lemma map_concat {A B : Type} (f : A -> B) ls : map f (List.concat ls) = List.concat (map (map f) ls).
Proof. induction ls as [|l t IH]; [reflexivity|]. cbn. now rewrite map_app, IH. Qed.

Lemma words_concat ls : words (List.concat ls) = List.concat (map words ls).
Proof. induction ls as [|l t IH]; [reflexivity|]. cbn [List.concat map]. now rewrite words_app, IH. Qed.

Lemma data_map {A : Type} (f : A -> statement) (g : A -> list Z) l : (forall a, In a l -> stmt_data (f a) = Some (g a)) ->
  data (map f l) = Some (List.concat (map g l)).
Proof.
  induction l as [|a t IH]; intros H; [reflexivity|]. cbn [map List.concat]. apply data_cons; [apply H; now left|].
  apply IH. intros b I. apply H. now right.
Qed.

Lemma palette_word c : levels c -> word16 (to_palette_color c).
Proof. intros H. rewrite palette_color by exact H. apply argb_range. exact H. Qed.

Lemma palette_lines_data table k : List.length table = (8 * k)%nat -> Forall levels table ->
  data (palette_lines table) = Some (words (map to_palette_color table)).
Proof.
  intros L F. unfold palette_lines. rewrite L. replace (8 * k / 8)%nat with k by (rewrite Nat.mul_comm, Nat.div_mul; lia).
  rewrite (data_map _ (fun y => words (map to_palette_color (map (fun x => nth (y * 8 + x) table black) (seq 0 8))))).
  - f_equal. pose proof (f_equal (fun t => words (map to_palette_color t)) (eights k table L)) as E. cbv beta in E. rewrite <- E.
    rewrite map_concat, words_concat, !map_map. reflexivity.
  - intros y I. unfold palette_line. rewrite <- (map_map (fun x => nth (y * 8 + x) table black) (fun c => num (to_palette_color c))).
    rewrite <- (map_map to_palette_color num). apply words_data. rewrite Forall_forall in *. intros n In_n.
    apply in_map_iff in In_n as (c & <- & Ic). apply palette_word. apply in_map_iff in Ic as (x & <- & Ix). apply F. apply nth_In.
    apply in_seq in I, Ix. lia.
Qed.

(** ** Pixels *)

Definition idx (p : palette) (c : color) : Z := match pal_get p c with Some i => i | None => 0 end.

Fixpoint pairs (p : palette) (l : list color) : list Z :=
  match l with
  | c1 :: c2 :: t => (16 * idx p c1 + idx p c2) :: pairs p t
  | _ => []
  end.

Lemma index_ok p c : In c (map fst p) -> index_of p c = Ok (idx p c) /\ pal_get p c = Some (idx p c).
Proof. intros I. apply pal_mem in I. unfold index_of, idx. destruct (pal_get p c); [auto|congruence]. Qed.

Lemma nibble_lor a b : 0 <= a < 16 -> 0 <= b < 16 -> Z.lor (Z.shiftl (Z.land a 15) 4) (Z.land b 15) = 16 * a + b.
Proof.
  intros A B. rewrite !nibble_mod, !Z.mod_small by lia. rewrite lor_add by lia. change (2 ^ 4) with 16. lia.
Qed.

Lemma nibbles_data p k : good p -> pal_len p <= 16 -> forall row, List.length row = (2 * k)%nat ->
  (forall c, In c row -> In c (map fst p)) ->
  exists items, nibbles p row = Ok items /\ all_data item_data items = Some (pairs p row).
Proof.
  intros G L. induction k as [|k IH]; intros row Lr H.
  - destruct row; [|discriminate]. exists []. auto.
  - destruct row as [|c1 [|c2 t]]; try (cbn in Lr; lia). destruct (IH t) as (items & E & D); [cbn in Lr; lia| |].
    { intros c I. apply H. now right; right. }
    destruct (index_ok p c1) as [E1 P1]; [apply H; now left|]. destruct (index_ok p c2) as [E2 P2]; [apply H; right; now left|].
    pose proof (pal_range _ _ _ G P1). pose proof (pal_range _ _ _ G P2).
    exists (BVExpr (num (16 * idx p c1 + idx p c2)) :: items). cbn [nibbles]. rewrite E1, E2, E. cbn [bind].
    rewrite nibble_lor by lia. split; [reflexivity|]. unfold num. cbn [all_data item_data pairs]. rewrite D.
    destruct (Z.leb_spec 0 (16 * idx p c1 + idx p c2)); [|lia]. destruct (Z.leb_spec (16 * idx p c1 + idx p c2) 255); [reflexivity|lia].
Qed.

Lemma indices_data p : good p -> pal_len p <= 256 -> forall row, (forall c, In c row -> In c (map fst p)) ->
  exists items, indices p row = Ok items /\ all_data item_data items = Some (map (idx p) row).
Proof.
  intros G L. induction row as [|c t IH]; intros H; [exists []; auto|]. destruct IH as (items & E & D); [intros c' I; apply H; now right|].
  destruct (index_ok p c) as [E1 P1]; [apply H; now left|]. pose proof (pal_range _ _ _ G P1).
  exists (BVExpr (num (idx p c)) :: items). cbn [indices]. rewrite E1, E. cbn [bind].
  change 255 with (Z.ones 8) at 1. rewrite Z.land_ones, Z.mod_small by (cbn; lia). split; [reflexivity|].
  unfold num. cbn [all_data item_data map]. rewrite D.
  destruct (Z.leb_spec 0 (idx p c)); [|lia]. destruct (Z.leb_spec (idx p c) 255); [reflexivity|lia].
Qed.

Lemma pairs_app p k : forall a b, List.length a = (2 * k)%nat -> pairs p (a ++ b) = pairs p a ++ pairs p b.
Proof.
  induction k as [|k IH]; intros a b L.
  - destruct a; [reflexivity|discriminate].
  - destruct a as [|c1 [|c2 t]]; try (cbn in L; lia). cbn. rewrite IH by (cbn in L; lia). reflexivity.
Qed.

Lemma pairs_len p k : forall l, List.length l = (2 * k)%nat -> zlen (pairs p l) = Z.of_nat k.
Proof.
  induction k as [|k IH]; intros l L.
  - destruct l; [reflexivity|discriminate].
  - destruct l as [|c1 [|c2 t]]; try (cbn in L; lia). cbn [pairs]. rewrite zlen_cons, IH by (cbn in L; lia). lia.
Qed.

Lemma pairs_at p k : good p -> pal_len p <= 16 -> forall l n c, List.length l = (2 * k)%nat -> (forall c, In c l -> In c (map fst p)) ->
  get_at l n = Some c -> nibble_at (pairs p l) 0 n (idx p c).
Proof.
  intros G LP. induction k as [|k IH]; intros l n c L H E.
  - destruct l; [|discriminate]. apply get_at_range in E. cbn in E. lia.
  - destruct l as [|c1 [|c2 t]]; try (cbn in L; lia). pose proof (get_at_range _ _ _ E) as R.
    destruct (index_ok p c1) as [_ P1]; [apply H; now left|]. destruct (index_ok p c2) as [_ P2]; [apply H; right; now left|].
    apply (pal_range _ _ _ G) in P1. apply (pal_range _ _ _ G) in P2. rewrite !get_at_cons in E. cbn [pairs]. set (v := 16 * idx p c1 + idx p c2).
    assert (V : byte v) by (unfold byte, v; lia).
    assert (Vd : v / 16 = idx p c1) by (unfold v; symmetry; apply (Z.div_unique _ 16 _ (idx p c2)); lia).
    assert (Vm : v mod 16 = idx p c2) by (unfold v; symmetry; apply (Z.mod_unique _ 16 (idx p c1)); lia). clearbody v.
    destruct (Z.eqb_spec n 0) as [->|N0]; [|destruct (Z.eqb_spec (n - 1) 0) as [N1|N1]].
    + injection E as <-. exists v. cbn. auto.
    + injection E as <-. replace n with 1 by lia. exists v. cbn. auto.
    + destruct (IH t (n - 1 - 1) c) as (w & W1 & W2 & W3); [cbn in L; lia|intros c' I; apply H; now right; right|exact E|].
      replace (n - 1 - 1) with (n + (-1) * 2) in W1, W3 by lia. rewrite Z.div_add in W1 by lia. rewrite Z.mod_add in W3 by lia.
      exists w. split; [|auto]. rewrite get_at_cons. assert (2 <= n) by lia. assert (1 <= n / 2) by (apply Z.div_le_lower_bound; lia).
      destruct (Z.eqb_spec (0 + n / 2) 0); [lia|]. rewrite <- W1. f_equal.
Qed.

Lemma byte_rows_data pack (g : list color -> list Z) f :
  (forall row, In row f -> exists items, pack row = Ok items /\ all_data item_data items = Some (g row)) ->
  exists stmts, byte_rows pack f = Ok stmts /\ data stmts = Some (List.concat (map g f)).
Proof.
  induction f as [|row t IH]; intros H; [exists []; auto|]. destruct IH as (stmts & E & D); [intros r I; apply H; now right|].
  destruct (H row) as (items & Ei & Di); [now left|]. exists (SDirective (DByte items) :: stmts). cbn [byte_rows]. rewrite Ei, E. cbn [bind].
  split; [reflexivity|]. now apply data_cons.
Qed.

Definition even_rows (f : frame) : Prop := forall row, In row f -> exists k, List.length row = (2 * k)%nat.

Lemma pairs_concat p f : even_rows f -> List.concat (map (pairs p) f) = pairs p (List.concat f).
Proof.
  induction f as [|row t IH]; intros H; [reflexivity|]. cbn [map List.concat]. destruct (H row) as (k & L); [now left|].
  rewrite (pairs_app p k) by exact L. f_equal. apply IH. intros r I. apply H. now right.
Qed.

Lemma nibble_frames_data p many i : good p -> pal_len p <= 16 -> (forall f, In f i -> even_rows f) ->
  (forall f c, In f i -> In c (List.concat f) -> In c (map fst p)) -> forall n,
  exists stmts, nibble_frames p many n i = Ok stmts /\ data stmts = Some (List.concat (map (fun f => pairs p (List.concat f)) i)).
Proof.
  intros G L. induction i as [|f t IH]; intros He Hc n; [exists []; auto|].
  destruct (IH (fun f I => He f (or_intror I)) (fun f c I => Hc f c (or_intror I)) (n + 1)) as (rest & E & D).
  destruct (byte_rows_data (nibbles p) (pairs p) f) as (rows & Er & Dr).
  { intros row I. destruct (He f (or_introl eq_refl) row I) as (k & Lk). apply (nibbles_data p k); auto.
    intros c Ic. apply (Hc f); [now left|]. apply in_concat. eauto. }
  rewrite pairs_concat in Dr by (apply He; now left).
  eexists. cbn [nibble_frames]. rewrite Er, E. cbn [bind]. split; [reflexivity|]. cbn [map List.concat].
  match goal with |- data (?ti ++ _) = _ => assert (T : data ti = Some []) by (destruct many; reflexivity) end.
  apply (data_app _ _ [] _ T). now apply data_app.
Qed.

Lemma index_frames_data p i : good p -> pal_len p <= 256 ->
  (forall f c, In f i -> In c (List.concat f) -> In c (map fst p)) ->
  exists stmts, index_frames p i = Ok stmts /\ data stmts = Some (List.concat (map (fun f => map (idx p) (List.concat f)) i)).
Proof.
  intros G L. induction i as [|f t IH]; intros Hc; [exists []; auto|].
  destruct (IH (fun f c I => Hc f c (or_intror I))) as (rest & E & D).
  destruct (byte_rows_data (indices p) (map (idx p)) f) as (rows & Er & Dr).
  { intros row I. apply (indices_data p); auto. intros c Ic. apply (Hc f); [now left|]. apply in_concat. eauto. }
  rewrite <- map_concat in Dr.
  eexists. cbn [index_frames]. rewrite Er, E. cbn [bind]. split; [reflexivity|]. cbn [map List.concat]. now apply data_app.
Qed.

Lemma true_color_data i : (forall f c, In f i -> In c (List.concat f) -> levels c) ->
  data (true_color i) = Some (List.concat (map (fun f => words (map to_palette_color (List.concat f))) i)).
Proof.
  unfold true_color. induction i as [|f t IH]; intros H; [reflexivity|]. cbn [flat_map map List.concat]. apply data_app.
  - rewrite map_concat, words_concat, map_map. apply data_map. intros row I.
    replace (map (fun c => num (Z.land (to_palette_color c) 65535)) row) with (map num (map to_palette_color row)).
    + apply words_data. apply Forall_forall. intros n In_n. apply in_map_iff in In_n as (c & <- & Ic). apply palette_word.
      apply (H f); [now left|]. apply in_concat. eauto.
    + rewrite map_map. apply map_ext_in. intros c Ic. f_equal. change 65535 with (Z.ones 16). rewrite Z.land_ones by lia.
      symmetry. apply Z.mod_small. assert (word16 (to_palette_color c)); [|unfold word16 in *; cbn; lia].
      apply palette_word. apply (H f); [now left|]. apply in_concat. eauto.
  - apply IH. intros f' c I. apply H. now right.
Qed.
