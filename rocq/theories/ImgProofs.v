(** Lemmas about colour reduction, literal data and packed bits. *)
From Coq Require Import ZArith List String Ascii Bool Lia.
From Verif Require Import Base Expr Instr Ast Asm Img SpecIsa SpecExpr SpecAsm SpecImg ExprProofs AsmProofs AsmProofs2 AsmProofs4 AsmProofs5 AsmProofs6 AsmProofs7 AsmProofs8.
Import ListNotations.
Open Scope list_scope.
Open Scope Z_scope.

(** ** Channels *)

Definition bytes_ok (P : Z -> bool) : bool := forallb (fun n => P (Z.of_nat n)) (seq 0 256).

Lemma bytes_ok_spec P c : bytes_ok P = true -> byte c -> P c = true.
Proof.
  intros H R. unfold bytes_ok in H. rewrite forallb_forall in H. specialize (H (Z.to_nat c)). unfold byte in R.
  rewrite Z2Nat.id in H by lia. apply H. apply in_seq. lia.
Qed.

Lemma scale_value c : byte c -> scale 15 c = (2 * c + 17) / 34.
Proof.
  intros H. apply Z.eqb_eq. revert c H. intros c. apply (bytes_ok_spec (fun c => scale 15 c =? (2 * c + 17) / 34)).
  vm_compute. reflexivity.
Qed.

Lemma nearest_iff c l : byte c -> (nearest c l <-> l = (2 * c + 17) / 34).
Proof.
  unfold byte, nearest. intros H. set (q := (2 * c + 17) / 34).
  assert (Q : 34 * q <= 2 * c + 17 < 34 * q + 34) by (pose proof (Z.div_mod (2 * c + 17) 34); pose proof (Z.mod_pos_bound (2 * c + 17) 34); unfold q; lia). clearbody q. split.
  - intros [R M]. specialize (M q). lia.
  - intros ->. split; [lia|]. intros k K. lia.
Qed.

Lemma scale_nearest c : byte c -> nearest c (scale 15 c).
Proof. intros H. apply nearest_iff; auto. now apply scale_value. Qed.

Lemma scale_color_reduced c : byte_color c -> reduced c (scale_color 15 c).
Proof. intros (R & G & B & A). repeat split; try apply scale_nearest; auto. Qed.

Lemma reduced_scale c r : byte_color c -> reduced c r -> r = scale_color 15 c.
Proof.
  intros (R & G & B & A) (H1 & H2 & H3 & H4). rewrite nearest_iff in H1, H2, H3, H4 by auto.
  destruct r as [r0 g0 b0 a0]. cbn [red green blue alpha] in *. unfold scale_color. rewrite !scale_value by auto. congruence.
Qed.

Lemma nibble_mod a : Z.land a 15 = a mod 16.
Proof. change 15 with (Z.ones 4). now rewrite Z.land_ones. Qed.

Lemma lor_add a b n : 0 <= n -> 0 <= b < 2 ^ n -> Z.lor (Z.shiftl a n) b = 2 ^ n * a + b.
Proof.
  intros N B. rewrite Z.shiftl_mul_pow2 by auto. rewrite (Z.mul_comm a).
  assert (L : Z.land (2 ^ n * a) b = 0).
  { apply Z.bits_inj'. intros i Hi. rewrite Z.land_spec, Z.bits_0.
    destruct (Z.lt_ge_cases i n).
    - rewrite Z.mul_comm, Z.mul_pow2_bits_low by lia. reflexivity.
    - rewrite andb_comm. replace (Z.testbit b i) with false; [reflexivity|]. symmetry.
      destruct (Z.eq_dec b 0) as [->|]; [apply Z.bits_0|]. apply Z.bits_above_log2; [lia|]. apply Z.log2_lt_pow2; [lia|].
      assert (2 ^ n <= 2 ^ i) by (apply Z.pow_le_mono_r; lia). lia. }
  rewrite <- Z.lxor_lor by auto. now rewrite <- Z.add_nocarry_lxor by auto.
Qed.

Definition levels (c : color) : Prop := 0 <= red c <= 15 /\ 0 <= green c <= 15 /\ 0 <= blue c <= 15 /\ 0 <= alpha c <= 15.

Lemma palette_color c : levels c -> to_palette_color c = argb4444 c.
Proof.
  intros (R & G & B & A). unfold to_palette_color, argb4444. rewrite !nibble_mod, !Z.mod_small by lia.
  change 12 with (4 + 8). rewrite <- (Z.shiftl_shiftl (alpha c) 4 8) by lia. rewrite <- Z.shiftl_lor. rewrite (lor_add (alpha c) (red c) 4) by lia.
  change 8 with (4 + 4). rewrite <- (Z.shiftl_shiftl (2 ^ 4 * alpha c + red c) 4 4) by lia. rewrite <- Z.shiftl_lor.
  rewrite (lor_add (2 ^ 4 * alpha c + red c) (green c) 4) by lia. rewrite (lor_add _ (blue c) 4) by lia.
  change (2 ^ 4) with 16. lia.
Qed.

Lemma scale_levels c : byte_color c -> levels (scale_color 15 c).
Proof. intros H. destruct (scale_color_reduced c H) as ((R & _) & (G & _) & (B & _) & (A & _)). now repeat split. Qed.

Lemma argb_range c : levels c -> 0 <= argb4444 c <= 65535.
Proof. unfold levels, argb4444. lia. Qed.

(** ** Literal data *)

Definition item_data (b : byte_value) : option (list Z) :=
  match b with
  | BVExpr (ENumber n _) => if (0 <=? n) && (n <=? 255) then Some [n] else None
  | BVString s => Some s
  | _ => None
  end.

Definition word_data (e : expr) : option (list Z) :=
  match e with
  | ENumber n _ => if (0 <=? n) && (n <=? 65535) then Some [n mod 256; n / 256] else None
  | _ => None
  end.

Fixpoint all_data {A : Type} (f : A -> option (list Z)) (l : list A) : option (list Z) :=
  match l with
  | [] => Some []
  | x :: t => match f x, all_data f t with Some a, Some b => Some (a ++ b) | _, _ => None end
  end.

Definition stmt_data (s : statement) : option (list Z) :=
  match s with
  | SComment _ => Some []
  | SDirective (DByte items) => all_data item_data items
  | SDirective (DWord ws) => all_data word_data ws
  | _ => None
  end.

Definition data (l : list statement) : option (list Z) := all_data stmt_data l.

Lemma all_data_app {A : Type} (f : A -> option (list Z)) a b x y : all_data f a = Some x -> all_data f b = Some y ->
  all_data f (a ++ b) = Some (x ++ y).
Proof.
  revert x. induction a as [|h t IH]; cbn; intros x H Hb; [injection H as <-; exact Hb|].
  destruct (f h); [|discriminate]. destruct (all_data f t) as [z|]; [|discriminate]. injection H as <-.
  rewrite (IH z eq_refl Hb), app_assoc. reflexivity.
Qed.

Lemma item_data_inv e x : item_data (BVExpr e) = Some x -> exists n r, e = ENumber n r /\ 0 <= n <= 255 /\ x = [n].
Proof.
  destruct e as [| | | | | |n r| | | | | | |]; try discriminate. cbn.
  destruct ((0 <=? n) && (n <=? 255)) eqn:E; [|discriminate]. apply andb_true_iff in E as [A B]. apply Z.leb_le in A, B.
  intros [= <-]. exists n, r. auto.
Qed.

Lemma word_data_inv e x : word_data e = Some x -> exists n r, e = ENumber n r /\ 0 <= n <= 65535 /\ x = [n mod 256; n / 256].
Proof.
  destruct e as [| | | | | |n r| | | | | | |]; try discriminate. cbn.
  destruct ((0 <=? n) && (n <=? 65535)) eqn:E; [|discriminate]. apply andb_true_iff in E as [A B]. apply Z.leb_le in A, B.
  intros [= <-]. exists n, r. auto.
Qed.

Lemma high_byte n : 0 <= n <= 65535 -> n / 256 mod 256 = n / 256.
Proof. intros H. apply Z.mod_small. split; [apply Z.div_pos; lia|apply Z.div_lt_upper_bound; lia]. Qed.

Lemma item_data_bytes pr get b x : item_data b = Some x -> item_bytes pr get b x.
Proof.
  destruct b as [e|s]; [|cbn; congruence]. intros H. destruct (item_data_inv e x H) as (n & r & -> & R & ->).
  exists n. split; [reflexivity|]. split; [lia|]. now rewrite Z.mod_small by lia.
Qed.

Lemma word_data_bytes pr get e x : word_data e = Some x -> word_bytes pr get e x.
Proof.
  intros H. destruct (word_data_inv e x H) as (n & r & -> & R & ->).
  exists n. split; [reflexivity|]. split; [lia|]. now rewrite high_byte.
Qed.

Lemma all_data_forall2 {A : Type} (f : A -> option (list Z)) (R : A -> list Z -> Prop) l x :
  (forall a y, f a = Some y -> R a y) -> all_data f l = Some x -> exists ys, Forall2 R l ys /\ x = List.concat ys.
Proof.
  intros H. revert x. induction l as [|a t IH]; cbn; intros x E; [injection E as <-; exists []; auto|].
  destruct (f a) as [y|] eqn:Ey; [|discriminate]. destruct (all_data f t) as [z|]; [|discriminate]. injection E as <-.
  destruct (IH z eq_refl) as (ys & F & ->). exists (y :: ys). auto.
Qed.

Lemma stmt_data_emits pr get p s x : stmt_data s = Some x -> emits pr get p s x.
Proof.
  destruct s as [d| | | | | |]; try discriminate; [|now intros [= <-]].
  destruct d; try discriminate; intros H; cbn in H.
  - now apply (all_data_forall2 _ _ _ _ (item_data_bytes pr get)).
  - now apply (all_data_forall2 _ _ _ _ (word_data_bytes pr get)).
Qed.

Lemma emits_functional pr get p s x y : stmt_data s = Some x -> emits pr get p s y -> y = x.
Proof.
  destruct s as [d| | | | | |]; try discriminate; [|now intros [= <-]].
  assert (F : forall (A : Type) (f : A -> option (list Z)) (R : A -> list Z -> Prop) l x ys,
    (forall a u v, f a = Some u -> R a v -> v = u) -> all_data f l = Some x -> Forall2 R l ys -> List.concat ys = x).
  { intros A f R l x0 ys HR. revert x0 ys. induction l as [|a t IH]; cbn; intros x0 ys E F.
    - inversion F. injection E as <-. reflexivity.
    - inversion F; subst. destruct (f a) as [u|] eqn:Eu; [|discriminate]. destruct (all_data f t) as [z|]; [|discriminate].
      injection E as <-. cbn. f_equal; [apply (HR a); auto|now apply IH]. }
  destruct d; try discriminate; intros H; cbn in H; intros (l & E & ->).
  - apply (F _ item_data (item_bytes pr get) items); auto. intros a u v Hu Hv. destruct a as [e|s]; [|cbn in *; congruence].
    destruct (item_data_inv e u Hu) as (n & r & -> & R & ->). destruct Hv as (w & E1 & E2 & ->). cbn in E1. injection E1 as <-.
    now rewrite Z.mod_small by lia.
  - apply (F _ word_data (word_bytes pr get) words); auto. intros e u v Hu Hv.
    destruct (word_data_inv e u Hu) as (n & r & -> & R & ->). destruct Hv as (w & E1 & E2 & ->). cbn in E1. injection E1 as <-.
    now rewrite high_byte.
Qed.

Lemma stmt_data_advance s x p : stmt_data s = Some x -> advance p s = p + zlen x.
Proof.
  intros H. pose proof (stmt_data_emits Release (fun _ => None) p s x H) as E.
  destruct s as [d| | | | | |]; try discriminate; [|injection H as <-; cbn; unfold zlen; cbn; lia].
  destruct d; try discriminate; destruct E as (l & F & ->); cbn [advance].
  - rewrite (items_len _ _ _ _ F). reflexivity.
  - rewrite (words_len _ _ _ _ F). reflexivity.
Qed.

Definition inert (s : statement) : Prop := stmt_data s <> None.

Lemma inert_cases s : inert s -> (exists c, s = SComment c) \/ (exists l, s = SDirective (DByte l)) \/ (exists l, s = SDirective (DWord l)).
Proof. unfold inert. destruct s as [d| | | | | |]; cbn; try congruence; eauto. destruct d; cbn; try congruence; eauto. Qed.

Lemma data_inert l x : data l = Some x -> Forall inert l.
Proof.
  unfold data. revert x. induction l as [|s t IH]; cbn; intros x H; constructor.
  - unfold inert. destruct (stmt_data s); congruence.
  - destruct (stmt_data s); [|discriminate]. destruct (all_data stmt_data t); [eauto|discriminate].
Qed.

Ltac inert_case H := destruct (inert_cases _ H) as [(? & ->)|[(? & ->)|(? & ->)]].

Lemma inert_at l k s : Forall inert l -> nth_error l k = Some s -> inert s.
Proof. intros H E. rewrite Forall_forall in H. apply H. eapply nth_error_In; eauto. Qed.

Lemma inert_typed l : Forall inert l -> Forall typed l /\ Forall plain l /\ Forall lower_label l /\ Forall data_only l.
Proof.
  intros H. repeat split; (eapply Forall_impl; [|exact H]; intros s Hs; inert_case Hs; cbn; auto).
Qed.

Lemma data_split l x k s : data l = Some x -> nth_error l k = Some s ->
  exists a b c, x = a ++ b ++ c /\ stmt_data s = Some b /\ data (firstn k l) = Some a.
Proof.
  unfold data. revert x k. induction l as [|h t IH]; cbn; intros x k H E; [destruct k; discriminate|].
  destruct (stmt_data h) as [u|] eqn:Eh; [|discriminate]. destruct (all_data stmt_data t) as [v|] eqn:Et; [|discriminate].
  injection H as <-. destruct k as [|k]; cbn in *.
  - injection E as <-. exists [], u, v. auto.
  - destruct (IH v k eq_refl E) as (a & b & c & -> & Hb & Ha). exists (u ++ a), b, c.
    rewrite Eh, Ha, <- app_assoc. auto.
Qed.

Lemma data_addr_gen l : forall p x, data l = Some x -> fold_left advance l p = p + zlen x.
Proof.
  unfold data. induction l as [|h t IH]; cbn; intros p x H; [injection H as <-; rewrite zlen_nil; lia|].
  destruct (stmt_data h) as [u|] eqn:Eh; [|discriminate]. destruct (all_data stmt_data t) as [v|] eqn:Et; [|discriminate].
  injection H as <-. rewrite (stmt_data_advance h u p Eh), (IH _ v eq_refl), zlen_app. lia.
Qed.

Lemma data_addr l x : data l = Some x -> addr l = zlen x.
Proof. intros H. unfold addr. rewrite (data_addr_gen l 0 x H). lia. Qed.

Lemma data_prefix l x k : data l = Some x -> exists a b, data (firstn k l) = Some a /\ x = a ++ b.
Proof.
  intros H. destruct (nth_error l k) as [s|] eqn:E.
  - destruct (data_split l x k s H E) as (a & b & c & -> & _ & Ha). eauto.
  - apply nth_error_None in E. rewrite firstn_all2 by exact E. exists x, []. now rewrite app_nil_r.
Qed.

Lemma data_nth l : forall x i b, data l = Some x -> get_at x i = Some b ->
  exists k s y j, nth_error l k = Some s /\ stmt_data s = Some y /\ get_at y j = Some b /\ i = addr (firstn k l) + j.
Proof.
  assert (G : forall p x i b, data l = Some x -> get_at x i = Some b ->
    exists k s y j, nth_error l k = Some s /\ stmt_data s = Some y /\ get_at y j = Some b /\ p + i = fold_left advance (firstn k l) p + j).
  { unfold data. induction l as [|h t IH]; cbn; intros p x i b H E.
    - injection H as <-. apply get_at_range in E. cbn in E. lia.
    - destruct (stmt_data h) as [u|] eqn:Eh; [|discriminate]. destruct (all_data stmt_data t) as [v|] eqn:Et; [|discriminate].
      injection H as <-. pose proof (get_at_range _ _ _ E) as R. destruct (Z.lt_ge_cases i (zlen u)) as [L|L].
      + destruct (get_at_some u i) as (c & Hc); [unfold zlen in L; lia|].
        pose proof (get_at_app_l u v i c Hc) as E2. exists 0%nat, h, u, i. cbn. repeat split; auto. congruence.
      + fold (zlen (u ++ v)) in R. rewrite zlen_app in R.
        destruct (get_at_some v (i - zlen u)) as (c & Hc); [unfold zlen in *; lia|].
        pose proof (get_at_app_r u v _ c Hc) as E2. replace (zlen u + (i - zlen u)) with i in E2 by lia.
        rewrite E in E2. injection E2 as <-. destruct (IH (p + zlen u) v (i - zlen u) b eq_refl Hc) as (k & s & y & j & H1 & H2 & H3 & H4).
        exists (S k), s, y, j. cbn. rewrite (stmt_data_advance h u p Eh). repeat split; auto. lia. }
  intros x i b H E. destruct (G 0 x i b H E) as (k & s & y & j & H1 & H2 & H3 & H4). exists k, s, y, j. auto.
Qed.

Lemma nth_ext_get (a : list Z) : forall b, List.length a = List.length b -> (forall i x, get_at b i = Some x -> get_at a i = Some x) -> a = b.
Proof.
  induction a as [|h t IH]; intros [|h' t'] L H; try discriminate; auto. f_equal.
  - specialize (H 0 h' eq_refl). cbn in H. congruence.
  - apply IH; [cbn in L; lia|]. intros i x Hx. pose proof (get_at_range _ _ _ Hx) as R. specialize (H (1 + i) x).
    rewrite !get_at_cons in H. destruct (Z.eqb_spec (1 + i) 0); [lia|]. replace (1 + i - 1) with i in H by lia. auto.
Qed.

Lemma data_top l x : data l = Some x -> top l = zlen x.
Proof.
  intros H. pose proof (top_bound l (List.length l)) as B. rewrite firstn_all, (data_addr l x H) in B.
  destruct (top_reached l) as (k & E). destruct (data_prefix l x k H) as (a & b & Ha & ->).
  rewrite (data_addr _ _ Ha) in E. rewrite zlen_app in *. pose proof (zlen_nonneg b). lia.
Qed.

Lemma data_image pr l x out : data l = Some x -> assemble pr l = Ok out -> out = x.
Proof.
  intros H A. pose proof (data_inert l x H) as I. destruct (inert_typed l I) as (T & _ & _ & D).
  assert (C : pr = Release -> cnop_small l).
  { intros _ k a m E. pose proof (inert_at l k _ I E) as F. elim F. reflexivity. }
  assert (F : forall j, addr (firstn j l) <= addr (firstn (S j) l)) by (apply data_forward; auto).
  apply nth_ext_get.
  - destruct (assemble_sound pr l out T C A) as (E & _). apply Nat2Z.inj. fold (zlen out). fold (zlen x). rewrite E.
    now apply data_top.
  - intros i b E. destruct (data_nth l x i b H E) as (k & s & y & j & H1 & H2 & H3 & ->).
    destruct (placed pr l out k s T C A H1) as (get & bs & _ & Em & P). rewrite (emits_functional _ _ _ _ _ _ H2 Em) in P.
    apply P; auto. apply forward_untouched; auto. rewrite (addr_S _ _ _ H1), (stmt_data_advance s y _ H2).
    apply get_at_range in H3. unfold zlen. lia.
Qed.


Lemma data_assembles pr l x : data l = Some x -> zlen x <= 2147483646 -> assemble pr l = Ok x.
Proof.
  intros H L. pose proof (data_inert l x H) as I. destruct (inert_typed l I) as (T & P & W & D).
  assert (NC : forall k a m, nth_error l k = Some (SDirective (DCnop a m)) -> False).
  { intros k a m E. pose proof (inert_at l k _ I E) as F. elim F. reflexivity. }
  assert (NV : forall k s n e, nth_error l k = Some s -> var_def s = Some (n, e) -> False).
  { intros k s n e E V. pose proof (inert_at l k _ I E) as F. inert_case F; discriminate V. }
  assert (NL : forall k n, nth_error l k = Some (SLabel n) -> False).
  { intros k n E. pose proof (inert_at l k _ I E) as F. elim F. reflexivity. }
  assert (LS : layout_small l).
  { intros k. destruct (data_prefix l x k H) as (a & b & Ha & ->). rewrite (data_addr _ _ Ha). rewrite zlen_app in L.
    pose proof (zlen_nonneg a). pose proof (zlen_nonneg b). lia. }
  assert (EF : exprs_fit pr l).
  { split; [intros k s n e E V; exfalso; eauto|]. intros k s get e E _ Ie.
    destruct (data_split l x k s H E) as (a & b & c & _ & Hs & _). pose proof (inert_at l k _ I E) as F.
    assert (Q : exists n r, e = ENumber n r /\ 0 <= n <= 65535).
    { inert_case F; cbn in Ie, Hs; [contradiction| |].
      - apply in_flat_map in Ie as (bv & Ib & Ie). destruct bv as [e'|]; [|contradiction]. destruct Ie as [->|[]].
        revert b Hs. clear -Ib. induction x0 as [|h t IH]; cbn; intros b Hs; [contradiction|].
        destruct (item_data h) as [u|] eqn:Eu; [|discriminate]. destruct (all_data item_data t) eqn:Et; [|discriminate].
        destruct Ib as [->|Ib]; [|eapply IH; eauto]. destruct (item_data_inv e u Eu) as (n & r & -> & R & _). exists n, r. split; [auto|lia].
      - revert b Hs. clear -Ie. induction x0 as [|h t IH]; cbn; intros b Hs; [contradiction|].
        destruct (word_data h) as [u|] eqn:Eu; [|discriminate]. destruct (all_data word_data t) eqn:Et; [|discriminate].
        destruct Ie as [->|Ie]; [|eapply IH; eauto]. destruct (word_data_inv e u Eu) as (n & r & -> & R & _). exists n, r. split; [auto|lia]. }
    destruct Q as (n & r & -> & R). split; cbn; auto. unfold in32. lia. }
  assert (WF : well_formed pr l).
  { split; [|split].
    - intros z [(i & j & s & t & _ & Hi & _ & Gs & _)|(i & j & n & m & _ & Hi & _)]; [|eauto].
      pose proof (inert_at l i _ I Hi) as F. inert_case F; discriminate Gs.
    - intros k s n e E V. exfalso. eauto.
    - intros k s E. destruct (data_split l x k s H E) as (a & b & c & _ & Hs & _).
      exists (fun z => if is_local z then None else visible pr l (List.length l) z), b. split; [|now apply stmt_data_emits].
      split; [intros z ->; reflexivity|]. intros z v ->. split; [discriminate|]. intros (j & n & Hj & _). exfalso. eauto. }
  assert (FC : pr = Debug -> forward_cnops l) by (intros _ k a m E; exfalso; eauto).
  destruct (assemble_outcome pr l T P W LS FC EF) as [[(out & A) _]|[_ NW]]; [|contradiction].
  rewrite A. f_equal. eapply data_image; eauto.
Qed.
