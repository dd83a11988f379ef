(** The grey level as a real number: rounding errors of the floating-point computation. *)
From Coq Require Import ZArith List String Ascii Bool Lia Reals Lra SpecFloat.
From Flocq Require Import Core BinarySingleNaN.
From Verif Require Import Base Img.
Import ListNotations.
Open Scope R_scope.

#[local] Instance Hprec : FLX.Prec_gt_0 53 := eq_refl _.
#[local] Instance Hmax : Prec_lt_emax 53 1024 := eq_refl _.

Lemma nearest_even_equiv s m l : round_nearest_even m l = choice_mode mode_NE s m l.
Proof. destruct l as [|[| |]]; try reflexivity. simpl. unfold Round.cond_incr. now destruct (Z.even m). Qed.

Lemma round_aux_equiv sx mx ex lx :
  SpecFloat.binary_round_aux 53 1024 sx mx ex lx = BinarySingleNaN.binary_round_aux 53 1024 mode_NE sx mx ex lx.
Proof.
  unfold SpecFloat.binary_round_aux, BinarySingleNaN.binary_round_aux.
  destruct (shr_fexp 53 1024 mx ex lx) as [mrs e]. now rewrite (nearest_even_equiv sx).
Qed.

Lemma round_equiv s m e :
  SpecFloat.binary_round 53 1024 s m e = BinarySingleNaN.binary_round 53 1024 mode_NE s m e.
Proof.
  unfold SpecFloat.binary_round, BinarySingleNaN.binary_round, shl_align_fexp.
  destruct (shl_align m e (SpecFloat.fexp 53 1024 (Z.pos (digits2_pos m) + e))). apply round_aux_equiv.
Qed.

Lemma normalize_equiv m e z : SpecFloat.binary_normalize 53 1024 m e z =
  B2SF (BinarySingleNaN.binary_normalize 53 1024 Hprec Hmax mode_NE m e z).
Proof.
  destruct m as [|p|p]; [reflexivity| |]; cbn [SpecFloat.binary_normalize BinarySingleNaN.binary_normalize];
    rewrite B2SF_SF2B; apply round_equiv.
Qed.

Lemma fadd_equiv x y : fadd (B2SF x) (B2SF y) = B2SF (@Bplus 53 1024 Hprec Hmax mode_NE x y).
Proof.
  unfold fadd. destruct x as [sx|sx| |sx mx ex Bx]; destruct y as [sy|sy| |sy my ey By];
    try reflexivity; try (simpl; now destruct (Bool.eqb sx sy)).
  apply normalize_equiv.
Qed.

(** A valid, finite double that is not negative. *)
Definition good (x : spec_float) : Prop :=
  valid_binary 53 1024 x = true /\ match x with S754_zero _ => True | S754_finite s _ _ => s = false | _ => False end.

Definition val (x : spec_float) : R := SF2R radix2 x.

Lemma good_nonneg x : good x -> 0 <= val x.
Proof.
  intros [_ H]. destruct x as [s|s| |s m e]; try contradiction; [apply Rle_refl|]. subst s.
  unfold val. cbn [SF2R]. apply F2R_ge_0. cbn. lia.
Qed.

Lemma ulp_256 : ulp radix2 (SpecFloat.fexp 53 1024) 256 = bpow radix2 (-44).
Proof.
  replace 256 with (bpow radix2 8) by (simpl; lra). rewrite ulp_bpow. reflexivity.
Qed.

Lemma fadd_close x y : good x -> good y -> val x + val y <= 256 ->
  good (fadd x y) /\ Rabs (val (fadd x y) - (val x + val y)) <= bpow radix2 (-45).
Proof.
  intros Gx Gy S. pose proof (good_nonneg x Gx) as Px. pose proof (good_nonneg y Gy) as Py.
  destruct Gx as [Vx Fx]. destruct Gy as [Vy Fy].
  set (bx := SF2B x Vx). set (by_ := SF2B y Vy).
  assert (Ex : B2SF bx = x) by apply B2SF_SF2B. assert (Ey : B2SF by_ = y) by apply B2SF_SF2B.
  assert (Rx : B2R bx = val x) by (rewrite <- SF2R_B2SF, Ex; reflexivity).
  assert (Ry : B2R by_ = val y) by (rewrite <- SF2R_B2SF, Ey; reflexivity).
  assert (Nx : is_finite bx = true) by (rewrite <- is_finite_SF_B2SF, Ex; now destruct x).
  assert (Ny : is_finite by_ = true) by (rewrite <- is_finite_SF_B2SF, Ey; now destruct y).
  pose proof (@Bplus_correct 53 1024 Hprec Hmax mode_NE bx by_ Nx Ny) as C.
  rewrite Rx, Ry in C.
  assert (E : Rabs (round radix2 (SpecFloat.fexp 53 1024) (round_mode mode_NE) (val x + val y) - (val x + val y)) <= bpow radix2 (-45)).
  { eapply Rle_trans; [apply error_le_half_ulp; apply fexp_correct, Hprec|].
    assert (U : ulp radix2 (SpecFloat.fexp 53 1024) (val x + val y) <= bpow radix2 (-44)).
    { rewrite <- ulp_256. apply ulp_le; [apply fexp_correct, Hprec|apply fexp_monotone|].
      rewrite !Rabs_pos_eq by lra. lra. }
    replace (bpow radix2 (-45)) with (/2 * bpow radix2 (-44)) by (simpl; lra). lra. }
  assert (B : Rabs (round radix2 (SpecFloat.fexp 53 1024) (round_mode mode_NE) (val x + val y)) < bpow radix2 1024).
  { apply Rle_lt_trans with 257.
    - assert (bpow radix2 (-45) <= 1) by (simpl; lra).
      apply Rabs_le. apply Rabs_le_inv in E. lra.
    - apply Rlt_le_trans with (bpow radix2 9); [simpl; lra|apply bpow_le; lia]. }
  rewrite Rlt_bool_true in C by exact B. destruct C as (C1 & C2 & C3).
  assert (Z : fadd x y = B2SF (@Bplus 53 1024 Hprec Hmax mode_NE bx by_)) by (rewrite <- fadd_equiv, Ex, Ey; reflexivity).
  split.
  - split; [rewrite Z; apply valid_binary_B2SF|]. rewrite Z.
    destruct (Bplus mode_NE bx by_) as [s|s| |s m e Hm] eqn:EB; cbn in C2; try discriminate; [exact I|].
    cbn [B2SF]. cbn [Bsign] in C3. rewrite C3. destruct (Rcompare_spec (val x + val y) 0) as [H|H|H]; auto; [lra|].
    cbn in C1. assert (Q : F2R (Float radix2 (cond_Zopp s (Z.pos m)) e) = 0).
    { cbn [B2R] in C1. rewrite C1, H. apply round_0, valid_rnd_N. }
    apply eq_0_F2R in Q. destruct s; discriminate Q.
  - unfold val at 1. rewrite Z, SF2R_B2SF, C1. exact E.
Qed.

(** The products with a channel, by running through the 256 values. *)
Definition close_to (num den : Z) (x : spec_float) : bool :=
  valid_binary 53 1024 x &&
  match x with
  | S754_zero _ => (num =? 0)%Z
  | S754_finite false m e =>
      ((e <? 0) && (-100 <=? e) && (Z.abs (den * Z.pos m * 2 ^ (e + 100) - num * 2 ^ 100) <=? den * 2 ^ 55))%Z
  | _ => false
  end.

Lemma close_to_spec num den x : (0 < den)%Z -> close_to num den x = true ->
  good x /\ Rabs (val x - IZR num / IZR den) <= bpow radix2 (-45).
Proof.
  intros D H. apply andb_true_iff in H as [V H]. unfold good.
  assert (DR : 0 < IZR den) by now apply IZR_lt.
  destruct x as [s|s| |[|] m e]; try discriminate.
  - split; [auto|]. apply Z.eqb_eq in H. subst num. unfold val. cbn [SF2R].
    replace (0 - 0 / IZR den) with 0 by (field; lra). rewrite Rabs_R0. apply bpow_ge_0.
  - split; [auto|]. apply andb_true_iff in H as [H H3]. apply andb_true_iff in H as [H1 H2].
    apply Z.leb_le in H2, H3. apply Z.ltb_lt in H1. unfold val. cbn [SF2R cond_Zopp]. unfold F2R. cbn [Fnum Fexp].
    replace (bpow radix2 e) with (IZR (2 ^ (e + 100)) * bpow radix2 (-100)).
    2:{ rewrite (IZR_Zpower radix2) by lia. rewrite <- bpow_plus. f_equal. lia. }
    replace (bpow radix2 (-45)) with (IZR (2 ^ 55) * bpow radix2 (-100)).
    2:{ rewrite (IZR_Zpower radix2) by lia. rewrite <- bpow_plus. reflexivity. }
    assert (P : IZR (2 ^ 100) * bpow radix2 (-100) = 1).
    { rewrite (IZR_Zpower radix2) by lia. rewrite <- bpow_plus. reflexivity. }
    apply IZR_le in H3. rewrite abs_IZR, minus_IZR, !mult_IZR in H3.
    assert (B0 : 0 < bpow radix2 (-100)) by apply bpow_gt_0.
    set (A := IZR (Z.pos m)) in *. set (W := IZR (2 ^ (e + 100))) in *. set (T := bpow radix2 (-100)) in *.
    set (HH := IZR (2 ^ 100)) in *. set (K := IZR (2 ^ 55)) in *. set (NN := IZR num) in *. set (DD := IZR den) in *.
    replace (A * (W * T) - NN / DD) with ((DD * A * W - NN * HH) * (T / DD)).
    2:{ assert (NN / DD = NN * (HH * T) / DD) as -> by (rewrite P; field; lra). field. lra. }
    rewrite Rabs_mult, (Rabs_pos_eq (T / DD)) by (apply Rlt_le, Rdiv_lt_0_compat; lra).
    replace (K * T) with ((DD * K) * (T / DD)) by (field; lra).
    apply Rmult_le_compat_r; [apply Rlt_le, Rdiv_lt_0_compat; lra|exact H3].
Qed.

Definition all_bytes (P : Z -> bool) : bool := forallb (fun n => P (Z.of_nat n)) (seq 0 256).

Lemma all_bytes_spec P c : all_bytes P = true -> (0 <= c <= 255)%Z -> P c = true.
Proof.
  intros H R. unfold all_bytes in H. rewrite forallb_forall in H. specialize (H (Z.to_nat c)).
  rewrite Z2Nat.id in H by lia. apply H. apply in_seq. lia.
Qed.

Lemma red_part c : (0 <= c <= 255)%Z -> good (fmul f03 (of_int c)) /\
  Rabs (val (fmul f03 (of_int c)) - IZR (3 * c) / 10) <= bpow radix2 (-45).
Proof.
  intros R. apply close_to_spec; [reflexivity|].
  apply (all_bytes_spec (fun c => close_to (3 * c) 10 (fmul f03 (of_int c)))); [vm_compute; reflexivity|exact R].
Qed.

Lemma green_part c : (0 <= c <= 255)%Z -> good (fmul f059 (of_int c)) /\
  Rabs (val (fmul f059 (of_int c)) - IZR (59 * c) / 100) <= bpow radix2 (-45).
Proof.
  intros R. apply close_to_spec; [reflexivity|].
  apply (all_bytes_spec (fun c => close_to (59 * c) 100 (fmul f059 (of_int c)))); [vm_compute; reflexivity|exact R].
Qed.

Lemma blue_part c : (0 <= c <= 255)%Z -> good (fmul f011 (of_int c)) /\
  Rabs (val (fmul f011 (of_int c)) - IZR (11 * c) / 100) <= bpow radix2 (-45).
Proof.
  intros R. apply close_to_spec; [reflexivity|].
  apply (all_bytes_spec (fun c => close_to (11 * c) 100 (fmul f011 (of_int c)))); [vm_compute; reflexivity|exact R].
Qed.

Lemma tiny : bpow radix2 (-45) <= /100000.
Proof. simpl. lra. Qed.

(** Rounding a double to a byte. *)
Lemma round_u8_dark x : good x -> val x < 127.5 -> (round_u8 x <= 127)%Z.
Proof.
  intros [_ F] H. destruct x as [s|s| |s m e]; try contradiction; [discriminate|]. subst s. unfold val in H. cbn [SF2R cond_Zopp] in H. unfold F2R in H. cbn [Fnum Fexp] in H.
  unfold round_u8. destruct e as [|p|p].
  - rewrite Rmult_1_r in H. assert (Z.pos m < 128)%Z by (apply lt_IZR; lra). destruct (Z.ltb_spec 255 (Z.pos m)); lia.
  - rewrite <- (IZR_Zpower radix2), <- mult_IZR in H by lia.
    assert (Z.pos m * 2 ^ Z.pos p < 128)%Z by (apply lt_IZR; cbn in *; lra).
    destruct (Z.ltb_spec 255 (Z.pos m * 2 ^ Z.pos p)); lia.
  - assert (P : (0 < 2 ^ Z.pos p)%Z) by (apply Z.pow_pos_nonneg; lia).
    assert (Q : (2 * Z.pos m < 255 * 2 ^ Z.pos p)%Z).
    { apply lt_IZR. rewrite !mult_IZR. rewrite (IZR_Zpower radix2) by lia.
      assert (B : 0 < bpow radix2 (Z.pos p)) by apply bpow_gt_0.
      assert (I : bpow radix2 (Z.neg p) * bpow radix2 (Z.pos p) = 1) by (rewrite <- bpow_plus; replace (Z.neg p + Z.pos p)%Z with 0%Z by lia; reflexivity).
      apply (Rmult_lt_compat_r (bpow radix2 (Z.pos p))) in H; [|exact B]. rewrite Rmult_assoc, I in H. lra. }
    assert ((2 * Z.pos m + 2 ^ Z.pos p) / (2 * 2 ^ Z.pos p) < 128)%Z by (apply Z.div_lt_upper_bound; lia).
    destruct (Z.ltb_spec 255 ((2 * Z.pos m + 2 ^ Z.pos p) / (2 * 2 ^ Z.pos p))); lia.
Qed.

Lemma round_u8_light x : good x -> 127.5 <= val x -> (128 <= round_u8 x)%Z.
Proof.
  intros [_ F] H. destruct x as [s|s| |s m e]; try contradiction; [unfold val in H; cbn [SF2R] in H; lra|]. subst s. unfold val in H. cbn [SF2R cond_Zopp] in H. unfold F2R in H. cbn [Fnum Fexp] in H.
  unfold round_u8. destruct e as [|p|p].
  - rewrite Rmult_1_r in H. assert (127 < Z.pos m)%Z by (apply lt_IZR; lra). destruct (Z.ltb_spec 255 (Z.pos m)); lia.
  - rewrite <- (IZR_Zpower radix2), <- mult_IZR in H by lia.
    assert (127 < Z.pos m * 2 ^ Z.pos p)%Z by (apply lt_IZR; cbn in *; lra).
    destruct (Z.ltb_spec 255 (Z.pos m * 2 ^ Z.pos p)); lia.
  - assert (P : (0 < 2 ^ Z.pos p)%Z) by (apply Z.pow_pos_nonneg; lia).
    assert (Q : (255 * 2 ^ Z.pos p <= 2 * Z.pos m)%Z).
    { apply le_IZR. rewrite !mult_IZR. rewrite (IZR_Zpower radix2) by lia.
      assert (B : 0 < bpow radix2 (Z.pos p)) by apply bpow_gt_0.
      assert (I : bpow radix2 (Z.neg p) * bpow radix2 (Z.pos p) = 1) by (rewrite <- bpow_plus; replace (Z.neg p + Z.pos p)%Z with 0%Z by lia; reflexivity).
      apply (Rmult_le_compat_r (bpow radix2 (Z.pos p))) in H; [|lra]. rewrite Rmult_assoc, I in H. lra. }
    assert (128 <= (2 * Z.pos m + 2 ^ Z.pos p) / (2 * 2 ^ Z.pos p))%Z by (apply Z.div_le_lower_bound; lia).
    destruct (Z.ltb_spec 255 ((2 * Z.pos m + 2 ^ Z.pos p) / (2 * 2 ^ Z.pos p))); lia.
Qed.

Lemma gray_value c : (0 <= red c <= 255)%Z -> (0 <= green c <= 255)%Z -> (0 <= blue c <= 255)%Z ->
  exists x, gray_level c = round_u8 x /\ good x /\
    Rabs (val x - IZR (30 * red c + 59 * green c + 11 * blue c) / 100) <= /10000.
Proof.
  intros R G B. destruct (red_part _ R) as [G1 E1]. destruct (green_part _ G) as [G2 E2]. destruct (blue_part _ B) as [G3 E3].
  pose proof tiny as T1.
  assert (Rr : 0 <= IZR (red c) <= 255) by (destruct R; split; now apply IZR_le).
  assert (Rg : 0 <= IZR (green c) <= 255) by (destruct G; split; now apply IZR_le).
  assert (Rb : 0 <= IZR (blue c) <= 255) by (destruct B; split; now apply IZR_le).
  rewrite mult_IZR in E1, E2, E3. apply Rabs_le_inv in E1, E2, E3.
  set (a := fmul f03 (of_int (red c))) in *. set (b := fmul f059 (of_int (green c))) in *. set (d := fmul f011 (of_int (blue c))) in *.
  destruct (fadd_close a b G1 G2) as [G4 E4]; [lra|]. apply Rabs_le_inv in E4.
  destruct (fadd_close (fadd a b) d G4 G3) as [G5 E5]; [lra|]. apply Rabs_le_inv in E5.
  exists (fadd (fadd a b) d). split; [reflexivity|]. split; [exact G5|].
  rewrite !plus_IZR, !mult_IZR. apply Rabs_le. lra.
Qed.

Lemma gray_dark c : (0 <= red c <= 255 -> 0 <= green c <= 255 -> 0 <= blue c <= 255 ->
  30 * red c + 59 * green c + 11 * blue c < 12750 -> gray_level c <= 127)%Z.
Proof.
  intros R G B H. destruct (gray_value c R G B) as (x & -> & Gx & E). apply round_u8_dark; [exact Gx|].
  apply Rabs_le_inv in E. assert (L : (30 * red c + 59 * green c + 11 * blue c <= 12749)%Z) by lia. apply IZR_le in L. lra.
Qed.

Lemma gray_light c : (0 <= red c <= 255 -> 0 <= green c <= 255 -> 0 <= blue c <= 255 ->
  12750 < 30 * red c + 59 * green c + 11 * blue c -> 128 <= gray_level c)%Z.
Proof.
  intros R G B H. destruct (gray_value c R G B) as (x & -> & Gx & E). apply round_u8_light; [exact Gx|].
  apply Rabs_le_inv in E. assert (L : (12751 <= 30 * red c + 59 * green c + 11 * blue c)%Z) by lia. apply IZR_le in L. lra.
Qed.
