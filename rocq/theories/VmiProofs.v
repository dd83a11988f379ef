(** Proofs about the VMI file. *)
From Coq Require Import ZArith List String Ascii Bool Lia.
From Verif Require Import Base Vmi SpecVmi LexProofs.
Import ListNotations.
Open Scope Z_scope.

(** The fields in order. *)
Record vmi_fields : Type := mkVmi {
  v_checksum : list Z; v_description : list Z; v_copyright : list Z; v_year : list Z; v_time : list Z;
  v_version : list Z; v_number : list Z; v_resource : list Z; v_file : list Z; v_mode : list Z; v_unknown : list Z;
  v_size : list Z }.

Definition layout (f : vmi_fields) : list Z :=
  v_checksum f ++ v_description f ++ v_copyright f ++ v_year f ++ v_time f ++ v_version f ++ v_number f ++
  v_resource f ++ v_file f ++ v_mode f ++ v_unknown f ++ v_size f.

Lemma set_nth_at : forall (pre post : list Z) m v, set_nth (pre ++ m :: post) (List.length pre) v = Some (pre ++ v :: post).
Proof. induction pre; intros; cbn; auto. now rewrite IHpre. Qed.

Lemma write_section : forall (pre post : list Z) m at_ v, Z.of_nat (List.length pre) = at_ ->
  write_at (pre ++ m :: post) at_ v = Ok (pre ++ v :: post).
Proof.
  intros pre post m at_ v <-. unfold write_at. rewrite (proj2 (Z.ltb_ge _ _)) by lia. rewrite Nat2Z.id.
  now rewrite set_nth_at.
Qed.

Lemma put_section : forall vals pre m post at_, List.length m = List.length vals -> Z.of_nat (List.length pre) = at_ ->
  put (pre ++ m ++ post) at_ vals = Ok (pre ++ vals ++ post).
Proof.
  induction vals as [|v t IH]; intros pre m post at_ L E; destruct m as [|x m]; try discriminate; [reflexivity|].
  cbn [put]. change ((x :: m) ++ post) with (x :: (m ++ post)). rewrite (write_section _ _ _ _ _ E). cbn [bind].
  replace (pre ++ v :: m ++ post) with ((pre ++ [v]) ++ m ++ post) by (now rewrite <- app_assoc).
  rewrite IH; [now rewrite <- app_assoc|auto|rewrite app_length; cbn; lia].
Qed.

Lemma take_ok : forall n bytes at_, 0 <= at_ -> at_ + Z.of_nat n <= Z.of_nat (List.length bytes) ->
  take_from bytes at_ n = Ok (firstn n (skipn (Z.to_nat at_) bytes)).
Proof.
  induction n as [|n IH]; intros bytes at_ P L; [reflexivity|]. cbn [take_from]. unfold get_at.
  rewrite (proj2 (Z.ltb_ge _ _)) by lia.
  destruct (nth_error bytes (Z.to_nat at_)) as [b|] eqn:E.
  2:{ apply nth_error_None in E. lia. }
  rewrite IH by lia. cbn [bind]. f_equal.
  apply nth_error_split in E as (l1 & l2 & -> & N). replace (Z.to_nat (at_ + 1)) with (S (Z.to_nat at_)) by lia.
  rewrite <- N. rewrite skipn_app, skipn_all2 by lia. replace (S (List.length l1) - List.length l1)%nat with 1%nat by lia.
  rewrite skipn_app, skipn_all, Nat.sub_diag. reflexivity.
Qed.

Lemma take_panic : forall n bytes at_, 0 <= at_ -> (0 < n)%nat -> Z.of_nat (List.length bytes) < at_ + Z.of_nat n ->
  take_from bytes at_ n = Panic.
Proof.
  induction n as [|n IH]; intros bytes at_ P N L; [lia|]. cbn [take_from]. unfold get_at.
  rewrite (proj2 (Z.ltb_ge _ _)) by lia.
  destruct (nth_error bytes (Z.to_nat at_)) as [b|] eqn:E; auto.
  assert (Z.to_nat at_ < List.length bytes)%nat by (apply nth_error_Some; congruence).
  rewrite IH by lia. reflexivity.
Qed.

Lemma str_bytes_map : forall s, str_bytes s = map (fun c => Z.of_nat (nat_of_ascii c)) (list_ascii_of_string s).
Proof. induction s; cbn; auto. now rewrite IHs. Qed.

Lemma padded_spec : forall n bytes, map (byte_or_zero bytes) (seq 0 n) = firstn n bytes ++ repeat 0 (n - List.length bytes).
Proof.
  intros n bytes.
  assert (K: forall n k, map (byte_or_zero bytes) (seq k n) = firstn n (skipn k bytes) ++ repeat 0 (n - List.length (skipn k bytes))).
  { clear n. induction n as [|n IH]; intros k; [reflexivity|]. cbn [seq map]. rewrite IH. unfold byte_or_zero.
    destruct (nth_error bytes k) as [b|] eqn:E.
    - apply nth_error_split in E as (l1 & l2 & -> & <-).
      rewrite !skipn_app, skipn_all2 by lia. replace (S (List.length l1) - List.length l1)%nat with 1%nat by lia.
      rewrite skipn_all, Nat.sub_diag. reflexivity.
    - apply nth_error_None in E. rewrite !skipn_all2 by lia. cbn. rewrite firstn_nil. cbn. rewrite Nat.sub_0_r. reflexivity. }
  apply (K n 0%nat).
Qed.

Lemma padded_field : forall n s, text_field n s (map (byte_or_zero (str_bytes s)) (seq 0 n)).
Proof.
  intros n s. rewrite padded_spec, str_bytes_map. unfold text_field. set (b := map _ _).
  destruct (le_lt_dec n (List.length b)) as [L|L].
  - left. exists (skipn n b). replace (n - List.length b)%nat with 0%nat by lia. cbn [repeat]. rewrite app_nil_r.
    split; [symmetry; apply firstn_skipn|]. now rewrite firstn_length_le.
  - right. exists (n - List.length b)%nat. rewrite firstn_all2 by lia. split; auto. rewrite app_length, repeat_length. lia.
Qed.

Lemma le_bytes_ok : forall n v, number_field n v (le_bytes n v).
Proof.
  induction n as [|n IH]; intros v.
  - split; [reflexivity|]. split; [constructor|]. change (256 ^ Z.of_nat 0) with 1. now rewrite Z.mod_1_r.
  - destruct (IH (v / 256)) as (L & F & E). cbn [le_bytes]. split; [cbn; now rewrite L|]. split.
    + constructor; auto. unfold is_byte. assert (0 <= v mod 256 < 256) by (apply Z.mod_pos_bound; lia). lia.
    + cbn [le_number]. rewrite E. rewrite Nat2Z.inj_succ, Z.pow_succ_r by lia.
      rewrite Z.rem_mul_r by (try lia; apply Z.pow_pos_nonneg; lia). lia.
Qed.

Lemma map_seq_len : forall f n, List.length (map (f : nat -> Z) (seq 0 n)) = n.
Proof. intros. now rewrite map_length, seq_length. Qed.

(** The whole array. *)
Lemma generated : forall path vms copyright offset now, 0 <= offset -> offset + 48 <= Z.of_nat (List.length vms) ->
  let name := last_part path "" in
  let res := map (byte_or_zero (str_bytes (strip_vms name))) (seq 0 8) in
  exists r0 r1 r2 r3 tl, res = r0 :: r1 :: r2 :: r3 :: tl /\
  generate_vmi path vms copyright offset now = Ok (layout (mkVmi
    [Z.land r0 83; Z.land r1 69; Z.land r2 71; Z.land r3 65]
    (firstn 32 (skipn (Z.to_nat (offset + 16)) vms))
    (map (byte_or_zero (str_bytes copyright)) (seq 0 32))
    (le_bytes 2 (d_year now mod 65536))
    [d_month now mod 256; d_day now mod 256; d_hour now mod 256; d_minute now mod 256; d_second now mod 256; weekday_number (d_weekday now)]
    [0; 0] [1; 0] res (map (byte_or_zero (str_bytes name)) (seq 0 12))
    [if 0 <? offset then 2 else 0; 0] [0; 0] (le_bytes 4 (Z.of_nat (List.length vms))))).
Proof.
  intros path vms copyright offset now P L name res.
  assert (RL: List.length res = 8%nat) by apply map_seq_len.
  destruct res as [|r0 [|r1 [|r2 [|r3 tl]]]] eqn:RE; try discriminate.
  exists r0, r1, r2, r3, tl. split; [reflexivity|]. unfold res in RE.
  unfold generate_vmi. fold name. rewrite take_ok by lia. cbn [bind].
  set (desc := firstn 32 _). assert (DL: List.length desc = 32%nat).
  { unfold desc. apply firstn_length_le. rewrite skipn_length. lia. }
  set (copy := map (byte_or_zero (str_bytes copyright)) _). assert (CL: List.length copy = 32%nat) by apply map_seq_len.
  set (file := map (byte_or_zero (str_bytes name)) _). assert (FL: List.length file = 12%nat) by apply map_seq_len.
  rewrite RE. clear RE. set (res2 := r0 :: r1 :: r2 :: r3 :: tl) in *.
  assert (YL: List.length (le_bytes 2 (d_year now mod 65536)) = 2%nat) by reflexivity.
  assert (ZL: List.length (le_bytes 4 (Z.of_nat (List.length vms))) = 4%nat) by reflexivity.
  generalize dependent (le_bytes 2 (d_year now mod 65536)). generalize dependent (le_bytes 4 (Z.of_nat (List.length vms))).
  clearbody desc copy file. intros size ZL year YL. subst res2. clear RL0 || idtac.
  assert (TL: List.length tl = 4%nat) by (cbn in RL; lia). clear RL.
  generalize (d_month now mod 256) (d_day now mod 256) (d_hour now mod 256) (d_minute now mod 256) (d_second now mod 256) (weekday_number (d_weekday now)).
  intros mo da ho mi se wd. clear - DL CL FL YL ZL TL.
  do 32 (destruct desc as [|? desc]; [discriminate DL|]). destruct desc; [|discriminate DL].
  do 32 (destruct copy as [|? copy]; [discriminate CL|]). destruct copy; [|discriminate CL].
  do 12 (destruct file as [|? file]; [discriminate FL|]). destruct file; [|discriminate FL].
  do 4 (destruct tl as [|? tl]; [discriminate TL|]). destruct tl; [|discriminate TL].
  do 4 (destruct size as [|? size]; [discriminate ZL|]). destruct size; [|discriminate ZL].
  do 2 (destruct year as [|? year]; [discriminate YL|]). destruct year; [|discriminate YL].
  destruct (0 <? offset); reflexivity.
Qed.

(** * Names *)

Lemma last_part_plain : forall s acc, no_slash s -> last_part s acc = (acc ++ s)%string.
Proof.
  induction s as [|c s IH]; intros acc N; cbn [last_part]; [now rewrite app_nil_r_s|]. destruct N as [N1 N2].
  rewrite (proj2 (Ascii.eqb_neq _ _) N1). rewrite IH by auto. now rewrite app_assoc_s.
Qed.

Lemma last_part_dir : forall dir name acc, no_slash name -> last_part (dir ++ "/" ++ name) acc = name.
Proof.
  induction dir as [|c dir IH]; intros name acc N; cbn [append last_part].
  - rewrite Ascii.eqb_refl. now rewrite last_part_plain.
  - destruct (Ascii.eqb c "/"); apply IH; exact N.
Qed.

Lemma names_last : forall path name, names_file path name -> last_part path "" = name.
Proof. intros path name [N [->|(d & ->)]]; [now rewrite last_part_plain|now apply last_part_dir]. Qed.

Lemma strip_no : forall s, (forall p, s <> (p ++ ".vms")%string) -> strip_vms s = s.
Proof.
  induction s as [|c s IH]; intros N; [reflexivity|]. cbn [strip_vms].
  destruct (String.eqb_spec (String c s) ".vms") as [E|E]; [exfalso; apply (N ""%string); exact E|].
  f_equal. apply IH. intros p ->. apply (N (String c p)). reflexivity.
Qed.

Lemma strip_yes : forall r, strip_vms (r ++ ".vms") = r.
Proof.
  induction r as [|c r IH]; [reflexivity|]. cbn [append strip_vms].
  destruct (String.eqb_spec (String c (r ++ ".vms")) ".vms") as [E|E].
  - exfalso. assert (L := f_equal String.length E). cbn in L. rewrite app_length_s in L. cbn in L. lia.
  - now rewrite IH.
Qed.

Lemma names_strip : forall name resource, names_resource name resource -> strip_vms name = resource.
Proof. intros name r [->|[N ->]]; [apply strip_yes|now apply strip_no]. Qed.

Lemma text_field_length : forall n s f, text_field n s f -> List.length f = n.
Proof. intros n s f [(r & _ & H)|(k & _ & H)]; exact H. Qed.

Lemma day_ok : forall w, day_number w (weekday_number w).
Proof. intros w. split; destruct w; cbn; try reflexivity; lia. Qed.

Lemma mod_byte : forall b, is_byte b -> b mod 256 = b.
Proof. intros b B. apply Z.mod_small. unfold is_byte in B. lia. Qed.

Lemma vmi_too_short : forall path vms copyright offset now, 0 <= offset -> Z.of_nat (List.length vms) < offset + 48 ->
  generate_vmi path vms copyright offset now = Panic.
Proof. intros. unfold generate_vmi. rewrite take_panic by lia. reflexivity. Qed.

(** * Finding a field *)

Lemma field_here : forall f post, field_at (f ++ post) 0 f.
Proof. intros. exists [], post. auto. Qed.

Lemma field_last : forall f, field_at f 0 f.
Proof. intros. exists [], []. rewrite app_nil_r. auto. Qed.

Lemma field_skip : forall a l n off f, List.length a = n -> Nat.leb n off = true -> field_at l (off - n) f -> field_at (a ++ l) off f.
Proof.
  intros a l n off f <- L (b & c & -> & E). apply Nat.leb_le in L. exists (a ++ b), c. split; [now rewrite app_assoc|].
  rewrite app_length. lia.
Qed.
