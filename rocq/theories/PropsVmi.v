(** Property C38: the fields of a VMI file. *)
From Coq Require Import ZArith List String Ascii Bool Lia.
From Verif Require Import Base Vmi SpecVmi VmiProofs.
Import ListNotations.
Open Scope Z_scope.

(** Every field is at its offset with its contents. *)
Theorem C38_fields : forall path name resource vms copyright game now,
  names_file path name -> names_resource name resource -> sensible now ->
  vmi_offset game + 48 <= Z.of_nat (List.length vms) ->
  exists bytes checksum description cright year day number res file mode size,
    generate_vmi path vms copyright (vmi_offset game) now = Ok bytes /\ List.length bytes = 108%nat /\
    field_at bytes 0x00 checksum /\ masked_with_sega res checksum /\
    field_at bytes 0x04 description /\ List.length description = 32%nat /\
      field_at vms (if game then 0x210 else 0x10) description /\
    field_at bytes 0x24 cright /\ text_field 32 copyright cright /\
    field_at bytes 0x44 year /\ number_field 2 (d_year now) year /\
    field_at bytes 0x46 [d_month now; d_day now; d_hour now; d_minute now; d_second now; day] /\ day_number (d_weekday now) day /\
    field_at bytes 0x4C [0; 0] /\
    field_at bytes 0x4E number /\ number_field 2 1 number /\
    field_at bytes 0x50 res /\ text_field 8 resource res /\
    field_at bytes 0x58 file /\ text_field 12 name file /\
    field_at bytes 0x64 mode /\ number_field 2 (if game then 2 else 0) mode /\
    field_at bytes 0x66 [0; 0] /\
    field_at bytes 0x68 size /\ number_field 4 (Z.of_nat (List.length vms)) size.
Proof.
  intros path name resource vms copyright game now NF NR SE L.
  assert (OP: 0 <= vmi_offset game) by (destruct game; cbn; lia).
  destruct (generated path vms copyright (vmi_offset game) now OP L) as (r0 & r1 & r2 & r3 & tl & RE & G).
  rewrite (names_last _ _ NF) in *. rewrite (names_strip _ _ NR) in *. rewrite RE in G.
  assert (RF := padded_field 8 resource). rewrite RE in RF. assert (RL := text_field_length _ _ _ RF).
  assert (FF := padded_field 12 name). assert (FL := text_field_length _ _ _ FF).
  assert (CF := padded_field 32 copyright). assert (CL := text_field_length _ _ _ CF).
  destruct (le_bytes_ok 4 (Z.of_nat (List.length vms))) as (ZL & ZB & ZE).
  destruct (le_bytes_ok 2 (d_year now mod 65536)) as (YL & YB & YE).
  set (desc := firstn 32 _) in *. assert (DL: List.length desc = 32%nat).
  { unfold desc. apply firstn_length_le. rewrite skipn_length. lia. }
  destruct SE as (SY & S1 & S2 & S3 & S4 & S5). rewrite !mod_byte in G by assumption.
  set (cright := map (byte_or_zero (str_bytes copyright)) _) in *. set (file := map (byte_or_zero (str_bytes name)) _) in *.
  set (year := le_bytes 2 _) in *. set (size := le_bytes 4 _) in *.
  set (chk := [Z.land r0 83; _; _; _]) in *. set (mode := [if 0 <? vmi_offset game then 2 else 0; 0]) in *.
  eexists _, chk, desc, cright, year, (weekday_number (d_weekday now)), [1; 0], (r0 :: r1 :: r2 :: r3 :: tl), file, mode, size.
  split; [exact G|]. unfold layout. cbn [v_checksum v_description v_copyright v_year v_time v_version v_number v_resource v_file v_mode v_unknown v_size].
  split; [rewrite !app_length, DL, CL, YL, RL, FL, ZL; reflexivity|].
  split; [exists []; eexists; split; [reflexivity|reflexivity]|].
  split; [exists r0, r1, r2, r3, tl; auto|].
  split; [eexists [_; _; _; _], _; split; [reflexivity|reflexivity]|]. split; [exact DL|].
  split.
  { exists (firstn (Z.to_nat (vmi_offset game + 16)) vms), (skipn 32 (skipn (Z.to_nat (vmi_offset game + 16)) vms)).
    unfold desc. rewrite !firstn_skipn. split; [reflexivity|]. rewrite firstn_length_le by lia. destruct game; reflexivity. }
  set (res := r0 :: r1 :: r2 :: r3 :: tl) in *.
  set (time := [_; _; _; _; _; weekday_number (d_weekday now)]).
  assert (KL: List.length chk = 4%nat) by reflexivity. assert (TL: List.length time = 6%nat) by reflexivity.
  assert (ML: List.length mode = 2%nat) by reflexivity.
  assert (L2: forall a b : Z, List.length [a; b] = 2%nat) by reflexivity.
  Local Ltac find_field := repeat first [apply field_here | apply field_last
    | eapply field_skip; [eassumption|reflexivity|cbn [Nat.sub]] | eapply field_skip; [reflexivity|reflexivity|cbn [Nat.sub]]].
  split; [find_field|]. split; [exact CF|].
  split; [find_field|]. split; [split; [exact YL|]; split; [exact YB|]; rewrite YE; apply Zmod_mod|].
  split; [find_field|]. split; [apply day_ok|].
  split; [find_field|].
  split; [find_field|]. split; [split; [reflexivity|]; split; [repeat constructor; discriminate|reflexivity]|].
  split; [find_field|]. split; [exact RF|].
  split; [find_field|]. split; [exact FF|].
  split; [find_field|].
  split; [split; [reflexivity|]; split; [subst mode; destruct game; repeat constructor; discriminate|subst mode; destruct game; reflexivity]|].
  split; [find_field|].
  split; [find_field|]. split; [exact ZL|]. split; [exact ZB|exact ZE].
Qed.
Print Assumptions C38_fields.

Local Definition vms48 : list Z := repeat 32 16 ++ str_bytes "A description of thirty-two chars" ++ repeat 1 300.
Local Definition when : datetime := mkDate 2026 11 16 7 30 5 Mon.

Example C38_case :
  names_file "games/deep/LONGNAME9.vms" "LONGNAME9.vms" /\ names_resource "LONGNAME9.vms" "LONGNAME9" /\ sensible when /\
  generate_vmi "games/deep/LONGNAME9.vms" vms48 "me" 0 when = Ok
   ([64; 69; 70; 65] ++ str_bytes "A description of thirty-two char" ++ [109; 101] ++ repeat 0 30 ++
    [234; 7; 11; 16; 7; 30; 5; 1; 0; 0; 1; 0] ++ str_bytes "LONGNAME" ++ str_bytes "LONGNAME9.vm" ++ [0; 0; 0; 0] ++ [93; 1; 0; 0]).
Proof.
  split; [split; [cbn; repeat split; discriminate|right; exists "games/deep"%string; reflexivity]|].
  split; [left; reflexivity|]. split; [unfold sensible, is_byte; cbn; lia|]. vm_compute. reflexivity.
Qed.

(** It panics exactly if the file ends before the description. *)
Theorem C38_panics_iff : forall path vms copyright game now,
  generate_vmi path vms copyright (vmi_offset game) now = Panic <-> Z.of_nat (List.length vms) < vmi_offset game + 48.
Proof.
  intros path vms copyright game now. assert (OP: 0 <= vmi_offset game) by (destruct game; cbn; lia). split; intros H.
  - destruct (Z_lt_le_dec (Z.of_nat (List.length vms)) (vmi_offset game + 48)) as [X|X]; auto.
    destruct (generated path vms copyright (vmi_offset game) now OP X) as (r0 & r1 & r2 & r3 & tl & RE & G). congruence.
  - now apply vmi_too_short.
Qed.
Print Assumptions C38_panics_iff.

Example C38_panics_case : generate_vmi "a.vms" (repeat 7 559) "" (vmi_offset true) when = Panic /\
  exists b, generate_vmi "a.vms" (repeat 7 560) "" (vmi_offset true) when = Ok b.
Proof. split; [vm_compute; reflexivity|eexists; vm_compute; reflexivity]. Qed.

(** The size of a file below four gigabytes is recovered from its field. *)
Theorem C38_size_exact : forall n field, 0 <= n < 4294967296 -> number_field 4 n field -> le_number field = n.
Proof. intros n field B (_ & _ & ->). apply Z.mod_small. change (256 ^ Z.of_nat 4) with 4294967296. lia. Qed.
Print Assumptions C38_size_exact.

Example C38_size_case : number_field 4 131072 [0; 0; 2; 0].
Proof. split; [reflexivity|]. split; [repeat constructor; discriminate|reflexivity]. Qed.
