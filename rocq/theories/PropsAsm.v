(** Property theorems C10-C19 and C44: the assembly of a statement list. *)
From Coq Require Import ZArith List String Ascii Bool Lia.
From Verif Require Import Base Expr Bits Instr Ast Asm SpecIsa SpecExpr SpecAsm ExprProofs AsmProofs AsmProofs4 AsmProofs5 AsmProofs6 AsmProofs7 AsmProofs8.
Import ListNotations.
Open Scope string_scope.
Open Scope list_scope.
Open Scope Z_scope.

(** The program used in the examples: forward and backward references, a local name in two scopes,
    alignment, and an origin that moves back over emitted bytes. *)
Definition dec (n : Z) : expr := ENumber n Decimal.
Definition sample : list statement :=
  [ SVariable "Speed" (EPlus (dec 3) (EName "END"));
    SLabel "start";
    SInstr (Mov_d9 (EName "speed") (ENumber 4 Hex));
    SLabel ".loop";
    SInstr (Br (EName ".loop"));
    SLabel "table";
    SDirective (DCnop (dec 2) (dec 8));
    SDirective (DWord [EName "start"; EName "end"; EUnaryMinus (dec 2)]);
    SLabel ".loop";
    SDirective (DByte [BVExpr (EName ".loop"); BVString [1; 2]]);
    SDirective (DText 4 [72; 73]);
    SDirective (DString 3 [72]);
    SLabel "end";
    SDirective (DOrg 17);
    SDirective (DByte [BVExpr (dec 99)]) ].

Definition sample_image : list Z :=
  [34; 4; 29; 1; 254; 0; 0; 0; 0; 0; 0; 0; 26; 0; 254; 255; 16; 99; 2; 72; 73; 32; 32; 72; 0; 0].

Example sample_assembles : assemble Debug sample = Ok sample_image /\ assemble Release sample = Ok sample_image.
Proof. split; vm_compute; reflexivity. Qed.

Example sample_typed : Forall typed sample.
Proof. repeat constructor; simpl; try discriminate; try lia. Qed.

Ltac each_position k := do 16 (destruct k as [|k]; [vm_compute; intuition congruence|]); rewrite firstn_all2 by (simpl; lia); vm_compute; intuition congruence.

Example sample_layout : layout_small sample.
Proof. intros k. each_position k. Qed.

Example sample_cnop : cnop_small sample.
Proof. intros k a m _. pose proof (sample_layout (S k)). lia. Qed.

Example sample_forward : forward_cnops sample.
Proof.
  intros k a m. do 15 (destruct k as [|k]; [vm_compute; intuition congruence|]). destruct k; discriminate.
Qed.

Example sample_plain : Forall plain sample /\ Forall lower_label sample.
Proof. split; repeat constructor. Qed.

(** ** C10 *)

(** The image is as long as the largest value the location counter takes. *)
Theorem C10_image_length : forall pr prog out, Forall typed prog -> (pr = Release -> cnop_small prog) ->
  assemble pr prog = Ok out ->
  (forall k, addr (firstn k prog) <= Z.of_nat (List.length out)) /\
  (exists k, addr (firstn k prog) = Z.of_nat (List.length out)).
Proof.
  intros pr prog out Ht Hc H. destruct (assemble_sound pr prog out Ht Hc H) as (E & _). unfold zlen in E. rewrite E.
  split; [apply top_bound|]. destruct (top_reached prog) as (k & Hk). exists k. congruence.
Qed.
Print Assumptions C10_image_length.

Example C10_case : Forall typed sample /\ cnop_small sample /\ assemble Release sample = Ok sample_image /\
  addr (firstn 13 sample) = 26 /\ addr sample = 18.
Proof. split; [exact sample_typed|]. split; [exact sample_cnop|]. repeat split; vm_compute; reflexivity. Qed.

(** ** C11 *)

Theorem C11_image_bytes : forall pr prog out, Forall typed prog -> (pr = Release -> cnop_small prog) ->
  assemble pr prog = Ok out ->
  exists chunks, chunks_of pr prog chunks /\
    forall o, 0 <= o < Z.of_nat (List.length out) -> exists b, get_at out o = Some b /\ image_byte prog chunks o b.
Proof. intros pr prog out Ht Hc H. destruct (assemble_sound pr prog out Ht Hc H) as (_ & E & _). exact E. Qed.
Print Assumptions C11_image_bytes.

(** Read the other way: a statement's bytes are at its address unless something later is written there. *)
Theorem C11_statement_placed : forall pr prog out k s, Forall typed prog -> (pr = Release -> cnop_small prog) ->
  assemble pr prog = Ok out -> nth_error prog k = Some s ->
  exists get bs, env_at pr prog k get /\ emits pr get (addr (firstn k prog)) s bs /\
    forall i b, get_at bs i = Some b -> untouched prog k (addr (firstn k prog) + i) ->
      get_at out (addr (firstn k prog) + i) = Some b.
Proof. exact placed. Qed.
Print Assumptions C11_statement_placed.

(** Nothing is overwritten if the counter never moves back, in particular without [.org] and [.cnop]. *)
Theorem C11_forward_untouched : forall prog k o, (forall j, addr (firstn j prog) <= addr (firstn (S j) prog)) ->
  o < addr (firstn (S k) prog) -> untouched prog k o.
Proof. exact forward_untouched. Qed.
Print Assumptions C11_forward_untouched.

Theorem C11_data_forward : forall prog, Forall typed prog -> Forall data_only prog ->
  forall j, addr (firstn j prog) <= addr (firstn (S j) prog).
Proof. exact data_forward. Qed.
Print Assumptions C11_data_forward.

(** Offset 17 was first written by the [.byte] string and then by the last statement; offset 8 by none. *)
Example C11_case : get_at sample_image 17 = Some 99 /\ get_at sample_image 8 = Some 0 /\
  untouched sample 9 (addr (firstn 9 sample)) /\ ~ untouched sample 9 (addr (firstn 9 sample) + 1).
Proof.
  split; [vm_compute; reflexivity|]. split; [vm_compute; reflexivity|]. split.
  - intros j Hj. do 10 (destruct j as [|j]; [lia|]). do 5 (destruct j as [|j]; [vm_compute; intuition congruence|]).
    rewrite !firstn_all2 by (simpl; lia). vm_compute. intuition congruence.
  - intros H. apply (H 14%nat); [lia|]. vm_compute. split; [discriminate|reflexivity].
Qed.

(** ** C12 *)

(** Programs as the text front end produces them: no crash and no endless loop. *)
Theorem C12_no_crash : forall pr prog, Forall typed prog -> Forall plain prog -> Forall lower_label prog ->
  layout_small prog -> (pr = Debug -> forward_cnops prog) -> exprs_fit pr prog ->
  (exists out, assemble pr prog = Ok out) \/ (exists er, assemble pr prog = Err er).
Proof. intros. destruct (assemble_outcome pr prog) as [[? _]|[? _]]; auto. Qed.
Print Assumptions C12_no_crash.

(** And exactly the well-formed programs assemble. *)
Theorem C12_succeeds_iff : forall pr prog, Forall typed prog -> Forall plain prog -> Forall lower_label prog ->
  layout_small prog -> (pr = Debug -> forward_cnops prog) -> exprs_fit pr prog ->
  ((exists out, assemble pr prog = Ok out) <-> well_formed pr prog).
Proof.
  intros pr prog H1 H2 H3 H4 H5 H6. destruct (assemble_outcome pr prog H1 H2 H3 H4 H5 H6) as [[Ha Hb]|[[er Ha] Hb]].
  - tauto.
  - split; [intros [out Ho]; congruence|contradiction].
Qed.
Print Assumptions C12_succeeds_iff.

Ltac fit_goal :=
  unfold dec; cbn [lits_ok fits sem]; try (replace (visible Debug sample 0 (lower "END")) with (Some 26) by (vm_compute; reflexivity));
  cbn; unfold in32; repeat split; try lia; intros;
  repeat match goal with H : inl _ = inl _ |- _ => injection H as H; subst end; lia.

Example C12_case : Forall typed sample /\ Forall plain sample /\ Forall lower_label sample /\ layout_small sample /\
  forward_cnops sample /\ exprs_fit Debug sample.
Proof.
  split; [exact sample_typed|]. split; [apply sample_plain|]. split; [apply sample_plain|]. split; [exact sample_layout|].
  split; [exact sample_forward|]. split.
  - intros k s n e. do 15 (destruct k as [|k]; [intros [= <-]; cbn [var_def]; try discriminate; intros [= <- <-]; fit_goal|]).
    destruct k; discriminate.
  - intros k s get e. do 15 (destruct k as [|k]; [intros [= <-] _; cbn [stmt_exprs flat_map op_list app In]; intros Hin;
      repeat (destruct Hin as [<-|Hin]; [fit_goal|]); contradiction|]).
    destruct k; discriminate.
Qed.

(** Outside these conditions the program does crash.  A label that is not lower case (possible only for
    programs built through the API) makes the lookup of the local labels panic. *)
Theorem C12_uppercase_label_refuted : exists prog, Forall typed prog /\ Forall plain prog /\ layout_small prog /\
  forward_cnops prog /\ exprs_fit Debug prog /\ assemble Debug prog = Panic /\ assemble Release prog = Panic.
Proof.
  exists [SLabel "Main"; SDirective (DByte [BVExpr (dec 1)])].
  split; [repeat constructor; discriminate|]. split; [repeat constructor|]. split.
  { intros k. do 2 (destruct k as [|k]; [vm_compute; intuition congruence|]). rewrite firstn_all2 by (simpl; lia). vm_compute. intuition congruence. }
  split; [intros [|[|[|k]]]; discriminate|]. split; [|split; vm_compute; reflexivity].
  split.
  - intros [|[|[|k]]] s n e; try discriminate; intros [= <-]; discriminate.
  - intros [|[|[|k]]] s get e; try discriminate; intros [= <-] _ H; simpl in H; [tauto|].
    destruct H as [<-|[]]. vm_compute. intuition congruence.
Qed.
Print Assumptions C12_uppercase_label_refuted.

(** [.cnop 0, 0] behind the current position crashes a debug build, and moves back in a release build. *)
Theorem C12_cnop_back_refuted : exists prog, Forall typed prog /\ Forall plain prog /\ Forall lower_label prog /\
  layout_small prog /\ assemble Debug prog = Panic /\ exists out, assemble Release prog = Ok out.
Proof.
  exists [SDirective (DByte [BVExpr (dec 1)]); SDirective (DCnop (dec 0) (dec 0))].
  split; [repeat constructor; simpl; lia|]. split; [repeat constructor|]. split; [repeat constructor|]. split.
  { intros k. do 2 (destruct k as [|k]; [vm_compute; intuition congruence|]). rewrite firstn_all2 by (simpl; lia). vm_compute. intuition congruence. }
  split; [vm_compute; reflexivity|]. eexists. vm_compute. reflexivity.
Qed.
Print Assumptions C12_cnop_back_refuted.

(** ** C13 *)

(** A global label has the address of its definition, in variable definitions and everywhere else. *)
Theorem C13_label_value : forall pr prog out k n j get, Forall typed prog -> (pr = Release -> cnop_small prog) ->
  assemble pr prog = Ok out -> nth_error prog k = Some (SLabel n) -> is_local n = false ->
  visible pr prog j (lower n) = Some (addr (firstn k prog)) /\
  (env_at pr prog j get -> get (lower n) = Some (addr (firstn k prog))).
Proof. exact global_label_value. Qed.
Print Assumptions C13_label_value.

(** So a word holding a label holds the low and high byte of the address, before or after the label. *)
Theorem C13_label_word : forall pr prog out k n j m, Forall typed prog -> (pr = Release -> cnop_small prog) ->
  assemble pr prog = Ok out -> nth_error prog k = Some (SLabel n) -> is_local n = false ->
  nth_error prog j = Some (SDirective (DWord [EName m])) -> lower m = lower n ->
  untouched prog j (addr (firstn j prog)) -> untouched prog j (addr (firstn j prog) + 1) ->
  get_at out (addr (firstn j prog)) = Some (addr (firstn k prog) mod 256) /\
  get_at out (addr (firstn j prog) + 1) = Some (addr (firstn k prog) / 256 mod 256).
Proof.
  intros pr prog out k n j m Ht Hc H Hk Hn Hj Em U0 U1.
  destruct (word_value pr prog out j [EName m] 0 (EName m) Ht Hc H Hj eq_refl) as (get & v & He & Hv & _ & W0 & W1).
  cbn [eval env_get env_kind] in Hv. rewrite Em in Hv.
  rewrite (proj2 (global_label_value pr prog out k n j get Ht Hc H Hk Hn) He) in Hv. injection Hv as <-.
  change (2 * Z.of_nat 0) with 0 in *. rewrite Z.add_0_r in *. auto.
Qed.
Print Assumptions C13_label_word.

Example C13_case :
  let prog := [SDirective (DWord [EName "Last"]); SDirective (DText 300 [65]); SLabel "last"; SDirective (DByte [BVExpr (dec 1)])] in
  addr (firstn 2 prog) = 302 /\
  exists out, assemble Release prog = Ok out /\ get_at out 0 = Some 46 /\ get_at out 1 = Some 1.
Proof. split; [vm_compute; reflexivity|]. eexists. split; [vm_compute; reflexivity|]. split; reflexivity. Qed.

(** ** C14 *)

(** A local name means the definition in the current scope, and nothing else. *)
Theorem C14_local_value : forall pr prog k j n get,
  nth_error prog j = Some (SLabel n) -> is_local n = true -> scope_no prog j = scope_no prog k ->
  env_at pr prog k get -> get (lower n) = Some (addr (firstn j prog)).
Proof. exact local_label_value. Qed.
Print Assumptions C14_local_value.

(** In a program that assembles, a data word naming a local label is served by a definition of that name
    in the scope of the reference, whose address it is. *)
Theorem C14_local_word : forall pr prog out k m, Forall typed prog -> (pr = Release -> cnop_small prog) ->
  assemble pr prog = Ok out -> nth_error prog k = Some (SDirective (DWord [EName m])) -> is_local m = true ->
  exists j n, nth_error prog j = Some (SLabel n) /\ lower n = lower m /\ scope_no prog j = scope_no prog k /\
    (untouched prog k (addr (firstn k prog)) -> get_at out (addr (firstn k prog)) = Some (addr (firstn j prog) mod 256)) /\
    (forall i n', nth_error prog i = Some (SLabel n') -> is_local n' = true -> lower n' = lower m ->
       scope_no prog i = scope_no prog k -> i = j).
Proof.
  intros pr prog out k m Ht Hc H Hk Hm.
  destruct (word_value pr prog out k [EName m] 0 (EName m) Ht Hc H Hk eq_refl) as (get & v & He & Hv & _ & W0 & _).
  cbn [eval env_get env_kind] in Hv. destruct (get (lower m)) as [w|] eqn:E; [|discriminate]. injection Hv as ->.
  apply He in E; [|rewrite is_local_lower; assumption]. destruct E as (j & n & Hj & Hn & En & Hs & ->).
  exists j, n. repeat split; auto.
  - intros U. change (2 * Z.of_nat 0) with 0 in *. rewrite Z.add_0_r in *. auto.
  - intros i n' Hi Hn' En' Hs'. destruct (Nat.eq_dec i j) as [|Hne]; [assumption|]. exfalso.
    destruct (assemble_sound pr prog out Ht Hc H) as (_ & _ & Hd & _). apply (Hd (lower m)). right.
    exists i, j, n', n. repeat split; auto. congruence.
Qed.
Print Assumptions C14_local_word.

(** A local name with no definition in the scope has no value. *)
Theorem C14_other_scopes_ignored : forall pr prog k get x, env_at pr prog k get -> is_local x = true ->
  (forall j n, nth_error prog j = Some (SLabel n) -> lower n = x -> scope_no prog j <> scope_no prog k) ->
  get x = None.
Proof.
  intros pr prog k get x [_ He] Hx Hno. destruct (get x) as [v|] eqn:E; [|reflexivity].
  apply He in E; [|assumption]. destruct E as (j & n & Hj & _ & En & Hs & _). exfalso. exact (Hno j n Hj En Hs).
Qed.
Print Assumptions C14_other_scopes_ignored.

Example C14_case : scope_no sample 3 = scope_no sample 4 /\ scope_no sample 8 = scope_no sample 9 /\
  scope_no sample 3 <> scope_no sample 8 /\ get_at sample_image 16 = Some 16 /\ addr (firstn 8 sample) = 16.
Proof. repeat split; try reflexivity. discriminate. Qed.
Example C14_case_error :
  assemble Debug [SLabel "a"; SLabel ".x"; SLabel "b"; SDirective (DWord [EName ".x"])] = Err (NameNotFound "Name" ".x").
Proof. vm_compute. reflexivity. Qed.

(** ** C15 *)

Theorem C15_duplicates_never_assemble : forall pr prog x out, Forall typed prog -> (pr = Release -> cnop_small prog) ->
  defined_twice prog x -> assemble pr prog <> Ok out.
Proof. exact duplicates_never_assemble. Qed.
Print Assumptions C15_duplicates_never_assemble.

(** The error names a duplicate; other errors can only come first from a non-literal alignment or from a
    variable without value. *)
Theorem C15_duplicates_reported : forall pr prog x, Forall typed prog -> Forall plain prog -> layout_small prog ->
  (forall a m, In (SDirective (DCnop a m)) prog -> literal a /\ literal m) ->
  vars_defined pr prog -> defined_twice prog x ->
  exists y, assemble pr prog = Err (NameAlreadyExists y) /\ defined_twice prog y.
Proof.
  intros pr prog x H1 H2 H3 H4. apply duplicates_reported; auto. intros (a & m & Hin & Hno). apply Hno. auto.
Qed.
Print Assumptions C15_duplicates_reported.

Theorem C15_error_is_duplicate : forall pr prog x, Forall typed prog -> layout_small prog ->
  assemble pr prog = Err (NameAlreadyExists x) -> defined_twice prog x.
Proof. exact duplicate_error_sound. Qed.
Print Assumptions C15_error_is_duplicate.

Example C15_case :
  assemble Debug [SVariable "X" (dec 1); SLabel "a"; SLabel ".l"; SLabel "x"] = Err (NameAlreadyExists "x") /\
  assemble Debug [SLabel "a"; SLabel ".l"; SLabel ".L"] = Err (NameAlreadyExists ".l") /\
  defined_twice [SVariable "X" (dec 1); SLabel "a"; SLabel ".l"; SLabel "x"] "x" /\
  exists out, assemble Debug [SLabel "a"; SLabel ".l"; SLabel "b"; SLabel ".l"] = Ok out.
Proof.
  split; [vm_compute; reflexivity|]. split; [vm_compute; reflexivity|]. split.
  - left. exists 0%nat, 3%nat, (SVariable "X" (dec 1)), (SLabel "x"). repeat split; discriminate.
  - eexists. vm_compute. reflexivity.
Qed.

(** ** C16 *)

(** A variable has one value, computed from all global labels and the earlier variables; before its
    definition it is not visible to other definitions. *)
Theorem C16_variable_value : forall pr prog out i s n e, Forall typed prog -> (pr = Release -> cnop_small prog) ->
  assemble pr prog = Ok out -> nth_error prog i = Some s -> var_def s = Some (n, e) ->
  exists v, eval pr (mkEnv "Name" (visible pr prog i)) e = Ok v /\
    (forall j, (i < j)%nat -> visible pr prog j (lower n) = Some v) /\
    (forall j, (j <= i)%nat -> visible pr prog j (lower n) = None) /\
    (forall j get, env_at pr prog j get -> is_local n = false -> get (lower n) = Some v).
Proof. exact variable_value. Qed.
Print Assumptions C16_variable_value.

Theorem C16_what_is_visible : forall pr prog k x v, visible pr prog k x = Some v ->
  (exists j n, nth_error prog j = Some (SLabel n) /\ is_local n = false /\ lower n = x /\ v = addr (firstn j prog)) \/
  (exists j s n e, (j < k)%nat /\ nth_error prog j = Some s /\ var_def s = Some (n, e) /\ lower n = x /\
     eval pr (mkEnv "Name" (visible pr prog j)) e = Ok v).
Proof. exact visible_inv. Qed.
Print Assumptions C16_what_is_visible.

(** A definition that consists of a name refers to a global label or an earlier variable. *)
Theorem C16_no_forward_reference : forall pr prog out i s n m, Forall typed prog -> (pr = Release -> cnop_small prog) ->
  assemble pr prog = Ok out -> nth_error prog i = Some s -> var_def s = Some (n, EName m) ->
  exists j t, nth_error prog j = Some t /\ global_def t = Some (lower m) /\ (var_def t = None \/ (j < i)%nat).
Proof.
  intros pr prog out i s n m Ht Hc H Hi Hv. destruct (variable_value pr prog out i s n _ Ht Hc H Hi Hv) as (v & Ev & _).
  cbn [eval env_get env_kind] in Ev. destruct (visible pr prog i (lower m)) as [w|] eqn:E; [|discriminate].
  apply visible_inv in E. destruct E as [(j & n' & Hj & Hn & En & _)|(j & t & n' & e & Hj & Ht' & Hvt & En & _)].
  - exists j, (SLabel n'). split; [assumption|]. split; [simpl; rewrite Hn, En; reflexivity|left; reflexivity].
  - exists j, t. split; [assumption|]. split; [rewrite <- En; eapply var_global; eauto|right; assumption].
Qed.
Print Assumptions C16_no_forward_reference.

Example C16_case : get_at sample_image 2 = Some 29 /\ visible Release sample 1 "speed" = Some 29 /\
  assemble Debug [SVariable "a" (EName "b"); SVariable "b" (dec 1)] = Err (NameNotFound "Name" "b").
Proof. repeat split; vm_compute; reflexivity. Qed.

(** ** C17 *)

Theorem C17_byte_value : forall pr prog out k items j e, Forall typed prog -> (pr = Release -> cnop_small prog) ->
  assemble pr prog = Ok out -> nth_error prog k = Some (SDirective (DByte items)) -> nth_error items j = Some (BVExpr e) ->
  exists get v, env_at pr prog k get /\ eval pr (mkEnv "Name" get) e = Ok v /\ -128 <= v <= 255 /\
    let o := addr (firstn k prog) + SpecAsm.sum (map item_length (firstn j items)) in
    (untouched prog k o -> get_at out o = Some (v mod 256)).
Proof. exact byte_item_value. Qed.
Print Assumptions C17_byte_value.

Theorem C17_byte_string : forall pr prog out k items j t i b, Forall typed prog -> (pr = Release -> cnop_small prog) ->
  assemble pr prog = Ok out -> nth_error prog k = Some (SDirective (DByte items)) -> nth_error items j = Some (BVString t) ->
  get_at t i = Some b ->
  let o := addr (firstn k prog) + SpecAsm.sum (map item_length (firstn j items)) + i in
  untouched prog k o -> get_at out o = Some b.
Proof. exact byte_string_value. Qed.
Print Assumptions C17_byte_string.

Theorem C17_word_value : forall pr prog out k ws j e, Forall typed prog -> (pr = Release -> cnop_small prog) ->
  assemble pr prog = Ok out -> nth_error prog k = Some (SDirective (DWord ws)) -> nth_error ws j = Some e ->
  exists get v, env_at pr prog k get /\ eval pr (mkEnv "Name" get) e = Ok v /\ -32768 <= v <= 65535 /\
    let o := addr (firstn k prog) + 2 * Z.of_nat j in
    (untouched prog k o -> get_at out o = Some (v mod 256)) /\
    (untouched prog k (o + 1) -> get_at out (o + 1) = Some (v / 256 mod 256)).
Proof. exact word_value. Qed.
Print Assumptions C17_word_value.

(** Exactly the values of the two ranges are accepted. *)
Theorem C17_single_byte_exact : forall pr v r, in32 v ->
  assemble pr [SDirective (DByte [BVExpr (ENumber v r)])] =
    if (-128 <=? v) && (v <=? 255) then Ok [v mod 256] else Err (ByteOutOfRange v).
Proof.
  intros pr v r _.
  assert (E : assemble pr [SDirective (DByte [BVExpr (ENumber v r)])] =
    if (v <? -128) || (255 <? v) then Err (ByteOutOfRange v) else Ok [Z.land v 255]).
  { unfold assemble.
    replace (compute_names pr [SDirective (DByte [BVExpr (ENumber v r)])]) with (Ok (2, mkNames [] [("", [])])) by (destruct pr; reflexivity).
    cbn [bind]. replace (chk_usize pr (2 - 1)) with (Ok 1) by (destruct pr; reflexivity). cbn [bind].
    change (zero_vec 1) with (Ok [0]).
    unfold generate_bytes. destruct pr; cbn -[Z.land Z.ltb orb]; destruct ((v <? -128) || (255 <? v)); reflexivity. }
  rewrite E, land_255. destruct (v <? -128) eqn:A; destruct (255 <? v) eqn:B; cbn [orb];
    rewrite ?Z.ltb_lt, ?Z.ltb_ge in A, B;
    [replace ((-128 <=? v) && (v <=? 255)) with false|replace ((-128 <=? v) && (v <=? 255)) with false|
     replace ((-128 <=? v) && (v <=? 255)) with false|replace ((-128 <=? v) && (v <=? 255)) with true]; auto;
    symmetry; rewrite ?andb_true_iff, ?andb_false_iff, ?Z.leb_le, ?Z.leb_gt; lia.
Qed.
Print Assumptions C17_single_byte_exact.

Theorem C17_single_word_exact : forall pr v r, in32 v ->
  assemble pr [SDirective (DWord [ENumber v r])] =
    if (-32768 <=? v) && (v <=? 65535) then Ok [v mod 256; v / 256 mod 256] else Err (WordOutOfRange v).
Proof.
  intros pr v r _.
  assert (E : assemble pr [SDirective (DWord [ENumber v r])] =
    if (v <? -32768) || (65535 <? v) then Err (WordOutOfRange v)
    else Ok [Z.land (Z.land v 65535) 255; Z.land (Z.shiftr (Z.land v 65535) 8) 255]).
  { unfold assemble.
    replace (compute_names pr [SDirective (DWord [ENumber v r])]) with (Ok (3, mkNames [] [("", [])])) by (destruct pr; reflexivity).
    cbn [bind]. replace (chk_usize pr (3 - 1)) with (Ok 2) by (destruct pr; reflexivity). cbn [bind].
    change (zero_vec 2) with (Ok [0; 0]).
    unfold generate_bytes. destruct pr; cbn -[Z.land Z.ltb Z.shiftr orb]; destruct ((v <? -32768) || (65535 <? v)); reflexivity. }
  rewrite E, AsmProofs2.word_parts. destruct (v <? -32768) eqn:A; destruct (65535 <? v) eqn:B; cbn [orb];
    rewrite ?Z.ltb_lt, ?Z.ltb_ge in A, B;
    [replace ((-32768 <=? v) && (v <=? 65535)) with false|replace ((-32768 <=? v) && (v <=? 65535)) with false|
     replace ((-32768 <=? v) && (v <=? 65535)) with false|replace ((-32768 <=? v) && (v <=? 65535)) with true]; auto;
    symmetry; rewrite ?andb_true_iff, ?andb_false_iff, ?Z.leb_le, ?Z.leb_gt; lia.
Qed.
Print Assumptions C17_single_word_exact.

Example C17_case :
  assemble Debug [SDirective (DByte [BVExpr (dec (-128)); BVExpr (dec 255); BVString [7; 8]]); SDirective (DWord [dec (-32768); dec 65535])]
    = Ok [128; 255; 7; 8; 0; 128; 255; 255] /\
  assemble Debug [SDirective (DByte [BVExpr (dec 256)])] = Err (ByteOutOfRange 256).
Proof. split; vm_compute; reflexivity. Qed.

(** ** C18 *)

Theorem C18_text_value : forall pr prog out k n t i, Forall typed prog -> (pr = Release -> cnop_small prog) ->
  assemble pr prog = Ok out ->
  (nth_error prog k = Some (SDirective (DText n t)) -> Z.of_nat (List.length t) <= n /\
     (0 <= i < n -> untouched prog k (addr (firstn k prog) + i) ->
      get_at out (addr (firstn k prog) + i) = if i <? Z.of_nat (List.length t) then get_at t i else Some 32)) /\
  (nth_error prog k = Some (SDirective (DString n t)) -> Z.of_nat (List.length t) <= n /\
     (0 <= i < n -> untouched prog k (addr (firstn k prog) + i) ->
      get_at out (addr (firstn k prog) + i) = if i <? Z.of_nat (List.length t) then get_at t i else Some 0)).
Proof. exact text_value. Qed.
Print Assumptions C18_text_value.

(** The directive reserves exactly its length, and a longer text is an error. *)
Theorem C18_too_long : forall pr prog k n t, Forall typed prog -> Forall plain prog -> Forall lower_label prog ->
  layout_small prog -> (pr = Debug -> forward_cnops prog) -> exprs_fit pr prog ->
  nth_error prog k = Some (SDirective (DText n t)) \/ nth_error prog k = Some (SDirective (DString n t)) ->
  n < Z.of_nat (List.length t) -> exists er, assemble pr prog = Err er.
Proof.
  intros pr prog k n t H1 H2 H3 H4 H5 H6 Hk Hn. destruct (assemble_outcome pr prog H1 H2 H3 H4 H5 H6) as [[[out Ho] _]|[He _]]; [|exact He].
  exfalso. assert (Hc : pr = Release -> cnop_small prog) by (intros _ j a m _; specialize (H4 (S j)); lia).
  destruct (text_value pr prog out k n t 0 H1 Hc Ho) as [A B]. destruct Hk as [Hk|Hk]; [destruct (A Hk) as [C _]|destruct (B Hk) as [C _]]; unfold zlen in C; lia.
Qed.
Print Assumptions C18_too_long.

Example C18_case :
  assemble Release [SDirective (DText 4 [65; 66]); SDirective (DString 3 [67])] = Ok [65; 66; 32; 32; 67; 0; 0] /\
  assemble Release [SDirective (DText 1 [65; 66])] = Err (NumberOfBytesIsLongerThanLength 1 2).
Proof. split; vm_compute; reflexivity. Qed.

(** ** C19 *)

(** [.cnop a, m] moves to [a] plus the least multiple of [m] not before the position. *)
Theorem C19_cnop : forall pr p a m ra rm n, 0 <= p <= 2147483647 -> 0 <= a <= 2147483647 -> 0 < m <= 2147483647 ->
  a + m * ((p + m - 1) / m) <= 2147483647 ->
  dir_size pr (DCnop (ENumber a ra) (ENumber m rm)) p = Ok n ->
  exists q, 0 <= q /\ p + n = a + m * q /\ p <= m * q /\ forall q', p <= m * q' -> q <= q'.
Proof. exact cnop_moves. Qed.
Print Assumptions C19_cnop.

(** The loop always finds it. *)
Theorem C19_cnop_total : forall pr p a m ra rm, 0 <= p <= 2147483647 -> 0 <= a <= 2147483647 -> 0 < m <= 2147483647 ->
  a + m * ((p + m - 1) / m) <= 2147483647 ->
  exists n, dir_size pr (DCnop (ENumber a ra) (ENumber m rm)) p = Ok n.
Proof.
  intros pr p a m ra rm Hp Ha Hm Hb. destruct (round_up_spec p m ltac:(lia) ltac:(lia)) as (q & E & Hq & Hpq & Hleast).
  assert (Hq2 : q <= (p + m - 1) / m).
  { apply Hleast. pose proof (Z.mul_succ_div_gt (p + m - 1) m ltac:(lia)). lia. }
  destruct (dir_size_ok pr (DCnop (ENumber a ra) (ENumber m rm)) p Hp) as [(k & E1 & E2)|(E1 & x & y & Ed & Hno)].
  - simpl. lia.
  - cbn [advance]. replace (m =? 0) with false by (symmetry; apply Z.eqb_neq; lia). rewrite E. nia.
  - eauto.
  - exfalso. apply Hno. injection Ed as <- <-. split; eexists; eexists; reflexivity.
Qed.
Print Assumptions C19_cnop_total.

(** In an assembled program: the statement after [.cnop a, m] is at that address, the one after
    [.org l] at [l], which is at most 65535. *)
Theorem C19_next_address : forall pr prog out k, Forall typed prog -> (pr = Release -> cnop_small prog) ->
  assemble pr prog = Ok out ->
  (forall a m, nth_error prog k = Some (SDirective (DCnop a m)) ->
     exists a' ra m' rm, a = ENumber a' ra /\ m = ENumber m' rm /\
       (0 < m' -> exists q, 0 <= q /\ addr (firstn (S k) prog) = a' + m' * q /\ addr (firstn k prog) <= m' * q /\
          forall q', addr (firstn k prog) <= m' * q' -> q <= q')) /\
  (forall l, nth_error prog k = Some (SDirective (DOrg l)) -> addr (firstn (S k) prog) = l /\ l <= 65535).
Proof.
  intros pr prog out k Ht Hc H. split.
  - intros a m Hk. destruct (placed pr prog out k _ Ht Hc H Hk) as (get & bs & _ & ((a' & ra & ->) & (m' & rm & ->) & _) & _).
    exists a', ra, m', rm. split; [reflexivity|]. split; [reflexivity|]. intros Hm.
    destruct (assemble_sound pr prog out Ht Hc H) as (_ & _ & _ & _ & Hlay & _).
    destruct (round_up_spec (addr (firstn k prog)) m' Hm (proj1 (Hlay k))) as (q & E & Hq & Hpq & Hleast).
    exists q. split; [assumption|]. split; [|auto]. rewrite (addr_S _ _ _ Hk). cbn [advance].
    replace (m' =? 0) with false by (symmetry; apply Z.eqb_neq; lia). rewrite E. reflexivity.
  - intros l Hk. rewrite (addr_S _ _ _ Hk). split; [reflexivity|].
    destruct (placed pr prog out k _ Ht Hc H Hk) as (get & bs & _ & (Hl & _) & _). exact Hl.
Qed.
Print Assumptions C19_next_address.

Example C19_case : addr (firstn 6 sample) = 5 /\ addr (firstn 7 sample) = 10 /\
  dir_size Debug (DCnop (dec 2) (dec 8)) 5 = Ok 5 /\ dir_size Debug (DCnop (dec 2) (dec 8)) 8 = Ok 2 /\
  assemble Debug [SDirective (DOrg 65536)] = Err (InvalidCodeLocation 65536).
Proof. repeat split; vm_compute; reflexivity. Qed.

(** With a zero multiple the counter is set to the addend, which may lie before the position: the
    documented "next multiple" reading does not extend to it. *)
Theorem C19_cnop_zero_refuted : exists p a n, 0 <= p /\ 0 <= a /\
  dir_size Debug (DCnop (ENumber a Decimal) (ENumber 0 Decimal)) p = Ok n /\ p + n < p.
Proof. exists 5, 2, (-3). repeat split; try lia; reflexivity. Qed.
Print Assumptions C19_cnop_zero_refuted.

(** ** C44 *)

(** The size used by the layout passes is the distance the emission pass moves. *)
Theorem C44_size_is_emitted : forall pr ns s st st', gen_step pr ns s st = Ok st' -> typed s ->
  0 <= g_pos st <= 2147483647 -> Z.of_nat (List.length (g_out st)) <= 2147483647 ->
  (pr = Release -> forall a m, s = SDirective (DCnop a m) -> advance (g_pos st) s <= 2147483647) ->
  match s with
  | SInstr i => g_pos st' = g_pos st + size i
  | SDirective d => exists n, dir_size pr d (g_pos st) = Ok n /\ g_pos st' = g_pos st + n
  | _ => g_pos st' = g_pos st
  end.
Proof. exact size_is_emitted. Qed.
Print Assumptions C44_size_is_emitted.

(** And, for data and instructions, the number of bytes put into the image. *)
Theorem C44_bytes_emitted : forall pr prog out k s, Forall typed prog -> (pr = Release -> cnop_small prog) ->
  assemble pr prog = Ok out -> nth_error prog k = Some s -> data_only s ->
  exists get bs, env_at pr prog k get /\ emits pr get (addr (firstn k prog)) s bs /\
    addr (firstn (S k) prog) = addr (firstn k prog) + Z.of_nat (List.length bs).
Proof.
  intros pr prog out k s Ht Hc H Hk Hd. destruct (placed pr prog out k s Ht Hc H Hk) as (get & bs & He & Hem & _).
  exists get, bs. split; [assumption|]. split; [assumption|]. rewrite (addr_S _ _ _ Hk).
  pose proof (AsmProofs2.emits_advance _ _ _ _ _ Hem) as E. destruct s as [d| | | | | |]; auto. destruct d; auto; contradiction.
Qed.
Print Assumptions C44_bytes_emitted.

Example C44_case : exists st, gen_step Debug (mkNames [] [("", [])]) (SInstr (Mov_d9 (dec 1) (dec 300))) (mkGen [0;0;0;0] 1 "") = Ok st /\
  g_pos st = 4 /\ g_out st = [0; 35; 44; 1].
Proof. eexists. split; [vm_compute; reflexivity|]. split; reflexivity. Qed.
