(** Property C73: the names in a listing. *)
From Coq Require Import ZArith List String Ascii Bool Lia.
From Verif Require Import Base Expr Instr Ast Printer SpecIsa SpecExpr SpecAsm SpecDisasm SpecNames Disasm.
From Verif Require Import DisasmProofs DisasmProofs2 DisasmProofs3 DisasmProofs4 DisasmProofs5 DisasmProofs6 DisasmProofs7.
Import ListNotations.
Open Scope string_scope.
Open Scope list_scope.
Open Scope Z_scope.

Local Lemma aliases_sorted : sorted_pairs aliases = map (fun a => (a, register a)) registers.
Proof. vm_compute. reflexivity. Qed.

Local Lemma flags_sorted : sorted_pairs psw_bits = flags.
Proof. vm_compute. reflexivity. Qed.

Local Opaque aliases psw_bits register flags.

Local Lemma registers_in a : In a registers <-> 256 <= a < 512.
Proof.
  unfold registers. rewrite in_map_iff. split.
  - intros (k & <- & K). apply in_seq in K. lia.
  - intros B. exists (Z.to_nat (a - 256)). split; [lia|]. apply in_seq. lia.
Qed.

Local Lemma missed (A : Type) k (v : A) l : lookup k l = None -> ~ In (k, v) l.
Proof. intros H I. apply (proj1 (lookup_none k l) H). exact (in_map fst _ _ I). Qed.

(** A table is known by its pairs. *)
Local Lemma known_by (l : list (Z * string)) d r : (forall s, In (d, s) l <-> r = Some s) -> lookup d l = r.
Proof.
  intros I. destruct (lookup d l) as [s|] eqn:L.
  - symmetry. exact (proj1 (I s) (lookup_in d s l L)).
  - destruct r as [s|]; [|reflexivity]. destruct (missed _ d s l L). now apply I.
Qed.

Local Lemma alias_pairs (l : list (Z * string)) d : sorted_pairs l = map (fun a => (a, register a)) registers -> 0 <= d < 512 ->
  lookup d l = if 256 <=? d then Some (register d) else None.
Proof.
  intros E B. apply known_by. intros s. rewrite <- sorted_in, E, in_map_iff. split.
  - intros (a & Q & K). inversion Q; subst. apply registers_in in K. destruct (Z.leb_spec 256 d); [reflexivity|lia].
  - destruct (Z.leb_spec 256 d) as [K|K]; [|discriminate]. intros Q. injection Q as <-. exists d. split; [reflexivity|]. apply registers_in. lia.
Qed.

Local Lemma flag_pairs (l f : list (Z * string)) b : sorted_pairs l = f -> (forall s t, In (b, s) f -> In (b, t) f -> s = t) ->
  lookup b l = match find (fun p => fst p =? b) f with Some p => Some (snd p) | None => None end.
Proof.
  intros E U. apply known_by. intros s. rewrite <- sorted_in, E. destruct (find _ f) as [[q t]|] eqn:F.
  - destruct (find_some _ _ F) as [K Q]. cbn [fst snd] in *. apply Z.eqb_eq in Q. subst q. split.
    + intros H. f_equal. now apply U.
    + intros H. now injection H as <-.
  - split; [|discriminate]. intros H. apply (find_none _ _ F) in H. cbn [fst] in H. now rewrite Z.eqb_refl in H.
Qed.

Local Lemma flags_once b s t : In (b, s) flags -> In (b, t) flags -> s = t.
Proof. Transparent flags. cbn [In flags]. intros S T. intuition congruence. Qed.
Local Opaque flags.

Local Lemma mem_as g d : 0 <= d < 512 -> mem_expr (build_names g) d = if 256 <=? d then EName (register d) else ENumber d Hex.
Proof.
  intros B. unfold mem_expr. cbn [build_names n_aliases]. rewrite usize_small by lia. rewrite (alias_pairs aliases d aliases_sorted B). now destruct (256 <=? d).
Qed.

Local Lemma bits_as g m b : 0 <= b < 8 -> bits_expr (build_names g) m b =
  match find (fun p => fst p =? b) flags with Some p => if m =? 257 then EName (snd p) else ENumber b Hex | None => ENumber b Hex end.
Proof.
  intros B. unfold bits_expr. cbn [build_names n_psw_bits]. rewrite usize_small by lia. rewrite (flag_pairs psw_bits flags b flags_sorted (flags_once b)).
  destruct (m =? 257); destruct (find _ flags) as [[q s]|]; reflexivity.
Qed.

Local Lemma mode_as r m : mode r = Ok m -> nth_error [R0; R1; R2; R3] (Z.to_nat r) = Some m.
Proof.
  unfold mode, imode_from. intros H. repeat match type of H with context [?a =? ?b] => destruct (Z.eqb_spec a b) as [->|] end;
    now inversion H.
Qed.

Local Lemma lifted_as p g i j : in_range i -> lift_instr p g i (build_names g) = Ok j ->
  forall n k v, nth_error (snd (key i)) n = Some k -> nth_error (values i) n = Some v ->
  exists o, nth_error (op_list j) n = Some o /\ written_as (hd 0 (values i)) k v o.
Proof.
  intros R L. destruct i; cbn [lift_instr] in L;
    repeat match type of L with context [mode ?r] => destruct (mode r) eqn:?MD; cbn [bind] in L; try discriminate L end;
    repeat match type of L with context [leaves ?a ?b] => destruct (leaves a b) end;
    injection L as <-; unfold in_range in R; unfold values in R |- *; cbn [key snd op_list map strip hd] in R |- *;
    repeat match goal with H : Forall2 _ _ _ |- _ => inversion H; clear H; subst end;
    unfold in_field, kind_bits, kind_signed in *;
    intros n k v K V; repeat (destruct n as [|n]; cbn [nth_error] in K, V; try discriminate);
    injection K as <-; injection V as <-; eexists; (split; [reflexivity|]); cbn [written_as];
    try exact I; try reflexivity; try (eexists; split; [reflexivity|now apply mode_as]); rewrite ?mem_as, ?bits_as by lia; reflexivity.
Qed.

Local Lemma alias_lines (m : list (Z * string)) : Forall (fun p => 0 <= fst p < 512) m ->
  filter is_definition (map d_statement (map (fun p => d_alias (snd p) (hex (wrap32 (fst p)))) m)) = map (fun p => SAlias (snd p) (ENumber (fst p) Hex)) m.
Proof.
  induction 1 as [|[v n] m V M IH]; [reflexivity|]. cbn [map filter is_definition d_statement d_alias fst snd] in *. rewrite IH.
  rewrite CodecProofs.wrap32_small by lia. reflexivity.
Qed.

Local Lemma tail_definitions c a b : sorted_pairs (n_psw_bits (l_names c)) = a -> sorted_pairs (n_aliases (l_names c)) = b ->
  Forall (fun p => 0 <= fst p < 512) a -> Forall (fun p => 0 <= fst p < 512) b ->
  filter is_definition (map d_statement (tail_part c)) =
  map (fun p => SAlias (snd p) (ENumber (fst p) Hex)) a ++ map (fun p => SAlias (snd p) (ENumber (fst p) Hex)) b.
Proof.
  intros A B FA FB. unfold tail_part. rewrite A, B, !map_app, !filter_app, (alias_lines a FA), (alias_lines b FB). reflexivity.
Qed.

Local Lemma body_definitions c f r : emit f c (fun _ => false) 0 = Ok r -> filter is_definition (map d_statement r) = [].
Proof.
  intros EM. assert (S := emit_shape c _ _ 0 r ltac:(lia) EM). clear EM. induction S as [|d r D S IH]; [reflexivity|].
  cbn [map filter]. destruct D; exact IH.
Qed.

Local Lemma flags_small : Forall (fun p => 0 <= fst p < 512) flags.
Proof. Transparent flags. repeat constructor; cbn [fst]; lia. Qed.
Local Opaque flags.

Local Lemma registers_small : Forall (fun p => 0 <= fst p < 512) (map (fun a => (a, register a)) registers).
Proof. apply Forall_map, Forall_forall. intros a A. apply registers_in in A. cbn [fst]. lia. Qed.

(** ** C73 *)

(** A listing defines exactly the bits of the PSW and the 256 registers, in order, each with its value. *)
Theorem C73_definitions : forall fuel flag entries bytes l, disassemble fuel flag entries bytes = Ok (inl l) ->
  filter is_definition (map d_statement l) =
  map (fun p => SAlias (snd p) (ENumber (fst p) Hex)) flags ++ map (fun a => SAlias (register a) (ENumber a Hex)) registers.
Proof.
  intros fuel flag entries bytes l H. destruct (disassemble_inv fuel flag entries bytes l H) as (g & lifted & r & _ & _ & EM & ->).
  rewrite map_app, filter_app, (body_definitions _ _ _ EM).
  rewrite (tail_definitions (mkListing flag entries bytes g lifted (build_names g)) flags _ flags_sorted aliases_sorted flags_small registers_small).
  rewrite map_map. reflexivity.
Qed.
Print Assumptions C73_definitions.

(** The operands of every instruction of a listing: a register goes by its name and other memory by its address; a bit of the PSW
    by its name, if it has one, and any other bit by its number; a constant is a number, and an indirection is through the register of the binary. *)
Theorem C73_operands : forall fuel flag entries bytes l p j cm,
  Forall is_byte bytes -> moderate bytes -> Forall (fun e => 0 <= e) entries ->
  disassemble fuel flag entries bytes = Ok (inl l) -> In (mkD (Some p) (SInstr j) cm) l ->
  exists i b, stands bytes p i b /\ key i = key j /\
    forall n k v, nth_error (snd (key i)) n = Some k -> nth_error (values i) n = Some v ->
    exists o, nth_error (op_list j) n = Some o /\ written_as (hd 0 (values i)) k v o.
Proof.
  intros fuel flag entries bytes l p j cm F M E H I.
  destruct (disassemble_inv fuel flag entries bytes l H) as (g & lifted & r & B & LI & EM & EQ).
  rewrite EQ in I. destruct (DisasmProofs4.listing_instr flag entries bytes g lifted r LI EM _ j I eq_refl) as (q & j2 & D & _ & L & _).
  injection D as -> _. destruct (lifted_stands fuel entries bytes g lifted F M E B LI q j L) as (i & _ & LF & ST & _ & _ & _ & R).
  exists i, (q + size j). split; [exact ST|]. split; [symmetry; exact (DisasmProofs4.lift_key q g i _ j LF)|].
  exact (lifted_as q g i j R LF).
Qed.
Print Assumptions C73_operands.

(** No text of a list stands in it twice. *)
Local Fixpoint apart (l : list string) : bool := match l with [] => true | s :: r => negb (existsb (String.eqb s) r) && apart r end.

Local Lemma apart_once l : apart l = true -> NoDup l.
Proof.
  induction l as [|s l IH]; intros H; constructor; cbn [apart] in H; apply andb_prop in H as [A B]; [|exact (IH B)].
  intros I. apply Bool.negb_true_iff in A. assert (X: existsb (String.eqb s) l = true); [|congruence].
  apply existsb_exists. exists s. split; [exact I|apply String.eqb_refl].
Qed.

Local Lemma names_apart : apart (map lower (map snd flags ++ map register registers)) = true.
Proof. vm_compute. reflexivity. Qed.

(** No name is defined twice, even if the case of letters is not looked at. *)
Theorem C73_distinct : forall fuel flag entries bytes l, disassemble fuel flag entries bytes = Ok (inl l) ->
  NoDup (map lower (flat_map (fun d => match d_statement d with SAlias n _ => [n] | SVariable n _ => [n] | _ => [] end) l)).
Proof.
  intros fuel flag entries bytes l H.
  assert (E: flat_map (fun d => match d_statement d with SAlias n _ => [n] | SVariable n _ => [n] | _ => [] end) l =
    flat_map (fun s => match s with SAlias n _ => [n] | SVariable n _ => [n] | _ => [] end) (filter is_definition (map d_statement l))).
  { clear H. induction l as [|d l IH]; [reflexivity|]. cbn [flat_map map filter]. rewrite IH.
    destruct (d_statement d); cbn [is_definition]; reflexivity. }
  rewrite E, (C73_definitions fuel flag entries bytes l H), flat_map_app.
  assert (A: forall m : list (Z * string), flat_map (fun s => match s with SAlias n _ => [n] | SVariable n _ => [n] | _ => [] end)
    (map (fun p => SAlias (snd p) (ENumber (fst p) Hex)) m) = map snd m) by (induction m as [|p m IH]; [reflexivity|cbn; now rewrite IH]).
  assert (B: forall m : list Z, flat_map (fun s => match s with SAlias n _ => [n] | SVariable n _ => [n] | _ => [] end)
    (map (fun a => SAlias (register a) (ENumber a Hex)) m) = map register m) by (induction m as [|p m IH]; [reflexivity|cbn [map flat_map app]; now rewrite IH]).
  rewrite A, B. exact (apart_once _ names_apart).
Qed.
Print Assumptions C73_distinct.

(** [ld acc], [set1 psw, cy], [clr1 0x102, 7], [mov #5, 0x20], [ret]. *)
Definition named : list Z := [0x03; 0x00; 0xFF; 0x01; 0xDF; 0x02; 0x22; 0x20; 0x05; 0xA0].

Example C73_case : Forall is_byte named /\ moderate named /\ exists l, disassemble 20 false [0] named = Ok (inl l) /\
  map d_statement (firstn 7 (filter (fun d => negb (is_definition (d_statement d))) l)) =
    [SComment ""; SComment "Entry point"; SDirective (DOrg 0); SInstr (Ld_d9 (EName "acc")); SInstr (Set1 (EName "psw") (EName "cy"));
     SInstr (Clr1 (EName "b") (ENumber 7 Hex)); SInstr (Mov_d9 (ENumber 5 Hex) (ENumber 32 Hex))] /\
  List.length (filter is_definition (map d_statement l)) = 263%nat.
Proof.
  split; [unfold named, is_byte; repeat constructor; lia|]. split; [unfold moderate; cbn; lia|].
  eexists. split; [vm_compute; reflexivity|]. split; vm_compute; reflexivity.
Qed.

Example C73_names : register 0x10D = "ext" /\ register 0x1FC = "sfr_01fc" /\ register 0x181 = "xram_0181" /\ register 0x180 = "xram" /\
  register 0x10A = "sfr_010a".
Proof. repeat split. Qed.
