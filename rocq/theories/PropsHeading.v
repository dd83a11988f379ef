(** What error messages say: C71. *)
From Coq Require Import ZArith List String Ascii Bool Arith Lia.
From Verif Require Import Base Expr Instr Ast Macro Lexer Files Img Include Report Span SpanInclude Message Heading.
From Verif Require Import SpecIsa SpecMacro SpecMessage SpecPlaces SpecHeading MacroProofs HeadingProofs HeadingProofs2.
From Verif Require PropsPlaces.
Import ListNotations.
Open Scope string_scope.
Open Scope list_scope.
Local Open Scope nat_scope.

(** ** C71 *)

(** The advice under a message about operands shows exactly the forms that the reference has for the instruction. *)
Theorem C71_advice : forall name, known name -> advice name (below (WrongInstructionArgs name)).
Proof.
  intros name K. apply knownb_known, known_names in K. cbn [In] in K.
  repeat (destruct K as [<-|K];
    [first [ eapply no_operands; [vm_compute; reflexivity|reflexivity]
           | eapply eq_ind; [eapply one_form; [vm_compute; reflexivity|discriminate]|vm_compute; reflexivity]
           | eapply eq_ind; [eapply many_forms; apply Nat.ltb_lt; vm_compute; reflexivity|vm_compute; reflexivity] ]|]).
  contradiction.
Qed.
Print Assumptions C71_advice.

Lemma in_forms name f : In f (forms name) <-> In f isa /\ f_name f = name.
Proof. unfold forms. rewrite filter_In, String.eqb_eq. reflexivity. Qed.

Lemma wrong_args_only name args n : make_instr name args = Err (WrongInstructionArgs n) -> n = name /\ known name /\ ~ listed name args.
Proof.
  intros E. assert (M := make_instr_made name args). revert M. rewrite E. intros (A & K & L). split; [exact A|]. split; [|exact L].
  exact (proj1 (knownb_known name) K).
Qed.

(** The error says that none of these forms fits the operands, and whatever fits one of them is accepted. *)
Theorem C71_fits : forall name args,
  (forall n, make_instr name args = Err (WrongInstructionArgs n) ->
     n = name /\ advice name (below (WrongInstructionArgs n)) /\ forall f os, In f (forms name) -> ~ shapes (f_kinds f) args os) /\
  (forall f os, In f (forms name) -> shapes (f_kinds f) args os -> exists i, make_instr name args = Ok i).
Proof.
  intros name args. split.
  - intros n E. apply wrong_args_only in E as (-> & K & L).
    split; [reflexivity|]. split; [exact (C71_advice name K)|].
    intros f os I S. apply in_forms in I as [I N]. apply L. exists f, os. auto.
  - intros f os I S. apply in_forms in I as [I N]. apply form_has_instr. exists f, os. auto.
Qed.
Print Assumptions C71_fits.

Lemma starts_none t : exists r, t = ("" ++ r)%string.
Proof. now exists t. Qed.

Lemma starts_cons c p t : (exists r, t = (p ++ r)%string) -> exists r, String c t = (String c p ++ r)%string.
Proof. intros (r & ->). now exists r. Qed.

Lemma starts_app a p t : (exists r, t = (p ++ r)%string) -> exists r, (a ++ t = (a ++ p) ++ r)%string.
Proof. intros (r & ->). exists r. now rewrite append_assoc_s. Qed.

Lemma within_here p t : (exists r, t = (p ++ r)%string) -> within p t.
Proof. intros (r & ->). now exists "", r. Qed.

Lemma within_cons p c t : within p t -> within p (String c t).
Proof. intros (b & r & ->). now exists (String c b), r. Qed.

Lemma within_skip p a t : within p t -> within p (a ++ t)%string.
Proof. intros (b & c & ->). exists (a ++ b)%string, c. now rewrite !append_assoc_s. Qed.

Lemma i32_hex_digits n : show_i32_hex n = ("0x" ++ Printer.natural Printer.digit_char 16 (n mod 2 ^ 32))%string.
Proof. reflexivity. Qed.

Lemma as_usize_digits n : show_as_usize_hex n = ("0x" ++ Printer.pad_zeros 4 (Printer.natural Printer.digit_char 16 (n mod 2 ^ 64)))%string.
Proof. reflexivity. Qed.

Lemma usize_digits n : Printer.show_usize_hex n = Printer.pad_zeros 4 (Printer.natural Printer.digit_char 16 n).
Proof. reflexivity. Qed.

Lemma bits_digits n : show_bits4 n = Printer.pad_zeros 4 (Printer.natural Printer.digit_char 2 n).
Proof. reflexivity. Qed.

Ltac starts :=
  match goal with
  | |- exists r, _ = ("" ++ r)%string => apply starts_none
  | |- exists r, String ?c _ = (String ?c _ ++ r)%string => apply starts_cons; starts
  | |- exists r, (?a ++ _ = (?a ++ _) ++ r)%string => apply starts_app; starts
  end.

Ltac find :=
  match goal with
  | |- within (String ?c _) (String ?c _) => first [ apply within_here; starts | apply within_cons; find ]
  | |- within _ (String _ _) => apply within_cons; find
  | |- within _ _ => first [ apply within_here; starts | apply within_skip; find ]
  end.

Section Says.
Local Opaque Printer.show_dec Printer.natural Printer.pad_zeros Printer.show_usize_hex show_bits4 show_i32_hex show_as_usize_hex.

(** The heading of a message says what is wrong, with the names and numbers of the error. *)
Theorem C71_says : forall x e, Forall (fun p => within p (above x e)) (phrases x e).
Proof.
  intros x e. destruct e.
  all: cbn [phrases above].
  all: repeat match goal with
    | |- context [show_i32_hex ?n] => generalize (i32_hex_digits n); generalize (show_i32_hex n); intros ? ->
    | |- context [show_as_usize_hex ?n] => generalize (as_usize_digits n); generalize (show_as_usize_hex n); intros ? ->
    | |- context [Printer.show_usize_hex ?n] => generalize (usize_digits n); generalize (Printer.show_usize_hex n); intros ? ->
    | |- context [show_bits4 ?n] => generalize (bits_digits n); generalize (show_bits4 n); intros ? ->
    end.
  all: unfold nl, line_feed, Lexer.LF.
  all: repeat match goal with |- Forall _ _ => constructor end.
  all: cbn [append].
  all: find.
Qed.
End Says.
Print Assumptions C71_says.

(** Two messages with the same heading are about the same kind of error, with the same names and numbers. *)
Theorem C71_heading : forall x x' e e', possible e -> possible e' -> above x e = above x' e' -> alike e e'.
Proof. exact above_alike. Qed.
Print Assumptions C71_heading.

Lemma lines_app a b : whole_lines a -> whole_lines b -> whole_lines (a ++ b)%string.
Proof.
  intros A [-> | [r ->]].
  - replace (a ++ "")%string with a; [exact A|]. clear. induction a; cbn [append]; [reflexivity|]. now rewrite <- IHa.
  - right. exists (a ++ r)%string. now rewrite append_assoc_s.
Qed.

Lemma lines_end a : whole_lines (a ++ nl)%string.
Proof. right. now exists a. Qed.

Lemma lines_above x e : whole_lines (above x e).
Proof.
  destruct e; cbn [above]; right;
  match goal with |- exists r, ?t = _ =>
    let rec go t := lazymatch t with
      | (?a ++ nl)%string => constr:(a)
      | (?a ++ ?b)%string => let c := go b in constr:((a ++ c)%string)
      end in let r := go t in exists r end; rewrite ?append_assoc_s; reflexivity.
Qed.

Lemma lines_forms name l : whole_lines (show_forms name l).
Proof.
  induction l as [|f l IH]; [now left|]. cbn [show_forms]. rewrite <- !append_assoc_s. apply lines_app; [|exact IH]. apply lines_end.
Qed.

(** The message about a failed run: the heading, the place or the two places of the error, and after a wrong use of an instruction the
    forms it has, all in lines of their own. *)
Theorem C71_message : forall uuid pr fuel w pics dir name e at_ files x, PropsPlaces.no_places pics ->
  assemble_file_s uuid pr fuel w pics (new_files dir) name = (PErr e at_, files) ->
  (forall f, In f (sf_list files) -> PropsPlaces.quotable pr (sf_contents f)) ->
  exists head blocks mid tail,
    print_error_text pr files x e at_ = Ok (head ++ String.concat mid blocks ++ tail)%string /\
    Forall (fun p => within p head) (phrases x e) /\ Forall (fun p => within p mid) (between_phrases e) /\
    (List.length blocks = place_count e /\
     forall n p b, nth_error at_ n = Some p -> nth_error blocks n = Some b -> shown pr files (here p) (parents p) (note e n) b) /\
    (forall i, e = WrongInstructionArgs i -> advice i tail) /\
    whole_lines head /\ whole_lines mid /\ whole_lines tail.
Proof.
  intros uuid pr fuel w pics dir name e at_ files x NP E Q.
  destruct (PropsPlaces.C62_message _ _ _ _ _ _ _ _ _ _ NP E Q) as (blocks & B & L & S).
  exists (above x e), blocks, (between e), (below e). unfold print_error_text. rewrite B. cbn [bind].
  split; [reflexivity|]. split; [apply C71_says|]. split.
  { clear. destruct e; cbn [between_phrases between]; repeat constructor; unfold nl, line_feed, Lexer.LF; cbn [append]; find. }
  split; [split; assumption|]. split; [intros i ->; apply C71_advice; now apply (PropsPlaces.run_known _ _ _ _ _ _ _ _ _ _ NP E)|]. split; [apply lines_above|]. split.
  - clear. destruct e; try (now left); cbn [between]; rewrite <- ?append_assoc_s; apply lines_end.
  - clear. destruct e; try (now left); try (right; now exists ""). cbn [below]. unfold show_advice. rewrite <- append_assoc_s. apply lines_end.
Qed.
Print Assumptions C71_message.

(** * Cases *)

Example C71_advice_case :
  known "be" /\ below (WrongInstructionArgs "be") =
    (nl ++ "Allowed forms for instruction be:" ++ nl ++ "  be #i8, r8" ++ nl ++ "  be d9, r8" ++ nl ++ "  be @Ri, #i8, r8" ++ nl ++ nl)%string /\
  known "jmp" /\ below (WrongInstructionArgs "jmp") = (nl ++ "Allowed form for instruction jmp:" ++ nl ++ "  jmp a12" ++ nl ++ nl)%string /\
  known "ret" /\ below (WrongInstructionArgs "ret") = (nl ++ "ret expects 0 arguments." ++ nl ++ nl ++ nl)%string.
Proof.
  repeat split; try reflexivity; apply knownb_known; vm_compute; reflexivity.
Qed.

Example C71_fits_case :
  make_instr "push" [AIM R0] = Err (WrongInstructionArgs "push") /\
  exists f os, In f (forms "push") /\ shapes (f_kinds f) [AEx (ENumber 5 Decimal)] os.
Proof.
  split; [reflexivity|]. eexists. exists [inl (ENumber 5 Decimal)]. split; [left; reflexivity|]. repeat constructor.
Qed.

Local Definition no_texts : texts := mkTexts "7" "p.png" "broken" "x".

(** Errors that only differ in a number, in signedness, or in the name of a macro chosen to resemble another message. *)
Example C71_heading_case :
  possible (NumOutOfRange 8 300) /\ possible (SignedNumOutOfRange 8 300) /\ possible (MacroAlreadyExists "label" 2) /\
  possible MacroLabelOutsideOfMacro /\ possible (AddrBitsDontMatch 8190 12287 1 2) /\
  above no_texts (NumOutOfRange 8 300) = ("Value out of range: 300. Expected unsigned 8 bit number." ++ nl ++ nl)%string /\
  above no_texts (MacroAlreadyExists "label" 2) = ("Macro label already exists for arity=2." ++ nl ++ nl ++ "This macro:" ++ nl)%string /\
  above no_texts (InvalidAddress (-2)) = ("Invalid address: 0xFFFFFFFE" ++ nl ++ nl)%string.
Proof.
  repeat split; try reflexivity; try lia; vm_compute; intros H; repeat (destruct H as [H|H]; try discriminate H); contradiction.
Qed.

(** A whole message. *)
Example C71_message_case :
  let r := assemble_file_s (fun _ => "u") Debug 50 (PropsPlaces.disk_of PropsPlaces.two_files) (fun _ => Err ImageParseError) (new_files "/s") "/s/m.s" in
  PropsPlaces.no_places (fun _ => Err ImageParseError) /\
  fst r = PErr (NameAlreadyExists "aa") [mkP (mkSpan (mkLoc 0 20 3 0) (mkLoc 0 23 3 3)) []; mkP (mkSpan (mkLoc 1 6 2 0) (mkLoc 1 9 2 3)) []] /\
  Forall (fun f => PropsPlaces.quotable Debug (sf_contents f)) (sf_list (snd r)) /\
  print_error_text Debug (snd r) no_texts (NameAlreadyExists "aa")
    [mkP (mkSpan (mkLoc 0 20 3 0) (mkLoc 0 23 3 3)) []; mkP (mkSpan (mkLoc 1 6 2 0) (mkLoc 1 9 2 3)) []] =
    Ok ("Name already exists: aa" ++ nl ++ nl ++ "The name found here..." ++ nl ++
        "m.s:3:0-3" ++ nl ++ "  Aa:  nop ; again" ++ nl ++ nl ++ "  ^^^ Duplicate" ++ nl ++
        nl ++ "...was already declared here" ++ nl ++
        "l.s:2:0-3" ++ nl ++ "  aA:" ++ nl ++ nl ++ "  ^^^ Original" ++ nl)%string.
Proof.
  intros r. split; [intros p e H; now injection H as <-|].
  assert (R: r = (fst r, snd r)) by (now destruct r). vm_compute.
  split; [reflexivity|]. split; [repeat constructor; discriminate|]. reflexivity.
Qed.
