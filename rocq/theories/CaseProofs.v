(** Letter case does not matter from files to images. *)
From Coq Require Import ZArith List String Ascii Bool Arith Lia.
From Verif Require Import Base Expr Ast Macro Asm Lexer Parser Printer Files CHeader Img Include SpecLex LexProofs LexProofs6.
From Verif Require Import SpecParse SpecLine SpecFiles SpecInclude SpecCase ParseProofs LineProofs LineProofs2 LineProofs3 FilesProofs.
From Verif Require Import IncludeProofs IncludeProofs2 IncludeProofs3.
Import ListNotations.
Open Scope string_scope.
Open Scope list_scope.

(** * Encoding *)

Lemma letters_utf8 : forall n s t, (String.length s <= n)%nat -> same_letters s t -> valid_utf8 s = valid_utf8 t.
Proof.
  induction n as [|n IH]; intros s t L S.
  - destruct s; [|cbn in L; lia]. destruct t; [reflexivity|destruct S].
  - destruct s as [|a s], t as [|a' t]; try (destruct S; fail); [reflexivity|]. destruct S as [SA S]. cbn [String.length] in L.
    cbn [valid_utf8]. rewrite (same_letter_by (in_range 0 127) ltac:(vm_compute; reflexivity) _ _ SA), (IH s t) by (auto; lia). destruct (in_range 0 127 a'); [reflexivity|].
    destruct s as [|b s], t as [|b' t]; try (destruct S; fail); [reflexivity|]. destruct S as [SB S]. cbn [String.length] in L.
    rewrite (same_letter_by (in_range 194 223) ltac:(vm_compute; reflexivity) _ _ SA), (same_letter_by (in_range 128 191) ltac:(vm_compute; reflexivity) _ _ SB), (IH s t) by (auto; lia).
    destruct (_ && _)%bool; [reflexivity|].
    destruct s as [|c s], t as [|c' t]; try (destruct S; fail); [reflexivity|]. destruct S as [SC S]. cbn [String.length] in L.
    rewrite (same_letter_eqb "224" eq_refl eq_refl _ _ SA), (same_letter_eqb "237" eq_refl eq_refl _ _ SA).
    rewrite (same_letter_by (in_range 160 191) ltac:(vm_compute; reflexivity) _ _ SB), (same_letter_by (in_range 225 236) ltac:(vm_compute; reflexivity) _ _ SA), (same_letter_by (in_range 128 159) ltac:(vm_compute; reflexivity) _ _ SB),
      (same_letter_by (in_range 238 239) ltac:(vm_compute; reflexivity) _ _ SA), (same_letter_by (in_range 128 191) ltac:(vm_compute; reflexivity) _ _ SC), (IH s t) by (auto; lia).
    destruct (_ && _)%bool; [reflexivity|].
    destruct s as [|d s], t as [|d' t]; try (destruct S; fail); [reflexivity|]. destruct S as [SD S]. cbn [String.length] in L.
    rewrite (same_letter_eqb "240" eq_refl eq_refl _ _ SA), (same_letter_eqb "244" eq_refl eq_refl _ _ SA).
    rewrite (same_letter_by (in_range 144 191) ltac:(vm_compute; reflexivity) _ _ SB), (same_letter_by (in_range 241 243) ltac:(vm_compute; reflexivity) _ _ SA), (same_letter_by (in_range 128 143) ltac:(vm_compute; reflexivity) _ _ SB),
      (same_letter_by (in_range 128 191) ltac:(vm_compute; reflexivity) _ _ SD), (IH s t) by (auto; lia). reflexivity.
Qed.

(** * Tables *)

Definition alike_text (a b : string) : Prop := a = b \/ recase true a b.

Definition alike_file (f g : source_file) : Prop :=
  sf_id f = sf_id g /\ sf_name f = sf_name g /\ alike_text (sf_contents f) (sf_contents g).

Definition alike (s t : source_files) : Prop := working_dir s = working_dir t /\ Forall2 alike_file (sf_list s) (sf_list t).

Inductive alike_outcome {A : Type} : outcome (A * source_files) -> outcome (A * source_files) -> Prop :=
| ao_ok : forall x s t, alike s t -> alike_outcome (Ok (x, s)) (Ok (x, t))
| ao_err : forall e, alike_outcome (Err e) (Err e)
| ao_panic : alike_outcome Panic Panic
| ao_diverge : alike_outcome Diverge Diverge.

Lemma path_alike w v s t root p : recased w v -> working_dir s = working_dir t -> path_of w s root p = path_of v t root p.
Proof.
  intros [RF RD _] E. unfold path_of. destruct root as [root|]; [|now rewrite E]. rewrite RD.
  destruct (is_absolute p); [cbn [bind]; now rewrite !RF|]. destruct (is_dir v root); [cbn [bind]; now rewrite !RF|].
  destruct (parent root); [cbn [bind]; now rewrite !RF|reflexivity].
Qed.

Lemma find_alike : forall l l', Forall2 alike_file l l' -> forall idx name, find_name l idx name = find_name l' idx name.
Proof.
  induction 1 as [|f g l l' (_ & E & _) F IH]; intros idx name; [reflexivity|]. cbn [find_name]. rewrite E, IH. reflexivity.
Qed.

Lemma nth_alike : forall l l', Forall2 alike_file l l' -> forall i,
  match nth_error l i, nth_error l' i with Some f, Some g => alike_file f g | None, None => True | _, _ => False end.
Proof. induction 1 as [|f g l l' A F IH]; intros [|i]; cbn [nth_error]; [exact I|exact I|exact A|apply IH]. Qed.

Lemma alike_length : forall l l', Forall2 alike_file l l' -> List.length l = List.length l'.
Proof. induction 1; cbn; congruence. Qed.

Inductive alike_load : outcome (source_file * source_files) -> outcome (source_file * source_files) -> Prop :=
| al_ok : forall f g s t, alike_file f g -> alike s t -> alike_load (Ok (f, s)) (Ok (g, t))
| al_err : forall e, alike_load (Err e) (Err e)
| al_panic : alike_load Panic Panic
| al_diverge : alike_load Diverge Diverge.

Lemma load_alike w v s t root p : recased w v -> alike s t -> alike_load (load w s root p) (load v t root p).
Proof.
  intros R [E F]. unfold load. rewrite (path_alike w v s t root p R E). destruct (path_of v t root p) as [q| | |]; cbn [bind]; try constructor.
  unfold get_id. rewrite (find_alike _ _ F). destruct (find_name (sf_list t) 0 q) as [i|].
  - assert (N := nth_alike _ _ F i). destruct (nth_error (sf_list s) i), (nth_error (sf_list t) i); try destruct N; [|constructor].
    constructor; [split; auto|split; auto].
  - unfold load_file. assert (RR := rd_read _ _ R q). destruct (read_bytes w q) as [a|], (read_bytes v q) as [b|]; try destruct RR; [| |constructor].
    + subst b. destruct (valid_utf8 a); cbn [bind]; [|constructor]. rewrite (alike_length _ _ F).
      constructor; [repeat split; now left|]. split; [exact E|]. cbn. apply Forall2_app; [exact F|]. constructor; [|constructor]. repeat split. now left.
    + rewrite (letters_utf8 _ a b (le_n _) (recase_letters _ _ _ H)). destruct (valid_utf8 b); cbn [bind]; [|constructor].
      rewrite (alike_length _ _ F). constructor; [repeat split; now right|]. split; [exact E|]. cbn. apply Forall2_app; [exact F|].
      constructor; [|constructor]. repeat split. now right.
Qed.

Lemma lex_alike i a b : alike_text a b -> lex_input (new_input i a) = lex_input (new_input i b).
Proof. intros [->|R]; [reflexivity|now apply recase_lex]. Qed.

(** * Includes *)

Section Includes.
Variables w v : fs.
Hypothesis R : recased w v.

(** What the lines and the files given to the functions must fulfil. *)
Definition headers_fine (ls : list (list token)) : Prop :=
  (forall line q, In line ls -> ~ header_include (map t_type line) q) \/
  (forall p a b i, read_bytes w p = Some a -> read_bytes v p = Some b -> header_lex (new_input i a) = header_lex (new_input i b)).

Definition rec_alike (r1 r2 : rec_type) : Prop := forall name f s t toks,
  alike s t -> well_kept s -> as_on_disk w s -> well_kept t -> as_on_disk v t -> In f (sf_list s) ->
  lex_input (new_input (sf_id f) (sf_contents f)) = Ok toks -> alike_outcome (r1 name s toks) (r2 name t toks).

Lemma line_alike r1 r2 name s t line : rec_alike r1 r2 -> headers_fine [line] ->
  alike s t -> well_kept s -> as_on_disk w s -> well_kept t -> as_on_disk v t ->
  alike_outcome (include_line r1 w name s line) (include_line r2 v name t line).
Proof.
  intros RA HF A W D W2 D2. unfold include_line.
  destruct (parse_directive (stream_of line)) as [[[stmt|] r]| | |] eqn:EP; try (constructor; exact A).
  assert (X := directive_sound _ _ _ EP). destruct X as (front & d & EF & -> & DD).
  destruct d as [l|z|l|z l|z l|ty p|a b]; cbn [fixup_paths bind]; try (constructor; exact A).
  assert (E := proj1 A). rewrite (path_alike w v s t _ _ R E). destruct (path_of v t (Some name) p) as [q| | |]; cbn [bind]; try constructor.
  destruct ty as [| | |speed eye|k h]; try (constructor; exact A).
  - assert (LA := load_alike w v s t (Some name) q R A). destruct (load w s (Some name) q) as [[f s2]| | |] eqn:L1;
      destruct (load v t (Some name) q) as [[g t2]| | |] eqn:L2; inversion LA as [f0 g0 s0 t0 AF AS| | |]; subst; cbn [bind]; try constructor.
    destruct AF as (EI & EN & AT). rewrite <- EI, <- EN, <- (lex_alike _ _ _ AT).
    destruct (lex_input (new_input (sf_id f) (sf_contents f))) as [toks| | |] eqn:LX; cbn [bind]; try constructor.
    destruct (load_inv _ _ _ _ _ _ W L1) as (p1 & _ & W3 & _). destruct (load_disk _ _ _ _ _ _ W D L1) as [D3 I3].
    destruct (load_inv _ _ _ _ _ _ W2 L2) as (p2 & _ & W4 & _). destruct (load_disk _ _ _ _ _ _ W2 D2 L2) as [D4 _].
    assert (Q := RA (sf_name f) f s2 t2 toks AS W3 D3 W4 D4 I3 LX).
    destruct (r1 (sf_name f) s2 toks) as [[n1 u1]| | |]; inversion Q as [x u1' u2 AU| | |]; subst; cbn [bind]; try constructor.
    destruct (is_empty r); cbn [negb]; [constructor; exact AU|]. destruct (next r) as [[? ?]| | |]; cbn [bind]; constructor.
  - assert (LA := load_alike w v s t (Some name) q R A). destruct (load w s (Some name) q) as [[f s2]| | |] eqn:L1;
      destruct (load v t (Some name) q) as [[g t2]| | |] eqn:L2; inversion LA as [f0 g0 s0 t0 AF AS| | |]; subst; cbn [bind]; try constructor.
    destruct (load_disk _ _ _ _ _ _ W D L1) as [D3 I3]. destruct (load_disk _ _ _ _ _ _ W2 D2 L2) as [D4 I4].
    destruct AF as (EI & EN & AT). rewrite <- EI.
    destruct HF as [HF|HF].
    + exfalso. apply (HF line p (or_introl eq_refl)). unfold stream_of in EF. rewrite EF. inversion DD as [| | | | | | |w0 t0 s0 I0| |]; subst.
      cbn in I0. destruct I0 as [I0|[I0|[I0|[]]]]; injection I0 as <-; try discriminate. cbn [app]. constructor.
    + rewrite (HF (sf_name f) (sf_contents f) (sf_contents g) (sf_id f)); [|now apply D3|rewrite EN; now apply D4].
      destruct (header_lex _); cbn [bind]; constructor. exact AS.
Qed.

Lemma lines_alike r1 r2 name : rec_alike r1 r2 -> keeps w r1 -> keeps v r2 -> forall ls s t, headers_fine ls ->
  alike s t -> well_kept s -> as_on_disk w s -> well_kept t -> as_on_disk v t ->
  alike_outcome (include_lines r1 w name s ls) (include_lines r2 v name t ls).
Proof.
  intros RA K1 K2. induction ls as [|l ls IH]; intros s t HF A W D W2 D2; cbn [include_lines]; [now constructor|].
  assert (HF1: headers_fine [l]). { destruct HF as [HF|HF]; [left|right; exact HF]. intros line q [<-|[]]. apply HF. now left. }
  assert (HF2: headers_fine ls). { destruct HF as [HF|HF]; [left|right; exact HF]. intros line q I. apply HF. now right. }
  assert (Q := line_alike r1 r2 name s t l RA HF1 A W D W2 D2).
  destruct (include_line r1 w name s l) as [[a s2]| | |] eqn:E1; destruct (include_line r2 v name t l) as [[b t2]| | |] eqn:E2;
    inversion Q as [x s3 t3 AS| | |]; subst; cbn [bind]; try constructor.
  destruct (line_keeps _ _ _ _ _ _ _ K1 W D E1) as (W3 & D3 & _). destruct (line_keeps _ _ _ _ _ _ _ K2 W2 D2 E2) as (W4 & D4 & _).
  assert (Q2 := IH s2 t2 HF2 AS W3 D3 W4 D4).
  destruct (include_lines r1 w name s2 ls) as [[c s4]| | |]; inversion Q2 as [x s5 t5 AS2| | |]; subst; cbn [bind]; constructor. exact AS2.
Qed.

Lemma includes_alike : headers_alike w v -> forall fuel, rec_alike (replace_includes fuel w) (replace_includes fuel v).
Proof.
  intros HA. induction fuel as [|fuel IH]; intros name f s t toks A W D W2 D2 I LX; cbn [replace_includes]; [constructor|].
  apply lines_alike; auto; try apply includes_keeps. destruct HA as [HA|HA]; [left|right; exact HA].
  intros line q IL. eapply HA; [apply D, I|exact LX|exact IL].
Qed.

End Includes.

Lemma new_alike wd : alike (new_files wd) (new_files wd).
Proof. split; [reflexivity|constructor]. Qed.

Lemma byte_includes_alike pr w v pics name s t : recased w v -> working_dir s = working_dir t -> forall l,
  (forall p q, In (SDirective (DInclude IncBytes p)) l -> found w name p q -> read_bytes w q = read_bytes v q) ->
  byte_includes pr w pics name s l = byte_includes pr v pics name t l.
Proof.
  intros R E. induction l as [|stmt l IH]; intros H; [reflexivity|]. cbn [byte_includes].
  rewrite IH by (intros p q I; apply H; now right).
  assert (Q: byte_include pr w pics name s stmt = byte_include pr v pics name t stmt); [|now rewrite Q].
  unfold byte_include. destruct stmt as [d| | | | | |]; try reflexivity. destruct d; try reflexivity.
  destruct t0 as [| | |speed eye|k h]; try reflexivity.
  - destruct (path_of w s (Some name) path) as [q| | |] eqn:P; rewrite <- (path_alike w v s t _ _ R E), P; try reflexivity. cbn [bind].
    rewrite (H path q); [reflexivity|now left|]. now apply path_some_iff in P.
  - destruct (match speed with Some e => _ | None => _ end) as [sp| | |]; try reflexivity. cbn [bind].
    destruct eye as [[e|b]|]; cbn [bind]; try reflexivity; rewrite (path_alike w v s t (Some name) path R E); [|reflexivity].
    destruct (path_of v t (Some name) path) as [q| | |]; try reflexivity. cbn [bind].
    now rewrite (path_alike w v s t (Some name) (text_of b) R E).
  - now rewrite (path_alike w v s t (Some name) path R E).
Qed.

Theorem read_alike pr fuel w v pics wd name : recased w v -> headers_alike w v -> bytes_alike w v fuel wd name ->
  read_statements pr fuel w pics (new_files wd) name = read_statements pr fuel v pics (new_files wd) name.
Proof.
  intros R HA BA. unfold read_statements. cbn [path_of bind working_dir new_files].
  assert (LA := load_alike w v _ _ None (join wd name) R (new_alike wd)).
  assert (W := new_well wd). assert (D: forall u, as_on_disk u (new_files wd)) by (intros u f []).
  destruct (load w (new_files wd) None (join wd name)) as [[f s]| | |] eqn:L1;
    destruct (load v (new_files wd) None (join wd name)) as [[g t]| | |] eqn:L2; inversion LA as [f0 g0 s0 t0 AF AS| | |]; subst; cbn [bind]; try reflexivity.
  destruct AF as (EI & EN & AT). rewrite <- EI, <- (lex_alike _ _ _ AT).
  destruct (lex_input (new_input (sf_id f) (sf_contents f))) as [toks| | |] eqn:LX; cbn [bind]; try reflexivity.
  destruct (load_inv _ _ _ _ _ _ W L1) as (p1 & _ & W3 & _). destruct (load_disk _ _ _ _ _ _ W (D w) L1) as [D3 I3].
  destruct (load_inv _ _ _ _ _ _ W L2) as (p2 & _ & W4 & _). destruct (load_disk _ _ _ _ _ _ W (D v) L2) as [D4 _].
  assert (Q := includes_alike w v R HA fuel (join wd name) f s t toks AS W3 D3 W4 D4 I3 LX).
  destruct (replace_includes fuel w (join wd name) s toks) as [[out T]| | |] eqn:RI; inversion Q as [x u1 u2 AU| | |]; subst; cbn [bind]; try reflexivity.
  destruct (parse out) as [stmts| | |] eqn:P; cbn [bind]; try reflexivity. unfold replace_byte_includes.
  rewrite (byte_includes_alike pr w v pics (join wd name) T u2 R (proj1 AU)); [reflexivity|].
  intros p q I F. eapply BA; eauto.
Qed.
