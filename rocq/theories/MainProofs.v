(** Proofs about the commands as a whole. *)
From Coq Require Import ZArith List String Ascii Bool Lia.
From Verif Require Import Base Expr Bits Instr Ast Macro Asm Lexer Parser CHeader Files Img Include Span SpanParser SpanAsm SpanInclude SpecParse SpecSpan ParseProofs SpanProofs SpanProofs2 SpanProofs3 SpanParseProofs  Printer SpanAsmProofs Report Message Heading Cmd Vmi Main SpecMain LexProofs SpecHeading.
From Verif Require Disasm.
Import ListNotations.
Open Scope string_scope.
Local Open Scope Z_scope.

Lemma expand_file_same : forall uuid pr fuel w pics s name,
  unplaced idf (fst (expand_file_s uuid pr fuel w pics s name)) = expand_file uuid pr fuel w pics s name.
Proof.
  intros. unfold expand_file_s, expand_file. apply (only_only erase_statements); [apply read_same|]. intros st s2.
  unfold expand_macros. unfold erase_statements at 1. cbn [st_macros st_list].
  assert (A: forall (x : placed (list sstatement * nat)) y, unplaced (fun x => (map erase_statement (fst x), snd x)) x = y ->
    only idf (tbind (x, s2) (fun expanded s3 => (POk (expand_output (map erase_statement (fst expanded))), s3))) =
    bind (bind y (fun '(l, _) => Ok (mkStatements (erase_macros (ss_macros st)) l))) (fun e => Ok (expand_output (st_list e)))).
  { intros [[l k]|e at_| |] y <-; reflexivity. }
  apply A, expand_list_same.
Qed.

Lemma strip_case : forall s, (exists b, s = b ++ ".vms" /\ strip_vms s = b) \/ ((forall b, s <> b ++ ".vms") /\ strip_vms s = s).
Proof.
  induction s as [|c s IH].
  - right. split; [|reflexivity]. intros [|x b]; discriminate.
  - cbn [strip_vms]. destruct (String.eqb_spec (String c s) ".vms") as [E|N].
    + left. exists "". now rewrite E.
    + destruct IH as [(b & E & R)|(E & R)].
      * left. exists (String c b). rewrite R. cbn [append]. now rewrite <- E.
      * right. rewrite R. split; [|reflexivity]. intros [|x b] H; [now apply N|]. cbn [append] in H. injection H as _ H. now apply (E b).
Qed.

Lemma vmi_named : forall i, named_after i (strip_vms i ++ ".vmi").
Proof.
  intros i. destruct (strip_case i) as [(b & E & R)|(E & R)]; rewrite R; [left; now exists b|right; auto].
Qed.

Lemma app_cancel : forall a b c : string, (a ++ b = a ++ c)%string -> b = c.
Proof. induction a as [|x a IH]; cbn; intros b c H; [exact H|]. injection H as H. now apply IH. Qed.

Lemma app_len : forall a b : string, String.length (a ++ b) = (String.length a + String.length b)%nat.
Proof. induction a as [|x a IH]; cbn; intros b; [reflexivity|]. now rewrite IH. Qed.

Lemma named_other : forall a b, named_after a b -> a <> b.
Proof.
  intros a b [(c & -> & ->)|(_ & ->)] H.
  - now apply app_cancel in H.
  - assert (K := f_equal String.length H). rewrite app_len in K. cbn in K. lia.
Qed.

Lemma last_unique : forall b c : string, (b ++ ".vms" = c ++ ".vms")%string -> b = c.
Proof.
  induction b as [|x b IH]; intros [|y c] H; try reflexivity.
  - assert (K := f_equal String.length H). rewrite !app_len in K. cbn in K. lia.
  - assert (K := f_equal String.length H). rewrite !app_len in K. cbn in K. lia.
  - cbn in H. injection H as -> H. now rewrite (IH c).
Qed.

Lemma named_unique : forall a b c, named_after a b -> named_after a c -> b = c.
Proof.
  intros a b c [(d & -> & ->)|(E & ->)] [(e & F & ->)|(F & ->)].
  - apply last_unique in F. now subst.
  - now destruct (F d).
  - now destruct (E e).
  - reflexivity.
Qed.

Lemma writes_unique : forall c p q, writes c p -> writes c q -> p = q.
Proof. intros c p q H K. destruct H; inversion K; subst; auto. eapply named_unique; eauto. Qed.

Lemma vmi_writes : forall i o c g, writes (MakeVmi i o c g) (vmi_output i o).
Proof. intros i [o|] c g; cbn; constructor. apply vmi_named. Qed.

Lemma image_path : forall json pics i o f p t, image_cmd json pics i o f = Ok (p, t) -> p = o.
Proof.
  intros json pics i o f p t. unfold image_cmd. destruct (unwrap (load_image pics i)) as [img|e| |]; cbn [bind]; try discriminate.
  match goal with |- bind ?x _ = _ -> _ => destruct x as [text|e| |]; cbn [bind]; try discriminate end.
  destruct o; intros H; now inversion H.
Qed.

(** What [store] can leave. *)
Lemma store_cases : forall y p bytes m,
  store y p bytes m = mkEffects [] "" "" Crashed \/
  (exists n, creatable y p = true /\ room y p = Some n /\ store y p bytes m = mkEffects [(p, firstn n bytes)] "" "" Crashed) \/
  (creatable y p = true /\ store y p bytes m = mkEffects [(p, bytes)] "" m (Exited 0)).
Proof.
  intros y p bytes m. unfold store. destruct (creatable y p); [|now left]. right. destruct (room y p) as [n|]; [|now right].
  destruct (n <? List.length bytes)%nat; [left; exists n; auto|now right].
Qed.

Lemma fail_cases : forall y pr what i files e at_,
  written (fail y pr what i files e at_) = [] /\
  (ended (fail y pr what i files e at_) = Exited 1 \/ ended (fail y pr what i files e at_) = Crashed \/ ended (fail y pr what i files e at_) = Running).
Proof. intros. unfold fail. destruct (print_error_text _ _ _ _ _); cbn; auto. Qed.

(** Every run: it exits with 0 having written its output and nothing else; or it writes nothing; or the disk failed. *)
Definition shape (y : system) (c : command) (fx : effects) : Prop :=
  (ended fx = Exited 0 /\ ((exists p b, writes c p /\ creatable y p = true /\ written fx = [(p, b)]) \/ ((forall p, ~ writes c p) /\ written fx = []))) \/
  (written fx = [] /\ (ended fx = Exited 1 \/ ended fx = Crashed \/ ended fx = Running)) \/
  (ended fx = Crashed /\ exists p b, writes c p /\ written fx = [(p, b)] /\ (room y p <> None \/ exists n, taken y p n = None)).

Lemma store_shape : forall y c p bytes m, writes c p -> shape y c (store y p bytes m).
Proof.
  intros y c p bytes m W. destruct (store_cases y p bytes m) as [->|[(n & C & R & ->)|(C & ->)]]; unfold shape; cbn [ended written].
  - right; left; auto.
  - right; right. split; [reflexivity|]. exists p, (firstn n bytes). rewrite R. repeat split; auto. left. discriminate.
  - left. split; [reflexivity|]. left. eauto.
Qed.

Lemma fail_shape : forall y c pr what i files e at_, shape y c (fail y pr what i files e at_).
Proof. intros. right; left. apply fail_cases. Qed.

Lemma still : forall y c p t n, n = Exited 1 \/ n = Crashed \/ n = Running -> shape y c (mkEffects [] p t n).
Proof. intros. right; left. cbn. auto. Qed.

Lemma run_shape : forall y pr fuel c, shape y c (run y pr fuel c).
Proof.
  intros y pr fuel c. destruct c as [i o|b1 b2 t i o|i s e|i o f|i o k g|i| |]; cbn [run].
  - unfold run_assemble. destruct (assemble_file_s _ _ _ _ _ _ _) as [[bytes|e at_| |] files]; try (apply still; auto; fail).
    + apply store_shape. constructor.
    + apply fail_shape.
  - unfold run_disassemble. destruct (read_bytes (disk y) i) as [contents|]; [|apply still; auto].
    destruct (Disasm.disassemble_cmd _ _ _ _ _) as [[text|e]|e| |]; try (apply still; auto; fail). apply store_shape. constructor.
  - unfold run_icon. destruct (icon_cmd _ _ _ _ _) as [text|er| |]; try (apply still; auto; fail).
    left. cbn [ended written]. split; [reflexivity|]. right. split; [|reflexivity]. intros p W; inversion W.
  - unfold run_image. destruct (image_cmd _ _ _ _ _) as [[p text]|e| |] eqn:I; try (apply still; auto; fail).
    apply image_path in I. subst p. destruct o as [p|].
    + destruct (creatable y p) eqn:C; [|apply still; auto]. destruct (taken y p _) as [n|] eqn:T.
      * left. cbn [ended written]. split; [reflexivity|]. left. exists p. eexists. repeat split; auto. constructor.
      * right; right. cbn [ended written]. split; [reflexivity|]. exists p, []. repeat split; [constructor|]. right. eauto.
    + left. cbn [ended written]. split; [reflexivity|]. right. split; [|reflexivity]. intros p W; inversion W.
  - unfold run_vmi. destruct (read_bytes (disk y) i) as [contents|]; [|apply still; auto].
    destruct (generate_vmi _ _ _ _ _) as [b|e| |]; try (apply still; auto; fail). apply store_shape, vmi_writes.
  - unfold run_expand. destruct (expand_file_s _ _ _ _ _ _ _) as [[bytes|e at_| |] files]; try (apply still; auto; fail).
    + left. cbn [ended written]. split; [reflexivity|]. right. split; [|reflexivity]. intros p W; inversion W.
    + apply fail_shape.
  - left. cbn [ended written]. split; [reflexivity|]. right. split; [|reflexivity]. intros p W; inversion W.
  - apply still; auto.
Qed.

Lemma text_of_bytes : forall s t, str_bytes s = str_bytes t -> s = t.
Proof.
  induction s as [|c s IH]; intros [|d t] H; try discriminate; [reflexivity|]. cbn [str_bytes] in H. injection H as H K.
  rewrite (IH t K). f_equal. rewrite <- (ascii_nat_embedding c), <- (ascii_nat_embedding d). f_equal. lia.
Qed.

Lemma bytes_of_text : forall s, Forall (fun b => 0 <= b < 256) (str_bytes s).
Proof.
  induction s as [|c s IH]; [constructor|]. cbn [str_bytes]. constructor; [|exact IH]. assert (K := nat_ascii_bounded c). lia.
Qed.

Lemma starts_head : forall a w1 w2 w3 i n m t : string, (w1 ++ w2 ++ w3 = a)%string -> starts_with (a ++ i ++ n) ((w1 ++ w2 ++ w3 ++ i ++ n ++ m) ++ t).
Proof. intros a w1 w2 w3 i n m t <-. exists (m ++ t)%string. now rewrite !app_assoc_s. Qed.

Lemma within_right : forall p h a b : string, within p h -> within p (a ++ h ++ b).
Proof. intros p h a b (x & z & ->). exists (a ++ x)%string, (z ++ b)%string. now rewrite !app_assoc_s. Qed.

Lemma le_bytes_length : forall n v, List.length (le_bytes n v) = n.
Proof. induction n as [|n IH]; intros v; [reflexivity|]. cbn [le_bytes List.length]. now rewrite IH. Qed.
