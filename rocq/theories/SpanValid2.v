(** The same for the assembler passes, images, the lexers and includes. *)
From Coq Require Import ZArith List String Ascii Bool Arith Lia.
From Verif Require Import Base Expr Instr Ast Macro Lexer Parser CHeader Asm Files Img Include Span SpanParser SpanAsm SpanInclude.
From Verif Require Import SpecSpan SpecLex SpecPlaces LexProofs LexProofs5 HeaderProofs SpanProofs2 SpanProofs3 SpanValid.
Import ListNotations.
Open Scope string_scope.
Open Scope list_scope.
Local Open Scope nat_scope.

(** * Computations without places *)

Ltac quiet_done := let e := fresh in let H := fresh in intros e H; first [discriminate H | injection H as <-; reflexivity].

Lemma quiet_ret : forall {A : Type} (a : A), quiet (Ok a). Proof. intros; quiet_done. Qed.
Lemma quiet_panic : forall {A : Type}, quiet (@Panic A). Proof. intros; quiet_done. Qed.

Lemma quiet_env : forall ns k l, quiet (as_env ns k l).
Proof. intros. unfold as_env. destruct (mget _ _); quiet_done. Qed.

Lemma quiet_write : forall {A : Type} (l : list A) i v, quiet (write_at l i v).
Proof. intros. unfold write_at. destruct (i <? 0)%Z; [quiet_done|]. destruct (set_nth _ _ _); quiet_done. Qed.

Lemma quiet_emit : forall pr bs out pos, quiet (emit pr bs out pos).
Proof.
  intros pr. induction bs as [|b bs IH]; intros out pos; cbn [emit]; [quiet_done|].
  apply quiet_bind; [apply quiet_write|]. intros o. apply quiet_bind; [apply quiet_usize|]. intros p. apply IH.
Qed.

Lemma quiet_rounds : forall {S R : Type} (step : S -> S + outcome R), (forall s x, step s = inr x -> quiet x) ->
  forall p s x, rounds step p s = inr x -> quiet x.
Proof.
  intros S R step H. induction p as [p IH|p IH|]; intros s x E; cbn [rounds] in E.
  - destruct (step s) as [s1|y] eqn:E1; [|injection E as <-; eauto].
    destruct (rounds step p s1) as [s2|y] eqn:E2; [eauto|injection E as <-; eauto].
  - destruct (rounds step p s) as [s2|y] eqn:E2; [eauto|injection E as <-; eauto].
  - eauto.
Qed.

Lemma quiet_cnop : forall pr pos m, quiet (cnop_loop pr pos m).
Proof.
  intros pr pos m. unfold cnop_loop. destruct (rounds _ _ _) as [x|x] eqn:E; [quiet_done|].
  apply (quiet_rounds (cnop_step pr pos m)) in E; auto. intros s y. unfold cnop_step. destruct (_ <=? _)%Z.
  - intros X. injection X as <-. quiet_done.
  - destruct (chk32 pr _); intros X; try discriminate; injection X as <-; quiet_done.
Qed.

Lemma quiet_zero : forall n, quiet (zero_vec n).
Proof. intros n. unfold zero_vec. destruct (_ <? n)%Z; quiet_done. Qed.

Lemma quiet_path : forall w s root f, quiet (path_of w s root f).
Proof.
  intros w s [r|] f; cbn [path_of]; [|quiet_done]. apply quiet_bind.
  - destruct (is_absolute f); [quiet_done|]. destruct (is_dir w r); [quiet_done|]. destruct (parent r); quiet_done.
  - intros c. destruct (_ || _)%bool; quiet_done.
Qed.

Lemma quiet_load : forall w s root f, quiet (load w s root f).
Proof.
  intros w s root f. unfold load. apply quiet_bind; [apply quiet_path|]. intros p. destruct (get_id s p) as [id|].
  - destruct (nth_error _ id); quiet_done.
  - apply quiet_bind; [|intros; quiet_done]. unfold load_file. destruct (read_bytes w p); [|quiet_done]. destruct (valid_utf8 _); quiet_done.
Qed.

Lemma quiet_set_last : forall g l, quiet (set_last g l).
Proof.
  intros g. induction l as [|b l IH]; cbn [set_last]; [quiet_done|]. destruct l as [|c l]; [quiet_done|].
  apply quiet_bind; [exact IH|]. intros; quiet_done.
Qed.

Lemma quiet_mask_row : forall row bytes idx, quiet (mask_row row bytes idx).
Proof.
  induction row as [|c row IH]; intros bytes idx; cbn [mask_row]; [quiet_done|]. apply quiet_bind; [|intros; apply IH].
  destruct (_ =? 0)%Z; [quiet_done|apply quiet_set_last].
Qed.

Lemma quiet_image_row : forall row bytes idx, quiet (image_row row bytes idx).
Proof.
  induction row as [|c row IH]; intros bytes idx; cbn [image_row]; [quiet_done|]. apply quiet_bind; [|intros; apply IH].
  destruct (_ mod 8 =? 0)%Z; [quiet_done|apply quiet_set_last].
Qed.

Lemma quiet_pack : forall p, (forall r, quiet (p r)) -> forall rows, quiet (pack_rows p rows).
Proof.
  intros p H. induction rows as [|r rows IH]; cbn [pack_rows]; [quiet_done|]. apply quiet_bind; auto. intros a. apply quiet_bind; auto.
  intros; quiet_done.
Qed.

Lemma quiet_1bit : forall i m h, quiet (image_1bit i m h).
Proof.
  intros i m h. induction i as [|f i IH]; cbn [image_1bit]; [quiet_done|]. apply quiet_bind.
  - unfold frame_1bit. apply quiet_bind; [destruct m; [apply quiet_pack; intros; apply quiet_mask_row|quiet_done]|]. intros a.
    apply quiet_bind; [apply quiet_pack; intros; apply quiet_image_row|]. intros; quiet_done.
  - intros a. apply quiet_bind; [exact IH|]. intros; quiet_done.
Qed.

Lemma quiet_fill : forall p t, quiet (fill_palette p t).
Proof. induction p as [|[k i] p IH]; intros t; cbn [fill_palette]; [quiet_done|]. apply quiet_bind; [apply quiet_write|]. intros; apply IH. Qed.

Lemma quiet_index : forall p c, quiet (index_of p c).
Proof. intros p c. unfold index_of. destruct (pal_get p c); quiet_done. Qed.

Lemma quiet_nibbles : forall p n row, List.length row <= n -> quiet (nibbles p row).
Proof.
  intros p. induction n as [|n IH]; intros [|a [|b row]] L; cbn in L; try lia; cbn [nibbles]; try quiet_done.
  apply quiet_bind; [apply quiet_index|]. intros x. apply quiet_bind; [apply quiet_index|]. intros y.
  apply quiet_bind; [apply IH; lia|]. intros; quiet_done.
Qed.

Lemma quiet_indices : forall p row, quiet (indices p row).
Proof.
  intros p. induction row as [|a row IH]; cbn [indices]; [quiet_done|]. apply quiet_bind; [apply quiet_index|]. intros x.
  apply quiet_bind; [exact IH|]. intros; quiet_done.
Qed.

Lemma quiet_byte_rows : forall p, (forall r, quiet (p r)) -> forall f, quiet (byte_rows p f).
Proof.
  intros p H. induction f as [|r f IH]; cbn [byte_rows]; [quiet_done|]. apply quiet_bind; auto. intros a. apply quiet_bind; auto.
  intros; quiet_done.
Qed.

Lemma quiet_nibble_frames : forall p many i idx, quiet (nibble_frames p many idx i).
Proof.
  intros p many. induction i as [|f i IH]; intros idx; cbn [nibble_frames]; [quiet_done|].
  apply quiet_bind; [apply quiet_byte_rows; intros; now apply (quiet_nibbles p (List.length r))|]. intros a. apply quiet_bind; [apply IH|].
  intros; quiet_done.
Qed.

Lemma quiet_index_frames : forall p i, quiet (index_frames p i).
Proof.
  intros p. induction i as [|f i IH]; cbn [index_frames]; [quiet_done|].
  apply quiet_bind; [apply quiet_byte_rows; apply quiet_indices|]. intros a. apply quiet_bind; [apply IH|]. intros; quiet_done.
Qed.

Lemma quiet_image_icon : forall i p n, quiet (image_to_icon i p n).
Proof.
  intros i p n. unfold image_to_icon. cbv zeta. match goal with |- quiet (if ?c then _ else _) => destruct c end; [|quiet_done].
  apply quiet_bind; [apply quiet_fill|]. intros t. apply quiet_bind; [|intros; quiet_done].
  match goal with |- quiet (if ?c then _ else _) => destruct c end; [apply quiet_nibble_frames|apply quiet_index_frames].
Qed.

(** Errors of decoders carry no place. *)
Definition placeless (pics : pictures) : Prop := forall path, quiet (pics path).

Lemma quiet_load_image : forall pics p, placeless pics -> quiet (load_image pics p).
Proof. intros pics p H. unfold load_image. apply quiet_bind; [apply H|]. intros; quiet_done. Qed.

Lemma quiet_icon : forall pics p sp eye, placeless pics -> quiet (to_icon pics p sp eye).
Proof.
  intros pics p sp eye H. unfold to_icon. apply quiet_bind; [now apply quiet_load_image|]. intros l. cbv zeta.
  destruct (16 <? _)%Z; [quiet_done|]. destruct (negb _); [quiet_done|].
  apply quiet_bind.
  - destruct eye as [path|]; [|quiet_done]. apply quiet_bind; [now apply quiet_load_image|]. intros l2.
    apply quiet_bind; [|intros; quiet_done]. unfold as_still. destruct l2; quiet_done.
  - intros ey. apply quiet_bind; [apply quiet_image_icon|]. intros d. destruct ey as [[q img]|]; [|quiet_done].
    destruct (negb _); [quiet_done|]. apply quiet_bind; [apply quiet_image_icon|]. intros; quiet_done.
Qed.

(** * The passes *)
Section Ok.
Variable P : location -> Prop.

Lemma still : forall {A B : Type} (R : B -> Prop) (x : outcome A) k, quiet x -> (forall a, holds P R (k a)) -> holds P R (pbind (no_place x) k).
Proof. intros A B R x k Q H. eapply hbind; [now apply quiet_ok|]. auto. Qed.

Definition any {A : Type} (_ : A) : Prop := True.

Lemma eval_ok : forall pr en e, ok_expr P e -> holds P any (eval_s pr en e).
Proof.
  intros pr en. induction e as [s n|s n r|s n|s n|op s x IH|op s l IHl r IHr]; cbn [eval_s ok_expr]; intros E.
  - destruct (env_get en _); [exact Logic.I|now apply one_place].
  - exact Logic.I.
  - now apply one_place.
  - now apply one_place.
  - destruct E. eapply hbind; [now apply IH|]. intros a _. destruct (un_value pr s op a) as [v|e2 p| |] eqn:U; try exact Logic.I.
    now apply un_value_err in U.
  - destruct E as (E & E1 & E2). eapply hbind; [now apply IHl|]. intros a _. eapply hbind; [now apply IHr|]. intros b _.
    destruct (bin_value pr s op a b) as [v|e2 p| |] eqn:U; try exact Logic.I. apply bin_value_err in U as (_ & _ & -> & ->). now apply one_place.
Qed.

Lemma bits_ok : forall pr en n e, ok_expr P e -> holds P any (eval_bits_s pr en n e).
Proof.
  intros. unfold eval_bits_s. eapply hbind; [now apply eval_ok|]. intros v _. destruct (negb _); [|exact Logic.I].
  apply one_place; auto. now apply ok_span_of.
Qed.

Lemma rel8_ok : forall pr en p e, ok_expr P e -> holds P any (rel8_s pr en p e).
Proof.
  intros. unfold rel8_s. eapply hbind; [now apply eval_ok|]. intros v _. assert (O: okp P (span_of e)) by now apply ok_span_of.
  destruct (_ && _)%bool; [|now apply one_place]. apply still; [apply quiet_chk32|]. intros a.
  destruct (_ && _)%bool; [exact Logic.I|now apply one_place].
Qed.

Lemma eval12_ok : forall pr en p e, ok_expr P e -> holds P any (eval12_s pr en p e).
Proof.
  intros. unfold eval12_s. eapply hbind; [now apply bits_ok|]. intros v _. cbv zeta. destruct (negb _); [|exact Logic.I].
  apply one_place; auto. now apply ok_span_of.
Qed.

Lemma rel16_ok : forall pr en p e, ok_expr P e -> holds P any (rel16_s pr en p e).
Proof.
  intros. unfold rel16_s. eapply hbind; [now apply eval_ok|]. intros v _. assert (O: okp P (span_of e)) by now apply ok_span_of.
  destruct (_ && _)%bool; [|now apply one_place]. apply still; [apply quiet_chk32|]. intros a. apply still; [apply quiet_chk32|]. intros b.
  destruct (_ && _)%bool; [exact Logic.I|now apply one_place].
Qed.

Lemma eval_instr_ok : forall pr p l ns i, ok_instr P i -> holds P any (eval_instr_s pr p l ns i).
Proof.
  intros pr p l ns i H. unfold eval_instr_s. do 3 (apply still; [apply quiet_env|]; intros ?). unfold ok_instr in H.
  destruct i; cbn [operand_exprs] in H;
    repeat match goal with H : Forall _ (_ :: _) |- _ => inversion H; clear H; subst end;
    repeat (eapply hbind; [first [now apply bits_ok|now apply rel8_ok|now apply eval12_ok|now apply rel16_ok]|]; intros ? _); exact Logic.I.
Qed.

Lemma cnop_expr_ok : forall e, ok_expr P e -> holds P any (eval_cnop_expr_s e).
Proof. intros e H. assert (O: okp P (span_of e)) by now apply ok_span_of. destruct e; try exact Logic.I; now apply one_place. Qed.

Lemma dir_size_ok : forall pr d pos, ok_directive P d -> holds P any (dir_size_s pr d pos).
Proof.
  intros pr d pos H. destruct d; cbn [dir_size_s]; try exact Logic.I.
  - apply quiet_ok, quiet_chk32.
  - destruct H as (S & A & M). eapply (hbind _ any).
    + unfold eval_cnop_s. eapply hbind; [now apply cnop_expr_ok|]. intros a _. eapply hbind; [now apply cnop_expr_ok|]. intros m _.
      destruct (m =? 0)%Z; [exact Logic.I|]. apply still; [apply quiet_cnop|]. intros x. apply quiet_ok, quiet_chk32.
    + intros p _. apply quiet_ok, quiet_chk32.
Qed.

Definition ok_names (m : smap name_value) : Prop := @ok_values name_value (fun v => okp P (fst v)) m.

Lemma add_ok : forall n v m, okp P (fst v) -> ok_names m -> holds P ok_names (add_name_s n v m).
Proof.
  intros n v m V M. unfold add_name_s. assert (G := @ok_get name_value _ _ n M). destruct (mget m n) as [x|]; cbn [ok_opt] in G.
  - cbv beta in G. split; [constructor; [exact V|constructor; [exact G|constructor]]|reflexivity].
  - now constructor.
Qed.

Definition ok_lab (st : lab_state_s) : Prop := ok_names (ls_globals st) /\ ok_names (ls_local st).

Lemma label_loop_ok : forall pr l st, Forall (ok_statement P) l -> ok_lab st -> holds P ok_lab (label_loop_s pr l st).
Proof.
  intros pr. induction l as [|s l IH]; intros st L [G O]; cbn [label_loop_s]; [split; auto|]. inversion L as [|? ? S L2]; subst.
  eapply (hbind _ ok_lab); [|intros; now apply IH].
  destruct s; cbn [label_step_s ok_statement] in *; try (split; auto; fail); try exact Logic.I.
  - eapply hbind; [now apply dir_size_ok|]. intros n _. apply still; [apply quiet_chk32|]. intros p. split; auto.
  - destruct (is_local name).
    + eapply hbind; [apply add_ok; auto|]. intros m M. split; auto.
    + eapply hbind; [apply add_ok; auto|]. intros m M. split; auto. constructor.
  - apply still; [apply quiet_chk32|]. intros p. split; auto.
Qed.

Lemma name_loop_ok : forall pr l st, Forall (ok_statement P) l -> ok_names (ns_globals st) ->
  holds P (fun x => ok_names (ns_globals x)) (name_loop_s pr l st).
Proof.
  intros pr. induction l as [|s l IH]; intros st L G; cbn [name_loop_s]; [exact G|]. inversion L as [|? ? S L2]; subst.
  eapply (hbind _ (fun x => ok_names (ns_globals x))); [|intros; now apply IH]. unfold name_step_s.
  eapply (hbind _ (fun x => ok_names (ns_globals x))); [|intros; assumption].
  destruct s; cbn [ok_statement] in *; try exact G; try exact Logic.I.
  - eapply hbind; [now apply dir_size_ok|]. intros n _. apply still; [apply quiet_chk32|]. intros p. exact G.
  - apply still; [apply quiet_chk32|]. intros p. exact G.
  - destruct S. eapply hbind; [now apply eval_ok|]. intros v _. eapply hbind; [apply add_ok; auto|]. intros m M. exact M.
  - destruct S. eapply hbind; [now apply eval_ok|]. intros v _. eapply hbind; [apply add_ok; auto|]. intros m M. exact M.
Qed.

Lemma names_ok : forall pr l, Forall (ok_statement P) l -> holds P any (compute_names_s pr l).
Proof.
  intros pr l L. unfold compute_names_s, compute_labels_s.
  eapply (hbind _ (fun x => ok_names (b_globals x))).
  - eapply hbind; [apply label_loop_ok; auto; split; constructor|]. intros st [G _]. exact G.
  - intros b B. eapply hbind; [apply name_loop_ok; auto|]. intros st _. apply still; [apply quiet_chk32|]. intros; exact Logic.I.
Qed.

Lemma items_ok : forall pr en l out pos, Forall (ok_byte P) l -> holds P any (emit_items_s pr en l out pos).
Proof.
  intros pr en. induction l as [|b l IH]; intros out pos H; cbn [emit_items_s]; [exact Logic.I|]. inversion H as [|? ? B L]; subst.
  eapply (hbind _ any); [|intros [o p] _; now apply IH]. destruct b as [e|s v]; cbn [emit_item_s ok_byte] in *.
  - eapply hbind; [now apply eval_ok|]. intros v _. destruct (_ || _)%bool; [apply one_place; auto; now apply ok_span_of|]. apply quiet_ok, quiet_emit.
  - apply quiet_ok, quiet_emit.
Qed.

Lemma words_ok : forall pr en l out pos, Forall (ok_expr P) l -> holds P any (emit_words_s pr en l out pos).
Proof.
  intros pr en. induction l as [|e l IH]; intros out pos H; cbn [emit_words_s]; [exact Logic.I|]. inversion H as [|? ? B L]; subst.
  eapply hbind; [now apply eval_ok|]. intros v _. destruct (_ || _)%bool; [apply one_place; auto; now apply ok_span_of|]. cbv zeta.
  apply still; [apply quiet_emit|]. intros [o p]. now apply IH.
Qed.

Lemma text_ok : forall pr s pad size bs out pos, okp P s -> holds P any (emit_text_s pr s pad size bs out pos).
Proof.
  intros. unfold emit_text_s. cbv zeta. destruct (_ <? _)%Z; [now apply one_place|]. apply still; [apply quiet_emit|]. intros [o p].
  apply quiet_ok, quiet_emit.
Qed.

Lemma gen_dir_ok : forall pr ns d st, ok_directive P d -> holds P any (gen_dir_s pr ns d st).
Proof.
  intros pr ns d st H. destruct d; cbn [gen_dir_s ok_directive] in *; try (now apply text_ok).
  - destruct H. apply still; [apply quiet_env|]. intros en. now apply items_ok.
  - destruct (_ <? _)%Z; [now apply one_place|exact Logic.I].
  - destruct H. apply still; [apply quiet_env|]. intros en. now apply words_ok.
  - exact Logic.I.
  - eapply hbind; [apply dir_size_ok; exact H|]. intros n _. apply still; [apply quiet_usize|]. intros; exact Logic.I.
Qed.

Lemma gen_loop_ok : forall pr ns l st, Forall (ok_statement P) l -> holds P any (gen_loop_s pr ns l st).
Proof.
  intros pr ns. induction l as [|s l IH]; intros st L; cbn [gen_loop_s]; [exact Logic.I|]. inversion L as [|? ? S L2]; subst.
  eapply (hbind _ any); [|intros; now apply IH].
  destruct s; cbn [gen_step_s ok_statement] in *; try exact Logic.I.
  - eapply hbind; [now apply gen_dir_ok|]. intros [o p] _. exact Logic.I.
  - destruct (is_local name); exact Logic.I.
  - destruct S. apply still; [apply quiet_usize|]. intros nx. eapply hbind; [now apply eval_instr_ok|]. intros j _.
    apply still; [apply quiet_emit|]. intros [o p]. exact Logic.I.
Qed.

Lemma assemble_ok : forall pr l, Forall (ok_statement P) l -> holds P any (assemble_s pr l).
Proof.
  intros pr l L. unfold assemble_s. eapply hbind; [now apply names_ok|]. intros [m ns] _. apply still; [apply quiet_usize|]. intros n.
  apply still; [apply quiet_zero|]. intros out. eapply hbind; [now apply gen_loop_ok|]. intros; exact Logic.I.
Qed.

(** * Images *)
Variable default_ok : okp P default_span.

Lemma made_expr_ok : forall e, ok_expr P (made_expr e).
Proof. induction e; cbn [made_expr ok_expr]; auto. Qed.

Lemma made_byte_ok : forall b, ok_byte P (made_byte b).
Proof. intros [e|bs]; cbn; auto using made_expr_ok. Qed.

Lemma made_arg_ok : forall a, ok_arg P (made_arg a).
Proof. intros [e|e|m|n]; cbn; auto using made_expr_ok. Qed.

Lemma all_map : forall {A B : Type} (R : B -> Prop) (f : A -> B) l, (forall a, R (f a)) -> Forall R (map f l).
Proof. intros A B R f l H. induction l; cbn; auto. Qed.

Lemma map_operands : forall {E F I : Type} (f : E -> F) (i : instr E I), operand_exprs (map_instr f i) = map f (operand_exprs i).
Proof. intros E F I f i. destruct i; reflexivity. Qed.

Lemma made_ok : forall s, ok_statement P (made_statement s).
Proof.
  intros [d|n|i|n e|n e|t|n args]; cbn [made_statement ok_statement]; auto using made_expr_ok.
  - destruct d; cbn [ok_statement ok_directive]; auto 6 using made_expr_ok, all_map, made_byte_ok.
    split; auto. destruct t; cbn; auto. split; [destruct speed|destruct eyecatch]; cbn; auto using made_expr_ok, made_byte_ok.
  - split; auto. unfold ok_instr. rewrite map_operands. apply all_map, made_expr_ok.
  - split; auto. apply all_map, made_arg_ok.
Qed.

Variable pics : pictures.
Variable placeless_pics : placeless pics.

Lemma sprite_ok : forall s t h p, okp P s -> holds P (Forall (ok_statement P)) (sprite_s pics s t h p).
Proof.
  intros s t h p S. unfold sprite_s. apply still; [now apply quiet_load_image|]. intros img. eapply (hbind _ any).
  - destruct h; [|exact Logic.I]. apply still; [unfold image_width; destruct img; quiet_done|]. intros w. destruct (_ <? _)%Z; [now apply one_place|].
    apply still; [unfold image_height; destruct img; quiet_done|]. intros n. destruct (_ <? _)%Z; [now apply one_place|exact Logic.I].
  - intros _ _. cbv zeta. apply still; [apply quiet_1bit|]. intros l. constructor; [exact Logic.I|]. apply all_map, made_ok.
Qed.

Lemma byte_include_ok : forall pr w f s stmt, ok_statement P stmt -> holds P (Forall (ok_statement P)) (byte_include_s pr w pics f s stmt).
Proof.
  intros pr w f s stmt H. destruct stmt as [d| | | | | |]; try (constructor; [exact H|constructor]).
  destruct d as [| | | | |sp typ path|]; try (constructor; [exact H|constructor]). destruct H as [S T].
  destruct typ as [| | |speed eye|t h]; cbn [byte_include_s]; try exact Logic.I.
  - apply still; [apply quiet_path|]. intros p. destruct (read_bytes w p); [|cbn; auto]. constructor; [|constructor]. split; auto. apply all_map, made_byte_ok.
  - destruct T as [T1 T2]. eapply (hbind _ any).
    + destruct speed as [e|]; [|exact Logic.I]. eapply hbind; [now apply eval_ok|]. intros; exact Logic.I.
    + intros v _. eapply (hbind _ any).
      * destruct eye as [[e|q b]|]; try exact Logic.I. apply one_place; auto. now apply ok_span_of.
      * intros ey _. apply still; [apply quiet_path|]. intros p. eapply (hbind _ any).
        -- destruct ey; [|exact Logic.I]. apply still; [apply quiet_path|]. intros; exact Logic.I.
        -- intros q _. apply still; [now apply quiet_icon|]. intros l. apply all_map, made_ok.
  - apply still; [apply quiet_path|]. intros p. now apply sprite_ok.
Qed.

Lemma byte_includes_ok : forall pr w f s l, Forall (ok_statement P) l -> holds P (Forall (ok_statement P)) (byte_includes_s pr w pics f s l).
Proof.
  intros pr w f s. induction l as [|x l IH]; intros H; cbn [byte_includes_s]; [constructor|]. inversion H; subst.
  eapply hbind; [now apply byte_include_ok|]. intros a A. eapply hbind; [now apply IH|]. intros b B. now apply Forall_app.
Qed.

Lemma expand_list_ok : forall uuid fuel ms l n, ok_macros P ms -> Forall (ok_statement P) l ->
  holds P (fun x => Forall (ok_statement P) (fst x)) (expand_list_s uuid fuel ms n l).
Proof.
  intros uuid fuel ms. induction l as [|s l IH]; intros n M H; cbn [expand_list_s]; [constructor|]. inversion H as [|? ? S L]; subst.
  destruct s; try (eapply hbind; [now apply IH|]; intros [b n2] B; cbn in *; constructor; auto).
  destruct S as [S A]. eapply hbind; [now apply expand_ok|]. intros [a n1] A1. eapply hbind; [now apply IH|]. intros [b n2] B. cbn in *. now apply Forall_app.
Qed.

End Ok.
