(** The assembler with places is the assembler without them. *)
From Coq Require Import ZArith List String Ascii Bool Arith Lia.
From Verif Require Import Base Expr Bits Instr Ast Macro Asm Lexer Parser CHeader Files Img Include Span SpanParser SpanAsm SpanInclude.
From Verif Require Import SpecParse SpecSpan ParseProofs SpanProofs SpanProofs2 SpanProofs3 SpanParseProofs.
Import ListNotations.
Open Scope string_scope.
Open Scope list_scope.
Local Open Scope nat_scope.

Notation idf := (fun v => v).

Lemma no_place_same : forall {A} (x : outcome A), unplaced idf (no_place x) = x. Proof. intros A []; reflexivity. Qed.

Lemma bits_same : forall pr en bits e, unplaced idf (eval_bits_s pr en bits e) = eval_bits pr en bits (erase e).
Proof.
  intros. unfold eval_bits_s, eval_bits. apply (same_bind idf); [apply eval_same|]. intros v.
  now destruct (negb (Z.shiftr v bits =? 0)%Z).
Qed.

Lemma rel8_same : forall pr en pos e, unplaced idf (rel8_s pr en pos e) = rel8 pr en pos (erase e).
Proof.
  intros. unfold rel8_s, rel8. apply (same_bind idf); [apply eval_same|]. intros v.
  destruct ((0 <=? v) && (v <=? 65535))%Z%bool; [|reflexivity].
  apply (same_bind idf); [apply no_place_same|]. intros x. now destruct ((-128 <=? x) && (x <=? 127))%Z%bool.
Qed.

Lemma eval12_same : forall pr en pos e, unplaced idf (eval12_s pr en pos e) = eval12 pr en pos (erase e).
Proof.
  intros. unfold eval12_s, eval12. apply (same_bind idf); [apply bits_same|]. intros v. cbv zeta.
  now destruct (negb (Z.land v 61440 =? Z.land pos 61440)%Z).
Qed.

Lemma rel16_same : forall pr en pos e, unplaced idf (rel16_s pr en pos e) = rel16 pr en pos (erase e).
Proof.
  intros. unfold rel16_s, rel16. apply (same_bind idf); [apply eval_same|]. intros v.
  destruct ((0 <=? v) && (v <=? 65535))%Z%bool; [|reflexivity].
  apply (same_bind idf); [apply no_place_same|]. intros d.
  apply (same_bind idf); [apply no_place_same|]. intros x. now destruct ((-32768 <=? x) && (x <=? 32767))%Z%bool.
Qed.

Lemma eval_instr_same : forall pr pos label ns i,
  unplaced idf (eval_instr_s pr pos label ns i) = eval_instr pr pos label ns (map_instr erase i).
Proof.
  intros. unfold eval_instr_s, eval_instr. do 3 (apply (same_bind idf); [apply no_place_same|]; intros ?).
  destruct i; cbn [map_instr]; try reflexivity;
  repeat (apply (same_bind idf); [first [apply bits_same|apply rel8_same|apply eval12_same|apply rel16_same]|]; intros ?; try reflexivity).
Qed.

Lemma size_same : forall i : instr sexpr imode, size (map_instr erase i) = size i. Proof. intros []; reflexivity. Qed.

Lemma cnop_expr_same : forall e, unplaced idf (eval_cnop_expr_s e) = eval_cnop_expr (erase e).
Proof. intros [| | | |op s x|op s x y]; try reflexivity; destruct op; reflexivity. Qed.

Lemma items_size_same : forall l, items_size (map erase_byte l) = items_size_s l.
Proof. induction l as [|[|] l IH]; cbn; [reflexivity| |]; now rewrite IH. Qed.

Lemma dir_size_same : forall pr d pos, unplaced idf (dir_size_s pr d pos) = dir_size pr (erase_directive d) pos.
Proof.
  intros pr d pos. destruct d; cbn [dir_size_s erase_directive dir_size]; try reflexivity.
  - now rewrite items_size_same.
  - apply no_place_same.
  - now rewrite map_length.
  - apply (same_bind idf); [|intros; apply no_place_same]. unfold eval_cnop_s, eval_cnop.
    apply (same_bind idf); [apply cnop_expr_same|]. intros a. apply (same_bind idf); [apply cnop_expr_same|]. intros m.
    destruct (m =? 0)%Z; [reflexivity|]. apply (same_bind idf); [apply no_place_same|]. intros; apply no_place_same.
Qed.

Lemma mget_map : forall {A B} (f : A -> B) (m : smap A) k, mget (map (fun x => (fst x, f (snd x))) m) k = option_map f (mget m k).
Proof. intros A B f m k. induction m as [|[k2 v] m IH]; cbn; [reflexivity|]. now destruct (String.eqb k k2). Qed.

Lemma mcontains_map : forall {A B} (f : A -> B) (m : smap A) k, mcontains (map (fun x => (fst x, f (snd x))) m) k = mcontains m k.
Proof. intros. unfold mcontains. rewrite mget_map. now destruct (mget m k). Qed.

Lemma mget_values : forall m k, mget (values m) k = option_map snd (mget m k). Proof. intros. apply (mget_map snd). Qed.

Lemma add_same : forall name v m, unplaced values (add_name_s name v m) = add_name name (snd v) (values m).
Proof. intros. unfold add_name_s, add_name, mcontains. rewrite mget_values. now destruct (mget m name). Qed.

Definition all_values (m : smap (smap name_value)) : smap (smap Z) := map (fun x => (fst x, values (snd x))) m.

Definition erase_lab (st : lab_state_s) : lab_state :=
  mkLab (values (ls_globals st)) (all_values (ls_locals st)) (values (ls_local st)) (ls_current st) (ls_pos st).

Lemma label_step_same : forall pr s st, unplaced erase_lab (label_step_s pr s st) = label_step pr (erase_statement s) (erase_lab st).
Proof.
  intros pr s st. destruct s; cbn [label_step_s label_step erase_statement]; try reflexivity.
  - apply (same_bind idf); [apply dir_size_same|]. intros n. apply (same_bind idf); [apply no_place_same|]. reflexivity.
  - destruct (is_local name).
    + apply (same_bind values); [apply add_same|]. reflexivity.
    + apply (same_bind values); [apply add_same|]. reflexivity.
  - rewrite size_same. apply (same_bind idf); [apply no_place_same|]. reflexivity.
Qed.

Lemma label_loop_same : forall pr l st, unplaced erase_lab (label_loop_s pr l st) = label_loop pr (map erase_statement l) (erase_lab st).
Proof.
  intros pr. induction l as [|s l IH]; intros st; cbn [label_loop_s label_loop map]; [reflexivity|].
  apply (same_bind erase_lab); [apply label_step_same|]. intros; apply IH.
Qed.

Definition erase_builder (b : names_builder) : names := mkNames (values (b_globals b)) (all_values (b_locals b)).

Lemma labels_same : forall pr l, unplaced erase_builder (compute_labels_s pr l) = compute_labels pr (map erase_statement l).
Proof.
  intros pr l. unfold compute_labels_s, compute_labels. apply (same_bind erase_lab); [apply (label_loop_same pr l (mkLabS [] [] [] EmptyString 0%Z))|].
  intros st. cbn [unplaced erase_builder b_globals b_locals erase_lab l_globals l_locals l_local l_current]. do 2 f_equal.
  unfold all_values at 2. rewrite (mcontains_map values). now destruct (mcontains (ls_locals st) (ls_current st)).
Qed.

Definition erase_nam (st : nam_state_s) : nam_state := mkNam (values (ns_globals st)) (ns_pos st) (ns_max st).

Lemma name_step_same : forall pr s st, unplaced erase_nam (name_step_s pr s st) = name_step pr (erase_statement s) (erase_nam st).
Proof.
  intros pr s st. unfold name_step_s, name_step. apply (same_bind erase_nam); [|reflexivity].
  destruct s; cbn [erase_statement]; try reflexivity.
  - apply (same_bind idf); [apply dir_size_same|]. intros n. apply (same_bind idf); [apply no_place_same|]. reflexivity.
  - rewrite size_same. apply (same_bind idf); [apply no_place_same|]. reflexivity.
  - apply (same_bind idf); [apply eval_same|]. intros v. apply (same_bind values); [apply add_same|]. reflexivity.
  - apply (same_bind idf); [apply eval_same|]. intros v. apply (same_bind values); [apply add_same|]. reflexivity.
Qed.

Lemma name_loop_same : forall pr l st, unplaced erase_nam (name_loop_s pr l st) = name_loop pr (map erase_statement l) (erase_nam st).
Proof.
  intros pr. induction l as [|s l IH]; intros st; cbn [name_loop_s name_loop map]; [reflexivity|].
  apply (same_bind erase_nam); [apply name_step_same|]. intros; apply IH.
Qed.

Lemma names_same : forall pr l, unplaced idf (compute_names_s pr l) = compute_names pr (map erase_statement l).
Proof.
  intros pr l. unfold compute_names_s, compute_names. apply (same_bind erase_builder); [apply labels_same|]. intros b.
  apply (same_bind erase_nam); [apply (name_loop_same pr l (mkNamS (b_globals b) 0%Z 0%Z))|]. intros st.
  apply (same_bind idf); [apply no_place_same|]. reflexivity.
Qed.

Lemma item_same : forall pr en b out pos, unplaced idf (emit_item_s pr en b out pos) = emit_item pr en (erase_byte b) out pos.
Proof.
  intros pr en [e|s bs] out pos; cbn [emit_item_s emit_item erase_byte]; [|apply no_place_same].
  apply (same_bind idf); [apply eval_same|]. intros v. destruct ((v <? -128) || (255 <? v))%Z%bool; [reflexivity|apply no_place_same].
Qed.

Lemma items_same : forall pr en l out pos, unplaced idf (emit_items_s pr en l out pos) = emit_items pr en (map erase_byte l) out pos.
Proof.
  intros pr en. induction l as [|b l IH]; intros out pos; cbn [emit_items_s emit_items map]; [reflexivity|].
  apply (same_bind idf); [apply item_same|]. intros [o p]. apply IH.
Qed.

Lemma words_same : forall pr en l out pos, unplaced idf (emit_words_s pr en l out pos) = emit_words pr en (map erase l) out pos.
Proof.
  intros pr en. induction l as [|e l IH]; intros out pos; cbn [emit_words_s emit_words map]; [reflexivity|].
  apply (same_bind idf); [apply eval_same|]. intros v. destruct ((v <? -32768) || (65535 <? v))%Z%bool; [reflexivity|].
  apply (same_bind idf); [apply no_place_same|]. intros [o p]. apply IH.
Qed.

Lemma text_same : forall pr s pad size bs out pos, unplaced idf (emit_text_s pr s pad size bs out pos) = emit_text pr pad size bs out pos.
Proof.
  intros. unfold emit_text_s, emit_text. destruct (size <? Z.of_nat (List.length bs))%Z; [reflexivity|].
  apply (same_bind idf); [apply no_place_same|]. intros [o p]. apply no_place_same.
Qed.

Lemma gen_dir_same : forall pr ns d st, unplaced idf (gen_dir_s pr ns d st) = gen_dir pr ns (erase_directive d) st.
Proof.
  intros pr ns d st. destruct d; cbn [gen_dir_s gen_dir erase_directive]; try reflexivity; try apply text_same.
  - apply (same_bind idf); [apply no_place_same|]. intros; apply items_same.
  - now destruct (65535 <? location)%Z.
  - apply (same_bind idf); [apply no_place_same|]. intros; apply words_same.
  - apply (same_bind idf); [apply (dir_size_same pr (SDCnop s add multiple))|]. intros n.
    apply (same_bind idf); [apply no_place_same|]. reflexivity.
Qed.

Lemma gen_step_same : forall pr ns s st, unplaced idf (gen_step_s pr ns s st) = gen_step pr ns (erase_statement s) st.
Proof.
  intros pr ns s st. destruct s; cbn [gen_step_s gen_step erase_statement]; try reflexivity.
  - apply (same_bind idf); [apply gen_dir_same|]. intros [o p]. reflexivity.
  - now destruct (is_local name).
  - rewrite size_same. apply (same_bind idf); [apply no_place_same|]. intros n. apply (same_bind idf); [apply eval_instr_same|]. intros j.
    apply (same_bind idf); [apply no_place_same|]. intros [o p]. reflexivity.
Qed.

Lemma gen_loop_same : forall pr ns l st, unplaced idf (gen_loop_s pr ns l st) = gen_loop pr ns (map erase_statement l) st.
Proof.
  intros pr ns. induction l as [|s l IH]; intros st; cbn [gen_loop_s gen_loop map]; [reflexivity|].
  apply (same_bind idf); [apply gen_step_same|]. intros; apply IH.
Qed.

Lemma assemble_same : forall pr l, unplaced idf (assemble_s pr l) = assemble pr (map erase_statement l).
Proof.
  intros pr l. unfold assemble_s, assemble, generate_bytes. apply (same_bind idf); [apply names_same|]. intros [m ns].
  apply (same_bind idf); [apply no_place_same|]. intros n. apply (same_bind idf); [apply no_place_same|]. intros out.
  apply (same_bind idf); [apply gen_loop_same|]. reflexivity.
Qed.

(** * Files *)

(** A result with the files afterwards. *)
Definition untraced {A B : Type} (f : A -> B) (x : traced A) : outcome (B * source_files) :=
  unplaced (fun a => (f a, snd x)) (fst x).

Lemma traced_bind : forall {A B C D : Type} (f : A -> C) (g : B -> D) (x : traced A) (y : outcome (C * source_files)) k k2,
  untraced f x = y -> (forall a s, untraced g (k a s) = k2 (f a, s)) -> untraced g (tbind x k) = bind y k2.
Proof. intros A B C D f g [[a|e at_| |] s] y k k2 <- H; cbn; try reflexivity. apply H. Qed.

(** The same where the files stay. *)
Lemma traced_pure : forall {A B C D : Type} (f : A -> C) (g : B -> D) (p : placed A) s (y : outcome C) k k2,
  unplaced f p = y -> (forall a, untraced g (k a s) = k2 (f a)) -> untraced g (tbind (p, s) k) = bind y k2.
Proof. intros A B C D f g [a|e at_| |] s y k k2 <- H; cbn; try reflexivity. apply H. Qed.

Lemma load_same : forall w s root name, untraced idf (load_s w s root name) = load w s root name.
Proof. intros. unfold load_s. destruct (load w s root name) as [[f s2]|e| |]; reflexivity. Qed.

Lemma fixup_same : forall w s root stmt, unplaced erase_statement (fixup_paths_s w s root stmt) = fixup_paths w s root (erase_statement stmt).
Proof.
  intros. destruct stmt as [d| | | | | |]; try reflexivity. destruct d; try reflexivity. cbn [fixup_paths_s fixup_paths erase_statement erase_directive].
  apply (same_bind idf); [apply no_place_same|]. reflexivity.
Qed.

Lemma original_same : forall s, original_path_s s = original_path (erase_statement s).
Proof. intros [[]| | | | | |]; reflexivity. Qed.

Lemma include_line_same : forall rec rec2 w, (forall n s ts, untraced idf (rec n s ts) = rec2 n s ts) -> forall name s line,
  untraced idf (include_line_s rec w name s line) = include_line rec2 w name s line.
Proof.
  intros rec rec2 w H name s line. unfold include_line_s, include_line. change (stream_of line) with (types line). rewrite <- directive_same.
  destruct (parse_directive_s line) as [[[stmt|] r]|e at_| |]; cbn [unplaced left_over fst snd option_map]; try reflexivity.
  apply (traced_pure erase_statement); [apply fixup_same|]. intros [d| | | | | |]; try reflexivity. destruct d; try reflexivity.
  cbn [erase_statement erase_directive]. destruct t; cbn [erase_include]; rewrite ?original_same; try reflexivity.
  - apply (traced_bind idf); [apply load_same|]. intros file s2. apply (traced_pure idf); [apply lex_same|]. intros toks.
    apply (traced_bind idf); [apply H|]. intros new s3. rewrite empty_same. destruct (negb (is_empty (types r))); [|reflexivity].
    destruct r; reflexivity.
  - apply (traced_bind idf); [apply load_same|]. intros file s2. unfold untraced. cbn [fst snd]. rewrite <- header_lex_same.
    now destruct (header_lex_s (new_input (sf_id file) (sf_contents file))).
Qed.

Lemma include_lines_same : forall rec rec2 w, (forall n s ts, untraced idf (rec n s ts) = rec2 n s ts) -> forall name ls s,
  untraced idf (include_lines_s rec w name s ls) = include_lines rec2 w name s ls.
Proof.
  intros rec rec2 w H name. induction ls as [|l ls IH]; intros s; cbn [include_lines_s include_lines]; [reflexivity|].
  apply (traced_bind idf); [now apply include_line_same|]. intros a s2. apply (traced_bind idf); [apply IH|]. reflexivity.
Qed.

Lemma includes_same : forall fuel w name s ts, untraced idf (replace_includes_s fuel w name s ts) = replace_includes fuel w name s ts.
Proof.
  induction fuel as [|f IH]; intros w name s ts; cbn [replace_includes_s replace_includes]; [reflexivity|].
  apply include_lines_same. intros. apply IH.
Qed.

Lemma made_expr_same : forall e, erase (made_expr e) = e. Proof. induction e; cbn; congruence. Qed.

Lemma made_byte_same : forall b, erase_byte (made_byte b) = b. Proof. intros [e|bs]; cbn; [now rewrite made_expr_same|reflexivity]. Qed.

Lemma map_same : forall {A B} (f : A -> B) (g : B -> A), (forall a, g (f a) = a) -> forall l, map g (map f l) = l.
Proof. intros A B f g H. induction l; cbn; congruence. Qed.

Lemma made_instr_same : forall i : instr expr imode, map_instr erase (map_instr made_expr i) = i.
Proof. intros []; cbn [map_instr]; rewrite ?made_expr_same; reflexivity. Qed.

Lemma made_same : forall s, erase_statement (made_statement s) = s.
Proof.
  intros [d| n|i|n e|n e|t|n args]; cbn [made_statement erase_statement]; rewrite ?made_expr_same, ?made_instr_same; try reflexivity.
  - destruct d; cbn [erase_statement erase_directive]; rewrite ?made_expr_same, ?(map_same _ _ made_expr_same), ?(map_same _ _ made_byte_same); try reflexivity.
    destruct t as [| | |[e|] [b|]|]; cbn; rewrite ?made_expr_same, ?made_byte_same; reflexivity.
  - rewrite map_same; [reflexivity|]. intros []; cbn; rewrite ?made_expr_same; reflexivity.
Qed.

Lemma sprite_same : forall pics sp t h path, unplaced (map erase_statement) (sprite_s pics sp t h path) = sprite_statements pics t h path.
Proof.
  intros. unfold sprite_s, sprite_statements. apply (same_bind idf); [apply no_place_same|]. intros img.
  apply (same_bind idf).
  - destruct h; [|reflexivity]. apply (same_bind idf); [apply no_place_same|]. intros w. destruct (255 <? w)%Z; [reflexivity|].
    apply (same_bind idf); [apply no_place_same|]. intros n. now destruct (255 <? n)%Z.
  - intros _. apply (same_bind idf); [apply no_place_same|]. intros l. cbn. now rewrite (map_same _ _ made_same).
Qed.

Lemma byte_include_same : forall pr w pics name s stmt,
  unplaced (map erase_statement) (byte_include_s pr w pics name s stmt) = byte_include pr w pics name s (erase_statement stmt).
Proof.
  intros pr w pics name s stmt. destruct stmt as [d| | | | | |]; try reflexivity. destruct d as [ | | | | |sp t path| ]; try reflexivity.
  cbn [byte_include_s byte_include erase_statement erase_directive]. destruct t as [| | |speed eye|t h]; cbn [erase_include]; try reflexivity.
  - apply (same_bind idf); [apply no_place_same|]. intros p. destruct (read_bytes w p); [|reflexivity]. cbn.
    now rewrite (map_same _ _ made_byte_same).
  - apply (same_bind idf).
    { destruct speed as [e|]; [|reflexivity]. cbn [option_map]. apply (same_bind idf); [apply eval_same|]. reflexivity. }
    intros sp2. apply (same_bind idf); [destruct eye as [[|]|]; reflexivity|]. intros e.
    apply (same_bind idf); [apply no_place_same|]. intros p. apply (same_bind idf).
    { destruct e; [|reflexivity]. apply (same_bind idf); [apply no_place_same|]. reflexivity. }
    intros q. rewrite <- (no_place_same (to_icon pics p sp2 q)).
    destruct (no_place (to_icon pics p sp2 q)); try reflexivity. cbn. now rewrite (map_same _ _ made_same).
  - apply (same_bind idf); [apply no_place_same|]. intros p. apply sprite_same.
Qed.

Lemma byte_includes_same : forall pr w pics name s l,
  unplaced (map erase_statement) (byte_includes_s pr w pics name s l) = byte_includes pr w pics name s (map erase_statement l).
Proof.
  intros pr w pics name s. induction l as [|x l IH]; cbn [byte_includes_s byte_includes map]; [reflexivity|].
  apply (same_bind (map erase_statement)); [apply byte_include_same|]. intros a.
  apply (same_bind (map erase_statement)); [apply IH|]. intros b. cbn. now rewrite map_app.
Qed.

(** What the other model keeps of a traced result. *)
Definition only {A B : Type} (f : A -> B) (x : traced A) : outcome B := unplaced f (fst x).

Lemma only_bind : forall {A B C D : Type} (f : A -> C) (g : B -> D) (x : traced A) (y : outcome (C * source_files)) k k2,
  untraced f x = y -> (forall a s, only g (k a s) = k2 (f a, s)) -> only g (tbind x k) = bind y k2.
Proof. intros A B C D f g [[a|e at_| |] s] y k k2 <- H; cbn; try reflexivity. apply H. Qed.

Lemma only_pure : forall {A B C D : Type} (f : A -> C) (g : B -> D) (p : placed A) s (y : outcome C) k k2,
  unplaced f p = y -> (forall a, only g (k a s) = k2 (f a)) -> only g (tbind (p, s) k) = bind y k2.
Proof. intros A B C D f g [a|e at_| |] s y k k2 <- H; cbn; try reflexivity. apply H. Qed.

Lemma only_only : forall {A B C D : Type} (f : A -> C) (g : B -> D) (x : traced A) (y : outcome C) k k2,
  only f x = y -> (forall a s, only g (k a s) = k2 (f a)) -> only g (tbind x k) = bind y k2.
Proof. intros A B C D f g [[a|e at_| |] s] y k k2 <- H; cbn; try reflexivity. apply H. Qed.

Lemma read_same : forall pr fuel w pics s name,
  only erase_statements (read_statements_s pr fuel w pics s name) = read_statements pr fuel w pics s name.
Proof.
  intros. unfold read_statements_s, read_statements. apply (only_pure idf); [apply no_place_same|]. intros filename.
  apply (only_bind idf); [apply load_same|]. intros file s1. apply (only_pure idf); [apply lex_same|]. intros raw.
  apply (only_bind idf); [apply includes_same|]. intros ts s2. apply (only_pure erase_statements); [apply program_same|]. intros stmts.
  unfold replace_byte_includes. apply (only_pure (map erase_statement)); [apply byte_includes_same|]. reflexivity.
Qed.

Lemma expand_list_same : forall uuid fuel ms l n,
  unplaced (fun x => (map erase_statement (fst x), snd x)) (expand_list_s uuid fuel ms n l) =
  expand_list uuid fuel (erase_macros ms) n (map erase_statement l).
Proof.
  intros uuid fuel ms. induction l as [|s l IH]; intros n; [reflexivity|].
  destruct s; cbn [expand_list_s expand_list map erase_statement];
  try (apply (same_bind (fun x => (map erase_statement (fst x), snd x))); [apply IH|]; intros [r n2]; reflexivity).
  apply (same_bind (fun x => (map erase_statement (fst x), snd x))); [apply expand_same|]. intros [h n1].
  apply (same_bind (fun x => (map erase_statement (fst x), snd x))); [apply IH|]. intros [r n2]. cbn. now rewrite map_app.
Qed.

Lemma assemble_file_same : forall uuid pr fuel w pics s name,
  unplaced idf (fst (assemble_file_s uuid pr fuel w pics s name)) = assemble_file uuid pr fuel w pics s name.
Proof.
  intros. unfold assemble_file_s, assemble_file. apply (only_only erase_statements); [apply read_same|]. intros st s2.
  unfold expand_macros. unfold erase_statements at 1. cbn [st_macros st_list].
  assert (A: forall (x : placed (list sstatement * nat)) y, unplaced (fun x => (map erase_statement (fst x), snd x)) x = y ->
    only idf (tbind (x, s2) (fun expanded s3 => (assemble_s pr (fst expanded), s3))) =
    bind (bind y (fun '(l, _) => Ok (mkStatements (erase_macros (ss_macros st)) l))) (fun e => assemble pr (st_list e))).
  { intros [[l k]|e at_| |] y <-; cbn; try reflexivity. apply assemble_same. }
  apply A, expand_list_same.
Qed.
