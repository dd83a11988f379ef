(** The parser with places is the parser without them. *)
From Coq Require Import ZArith List String Ascii Bool Arith Lia.
From Verif Require Import Base Expr Instr Ast Macro Lexer Parser CHeader Span SpanParser SpecParse SpecSpan.
From Verif Require Import ParseProofs SpanProofs SpanProofs2 SpanProofs3.
Import ListNotations.
Open Scope string_scope.
Open Scope list_scope.
Local Open Scope nat_scope.

Local Arguments parse_expr_s : simpl never.
Local Arguments parse_expr : simpl never.
Local Arguments make_instr_s : simpl never.
Local Arguments make_instr : simpl never.
Local Arguments instr_exists : simpl never.

(** A result and the tokens left. *)
Definition left_over {A B : Type} (f : A -> B) (x : A * tokens) : B * stream := (f (fst x), types (snd x)).

Lemma same_bind : forall {A B C D : Type} (f : A -> C) (g : B -> D) (x : placed A) (y : outcome C) k k2,
  unplaced f x = y -> (forall a, unplaced g (k a) = k2 (f a)) -> unplaced g (pbind x k) = bind y k2.
Proof. intros A B C D f g x y k k2 <- H. destruct x; cbn; auto. Qed.

Lemma check_at_same : forall n p ts, check_at_s n p ts = check_at n p (types ts).
Proof. intros n p ts. unfold check_at_s, check_at, types. rewrite nth_error_map. destruct (nth_error ts n); reflexivity. Qed.

Lemma check_same : forall p ts, check_s p ts = check p (types ts). Proof. intros. apply check_at_same. Qed.

Lemma empty_same : forall ts, is_empty_s ts = is_empty (types ts). Proof. intros [|t ts]; reflexivity. Qed.

Lemma next_same : forall ts, unplaced (left_over t_type) (next_s ts) = next (types ts). Proof. intros [|t ts]; reflexivity. Qed.

Lemma comma_same : forall ts, unplaced types (consume_comma_s ts) = consume_comma (types ts).
Proof. intros [|t ts]; cbn; [reflexivity|]. destruct (t_type t); reflexivity. Qed.

Lemma hash_same : forall ts, unplaced types (consume_hash_s ts) = consume_hash (types ts).
Proof. intros [|t ts]; cbn; [reflexivity|]. destruct (t_type t); reflexivity. Qed.

Lemma string_same : forall ts, unplaced (left_over snd) (read_string_s ts) = read_string (types ts).
Proof. intros [|t ts]; cbn; [reflexivity|]. destruct (t_type t); reflexivity. Qed.

Lemma number_same : forall ts, unplaced (left_over snd) (read_number_s ts) = read_number (types ts).
Proof. intros [|t ts]; cbn; [reflexivity|]. destruct (t_type t); reflexivity. Qed.

Lemma name_same : forall ts, unplaced (left_over snd) (read_name_s ts) = read_name (types ts).
Proof. intros [|t ts]; cbn; [reflexivity|]. destruct (t_type t); reflexivity. Qed.

Lemma macro_name_same : forall ts, unplaced (left_over snd) (read_macro_name_s ts) = read_macro_name (types ts).
Proof. intros [|t ts]; cbn; [reflexivity|]. destruct (t_type t); reflexivity. Qed.

Lemma include_type_same : forall ts, unplaced (left_over erase_include) (read_include_type_s ts) = read_include_type (types ts).
Proof.
  intros ts. unfold read_include_type_s, read_include_type. rewrite !check_same.
  repeat match goal with |- context[if ?c then _ else _] => destruct c end; destruct ts; reflexivity.
Qed.

Lemma err_next_same : forall {A B C : Type} (f : A -> B) (g : C -> B) e ts, unplaced f (err_next e ts) = let! (_, _) := next (types ts) in Err e.
Proof. intros A B C f g e [|t ts]; reflexivity. Qed.

Lemma list_loop_same : forall {A B : Type} (f : A -> B) p q, (forall ts, unplaced (left_over f) (p ts) = q (types ts)) ->
  forall fuel ts, unplaced (left_over (map f)) (list_loop_s p fuel ts) = list_loop q fuel (types ts).
Proof.
  intros A B f p q H. induction fuel as [|n IH]; intros ts; cbn [list_loop_s list_loop]; rewrite empty_same;
    destruct (is_empty (types ts)); try reflexivity.
  apply (same_bind types); [apply comma_same|]. intros r.
  apply (same_bind (left_over f)); [apply H|]. intros [v r2]. cbn [left_over fst snd].
  apply (same_bind (left_over (map f))); [apply IH|]. intros [vs r3]. reflexivity.
Qed.

Lemma list_same : forall {A B : Type} (f : A -> B) p q, (forall ts, unplaced (left_over f) (p ts) = q (types ts)) ->
  forall ts, unplaced (left_over (map f)) (parse_list_s p ts) = parse_list q (types ts).
Proof.
  intros A B f p q H ts. unfold parse_list_s, parse_list. rewrite empty_same. destruct (is_empty (types ts)); [reflexivity|].
  apply (same_bind (left_over f)); [apply H|]. intros [v r]. cbn [left_over fst snd].
  apply (same_bind (left_over (map f))); [|intros [vs r2]; reflexivity].
  unfold types. rewrite map_length. now apply list_loop_same.
Qed.

Lemma im_same : forall ts, unplaced (left_over snd) (parse_im_s ts) = parse_im (types ts).
Proof. intros [|t ts]; cbn; [reflexivity|]. destruct (t_type t); reflexivity. Qed.

Lemma expr_same : forall ts, unplaced (left_over erase) (parse_expr_s ts) = parse_expr (types ts).
Proof. exact same_parse. Qed.

Lemma arg_same : forall ts, unplaced (left_over erase_arg) (parse_arg_s ts) = parse_arg (types ts).
Proof.
  intros ts. unfold parse_arg_s, parse_arg. rewrite !check_same. destruct (check is_indirection_mode (types ts)).
  { apply (same_bind (left_over snd)); [apply im_same|]. intros [[s im] r]. reflexivity. }
  destruct (check is_hash (types ts)).
  - apply (same_bind (left_over erase)); [|intros [e r]; reflexivity]. unfold parse_i8_s, parse_i8.
    apply (same_bind types); [apply hash_same|]. intros r. apply expr_same.
  - apply (same_bind (left_over erase)); [apply expr_same|]. intros [e r]. destruct e as [| | | |op ? ?|op ? ? ?]; try reflexivity; destruct op; reflexivity.
Qed.

Lemma byte_same : forall ts, unplaced (left_over erase_byte) (parse_byte_value_s ts) = parse_byte_value (types ts).
Proof.
  intros ts. unfold parse_byte_value_s, parse_byte_value. rewrite check_same. destruct (check is_string (types ts)).
  - apply (same_bind (left_over snd)); [apply string_same|]. intros [[s x] r]. reflexivity.
  - apply (same_bind (left_over erase)); [apply expr_same|]. intros [e r]. reflexivity.
Qed.

Definition erase_pair (p : string * sbyte) : string * byte_value := (fst p, erase_byte (snd p)).

Lemma pair_same : forall ts, unplaced (left_over erase_pair) (parse_keyval_pair_s ts) = parse_keyval_pair (types ts).
Proof.
  intros ts. unfold parse_keyval_pair_s, parse_keyval_pair. rewrite check_same. destruct (check is_name (types ts)).
  - apply (same_bind (left_over snd)); [apply name_same|]. intros [[s n] r]. cbn [left_over fst snd]. rewrite check_same.
    destruct (check is_equ (types r)); [|destruct r; reflexivity].
    apply (same_bind (left_over t_type)); [apply next_same|]. intros [t r2]. cbn [left_over fst snd].
    apply (same_bind (left_over erase_byte)); [apply byte_same|]. intros [b r3]. reflexivity.
  - destruct ts; reflexivity.
Qed.

Definition erase_bytes (m : smap sbyte) : smap byte_value := map erase_pair m.

Lemma mget_bytes : forall m k, mget (erase_bytes m) k = option_map erase_byte (mget m k).
Proof. induction m as [|[k v] m IH]; intros k0; cbn; [reflexivity|]. destruct (String.eqb k0 k); [reflexivity|apply IH]. Qed.

Lemma pairs_same : forall ts, unplaced (left_over erase_bytes) (parse_keyval_pairs_s ts) = parse_keyval_pairs (types ts).
Proof.
  intros ts. unfold parse_keyval_pairs_s, parse_keyval_pairs.
  apply (same_bind (left_over (map erase_pair))); [apply list_same, pair_same|]. intros [l r]. unfold left_over. cbn. do 2 f_equal.
  change (@nil (string * byte_value)) with (erase_bytes []). generalize (@nil (string * sbyte)). induction l as [|p l IH]; intros m; cbn; [reflexivity|]. now rewrite IH.
Qed.

Lemma include_same : forall s ts, unplaced (left_over erase_directive) (parse_include_s s ts) = parse_include (types ts).
Proof.
  intros s ts. unfold parse_include_s, parse_include. rewrite !check_same. destruct (check is_string (types ts)).
  { apply (same_bind (left_over snd)); [apply string_same|]. intros [[sp x] r]. reflexivity. }
  destruct (check (has_name "icon") (types ts)).
  { apply (same_bind (left_over snd)); [apply name_same|]. intros [[sp x] r]. cbn [left_over fst snd].
    apply (same_bind (left_over snd)); [apply string_same|]. intros [[sp2 x2] r2]. cbn [left_over fst snd].
    apply (same_bind (left_over erase_bytes)); [apply pairs_same|]. intros [m r3]. cbn [left_over fst snd].
    apply (same_bind (option_map erase)).
    - unfold icon_speed_of_s, icon_speed_of. rewrite mget_bytes. destruct (mget m "speed") as [[|]|]; reflexivity.
    - intros sp3. rewrite mget_bytes. reflexivity. }
  destruct (check (has_name "sprite") (types ts)).
  { apply (same_bind (left_over snd)); [apply name_same|]. intros [[sp x] r]. cbn [left_over fst snd].
    apply (same_bind (left_over snd)); [apply string_same|]. intros [[sp2 x2] r2]. cbn [left_over fst snd].
    apply (same_bind (left_over erase_bytes)); [apply pairs_same|]. intros [m r3]. cbn [left_over fst snd].
    apply (same_bind (fun x => x)).
    - unfold sprite_type_of_s, sprite_type_of. rewrite mget_bytes. destruct (mget m "type") as [[|]|]; cbn; try reflexivity.
      destruct (String.eqb (bytes_string bytes) "simple"); [reflexivity|]. destruct (String.eqb (bytes_string bytes) "masked"); reflexivity.
    - intros typ. apply (same_bind (fun x => x)); [|intros h; reflexivity].
      unfold sprite_header_of_s, sprite_header_of. rewrite mget_bytes. destruct (mget m "header") as [[|]|]; cbn; try reflexivity.
      destruct (String.eqb (bytes_string bytes) "yes"); [reflexivity|]. destruct (String.eqb (bytes_string bytes) "no"); reflexivity. }
  apply (same_bind (left_over erase_include)); [apply include_type_same|]. intros [typ r]. cbn [left_over fst snd].
  apply (same_bind (left_over snd)); [apply string_same|]. intros [[sp x] r2]. reflexivity.
Qed.

Lemma directive_same : forall ts, unplaced (left_over (option_map erase_statement)) (parse_directive_s ts) = parse_directive (types ts).
Proof.
  intros [|t r]; [reflexivity|]. unfold parse_directive_s, parse_directive. cbn [types map]. change (map t_type r) with (types r).
  destruct (has_name ".byte" (t_type t)).
  { apply (same_bind (left_over (map erase_byte))); [apply list_same, byte_same|]. intros [[|v vs] r2]; reflexivity. }
  destruct (has_name ".org" (t_type t)).
  { apply (same_bind (left_over snd)); [apply number_same|]. intros [[sp n] r2]. reflexivity. }
  destruct (has_name ".word" (t_type t)).
  { apply (same_bind (left_over (map erase))); [apply list_same, expr_same|]. intros [[|v vs] r2]; reflexivity. }
  destruct (has_name ".text" (t_type t)).
  { apply (same_bind (left_over snd)); [apply number_same|]. intros [[sp n] r2]. cbn [left_over fst snd].
    apply (same_bind (left_over snd)); [apply string_same|]. intros [[sp2 x] r3]. reflexivity. }
  destruct (has_name ".string" (t_type t)).
  { apply (same_bind (left_over snd)); [apply number_same|]. intros [[sp n] r2]. cbn [left_over fst snd].
    apply (same_bind (left_over snd)); [apply string_same|]. intros [[sp2 x] r3]. reflexivity. }
  destruct (has_name ".include" (t_type t)).
  { apply (same_bind (left_over erase_directive)); [apply include_same|]. intros [d r2]. reflexivity. }
  destruct (has_name ".cnop" (t_type t)); [|reflexivity].
  apply (same_bind (left_over erase)); [apply expr_same|]. intros [a r2]. cbn [left_over fst snd].
  apply (same_bind types); [apply comma_same|]. intros r3.
  apply (same_bind (left_over erase)); [apply expr_same|]. intros [b r4]. reflexivity.
Qed.

Definition erase_gen (x : pspan * string * list sarg) : string * list arg := (snd (fst x), map erase_arg (snd x)).

Lemma gen_instr_same : forall ts, unplaced (left_over erase_gen) (parse_gen_instr_s ts) = parse_gen_instr (types ts).
Proof.
  intros ts. unfold parse_gen_instr_s, parse_gen_instr. apply (same_bind (left_over snd)); [apply name_same|]. intros [[sp n] r]. cbn [left_over fst snd].
  apply (same_bind (left_over (map erase_arg))); [apply list_same, arg_same|]. intros [[|a args] r2]; reflexivity.
Qed.

Lemma instr_same : forall ts, unplaced (left_over (option_map erase_statement)) (parse_instr_s ts) = parse_instr (types ts).
Proof.
  intros [|t r]; [reflexivity|]. unfold parse_instr_s, parse_instr. cbn [types map]. destruct (t_type t) eqn:T;
    try (cbn; unfold left_over; cbn; rewrite T; reflexivity).
  all: try (destruct (negb (instr_exists _)); [destruct (negb (is_local _))|]).
  all: try (cbn; unfold left_over; cbn; rewrite T; reflexivity).
  - match goal with |- context[TName ?n :: map t_type r] => change (TName n :: map t_type r) with (TName n :: types r) end. rewrite <- T. change (t_type t :: types r) with (types (t :: r)).
    apply (same_bind (left_over erase_gen)); [apply gen_instr_same|]. intros [[[sp nm] args] r2]. reflexivity.
  - match goal with |- context[TName ?n :: map t_type r] => change (TName n :: map t_type r) with (TName n :: types r) end. rewrite <- T. change (t_type t :: types r) with (types (t :: r)).
    apply (same_bind (left_over erase_gen)); [apply gen_instr_same|]. intros [[[sp nm] args] r2]. cbn [left_over erase_gen fst snd].
    apply (same_bind (map_instr erase)); [apply make_same|]. intros i. reflexivity.
Qed.

Lemma other_same : forall ts, unplaced (left_over erase_statement) (parse_other_s ts) = parse_other (types ts).
Proof.
  intros ts. unfold parse_other_s, parse_other. apply (same_bind (left_over t_type)); [apply next_same|]. intros [t r]. cbn [left_over fst snd].
  rewrite !check_same, empty_same.
  destruct (is_name (t_type t) && is_empty (types r) && is_local_name (t_type t))%bool; [destruct (t_type t); reflexivity|].
  destruct (is_name (t_type t) && check (has_name "equ") (types r))%bool.
  { apply (same_bind (left_over t_type)); [apply next_same|]. intros [t2 r2]. cbn [left_over fst snd].
    apply (same_bind (left_over erase)); [apply expr_same|]. intros [e r3]. cbn [left_over fst snd]. destruct (t_type t); reflexivity. }
  destruct (is_name (t_type t) && check is_equ (types r))%bool.
  { apply (same_bind (left_over t_type)); [apply next_same|]. intros [t2 r2]. cbn [left_over fst snd].
    apply (same_bind (left_over erase)); [apply expr_same|]. intros [e r3]. cbn [left_over fst snd]. destruct (t_type t); reflexivity. }
  destruct (is_name (t_type t) && is_local_name (t_type t))%bool; [reflexivity|]. destruct (is_name (t_type t)); reflexivity.
Qed.

Lemma directive_or_other_same : forall ts, unplaced (left_over erase_statement) (parse_directive_or_other_s ts) = parse_directive_or_other (types ts).
Proof.
  intros ts. unfold parse_directive_or_other_s, parse_directive_or_other.
  apply (same_bind (left_over (option_map erase_statement))); [apply directive_same|]. intros [[d|] r]; [reflexivity|apply other_same].
Qed.

Lemma statement_same : forall ts, unplaced (left_over erase_statement) (parse_statement_s ts) = parse_statement (types ts).
Proof.
  intros ts. unfold parse_statement_s. rewrite !check_same, !check_at_same.
  assert (K: colon_label ts = None -> parse_statement (types ts) =
    if (check is_name (types ts) && negb (check_at 1 (has_name "equ") (types ts) || check_at 1 is_equ (types ts) || check is_local_name (types ts)))%bool then
        let! (i, r) := parse_instr (types ts) in
        match i with Some s => Ok (s, r) | None => parse_directive_or_other (types ts) end
      else parse_directive_or_other (types ts)).
  { intros E. unfold parse_statement. destruct ts as [|t [|c r]]; try reflexivity; cbn [types map].
    - destruct (t_type t); reflexivity.
    - cbn in E. destruct (t_type t); try reflexivity. destruct (t_type c); try reflexivity. discriminate. }
  destruct (colon_label ts) as [[[n s] r]|] eqn:C.
  - destruct ts as [|t [|c r0]]; try discriminate. cbn in C |- *. destruct (t_type t); try discriminate. destruct (t_type c); try discriminate.
    injection C as <- <- <-. reflexivity.
  - rewrite (K eq_refl). match goal with |- context[if ?c then _ else _] => destruct c end; [|apply directive_or_other_same].
    apply (same_bind (left_over (option_map erase_statement))); [apply instr_same|]. intros [[i|] r]; [reflexivity|apply directive_or_other_same].
Qed.

Lemma label_same : forall s, is_label_s s = is_label (erase_statement s). Proof. intros []; reflexivity. Qed.

Lemma line_same : forall ts, unplaced (map erase_statement) (parse_line_s ts) = parse_line (types ts).
Proof.
  intros ts. unfold parse_line_s, parse_line. rewrite empty_same. destruct (negb (is_empty (types ts))); [|reflexivity].
  apply (same_bind (left_over erase_statement)); [apply statement_same|]. intros [st r]. cbn [left_over fst snd].
  rewrite label_same, empty_same.
  apply (same_bind (left_over (map erase_statement))).
  - destruct (is_label (erase_statement st) && negb (is_empty (types r)))%bool; [|reflexivity].
    apply (same_bind (left_over (option_map erase_statement))); [apply instr_same|]. intros [[i|] r2]; [reflexivity|destruct r2; reflexivity].
  - intros [more r2]. cbn [left_over fst snd]. rewrite empty_same. destruct (negb (is_empty (types r2))); [destruct r2; reflexivity|reflexivity].
Qed.

Lemma macro_label_same : forall ts, left_over (map erase_body) (parse_macro_label_s ts) = parse_macro_label (types ts).
Proof.
  intros [|t [|c r]]; [reflexivity| |]; unfold parse_macro_label_s, parse_macro_label; cbn [types map].
  - destruct (t_type t) eqn:T; try (unfold left_over; cbn; rewrite T; reflexivity); destruct (is_local _); unfold left_over; cbn; rewrite ?T; reflexivity.
  - destruct (t_type t) eqn:T; try (unfold left_over; cbn; rewrite T; reflexivity);
    destruct (t_type c) eqn:C; unfold left_over; cbn; rewrite ?T, ?C; reflexivity.
Qed.

Lemma macro_statement_same : forall ts, unplaced (map erase_body) (parse_macro_statement_s ts) = parse_macro_statement (types ts).
Proof.
  intros ts. unfold parse_macro_statement_s, parse_macro_statement. rewrite <- macro_label_same.
  destruct (parse_macro_label_s ts) as [stmts r]. cbn [left_over fst snd].
  apply (same_bind (left_over (map erase_body))).
  - destruct r as [|t r]; [reflexivity|]. cbn [types map]. destruct (t_type t) eqn:T;
      try (cbn; unfold left_over; cbn; rewrite T; reflexivity).
    all: try (destruct (negb (is_local _)); [|reflexivity]).
    match goal with |- context[TName ?n :: map t_type r] => change (TName n :: map t_type r) with (TName n :: types r) end. rewrite <- T. change (t_type t :: types r) with (types (t :: r)).
    apply (same_bind (left_over erase_gen)); [apply gen_instr_same|]. intros [[[sp nm] args] r2]. reflexivity.
  - intros [more r2]. cbn [left_over fst snd]. rewrite empty_same. destruct (negb (is_empty (types r2))); [destruct r2; reflexivity|].
    cbn. now rewrite map_app.
Qed.

Lemma params_same : forall args seen, unplaced (fun x => x) (macro_params_s seen args) = macro_params seen (map erase_arg args).
Proof.
  induction args as [|[e|e|s m|s n] args IH]; intros seen; cbn; try reflexivity. destruct (existsb (String.eqb n) seen); [reflexivity|].
  apply (same_bind (fun x => x)); [apply IH|]. reflexivity.
Qed.

Definition erase_head (x : pspan * string * list string) : string * list string := (snd (fst x), snd x).

Lemma header_same : forall ms ts, unplaced erase_head (parse_macro_header_s ms ts) = parse_macro_header (erase_macros ms) (types ts).
Proof.
  intros ms ts. unfold parse_macro_header_s, parse_macro_header.
  apply (same_bind (left_over snd)); [apply macro_name_same|]. intros [[sp n] r]. cbn [left_over fst snd].
  apply (same_bind (left_over snd)); [apply name_same|]. intros [[sp2 nm] r2]. cbn [left_over fst snd].
  destruct (instr_exists nm); [reflexivity|].
  apply (same_bind (left_over (map erase_arg))); [apply list_same, arg_same|]. intros [args r3]. cbn [left_over fst snd].
  rewrite map_length, find_same. destruct (find_macro_s ms nm (List.length args)); [reflexivity|]. cbn [option_map].
  apply (same_bind (fun x => x)); [apply params_same|]. intros ps. rewrite empty_same. destruct (negb (is_empty (types r3))); [destruct r3; reflexivity|reflexivity].
Qed.

Definition erase_inside (x : pspan * string * list string * list smacro_statement) : string * list string * list macro_statement :=
  (snd (fst (fst x)), snd (fst x), map erase_body (snd x)).

Definition erase_scan (x : list tokens * smacros) : list stream * macros := (map types (fst x), erase_macros (snd x)).

Lemma scan_same : forall ls ms inside,
  unplaced erase_scan (scan_macros_s ms inside ls) = scan_macros (erase_macros ms) (option_map erase_inside inside) (map types ls).
Proof.
  induction ls as [|line rest IH]; intros ms inside; cbn [scan_macros_s scan_macros map].
  - destruct inside as [[[[sp n] ps] b]|]; reflexivity.
  - destruct inside as [[[[sp n] ps] b]|]; cbn [option_map erase_inside fst snd]; rewrite check_same.
    + destruct (check (has_macro_name "%end") (types line)).
      * apply (same_bind (left_over t_type)); [apply next_same|]. intros [t r]. cbn [left_over fst snd]. rewrite empty_same.
        destruct (negb (is_empty (types r))); [destruct r; reflexivity|]. exact (IH (add_macro_s ms sp n ps b) None).
      * apply (same_bind (map erase_body)); [apply macro_statement_same|]. intros stmts.
        rewrite (IH ms (Some (sp, n, ps, b ++ stmts))). unfold erase_inside. cbn. now rewrite map_app.
    + destruct (check (has_macro_name "%macro") (types line)).
      * apply (same_bind erase_head); [apply header_same|]. intros [[sp n] ps]. exact (IH ms (Some (sp, n, ps, []))).
      * apply (same_bind erase_scan); [apply (IH _ None)|]. intros [kept ms2]. reflexivity.
Qed.

Lemma lines_same : forall ls, unplaced (map erase_statement) (parse_lines_s ls) = parse_lines (map types ls).
Proof.
  induction ls as [|l ls IH]; cbn [parse_lines_s parse_lines map]; [reflexivity|].
  apply (same_bind (map erase_statement)); [apply line_same|]. intros a.
  apply (same_bind (map erase_statement)); [apply IH|]. intros b. cbn. now rewrite map_app.
Qed.

Lemma program_same : forall ts, unplaced erase_statements (parse_s ts) = parse ts.
Proof.
  intros ts. unfold parse_s, parse, parse_macros. apply (same_bind erase_scan); [exact (scan_same (lines ts) [] None)|]. intros [ls ms]. cbn [erase_scan fst snd].
  apply (same_bind (map erase_statement)); [apply lines_same|]. reflexivity.
Qed.

(** * The lexer *)

Lemma at_same : forall {A B : Type} s (f : A -> B) (x : outcome A), unplaced f (at_span s x) = let! a := x in Ok (f a).
Proof. intros A B s f []; reflexivity. Qed.

Lemma lex_loop_same : forall skip fuel i, unplaced (fun x => x) (lex_loop_s skip fuel i) = lex_loop skip fuel i.
Proof.
  intros skip. induction fuel as [|f IH]; intros i; cbn [lex_loop_s lex_loop]; [reflexivity|].
  apply (same_bind (fun x => x)); [rewrite at_same; now destruct (read_token skip i)|]. intros [[j tok]|]; [|reflexivity].
  destruct (t_type tok); try reflexivity; (apply (same_bind (fun x => x)); [apply IH|reflexivity]).
Qed.

Lemma lex_same : forall i, unplaced (fun x => x) (lex_input_s i) = lex_input i.
Proof. intros. apply lex_loop_same. Qed.

Lemma header_line_same : forall line, unplaced (fun x => x) (header_line_s line) = header_line line.
Proof.
  intros line. unfold header_line_s, header_line. change (stream_of line) with (types line). rewrite check_same, check_at_same.
  destruct (check is_hash (types line) && check_at 1 (has_name "define") (types line))%bool; [|reflexivity].
  apply (same_bind (left_over t_type)); [apply next_same|]. intros [t r]. cbn [left_over fst snd].
  apply (same_bind (left_over t_type)); [apply next_same|]. intros [t2 r2]. cbn [left_over fst snd].
  apply (same_bind (left_over snd)); [apply name_same|]. intros [[sp n] r3]. cbn [left_over fst snd].
  apply (same_bind (left_over erase)); [apply expr_same|]. intros [e r4]. destruct line as [|? [|? [|? ?]]]; reflexivity.
Qed.

Lemma header_lex_same : forall i, unplaced (fun x => x) (header_lex_s i) = header_lex i.
Proof.
  intros i. unfold header_lex_s, header_lex. apply (same_bind (fun x => x)); [apply lex_loop_same|]. intros raw.
  induction (lines raw) as [|l ls IH]; cbn; [reflexivity|].
  apply (same_bind (fun x => x)); [apply header_line_same|]. intros a. apply (same_bind (fun x => x)); [apply IH|reflexivity].
Qed.
