(** The parser against the grammar of lines. *)
From Coq Require Import ZArith List String Ascii Bool Arith Lia.
From Verif Require Import Base Expr Instr Ast Macro Lexer Parser SpecIsa SpecMacro MacroProofs SpecParse ParseProofs SpecLine.
Import ListNotations.
Open Scope string_scope.
Open Scope list_scope.
Local Open Scope nat_scope.

Local Arguments parse_expr : simpl never.
Local Arguments instr_exists : simpl never.
Local Arguments make_instr : simpl never.
Local Arguments isa : simpl never.

Definition fin (ts : stream) : Prop := ts = [] \/ exists r, ts = TEOF :: r.
Definition stop (ts : stream) : Prop := fin ts \/ exists r, ts = TComma :: r.

Lemma is_empty_fin ts : is_empty ts = true <-> fin ts.
Proof.
  destruct ts as [|t r]; cbn; [unfold fin; tauto|]. split.
  - intros H. destruct t; try discriminate. right. eauto.
  - intros [H|(? & H)]; [discriminate|]. injection H as -> ->. reflexivity.
Qed.

Lemma stop_continues ts : stop ts -> ~ continues ts.
Proof.
  intros S (op & l & mk & r & -> & I). destruct S as [[S|(? & S)]|(? & S)]; try discriminate; injection S as -> _;
    cbn in I; repeat destruct I as [I|I]; try discriminate; destruct I.
Qed.

Definition expr_head (t : token_type) : bool :=
  match t with
  | TLeftParen | TName _ | TNumber _ _ | TMacroLabel _ | TMacroIdent _ | TMinus | TUpperByte | TLowerByte => true
  | _ => false
  end.

Lemma expression_head : forall l ts e, expression l ts e -> exists t r, ts = t :: r /\ expr_head t = true.
Proof.
  intros l ts e H. induction H; try (now eauto).
  - destruct IHexpression1 as (t & r & -> & H2). cbn. eauto.
  - cbn in H. destruct H as [E|[E|[E|[]]]]; injection E as <- <-; eauto.
Qed.

Lemma expression_no_eof : forall l ts e, expression l ts e -> ~ In TEOF ts.
Proof.
  intros l ts e H. induction H; cbn; try (intros [X|[]]; discriminate); auto.
  - rewrite in_app_iff. cbn. intros [X|[X|X]]; auto. subst. cbn in H. repeat destruct H as [H|H]; try discriminate; destruct H.
  - intros [X|X]; auto. subst. cbn in H. repeat destruct H as [H|H]; try discriminate; destruct H.
  - rewrite in_app_iff. cbn. intros [X|[X|[X|[]]]]; auto; discriminate.
Qed.

Lemma parse_expr_sound ts e rest : parse_expr ts = Ok (e, rest) -> exists front, ts = front ++ rest /\ expression_of front e.
Proof. intros H. apply parse_expr_iff in H as (front & -> & X & _). eauto. Qed.

Lemma parse_expr_complete front e rest : expression_of front e -> stop rest -> parse_expr (front ++ rest) = Ok (e, rest).
Proof. intros X S. apply parse_expr_iff. exists front. split; [reflexivity|]. split; [exact X|]. now apply stop_continues. Qed.

(** * Lists *)

Section Lists.
Context {T : Type} (p : stream -> outcome (T * stream)) (item : list token_type -> T -> Prop).
Hypothesis p_sound : forall ts x rest, p ts = Ok (x, rest) -> exists front, ts = front ++ rest /\ item front x.
Hypothesis p_complete : forall front x rest, item front x -> stop rest -> p (front ++ rest) = Ok (x, rest).
Hypothesis item_head : forall front x, item front x -> exists t r, front = t :: r /\ t <> TEOF.

Lemma list_loop_sound : forall fuel ts xs rest, list_loop p fuel ts = Ok (xs, rest) ->
  fin rest /\ ((ts = rest /\ xs = []) \/ exists front, ts = TComma :: front ++ rest /\ separated item front xs).
Proof.
  induction fuel as [|f IH]; intros ts xs rest H.
  - cbn in H. destruct (is_empty ts) eqn:E; [|discriminate]. injection H as <- <-. apply is_empty_fin in E. auto.
  - cbn in H. destruct (is_empty ts) eqn:E.
    + injection H as <- <-. apply is_empty_fin in E. auto.
    + destruct ts as [|t r]; [discriminate|]. destruct t; try discriminate H. cbn [consume_comma bind] in H.
      destruct (p r) as [[v r2]| | |] eqn:Ep; try discriminate. cbn [bind] in H.
      destruct (list_loop p f r2) as [[vs r3]| | |] eqn:El; try discriminate. cbn [bind] in H. injection H as <- <-.
      apply p_sound in Ep as (front & -> & X). apply IH in El as [F [[-> ->]|(front2 & -> & X2)]].
      * split; [exact F|]. right. exists front. split; [reflexivity|]. now apply sep_one.
      * split; [exact F|]. right. exists (front ++ TComma :: front2). rewrite <- app_assoc. cbn. split; [reflexivity|]. now apply sep_more.
Qed.

Lemma parse_list_sound ts xs rest : parse_list p ts = Ok (xs, rest) ->
  fin rest /\ exists front, ts = front ++ rest /\ maybe item front xs.
Proof.
  unfold parse_list. destruct (is_empty ts) eqn:E.
  - intros H. injection H as <- <-. apply is_empty_fin in E. split; [exact E|]. exists []. split; [reflexivity|]. now left.
  - intros H. destruct (p ts) as [[v r]| | |] eqn:Ep; try discriminate. cbn [bind] in H.
    destruct (list_loop p _ r) as [[vs r2]| | |] eqn:El; try discriminate. cbn [bind] in H. injection H as <- <-.
    apply p_sound in Ep as (front & -> & X). apply list_loop_sound in El as [F [[-> ->]|(front2 & -> & X2)]]; (split; [exact F|]).
    + exists front. split; [reflexivity|]. right. now apply sep_one.
    + exists (front ++ TComma :: front2). rewrite <- app_assoc. cbn. split; [reflexivity|]. right. now apply sep_more.
Qed.

Lemma fin_is_empty rest : fin rest -> is_empty rest = true.
Proof. apply is_empty_fin. Qed.

Lemma list_loop_nil fuel rest : fin rest -> list_loop p fuel rest = Ok ([], rest).
Proof. intros F. destruct fuel; cbn; rewrite fin_is_empty; auto. Qed.

Lemma list_loop_complete : forall front xs, separated item front xs -> forall fuel rest, fin rest ->
  List.length front < fuel -> list_loop p fuel (TComma :: front ++ rest) = Ok (xs, rest).
Proof.
  induction 1 as [ts x X|ts x ts2 xs X Y IH]; intros fuel rest F L; (destruct fuel as [|fuel]; [lia|]); cbn.
  - rewrite (p_complete _ _ _ X (or_introl F)). cbn [bind]. rewrite list_loop_nil by exact F. reflexivity.
  - rewrite <- app_assoc. cbn. rewrite (p_complete _ _ (TComma :: ts2 ++ rest) X (or_intror (ex_intro _ _ eq_refl))). cbn [bind].
    rewrite app_length in L. cbn in L. rewrite IH; [reflexivity|exact F|]. apply item_head in X as (? & ? & -> & _). cbn in L. lia.
Qed.

Lemma parse_list_complete front xs rest : maybe item front xs -> fin rest -> parse_list p (front ++ rest) = Ok (xs, rest).
Proof.
  intros [[-> ->]|X] F; unfold parse_list.
  - cbn. now rewrite fin_is_empty.
  - destruct X as [ts x X|ts x ts2 xs X Y].
    + assert (H := item_head _ _ X). destruct H as (t & r & E & N).
      assert (Em: is_empty (ts ++ rest) = false) by (rewrite E; cbn; destruct t; try reflexivity; now destruct N). rewrite Em.
      rewrite (p_complete _ _ _ X (or_introl F)). cbn [bind]. rewrite list_loop_nil by exact F. reflexivity.
    + assert (H := item_head _ _ X). destruct H as (t & r & E & N).
      assert (Em: is_empty ((ts ++ TComma :: ts2) ++ rest) = false) by (rewrite E; cbn; destruct t; try reflexivity; now destruct N). rewrite Em.
      rewrite <- app_assoc. cbn. rewrite (p_complete _ _ (TComma :: ts2 ++ rest) X (or_intror (ex_intro _ _ eq_refl))). cbn [bind].
      rewrite (list_loop_complete _ _ Y (List.length (TComma :: ts2 ++ rest)) rest F). reflexivity.
      cbn. rewrite app_length. lia.
Qed.

Hypothesis p_total : forall ts, (exists x rest, p ts = Ok (x, rest)) \/ exists er, p ts = Err er.

Lemma list_loop_total : forall fuel ts, List.length ts <= fuel ->
  (exists x rest, list_loop p fuel ts = Ok (x, rest)) \/ exists er, list_loop p fuel ts = Err er.
Proof.
  induction fuel as [|f IH]; intros ts L; cbn; destruct (is_empty ts) eqn:E; eauto.
  - destruct ts; [discriminate|cbn in L; lia].
  - destruct ts as [|t r]; [discriminate|]. destruct (p_total r) as [(x & r2 & H)|(er & H)].
    + destruct t; cbn [consume_comma bind]; eauto. rewrite H. cbn [bind].
      assert (L2: List.length r2 <= f). { apply p_sound in H as (fr & -> & _). cbn in L. rewrite app_length in L. lia. }
      destruct (IH r2 L2) as [(xs & r3 & H2)|(er & H2)]; rewrite H2; cbn; eauto.
    + destruct t; cbn [consume_comma bind]; eauto. rewrite H. cbn. eauto.
Qed.

Lemma parse_list_total ts : (exists x rest, parse_list p ts = Ok (x, rest)) \/ exists er, parse_list p ts = Err er.
Proof.
  unfold parse_list. destruct (is_empty ts); eauto. destruct (p_total ts) as [(x & r & ->)|(er & ->)]; cbn [bind]; eauto.
  destruct (list_loop_total (List.length r) r ltac:(lia)) as [(xs & r2 & ->)|(er & ->)]; cbn; eauto.
Qed.
End Lists.

(** * Operands *)

Lemma parse_arg_sound ts x rest : parse_arg ts = Ok (x, rest) -> exists front, ts = front ++ rest /\ operand_of front x.
Proof.
  unfold parse_arg. destruct (check is_indirection_mode ts) eqn:E1.
  - destruct ts as [|t r]; [discriminate|]. cbn in E1. intros H.
    destruct t; try discriminate E1; cbn in H; injection H as <- <-; eexists [_]; (split; [reflexivity|]);
      apply o_mode; cbn; tauto.
  - destruct (check is_hash ts) eqn:E2.
    + destruct ts as [|t r]; [discriminate|]. destruct t; try discriminate E2. unfold parse_i8. cbn [consume_hash bind].
      intros H. destruct (parse_expr r) as [[e r2]| | |] eqn:E; try discriminate. cbn in H. injection H as <- <-.
      apply parse_expr_sound in E as (front & -> & X). exists (THash :: front). split; [reflexivity|]. now apply o_immediate.
    + intros H. destruct (parse_expr ts) as [[e r2]| | |] eqn:E; try discriminate. cbn [bind] in H.
      apply parse_expr_sound in E as (front & -> & X). exists front.
      destruct e; injection H as <- <-; (split; [reflexivity|]); try (apply o_direct; [exact X|intros; discriminate]).
      now apply o_parameter.
Qed.

Lemma expr_checks front e rest : expression_of front e ->
  check is_indirection_mode (front ++ rest) = false /\ check is_hash (front ++ rest) = false /\
  check is_string (front ++ rest) = false.
Proof. intros X. apply expression_head in X as (t & r & -> & H). cbn. destruct t; try discriminate; auto. Qed.

Lemma parse_arg_complete front x rest : operand_of front x -> stop rest -> parse_arg (front ++ rest) = Ok (x, rest).
Proof.
  intros X S. unfold parse_arg. destruct X as [t m I|ts e X|ts n X|ts e X N].
  - cbn in I. destruct I as [I|[I|[I|[I|[]]]]]; injection I as <- <-; reflexivity.
  - cbn [app check check_at nth_error is_indirection_mode is_hash]. unfold parse_i8. cbn [consume_hash bind].
    rewrite (parse_expr_complete _ _ _ X S). reflexivity.
  - destruct (expr_checks _ _ rest X) as (-> & -> & _). rewrite (parse_expr_complete _ _ _ X S). reflexivity.
  - destruct (expr_checks _ _ rest X) as (-> & -> & _). rewrite (parse_expr_complete _ _ _ X S). cbn [bind].
    destruct e; try reflexivity. now destruct (N _ eq_refl).
Qed.

Lemma expr_head_eof front e : expression_of front e -> exists t r, front = t :: r /\ t <> TEOF.
Proof. intros X. apply expression_head in X as (t & r & -> & H). exists t, r. split; [reflexivity|]. intros ->. discriminate. Qed.

Lemma operand_head front x : operand_of front x -> exists t r, front = t :: r /\ t <> TEOF.
Proof.
  intros X. destruct X as [t m I|ts e X|ts n X|ts e X N].
  - exists t, []. split; [reflexivity|]. cbn in I. destruct I as [I|[I|[I|[I|[]]]]]; injection I as <- <-; discriminate.
  - exists THash, ts. split; [reflexivity|discriminate].
  - now apply expr_head_eof in X.
  - now apply expr_head_eof in X.
Qed.

Local Ltac total_expr ts := let e := fresh "e" in let r := fresh "r" in let er := fresh "er" in let H := fresh "H" in
  destruct (parse_expr_total ts) as [(e & r & H)|(er & H)]; rewrite H; cbn [bind]; eauto.

Lemma parse_arg_total ts : (exists x rest, parse_arg ts = Ok (x, rest)) \/ exists er, parse_arg ts = Err er.
Proof.
  unfold parse_arg. destruct (check is_indirection_mode ts) eqn:E1.
  - destruct ts as [|t r]; [discriminate|]. destruct t; try discriminate; cbn; eauto.
  - destruct (check is_hash ts) eqn:E2.
    + destruct ts as [|t r]; [discriminate|]. destruct t; try discriminate. unfold parse_i8. cbn [consume_hash bind]. total_expr r.
    + total_expr ts. destruct e; eauto.
Qed.

Lemma parse_byte_sound ts x rest : parse_byte_value ts = Ok (x, rest) -> exists front, ts = front ++ rest /\ byte_item front x.
Proof.
  unfold parse_byte_value. destruct (check is_string ts) eqn:E1.
  - destruct ts as [|t r]; [discriminate|]. destruct t; try discriminate. cbn. intros H. injection H as <- <-.
    eexists [_]. split; [reflexivity|]. apply b_string.
  - intros H. destruct (parse_expr ts) as [[e r2]| | |] eqn:E; try discriminate. cbn in H. injection H as <- <-.
    apply parse_expr_sound in E as (front & -> & X). exists front. split; [reflexivity|]. now apply b_expr.
Qed.

Lemma parse_byte_complete front x rest : byte_item front x -> stop rest -> parse_byte_value (front ++ rest) = Ok (x, rest).
Proof.
  intros X S. unfold parse_byte_value. destruct X as [s|ts e X]; [reflexivity|].
  destruct (expr_checks _ _ rest X) as (_ & _ & ->). rewrite (parse_expr_complete _ _ _ X S). reflexivity.
Qed.

Lemma byte_head front x : byte_item front x -> exists t r, front = t :: r /\ t <> TEOF.
Proof. intros [s|ts e X]; [exists (TString s), []; split; [reflexivity|discriminate]|now apply expr_head_eof in X]. Qed.

Lemma parse_byte_total ts : (exists x rest, parse_byte_value ts = Ok (x, rest)) \/ exists er, parse_byte_value ts = Err er.
Proof.
  unfold parse_byte_value. destruct (check is_string ts) eqn:E1.
  - destruct ts as [|t r]; [discriminate|]. destruct t; try discriminate. cbn. eauto.
  - total_expr ts.
Qed.

Lemma parse_keyval_sound ts x rest : parse_keyval_pair ts = Ok (x, rest) -> exists front, ts = front ++ rest /\ property front x.
Proof.
  unfold parse_keyval_pair. destruct ts as [|t r]; [discriminate|]. destruct t; try discriminate. cbn.
  destruct r as [|t2 r2]; [discriminate|]. destruct t2; try discriminate. cbn. intros H.
  destruct (parse_byte_value r2) as [[v r3]| | |] eqn:E; try discriminate. cbn in H. injection H as <- <-.
  apply parse_byte_sound in E as (front & -> & X). eexists (_ :: _ :: front). split; [reflexivity|]. now constructor.
Qed.

Lemma parse_keyval_complete front x rest : property front x -> stop rest -> parse_keyval_pair (front ++ rest) = Ok (x, rest).
Proof. intros [n ts v X] S. cbn. rewrite (parse_byte_complete _ _ _ X S). reflexivity. Qed.

Lemma property_head front x : property front x -> exists t r, front = t :: r /\ t <> TEOF.
Proof. intros [n ts v X]. eexists _, _. split; [reflexivity|discriminate]. Qed.

Lemma parse_keyval_total ts : (exists x rest, parse_keyval_pair ts = Ok (x, rest)) \/ exists er, parse_keyval_pair ts = Err er.
Proof.
  unfold parse_keyval_pair. destruct ts as [|t r]; [cbn; eauto|]. destruct t; cbn; eauto.
  destruct r as [|t2 r2]; [cbn; eauto|]. destruct t2; cbn; eauto.
  destruct (parse_byte_total r2) as [(v & r3 & ->)|(er & ->)]; cbn; eauto.
Qed.

Lemma item_total {T : Type} (p : stream -> outcome (T * stream)) ts :
  ((exists x rest, p ts = Ok (x, rest)) \/ exists er, p ts = Err er) <-> (p ts <> Panic /\ p ts <> Diverge).
Proof.
  split; [intros [(x & r & ->)|(er & ->)]; split; discriminate|].
  destruct (p ts) as [[x r]|er| |]; intros [A B]; try congruence; eauto.
Qed.

(** * Properties of includes *)

Lemma mget_inserts : forall (ps : list (string * byte_value)) m n,
  mget (fold_left (fun m p => minsert m (fst p) (snd p)) ps m) n =
  match mget (fold_left (fun m p => minsert m (fst p) (snd p)) ps []) n with Some v => Some v | None => mget m n end.
Proof.
  induction ps as [|[k v] ps IH]; intros m n; cbn [fold_left]; [reflexivity|].
  rewrite IH. rewrite (IH (minsert [] _ _)).
  destruct (mget (fold_left (fun (m0 : smap byte_value) p => minsert m0 (fst p) (snd p)) ps []) n); [reflexivity|].
  cbn. destruct (String.eqb n k) eqn:E; reflexivity.
Qed.

Definition inserted (ps : list (string * byte_value)) : smap byte_value :=
  fold_left (fun m p => minsert m (fst p) (snd p)) ps [].

Lemma inserted_cons k v ps n : mget (inserted ((k, v) :: ps)) n =
  match mget (inserted ps) n with Some w => Some w | None => if String.eqb n k then Some v else None end.
Proof. unfold inserted. cbn [fold_left fst snd]. rewrite mget_inserts. reflexivity. Qed.

Lemma inserted_none ps n : mget (inserted ps) n = None <-> forall w, ~ In (n, w) ps.
Proof.
  induction ps as [|[k v] ps IH].
  - cbn. split; auto.
  - rewrite inserted_cons. split.
    + destruct (mget (inserted ps) n) eqn:E; [discriminate|]. destruct (String.eqb_spec n k) as [->|N]; [discriminate|].
      intros _ w [X|X]; [congruence|]. now apply (proj1 IH eq_refl w).
    + intros H. destruct (mget (inserted ps) n) eqn:E.
      * assert (Q: None = Some b) by (rewrite <- (proj2 IH); [reflexivity|]; intros w X; apply (H w); now right). discriminate.
      * destruct (String.eqb_spec n k) as [->|N]; [|reflexivity]. destruct (H v). now left.
Qed.

Lemma inserted_given ps n v : mget (inserted ps) n = v <-> given ps n v.
Proof.
  destruct v as [v|]; [|apply inserted_none]. cbn [given]. revert v. induction ps as [|[k u] ps IH]; intros v.
  - cbn. split; [discriminate|]. intros ([|] & b & E & _); discriminate.
  - rewrite inserted_cons. split.
    + destruct (mget (inserted ps) n) as [w|] eqn:E.
      * intros H. injection H as ->. destruct (proj1 (IH v) eq_refl) as (a & b & -> & N). exists ((k, u) :: a), b. split; [reflexivity|exact N].
      * destruct (String.eqb_spec n k) as [->|N]; [|discriminate]. intros H. injection H as ->. exists [], ps.
        split; [reflexivity|]. now apply inserted_none.
    + intros (a & b & E & N). destruct a as [|[k2 u2] a]; injection E.
      * intros -> <- <-. rewrite (proj2 (inserted_none b k) N). now rewrite String.eqb_refl.
      * intros -> <- <-. rewrite (proj2 (IH v)); [reflexivity|]. exists a, b. auto.
Qed.

Lemma bytes_codes s : bytes_string (codes s) = s.
Proof.
  unfold bytes_string, codes. rewrite map_map. rewrite (map_ext _ (fun c => c)).
  - rewrite map_id. apply string_of_list_ascii_of_string.
  - intros c. rewrite Nat2Z.id. apply ascii_nat_embedding.
Qed.

Lemma separated_items {T : Type} (item : list token_type -> T -> Prop) ts xs : separated item ts xs ->
  forall x, In x xs -> exists t, item t x.
Proof. induction 1; intros y [E|I]; subst; eauto. destruct I. Qed.

Lemma maybe_items {T : Type} (item : list token_type -> T -> Prop) ts xs : maybe item ts xs ->
  forall x, In x xs -> exists t, item t x.
Proof. intros [[_ ->]|S] x I; [destruct I|]. now apply (separated_items item ts xs). Qed.

Lemma given_codes ts ps n l : maybe property ts ps -> given ps n (Some (BVString l)) -> exists s, l = codes s.
Proof.
  intros M (a & b & -> & _). destruct (maybe_items _ _ _ M (n, BVString l)) as (t & P).
  - apply in_or_app. right. now left.
  - inversion P as [n' ts' v B]; subst. inversion B; subst. eauto.
Qed.

Lemma icon_speed_iff ps speed : icon_speed_of (inserted ps) = Ok speed <-> speed_of ps speed.
Proof.
  unfold icon_speed_of. destruct (mget (inserted ps) "speed") as [[e|l]|] eqn:E.
  - apply inserted_given in E. split; [intros H; injection H as <-; now apply sp_some|]. intros [X|e2 X].
    + apply inserted_given in X, E. congruence.
    + apply inserted_given in X, E. congruence.
  - apply inserted_given in E. split; [discriminate|]. intros [X|e2 X]; apply inserted_given in X, E; congruence.
  - apply inserted_given in E. split; [intros H; injection H as <-; now apply sp_none|].
    intros [X|e2 X]; apply inserted_given in X, E; congruence.
Qed.

Lemma sprite_kind_iff ts ps k : maybe property ts ps -> sprite_type_of (inserted ps) = Ok k <-> sprite_kind ps k.
Proof.
  intros M. unfold sprite_type_of. destruct (mget (inserted ps) "type") as [[e|l]|] eqn:E.
  - apply inserted_given in E. split; [discriminate|]. intros [X|X|X]; apply inserted_given in X, E; congruence.
  - apply inserted_given in E. destruct (given_codes _ _ _ _ M E) as (s & ->). rewrite bytes_codes.
    destruct (String.eqb_spec s "simple") as [->|N1]; [|destruct (String.eqb_spec s "masked") as [->|N2]].
    + split; [intros H; injection H as <-; now apply sk_simple|]. intros [X|X|X]; try reflexivity.
      apply inserted_given in X, E. rewrite E in X. injection X. discriminate.
    + split; [intros H; injection H as <-; now apply sk_masked|]. intros [X|X|X]; try reflexivity;
        apply inserted_given in X, E; rewrite E in X; discriminate.
    + split; [discriminate|]. intros [X|X|X]; apply inserted_given in X, E; rewrite E in X; try discriminate;
        injection X; intros Q; [destruct N1|destruct N2]; rewrite <- (bytes_codes s); rewrite Q; reflexivity.
  - apply inserted_given in E. split; [intros H; injection H as <-; now apply sk_default|].
    intros [X|X|X]; try reflexivity; apply inserted_given in X, E; congruence.
Qed.

Lemma sprite_head_iff ts ps h : maybe property ts ps -> sprite_header_of (inserted ps) = Ok h <-> sprite_head ps h.
Proof.
  intros M. unfold sprite_header_of. destruct (mget (inserted ps) "header") as [[e|l]|] eqn:E.
  - apply inserted_given in E. split; [discriminate|]. intros [X|X|X]; apply inserted_given in X, E; congruence.
  - apply inserted_given in E. destruct (given_codes _ _ _ _ M E) as (s & ->). rewrite bytes_codes.
    destruct (String.eqb_spec s "yes") as [->|N1]; [|destruct (String.eqb_spec s "no") as [->|N2]].
    + split; [intros H; injection H as <-; now apply sh_yes|]. intros [X|X|X]; try reflexivity.
      apply inserted_given in X, E. rewrite E in X. injection X. discriminate.
    + split; [intros H; injection H as <-; now apply sh_no|]. intros [X|X|X]; try reflexivity;
        apply inserted_given in X, E; rewrite E in X; discriminate.
    + split; [discriminate|]. intros [X|X|X]; apply inserted_given in X, E; rewrite E in X; try discriminate;
        injection X; intros Q; [destruct N1|destruct N2]; rewrite <- (bytes_codes s); rewrite Q; reflexivity.
  - apply inserted_given in E. split; [intros H; injection H as <-; now apply sh_default|].
    intros [X|X|X]; try reflexivity; apply inserted_given in X, E; congruence.
Qed.
