(** Macro definitions and whole programs against the grammar. *)
From Coq Require Import ZArith List String Ascii Bool Arith Lia.
From Verif Require Import Base Expr Instr Ast Macro Lexer Parser SpecIsa SpecMacro MacroProofs SpecParse ParseProofs SpecLine LineProofs LineProofs2.
Import ListNotations.
Open Scope string_scope.
Open Scope list_scope.
Local Open Scope nat_scope.

Local Arguments parse_expr : simpl never.
Local Arguments parse_list : simpl never.
Local Arguments parse_line : simpl never.
Local Arguments parse_macro_statement : simpl never.
Local Arguments parse_macro_header : simpl never.
Local Arguments instr_exists : simpl never.
Local Arguments known : simpl never.
Local Arguments String.eqb : simpl never.

(** * Lines *)

Lemma same_line_test t u :
  (Nat.eqb (l_line (s_end (t_span t))) (l_line (s_start (t_span u))) &&
   Nat.eqb (l_file (s_end (t_span t))) (l_file (s_start (t_span u))))%bool = true <-> same_line t u.
Proof.
  unfold same_line. rewrite andb_true_iff, !Nat.eqb_eq. intuition congruence.
Qed.

Lemma lines_from_grouped : forall ts t cur, Forall (same_line t) (rev cur) ->
  exists g gs, lines_from (l_line (s_end (t_span t))) (l_file (s_end (t_span t))) (cur ++ [t]) ts = g :: gs /\
    grouped (t :: rev cur ++ ts) (g :: gs).
Proof.
  induction ts as [|u ts IH]; intros t cur F; cbn [lines_from].
  - exists (t :: rev cur), []. rewrite rev_app_distr. split; [reflexivity|]. rewrite app_nil_r.
    rewrite <- (app_nil_r (rev cur)) at 1. apply gr_line; [exact F|discriminate|apply gr_nil].
  - destruct (Nat.eqb _ _ && _)%bool eqn:E.
    + apply same_line_test in E. destruct (IH t (u :: cur)) as (g & gs & E2 & G).
      * cbn. apply Forall_app. split; [exact F|]. now constructor.
      * exists g, gs. split; [exact E2|]. cbn [rev] in G. now rewrite <- app_assoc in G.
    + assert (N: ~ same_line t u) by (intros N; apply same_line_test in N; congruence).
      destruct (IH u []) as (g & gs & E2 & G); [constructor|]. cbn [app] in E2. rewrite E2. rewrite rev_app_distr.
      eexists _, _. split; [reflexivity|]. apply gr_line; [exact F| |exact G].
      intros v r Q. injection Q as <- _. exact N.
Qed.

Lemma lines_grouped ts : grouped ts (lines ts).
Proof.
  destruct ts as [|t ts]; [apply gr_nil|]. cbn [lines].
  destruct (lines_from_grouped ts t []) as (g & gs & E & G); [constructor|]. cbn [app] in E. rewrite E. exact G.
Qed.

Lemma grouped_unique : forall ts g1, grouped ts g1 -> forall g2, grouped ts g2 -> g1 = g2.
Proof.
  induction 1 as [|t same rest groups F N G IH]; intros g2 H2.
  - inversion H2. reflexivity.
  - inversion H2 as [|t2 same2 rest2 groups2 F2 N2 G2]; subst.
    assert (Q: same2 = same /\ rest2 = rest).
    { match goal with Q : same2 ++ rest2 = same ++ rest |- _ => rename Q into E end. clear -F N F2 N2 E. revert same2 F2 E. induction same as [|a same IH]; intros [|b same2] F2 E; cbn in E.
      - auto.
      - exfalso. apply (N b (same2 ++ rest2)); [congruence|]. now inversion F2.
      - exfalso. apply (N2 a (same ++ rest)); [congruence|]. now inversion F.
      - injection E as -> E. apply Forall_inv_tail in F, F2. destruct (IH F same2 F2 E) as [-> ->]. auto. }
    destruct Q as [-> ->]. f_equal. now apply IH.
Qed.

Lemma lines_iff ts gs : lines ts = gs <-> grouped ts gs.
Proof. split; [intros <-; apply lines_grouped|]. intros G. eapply grouped_unique; [apply lines_grouped|exact G]. Qed.

(** * Macro bodies *)

Lemma ends_split ts front : ends ts front <-> exists rest, ts = front ++ rest /\ fin rest /\ ~ In TEOF front.
Proof.
  split.
  - intros [ts' N|ts' rest N]; [exists []|exists (TEOF :: rest)]; rewrite ?app_nil_r; (split; [reflexivity|]); (split; [|exact N]).
    + now left. + right; eauto.
  - intros (rest & -> & [->|(r & ->)] & N); [rewrite app_nil_r; now apply ends_all|now apply ends_eof].
Qed.

Definition body_rest (r : stream) : outcome (list macro_statement * stream) :=
  match r with
  | TName name :: _ =>
      if negb (is_local name) then
        let! ((name, args), r2) := parse_gen_instr r in
        Ok ([MInstr name args], r2)
      else Err UnknownInstruction
  | _ => Ok ([], r)
  end.

Definition body_end (stmts : list macro_statement) (o : outcome (list macro_statement * stream)) : outcome (list macro_statement) :=
  let! (more, r2) := o in
  if negb (is_empty r2) then let! (_, _) := next r2 in Err UnexpectedToken
  else Ok (stmts ++ more).

Lemma macro_statement_eq ts : parse_macro_statement ts =
  body_end (fst (parse_macro_label ts)) (body_rest (snd (parse_macro_label ts))).
Proof. unfold parse_macro_statement. destruct (parse_macro_label ts). reflexivity. Qed.

Lemma body_end_iff stmts r ss : body_end stmts (body_rest r) = Ok ss <->
  (ss = stmts /\ fin r) \/
  (exists n ops args rest, r = TName n :: ops ++ rest /\ fin rest /\ ~ dotted n /\ maybe operand_of ops args /\ ss = stmts ++ [MInstr n args]).
Proof.
  split.
  - intros H. unfold body_end, body_rest in H.
    assert (K: fin r \/ exists t q, r = t :: q /\ t <> TEOF).
    { destruct r as [|t q]; [left; now left|]. destruct t; try (right; eexists _, _; split; [reflexivity|discriminate]). left; right; eauto. }
    destruct K as [F|(t & q & -> & NE)].
    + left. destruct F as [->|(q & ->)]; cbn in H; rewrite app_nil_r in H; injection H as <-; split; auto; [now left|right; eauto].
    + right. destruct t; try discriminate H. 2: now destruct NE.
      destruct (is_local name) eqn:EL; cbn [negb] in H; [discriminate|].
      destruct (parse_gen_instr _) as [[[n args] r2]| | |] eqn:E; try discriminate. cbn [bind] in H.
      destruct (is_empty r2) eqn:E2; cbn [negb] in H; [|destruct r2; discriminate]. injection H as <-.
      apply gen_instr_sound in E as (ops & E & M). injection E as -> ->. exists n, ops, args, r2.
      repeat split; auto. { now apply is_empty_fin. } rewrite <- local_dotted. congruence.
  - intros [[-> F]|(n & ops & args & rest & -> & F & D & M & ->)]; unfold body_end, body_rest.
    + destruct F as [->|(q & ->)]; cbn; now rewrite app_nil_r.
    + assert (EL: is_local n = false) by (destruct (is_local n) eqn:EL; [now apply local_dotted in EL|reflexivity]). rewrite EL. cbn [negb].
      rewrite (gen_instr_complete _ _ _ _ M F). cbn [bind]. rewrite (proj2 (is_empty_fin rest) F). reflexivity.
Qed.

Lemma maybe_operand_no_eof ops args : maybe operand_of ops args -> ~ In TEOF ops.
Proof. apply maybe_no_eof. apply operand_no_eof. Qed.

Local Ltac no_eof := cbn; intros Q; repeat (destruct Q as [Q|Q]; [discriminate|]); try exact Q; try (eapply maybe_operand_no_eof; eassumption).

Lemma macro_statement_iff ts ss : parse_macro_statement ts = Ok ss <-> body_line ts ss.
Proof.
  rewrite macro_statement_eq. split.
  - intros H. unfold parse_macro_label in H.
    assert (K: (exists n r, ts = TName n :: TColon :: r) \/ (exists n r, ts = TMacroLabel n :: TColon :: r) \/
      (exists n, dotted n /\ ts = [TName n]) \/ (exists n, dotted n /\ ts = [TMacroLabel n]) \/ parse_macro_label ts = ([], ts)).
    { destruct ts as [|t1 [|t2 r]].
      - now do 4 right.
      - destruct t1; try (now do 4 right); cbn.
        + destruct (is_local name) eqn:E; [right; right; left; exists name; split; [now apply local_dotted|reflexivity]|now do 4 right].
        + destruct (is_local name) eqn:E; [right; right; right; left; exists name; split; [now apply local_dotted|reflexivity]|now do 4 right].
      - destruct t1; try (now do 4 right); (destruct t2; try (now do 4 right)); [left|right; left]; eauto. }
    destruct K as [(n & r & ->)|[(n & r & ->)|[(n & D & ->)|[(n & D & ->)|K]]]].
    + cbn [fst snd] in H. apply body_end_iff in H as [[-> F]|(m & ops & args & rest & -> & F & D & M & ->)].
      * apply bl_label. apply ends_split. exists r. split; [reflexivity|]. split; [exact F|no_eof].
      * cbn. apply bl_label_instr with ops; auto. apply ends_split. exists rest. split; [reflexivity|]. split; [exact F|no_eof].
    + cbn [fst snd] in H. apply body_end_iff in H as [[-> F]|(m & ops & args & rest & -> & F & D & M & ->)].
      * apply bl_macro_label. apply ends_split. exists r. split; [reflexivity|]. split; [exact F|no_eof].
      * cbn. apply bl_macro_label_instr with ops; auto. apply ends_split. exists rest. split; [reflexivity|]. split; [exact F|no_eof].
    + rewrite (proj2 (local_dotted n) D) in H. cbn in H. injection H as <-. now apply bl_local.
    + rewrite (proj2 (local_dotted n) D) in H. cbn in H. injection H as <-. now apply bl_macro_local.
    + fold (parse_macro_label ts) in H. rewrite K in H. cbn [fst snd] in H.
      apply body_end_iff in H as [[-> F]|(m & ops & args & rest & -> & F & D & M & ->)].
      * apply bl_empty. apply ends_split. exists ts. split; [reflexivity|]. split; [exact F|auto].
      * cbn. apply bl_instr with ops; auto. apply ends_split. exists rest. split; [reflexivity|]. split; [exact F|no_eof].
  - intros B. destruct B as [ts E|ts n E|ts n E|n D|n D|ts n ops args E D M|ts l n ops args E D M|ts l n ops args E D M];
      try (apply ends_split in E as (rest & -> & F & NE)).
    + cbn [app]. destruct F as [->|(r & ->)]; reflexivity.
    + cbn [app parse_macro_label fst snd]. apply body_end_iff. left. auto.
    + cbn [app parse_macro_label fst snd]. apply body_end_iff. left. auto.
    + cbn. rewrite (proj2 (local_dotted n) D). reflexivity.
    + cbn. rewrite (proj2 (local_dotted n) D). reflexivity.
    + assert (EL: is_local n = false) by (destruct (is_local n) eqn:EL; [now apply local_dotted in EL|reflexivity]).
      assert (K: parse_macro_label ((TName n :: ops) ++ rest) = ([], (TName n :: ops) ++ rest)).
      { cbn. assert (O := operands_first _ _ M). destruct O as [->|(t & q & -> & N1 & N2)].
        - destruct F as [->|(r & ->)]; cbn; [rewrite EL; reflexivity|reflexivity].
        - cbn. destruct t; try reflexivity. now destruct N1. }
      rewrite K. cbn [fst snd]. apply body_end_iff. right. exists n, ops, args, rest. cbn. auto 10.
    + cbn [app parse_macro_label fst snd]. apply body_end_iff. right. exists n, ops, args, rest. auto 10.
    + cbn [app parse_macro_label fst snd]. apply body_end_iff. right. exists n, ops, args, rest. auto 10.
Qed.

(** * Headers *)

Lemma macro_params_iff : forall args seen params, macro_params seen args = Ok params <->
  args = map AMacroArg params /\ NoDup params /\ (forall x, In x params -> ~ In x seen).
Proof.
  induction args as [|a args IH]; intros seen params.
  - cbn. split.
    + intros H. injection H as <-. repeat split; [constructor|intros x []].
    + intros (E & _ & _). destruct params; [reflexivity|discriminate].
  - cbn [macro_params]. split.
    + intros H. destruct a; try discriminate. destruct (existsb (String.eqb name) seen) eqn:E; [discriminate|].
      destruct (macro_params (name :: seen) args) as [rest| | |] eqn:E2; try discriminate. cbn in H. injection H as <-.
      apply IH in E2 as (-> & ND & NS). split; [reflexivity|]. split.
      * constructor; [|exact ND]. intros I. apply (NS name I). now left.
      * intros x [<-|I] S.
        -- assert (existsb (String.eqb name) seen = true) by (apply existsb_exists; exists name; split; [exact S|apply String.eqb_refl]). congruence.
        -- apply (NS x I). now right.
    + intros (E & ND & NS). destruct params as [|p params]; [discriminate|]. cbn in E. injection E as -> ->. inversion ND; subst.
      assert (X: existsb (String.eqb p) seen = false).
      { destruct (existsb (String.eqb p) seen) eqn:X; [|reflexivity]. apply existsb_exists in X as (y & I & Q). apply String.eqb_eq in Q. subst y.
        destruct (NS p); [now left|exact I]. }
      rewrite X. rewrite (proj2 (IH (p :: seen) params)); [reflexivity|]. split; [reflexivity|]. split; [assumption|].
      intros x I [<-|S]; [contradiction|]. apply (NS x); [now right|exact S].
Qed.

Lemma find_none defs n k : find_macro (by_name defs) n k = None <->
  forall d, In d defs -> ~ (m_name d = n /\ List.length (m_args d) = k).
Proof.
  induction defs as [|d defs IH]; cbn.
  - split; [intros _ d []|reflexivity].
  - destruct (String.eqb_spec (m_name d) n) as [E1|E1]; cbn [andb].
    + destruct (Nat.eqb_spec (List.length (m_args d)) k) as [E2|E2]; cbn.
      * split; [discriminate|]. intros H. destruct (H d); auto.
      * rewrite IH. split; [intros H e [<-|I]; [tauto|auto]|intros H e I; apply H; auto].
    + rewrite IH. split; [intros H e [<-|I]; [tauto|auto]|intros H e I; apply H; auto].
Qed.

Lemma params_no_eof ops params : maybe operand_of ops (map AMacroArg params) -> ~ In TEOF ops.
Proof. apply maybe_operand_no_eof. Qed.

Lemma header_iff defs ts n params : check (has_macro_name "%macro") ts = true ->
  parse_macro_header (by_name defs) ts = Ok (n, params) <->
  header ts n params /\ forall d, In d defs -> ~ (m_name d = n /\ List.length (m_args d) = List.length params).
Proof.
  intros C. destruct ts as [|t r]; [discriminate|]. destruct t; try discriminate C.
  change (String.eqb "%macro" name = true) in C. apply String.eqb_eq in C. subst name. unfold parse_macro_header. cbn [read_macro_name bind].
  split.
  - intros H. destruct r as [|t r]; [discriminate|]. destruct t; try discriminate. cbn [read_name bind] in H.
    destruct (instr_exists name) eqn:K; [discriminate|]. unfold parse_args in H.
    destruct (parse_list parse_arg r) as [[args r3]| | |] eqn:E; try discriminate. cbn [bind] in H.
    apply args_sound in E as [F (ops & -> & M)].
    destruct (find_macro (by_name defs) name (List.length args)) eqn:EF; [discriminate|].
    destruct (macro_params [] args) as [ps| | |] eqn:EP; try discriminate. cbn [bind] in H.
    rewrite (proj2 (is_empty_fin r3) F) in H. cbn in H. injection H as <- <-.
    apply macro_params_iff in EP as (-> & ND & _). rewrite map_length in EF. split.
    + apply header_intro with ops; auto.
      * apply ends_split. exists r3. split; [reflexivity|]. split; [exact F|no_eof].
      * rewrite <- instr_exists_known. congruence.
    + now apply find_none.
  - intros [H NF]. inversion H as [ts' n' ops ps E M ND K]; subst. apply ends_split in E as (rest & E & F & _). injection E as ->.
    cbn [read_name bind]. destruct (instr_exists n) eqn:EK; [now apply instr_exists_known in EK|]. unfold parse_args.
    rewrite (args_complete _ _ _ M F). cbn [bind]. rewrite map_length.
    rewrite (proj2 (find_none defs n (List.length params)) NF).
    rewrite (proj2 (macro_params_iff (map AMacroArg params) [] params)) by auto. cbn [bind].
    rewrite (proj2 (is_empty_fin rest) F). reflexivity.
Qed.

(** * Programs *)

Lemma check_first n ts : check (has_macro_name n) ts = true <-> first_is (TMacroIdent n) ts.
Proof.
  destruct ts as [|t r]; [split; [discriminate|intros (? & H); discriminate]|]. rewrite check_cons. unfold first_is. split.
  - intros H. destruct t; try discriminate. change (String.eqb n name = true) in H. apply String.eqb_eq in H. subst. eauto.
  - intros (r2 & E). injection E as -> _. apply String.eqb_refl.
Qed.

Lemma check_first_not n ts : check (has_macro_name n) ts = false <-> ~ first_is (TMacroIdent n) ts.
Proof. rewrite <- check_first. destruct (check (has_macro_name n) ts); intuition congruence. Qed.

Lemma header_first ts n params : header ts n params -> first_is (TMacroIdent "%macro") ts.
Proof. intros [ts' n' ops ps E _ _ _]. apply ends_split in E as (rest & -> & _). eexists. reflexivity. Qed.

Lemma end_close ts : check (has_macro_name "%end") ts = true ->
  ((let! (_, r) := next ts in if negb (is_empty r) then let! (_, _) := next r in Err UnexpectedToken else Ok tt) = Ok tt <->
   ends ts [TMacroIdent "%end"]).
Proof.
  intros C. apply check_first in C as (r & ->). cbn [next bind]. rewrite ends_split. split.
  - destruct (is_empty r) eqn:E; cbn [negb]; [|destruct r; discriminate]. intros _. exists r. split; [reflexivity|].
    split; [now apply is_empty_fin|no_eof].
  - intros (rest & E & F & _). injection E as ->. rewrite (proj2 (is_empty_fin rest) F). reflexivity.
Qed.

Definition scanned (defs : list macro_def) (inside : option (string * list string * list macro_statement)) (ls : list stream)
  (kept : list stream) (all : list macro_def) : Prop := scan_macros (by_name defs) inside ls = Ok (kept, by_name all).

Lemma by_name_add defs n params body : add_macro (by_name defs) n params body = by_name (mkMacro n params body :: defs).
Proof. reflexivity. Qed.

Lemma scan_inside : forall ls defs n params body kept ms, scan_macros (by_name defs) (Some (n, params, body)) ls = Ok (kept, ms) ->
  (exists more, body_lines ls more /\ kept = [] /\ ms = by_name (mkMacro n params (body ++ more) :: defs)) \/
  (exists bls more close rest, ls = bls ++ close :: rest /\ body_lines bls more /\ ends close [TMacroIdent "%end"] /\
     scan_macros (by_name (mkMacro n params (body ++ more) :: defs)) None rest = Ok (kept, ms)).
Proof.
  induction ls as [|l ls IH]; intros defs n params body kept ms H; cbn [scan_macros] in H.
  - injection H as <- <-. left. exists []. rewrite app_nil_r. repeat split; auto. constructor.
  - destruct (check (has_macro_name "%end") l) eqn:C.
    + right. exists [], [], l, ls. assert (E := end_close l C). destruct (next l) as [[t r]| | |]; try discriminate. cbn [bind] in *.
      destruct (is_empty r) eqn:ER; cbn [negb] in *.
      * split; [reflexivity|]. split; [constructor|]. split; [now apply E|]. rewrite app_nil_r. exact H.
      * destruct (next r) as [[? ?]| | |]; discriminate.
    + destruct (parse_macro_statement l) as [ss| | |] eqn:EM; try discriminate. cbn [bind] in H.
      apply macro_statement_iff in EM. apply check_first_not in C.
      apply IH in H as [(more & B & -> & ->)|(bls & more & close & rest & -> & B & E & S)].
      * left. exists (ss ++ more). rewrite <- app_assoc. split; [now apply bls_cons|auto].
      * right. exists (l :: bls), (ss ++ more), close, rest. rewrite <- app_assoc in S. split; [reflexivity|]. split; [now apply bls_cons|auto].
Qed.

Lemma scan_inside_closed : forall bls more, body_lines bls more -> forall defs n params body close rest,
  ends close [TMacroIdent "%end"] ->
  scan_macros (by_name defs) (Some (n, params, body)) (bls ++ close :: rest) =
  scan_macros (by_name (mkMacro n params (body ++ more) :: defs)) None rest.
Proof.
  induction 1 as [|l ss bls more NE B BS IH]; intros defs n params body close rest E.
  - cbn [app scan_macros]. assert (C: check (has_macro_name "%end") close = true).
    { apply check_first. apply ends_split in E as (r & -> & _). eexists. reflexivity. }
    rewrite C. apply ends_split in E as (r & -> & F & _). cbn [app next bind]. rewrite (proj2 (is_empty_fin r) F). cbn [negb].
    rewrite app_nil_r. reflexivity.
  - cbn [app scan_macros]. rewrite (proj2 (check_first_not _ _) NE). rewrite (proj2 (macro_statement_iff l ss) B). cbn [bind].
    rewrite (IH _ _ _ _ _ _ E). now rewrite <- app_assoc.
Qed.

Lemma scan_inside_open : forall bls more, body_lines bls more -> forall defs n params body,
  scan_macros (by_name defs) (Some (n, params, body)) bls = Ok ([], by_name (mkMacro n params (body ++ more) :: defs)).
Proof.
  induction 1 as [|l ss bls more NE B BS IH]; intros defs n params body.
  - cbn [scan_macros]. now rewrite app_nil_r.
  - cbn [scan_macros]. rewrite (proj2 (check_first_not _ _) NE). rewrite (proj2 (macro_statement_iff l ss) B). cbn [bind].
    rewrite IH. now rewrite <- app_assoc.
Qed.

Lemma parse_lines_cons l ls ss : parse_lines (l :: ls) = Ok ss <->
  exists a b, parse_line l = Ok a /\ parse_lines ls = Ok b /\ ss = a ++ b.
Proof.
  cbn [parse_lines]. split.
  - intros H. destruct (parse_line l) as [a| | |]; try discriminate. cbn [bind] in H.
    destruct (parse_lines ls) as [b| | |]; try discriminate. cbn in H. injection H as <-. eauto 6.
  - intros (a & b & -> & -> & ->). reflexivity.
Qed.

Lemma program_sound : forall k ls defs kept ms ss, List.length ls <= k ->
  scan_macros (by_name defs) None ls = Ok (kept, ms) -> parse_lines kept = Ok ss ->
  exists all, ms = by_name all /\ program defs ls ss all.
Proof.
  induction k as [|k IH]; intros ls defs kept ms ss L H P.
  - destruct ls; [|cbn in L; lia]. cbn in H. injection H as <- <-. cbn in P. injection P as <-. exists defs. split; [reflexivity|constructor].
  - destruct ls as [|l ls]; cbn [scan_macros] in H.
    { injection H as <- <-. cbn in P. injection P as <-. exists defs. split; [reflexivity|constructor]. }
    cbn in L. destruct (check (has_macro_name "%macro") l) eqn:C.
    + destruct (parse_macro_header (by_name defs) l) as [[n params]| | |] eqn:EH; try discriminate. cbn [bind] in H.
      apply header_iff in EH as [HD NF]; [|exact C].
      apply scan_inside in H as [(more & B & -> & ->)|(bls & more & close & rest & -> & B & E & S)].
      * cbn in P. injection P as <-. exists (mkMacro n params more :: defs). split; [reflexivity|]. now apply pg_unclosed.
      * rewrite app_length in L. cbn in L. cbn [app] in S. destruct (IH rest _ _ _ _ ltac:(lia) S P) as (all & -> & G).
        exists all. split; [reflexivity|]. now apply pg_macro with (n := n) (params := params) (body := more).
    + destruct (scan_macros (by_name defs) None ls) as [[kept2 ms2]| | |] eqn:ES; try discriminate. cbn in H. injection H as <- <-.
      apply parse_lines_cons in P as (a & b & P1 & P2 & ->). apply parse_line_iff in P1 as (front & E & LN).
      destruct (IH ls _ _ _ _ ltac:(lia) ES P2) as (all & -> & G). exists all. split; [reflexivity|].
      apply pg_line with front; auto. now apply check_first_not.
Qed.

Lemma program_complete : forall defs ls ss all, program defs ls ss all ->
  exists kept, scan_macros (by_name defs) None ls = Ok (kept, by_name all) /\ parse_lines kept = Ok ss.
Proof.
  induction 1 as [defs|defs ts front ss rest stmts all NM E LN G IH|defs ts n params ls body close rest stmts all HD NF B E G IH|defs ts n params ls body HD NF B].
  - exists []. auto.
  - destruct IH as (kept & S & P). exists (ts :: kept). cbn [scan_macros]. rewrite (proj2 (check_first_not _ _) NM), S.
    split; [reflexivity|]. apply parse_lines_cons. exists ss, stmts. split; [|auto]. apply parse_line_iff. eauto.
  - destruct IH as (kept & S & P). exists kept. split; [|exact P]. cbn [scan_macros].
    assert (C := proj2 (check_first _ _) (header_first _ _ _ HD)). rewrite C.
    rewrite (proj2 (header_iff defs ts n params C)) by auto. cbn [bind]. rewrite (scan_inside_closed _ _ B _ _ _ _ _ _ E). exact S.
  - exists []. split; [|reflexivity]. cbn [scan_macros].
    assert (C := proj2 (check_first _ _) (header_first _ _ _ HD)). rewrite C.
    rewrite (proj2 (header_iff defs ts n params C)) by auto. cbn [bind]. now rewrite (scan_inside_open _ _ B).
Qed.

Theorem parse_iff ts p : parse ts = Ok p <->
  exists groups defs stmts, grouped ts groups /\ program [] (map (map t_type) groups) stmts defs /\
    p = mkStatements (by_name defs) stmts.
Proof.
  unfold parse, parse_macros. change (map stream_of (lines ts)) with (map (map t_type) (lines ts)). split.
  - intros H. destruct (scan_macros [] None _) as [[kept ms]| | |] eqn:ES; try discriminate. cbn [bind] in H.
    destruct (parse_lines kept) as [ss| | |] eqn:EP; try discriminate. cbn in H. injection H as <-.
    destruct (program_sound _ _ [] _ _ _ (Nat.le_refl _) ES EP) as (all & -> & G).
    exists (lines ts), all, ss. split; [apply lines_grouped|auto].
  - intros (groups & defs & stmts & GR & G & ->). apply lines_iff in GR as ->.
    apply program_complete in G as (kept & S & P). change (by_name []) with (@nil ((string * nat) * macro_def)) in S. rewrite S. cbn [bind].
    rewrite P. reflexivity.
Qed.

(** * No panics, no endless loops *)

Lemma fine_args2 ts : fine (parse_args ts). Proof. apply fine_args. Qed.

Lemma fine_macro_statement ts : fine (parse_macro_statement ts).
Proof.
  rewrite macro_statement_eq. unfold body_end, body_rest. apply fine_bind.
  - destruct (snd _) as [|[] q]; try apply fine_ok. destruct (negb _); [|apply fine_err].
    apply fine_bind; [apply fine_gen|]. intros [[? ?] ?] _. apply fine_ok.
  - intros [more r2] _. destruct (negb _); [|apply fine_ok]. apply fine_bind; [apply fine_next|]. intros [? ?] _. apply fine_err.
Qed.

Lemma fine_params : forall args seen, fine (macro_params seen args).
Proof.
  induction args as [|a args IH]; intros seen; cbn; [apply fine_ok|]. destruct a; try apply fine_err.
  destruct (existsb _ _); [apply fine_err|]. apply fine_bind; [apply IH|]. intros ? _. apply fine_ok.
Qed.

Lemma fine_header2 ms ts : fine (parse_macro_header ms ts).
Proof.
  unfold parse_macro_header. apply fine_bind.
  { destruct ts as [|[] ?]; cbn; (apply fine_ok || apply fine_err). }
  intros [m r] _. apply fine_bind; [apply fine_name|]. intros [n r2] _. destruct (instr_exists n); [apply fine_err|].
  apply fine_bind; [apply fine_args|]. intros [args r3] _. destruct (find_macro _ _ _); [apply fine_err|].
  apply fine_bind; [apply fine_params|]. intros ps _. destruct (negb _); [|apply fine_ok].
  apply fine_bind; [apply fine_next|]. intros [? ?] _. apply fine_err.
Qed.

Lemma fine_scan : forall ls ms inside, fine (scan_macros ms inside ls).
Proof.
  induction ls as [|l ls IH]; intros ms inside; cbn [scan_macros].
  - destruct inside as [[[n p] b]|]; apply fine_ok.
  - destruct inside as [[[n p] b]|].
    + destruct (check _ l).
      * apply fine_bind; [apply fine_next|]. intros [? r] _. destruct (negb _); [|apply IH].
        apply fine_bind; [apply fine_next|]. intros [? ?] _. apply fine_err.
      * apply fine_bind; [apply fine_macro_statement|]. intros ss _. apply IH.
    + destruct (check _ l).
      * apply fine_bind; [apply fine_header2|]. intros [n p] _. apply IH.
      * apply fine_bind; [apply IH|]. intros [? ?] _. apply fine_ok.
Qed.

Lemma fine_lines : forall ls, fine (parse_lines ls).
Proof.
  induction ls as [|l ls IH]; cbn [parse_lines]; [apply fine_ok|]. apply fine_bind; [apply fine_line|]. intros a _.
  apply fine_bind; [apply IH|]. intros b _. apply fine_ok.
Qed.

Theorem parse_total ts : (exists p, parse ts = Ok p) \/ exists er, parse ts = Err er.
Proof.
  assert (F: fine (parse ts)).
  { unfold parse, parse_macros. apply fine_bind; [apply fine_scan|]. intros [? ?] _. apply fine_bind; [apply fine_lines|]. intros ? _. apply fine_ok. }
  destruct F. destruct (parse ts); eauto; congruence.
Qed.
