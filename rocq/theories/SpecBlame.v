(** Which statement of an assembled program an error should point at, and where in it. *)
From Coq Require Import ZArith List String Ascii Bool.
From Verif Require Import Base Expr Instr Ast Span SpecIsa SpecExpr SpecAsm.
Import ListNotations.
Open Scope string_scope.
Open Scope list_scope.
Open Scope Z_scope.

(** The program without places. *)
Definition plainly (l : list sstatement) : list statement := map erase_statement l.

(** A variable or alias, with its place, its name and its definition. *)
Definition variable (s : sstatement) (p : pspan) (x : string) (e : sexpr) : Prop :=
  exists n, lower n = x /\ (s = SSVariable p n e \/ s = SSAlias p n e).

(** The second of two definitions of a name, and the first.  A variable always counts as the second beside a label. *)
Inductive twice (l : list sstatement) (x : string) : pspan -> pspan -> Prop :=
| twice_label : forall i j n m p q, (j < i)%nat -> nth_error l i = Some (SSLabel p n) -> nth_error l j = Some (SSLabel q m) ->
    lower n = x -> lower m = x -> is_local n = false -> is_local m = false -> twice l x p q
| twice_local : forall i j n m p q, (j < i)%nat -> nth_error l i = Some (SSLabel p n) -> nth_error l j = Some (SSLabel q m) ->
    lower n = x -> lower m = x -> is_local n = true -> is_local m = true ->
    scope_no (plainly l) i = scope_no (plainly l) j -> twice l x p q
| twice_mixed : forall i j s e m p q, nth_error l i = Some s -> variable s p x e -> nth_error l j = Some (SSLabel q m) ->
    lower m = x -> is_local m = false -> twice l x p q
| twice_variable : forall i j s t e f p q, (j < i)%nat -> nth_error l i = Some s -> variable s p x e ->
    nth_error l j = Some t -> variable t q x f -> twice l x p q.

Definition erase_op (a : sexpr + imode) : expr + imode := match a with inl e => inl (erase e) | inr m => inr m end.

(** What is wrong with a statement at address [p], under the names in force: the first item or operand without a value in
    range, a text that is too long, an origin that is too large. *)
Inductive wrong (pr : profile) (get : string -> option Z) (p : Z) : sstatement -> error -> list pspan -> Prop :=
| wrong_byte : forall s before x after e at_, Forall (fun b => exists bs, item_bytes pr get (erase_byte b) bs) before ->
    eval_s pr (mkEnv "Name" get) x = PErr e at_ -> wrong pr get p (SSDirective (SDByte s (before ++ SBExpr x :: after))) e at_
| wrong_byte_range : forall s before x after v, Forall (fun b => exists bs, item_bytes pr get (erase_byte b) bs) before ->
    eval_s pr (mkEnv "Name" get) x = POk v -> ~ -128 <= v <= 255 ->
    wrong pr get p (SSDirective (SDByte s (before ++ SBExpr x :: after))) (ByteOutOfRange v) [span_of x]
| wrong_word : forall s before x after e at_, Forall (fun w => exists bs, word_bytes pr get (erase w) bs) before ->
    eval_s pr (mkEnv "Name" get) x = PErr e at_ -> wrong pr get p (SSDirective (SDWord s (before ++ x :: after))) e at_
| wrong_word_range : forall s before x after v, Forall (fun w => exists bs, word_bytes pr get (erase w) bs) before ->
    eval_s pr (mkEnv "Name" get) x = POk v -> ~ -32768 <= v <= 65535 ->
    wrong pr get p (SSDirective (SDWord s (before ++ x :: after))) (WordOutOfRange v) [span_of x]
| wrong_text : forall s n bs, n < Z.of_nat (List.length bs) ->
    wrong pr get p (SSDirective (SDText s n bs)) (NumberOfBytesIsLongerThanLength n (Z.of_nat (List.length bs))) [s]
| wrong_string : forall s n bs, n < Z.of_nat (List.length bs) ->
    wrong pr get p (SSDirective (SDString s n bs)) (NumberOfBytesIsLongerThanLength n (Z.of_nat (List.length bs))) [s]
| wrong_org : forall s n, 65535 < n -> wrong pr get p (SSDirective (SDOrg s n)) (InvalidCodeLocation n) [s]
| wrong_operand : forall s i ks k ks2 os x os2 vs e at_, snd (key i) = ks ++ k :: ks2 -> op_list i = os ++ inl x :: os2 ->
    operands_rel pr get (p + doc_length (map_instr erase i)) ks (map erase_op os) vs ->
    eval_s pr (mkEnv (kind_word k) get) x = PErr e at_ -> wrong pr get p (SSInstr s i) e at_
| wrong_field : forall s i ks k ks2 os x os2 vs v e, snd (key i) = ks ++ k :: ks2 -> op_list i = os ++ inl x :: os2 ->
    operands_rel pr get (p + doc_length (map_instr erase i)) ks (map erase_op os) vs ->
    eval_s pr (mkEnv (kind_word k) get) x = POk v -> field_of k (p + doc_length (map_instr erase i)) v = inr e ->
    wrong pr get p (SSInstr s i) e [span_of x].

(** The error of a program: a name defined twice, an alignment that is not a number, the first variable without a value,
    or, if no name and no variable is at fault, the first statement that is wrong. *)
Inductive faulty (pr : profile) (l : list sstatement) : error -> list pspan -> Prop :=
| faulty_twice : forall x p q, twice l x p q -> faulty pr l (NameAlreadyExists x) [p; q]
| faulty_offset : forall s a m, In (SSDirective (SDCnop s a m)) l -> ~ literal (erase a) ->
    faulty pr l MustBeLiteralNumber [span_of a]
| faulty_alignment : forall s a m, In (SSDirective (SDCnop s a m)) l -> literal (erase a) -> ~ literal (erase m) ->
    faulty pr l MustBeLiteralNumber [span_of m]
| faulty_variable : forall k s p n x e at_, nth_error l k = Some s -> variable s p n x ->
    eval_s pr (mkEnv "Name" (visible pr (plainly l) k)) x = PErr e at_ ->
    (forall j t m y, (j < k)%nat -> nth_error (plainly l) j = Some t -> var_def t = Some (m, y) ->
       exists v, eval pr (mkEnv "Name" (visible pr (plainly l) j)) y = Ok v) ->
    faulty pr l e at_
| faulty_statement : forall k s get e at_, nth_error l k = Some s -> env_at pr (plainly l) k get ->
    wrong pr get (addr (firstn k (plainly l))) s e at_ ->
    (forall j t, (j < k)%nat -> nth_error (plainly l) j = Some t ->
       exists get bs, env_at pr (plainly l) j get /\ emits pr get (addr (firstn j (plainly l))) t bs) ->
    (forall x, ~ defined_twice (plainly l) x) -> vars_defined pr (plainly l) ->
    faulty pr l e at_.
