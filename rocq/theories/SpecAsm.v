(** Specification side of assembly: addresses, visible names, emitted bytes, the image. *)
From Coq Require Import ZArith List String Ascii Bool.
From Verif Require Import Base Expr Instr Ast SpecIsa SpecExpr.
Import ListNotations.
Open Scope string_scope.
Open Scope list_scope.
Open Scope Z_scope.

Definition kind_eq_dec (a b : kind) : {a = b} + {a <> b}.
Proof. decide equality. Defined.

Definition key_eq_dec (a b : string * list kind) : {a = b} + {a <> b}.
Proof. decide equality; [apply (list_eq_dec kind_eq_dec) | apply string_dec]. Defined.

(** Number of bytes of an instruction according to the documentation table. *)
Definition doc_length (i : instr expr imode) : Z :=
  match find (fun f => if key_eq_dec (f_name f, f_kinds f) (key i) then true else false) isa with
  | Some f => Z.of_nat (List.length (f_bits f))
  | None => 0
  end.

(** The least multiple of [m] that is not before [p]. *)
Definition round_up (p m : Z) : Z := m * - ((- p) / m).

Definition item_length (b : byte_value) : Z :=
  match b with BVExpr _ => 1 | BVString s => Z.of_nat (List.length s) end.

Definition sum (l : list Z) : Z := fold_right Z.add 0 l.

(** Where the location counter goes. *)
Definition advance (p : Z) (s : statement) : Z :=
  match s with
  | SDirective (DByte items) => p + sum (map item_length items)
  | SDirective (DWord ws) => p + 2 * Z.of_nat (List.length ws)
  | SDirective (DText n _) | SDirective (DString n _) => p + n
  | SDirective (DOrg l) => l
  | SDirective (DCnop (ENumber a _) (ENumber m _)) => if m =? 0 then a else a + round_up p m
  | SInstr i => p + doc_length i
  | _ => p
  end.

(** Address after the given statements; the address of statement [k] is [addr (firstn k prog)]. *)
Definition addr (l : list statement) : Z := fold_left advance l 0.

(** Greatest value of the location counter after any prefix. *)
Definition top (l : list statement) : Z :=
  fold_right Z.max 0 (map (fun k => addr (firstn k l)) (seq 0 (S (List.length l)))).

Definition global_label (s : statement) : bool :=
  match s with SLabel n => negb (is_local n) | _ => false end.

(** Number of global labels before position [k]: positions with the same number are in the same scope. *)
Definition scope_no (prog : list statement) (k : nat) : nat :=
  List.length (filter global_label (firstn k prog)).

(** The local label [x] visible at position [k]. *)
Definition local_label (prog : list statement) (k : nat) (x : string) (v : Z) : Prop :=
  exists j n, nth_error prog j = Some (SLabel n) /\ is_local n = true /\ lower n = x /\
    scope_no prog j = scope_no prog k /\ v = addr (firstn j prog).

(** The first global label called [x], looking from address [p]. *)
Fixpoint label_addr (p : Z) (l : list statement) (x : string) : option Z :=
  match l with
  | [] => None
  | s :: t =>
      match s with
      | SLabel n => if negb (is_local n) && String.eqb (lower n) x then Some p else label_addr p t x
      | _ => label_addr (advance p s) t x
      end
  end.

(** The name and definition of a variable or alias. *)
Definition var_def (s : statement) : option (string * expr) :=
  match s with SVariable n e | SAlias n e => Some (n, e) | _ => None end.

(** Global names visible to a variable definition at position [k]: all global labels, earlier variables. *)
Fixpoint visible (pr : profile) (prog : list statement) (k : nat) (x : string) : option Z :=
  match k with
  | O => label_addr 0 prog x
  | S j =>
      match nth_error prog j with
      | None => visible pr prog j x
      | Some s =>
          match var_def s with
          | None => visible pr prog j x
          | Some (n, e) =>
              if String.eqb (lower n) x then
                match eval pr (mkEnv "Name" (visible pr prog j)) e with Ok v => Some v | _ => None end
              else visible pr prog j x
          end
      end
  end.

(** [get] is the name lookup in force for operands and data at position [k]. *)
Definition env_at (pr : profile) (prog : list statement) (k : nat) (get : string -> option Z) : Prop :=
  (forall x, is_local x = false -> get x = visible pr prog (List.length prog) x) /\
  (forall x v, is_local x = true -> (get x = Some v <-> local_label prog k x v)).

Definition item_bytes (pr : profile) (get : string -> option Z) (b : byte_value) (bs : list Z) : Prop :=
  match b with
  | BVExpr e => exists v, eval pr (mkEnv "Name" get) e = Ok v /\ -128 <= v <= 255 /\ bs = [v mod 256]
  | BVString s => bs = s
  end.

Definition word_bytes (pr : profile) (get : string -> option Z) (e : expr) (bs : list Z) : Prop :=
  exists v, eval pr (mkEnv "Name" get) e = Ok v /\ -32768 <= v <= 65535 /\ bs = [v mod 256; v / 256 mod 256].

Definition padded (pad n : Z) (s bs : list Z) : Prop :=
  Z.of_nat (List.length s) <= n /\ bs = s ++ repeat pad (Z.to_nat (n - Z.of_nat (List.length s))).

Definition literal (e : expr) : Prop := exists n r, e = ENumber n r.

(** The bytes a statement at address [p] puts into the image. *)
Definition emits (pr : profile) (get : string -> option Z) (p : Z) (s : statement) (bs : list Z) : Prop :=
  match s with
  | SDirective (DByte items) => exists l, Forall2 (item_bytes pr get) items l /\ bs = List.concat l
  | SDirective (DWord ws) => exists l, Forall2 (word_bytes pr get) ws l /\ bs = List.concat l
  | SDirective (DText n t) => padded 32 n t bs
  | SDirective (DString n t) => padded 0 n t bs
  | SDirective (DOrg l) => l <= 65535 /\ bs = []
  | SDirective (DCnop a m) => literal a /\ literal m /\ bs = []
  | SDirective (DInclude _ _) => False
  | SInstr i => exists f vs, In f isa /\ (f_name f, f_kinds f) = key i /\
      operands_rel pr get (p + doc_length i) (f_kinds f) (op_list i) vs /\ bs = form_bytes f vs
  | SMacroCall _ _ => False
  | SLabel _ | SVariable _ _ | SAlias _ _ | SComment _ => bs = []
  end.

(** Statement [k], placed at its address, covers offset [o] with byte [b]. *)
Definition covers (prog : list statement) (chunks : list (list Z)) (k : nat) (o b : Z) : Prop :=
  exists bs, nth_error chunks k = Some bs /\ get_at bs (o - addr (firstn k prog)) = Some b.

(** The byte at an offset: from the last statement covering it, else zero. *)
Definition image_byte (prog : list statement) (chunks : list (list Z)) (o b : Z) : Prop :=
  (exists k, covers prog chunks k o b /\ forall j b', (k < j)%nat -> ~ covers prog chunks j o b') \/
  (b = 0 /\ forall j b', ~ covers prog chunks j o b').

(** Chunk [k] is what statement [k] emits at its address under the names in force there. *)
Definition chunks_of (pr : profile) (prog : list statement) (chunks : list (list Z)) : Prop :=
  List.length chunks = List.length prog /\
  forall k s bs, nth_error prog k = Some s -> nth_error chunks k = Some bs ->
    exists get, env_at pr prog k get /\ emits pr get (addr (firstn k prog)) s bs.

(** The global name a statement defines. *)
Definition global_def (s : statement) : option string :=
  match s with
  | SLabel n => if is_local n then None else Some (lower n)
  | SVariable n _ | SAlias n _ => Some (lower n)
  | _ => None
  end.

(** Some name is defined twice in the same scope: globally, or as a local label. *)
Definition defined_twice (prog : list statement) (x : string) : Prop :=
  (exists i j s t, i <> j /\ nth_error prog i = Some s /\ nth_error prog j = Some t /\
     global_def s = Some x /\ global_def t = Some x) \/
  (exists i j n m, i <> j /\ nth_error prog i = Some (SLabel n) /\ nth_error prog j = Some (SLabel m) /\
     is_local n = true /\ is_local m = true /\ lower n = x /\ lower m = x /\
     scope_no prog i = scope_no prog j).

(** Every variable has a value. *)
Definition vars_defined (pr : profile) (prog : list statement) : Prop :=
  forall k s n e, nth_error prog k = Some s -> var_def s = Some (n, e) ->
    exists v, eval pr (mkEnv "Name" (visible pr prog k)) e = Ok v.

(** Values have the types the Rust program gives them: sizes and origins are not negative; the literals
    of alignments come from the lexer, which produces no negative number; labels are not empty. *)
Definition typed (s : statement) : Prop :=
  match s with
  | SDirective (DOrg l) => 0 <= l
  | SDirective (DText n _) | SDirective (DString n _) => 0 <= n
  | SDirective (DCnop (ENumber a _) (ENumber m _)) => 0 <= a <= 2147483647 /\ 0 <= m <= 2147483647
  | SLabel n => n <> ""
  | _ => True
  end.

(** Alignments stay below 2^31. *)
Definition cnop_small (prog : list statement) : Prop :=
  forall k a m, nth_error prog k = Some (SDirective (DCnop a m)) -> addr (firstn (S k) prog) <= 2147483647.

(** The location counter stays below 2^31. *)
Definition layout_small (prog : list statement) : Prop :=
  forall k, 0 <= addr (firstn k prog) <= 2147483646.

(** The expressions evaluated when a statement is emitted. *)
Definition stmt_exprs (s : statement) : list expr :=
  match s with
  | SDirective (DByte items) => flat_map (fun b => match b with BVExpr e => [e] | BVString _ => [] end) items
  | SDirective (DWord ws) => ws
  | SInstr i => flat_map (fun a => match a with inl e => [e] | inr _ => [] end) (op_list i)
  | _ => []
  end.

(** Statements that are left after includes and macro calls have been processed. *)
Definition plain (s : statement) : Prop :=
  match s with SDirective (DInclude _ _) | SMacroCall _ _ => False | _ => True end.

(** The program assembles: names are unambiguous, variables have values, every statement emits bytes. *)
Definition well_formed (pr : profile) (prog : list statement) : Prop :=
  (forall x, ~ defined_twice prog x) /\ vars_defined pr prog /\
  (forall k s, nth_error prog k = Some s ->
     exists get bs, env_at pr prog k get /\ emits pr get (addr (firstn k prog)) s bs).

(** Label names as the lexer produces them. *)
Definition lower_label (s : statement) : Prop :=
  match s with SLabel n => lower n = n | _ => True end.

(** Alignments never move the location counter backwards. *)
Definition forward_cnops (prog : list statement) : Prop :=
  forall k a m, nth_error prog k = Some (SDirective (DCnop a m)) ->
    addr (firstn k prog) <= addr (firstn (S k) prog).

(** No later statement writes at offset [o]. *)
Definition untouched (prog : list statement) (k : nat) (o : Z) : Prop :=
  forall j, (k < j)%nat -> ~ (addr (firstn j prog) <= o < addr (firstn (S j) prog)).

(** No arithmetic in the program leaves the 32-bit range. *)
Definition exprs_fit (pr : profile) (prog : list statement) : Prop :=
  (forall k s n e, nth_error prog k = Some s -> var_def s = Some (n, e) ->
     lits_ok e /\ fits (visible pr prog k) e) /\
  (forall k s get e, nth_error prog k = Some s -> env_at pr prog k get -> In e (stmt_exprs s) ->
     lits_ok e /\ fits get e).

(** The origin and alignment directives, which move the counter without emitting. *)
Definition data_only (s : statement) : Prop :=
  match s with SDirective (DOrg _) | SDirective (DCnop _ _) => False | _ => True end.
