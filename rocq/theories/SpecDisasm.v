(** Specification side of the disassembler: where control can go in a binary.  Nothing here refers to
    Disasm.v. *)
From Coq Require Import ZArith List String Bool.
From Verif Require Import Base Expr Instr Ast SpecIsa SpecLex SpecAsm.
Import ListNotations.
Open Scope string_scope.
Open Scope list_scope.
Open Scope Z_scope.

(** Instruction [i] of the reference table occupies the offsets of the binary from [a] up to [b]. *)
Definition stands (bytes : list Z) (a : Z) (i : instr Z Z) (b : Z) : Prop :=
  exists pre f post, bytes = pre ++ form_bytes f (values i) ++ post /\ a = Z.of_nat (List.length pre) /\
    In f isa /\ (f_name f, f_kinds f) = key i /\ in_range i /\ b = a + Z.of_nat (List.length (f_bits f)).

(** The address meant by a jump operand [o] of an instruction followed by address [next].  This is
    [cpu_target], but the program counter is not cut to sixteen bits. *)
Definition address (k : kind) (next o : Z) : option Z :=
  match k with
  | A12 => Some ((next / 4096) mod 16 * 4096 + o)
  | A16 => Some o
  | R8 => Some (next + o)
  | R16 => Some (next - 1 + o)
  | _ => None
  end.

(** Instructions after which control never goes on to the next address. *)
Definition no_fall_through : list string := ["jmp"; "jmpf"; "br"; "brf"; "ret"; "reti"].

(** Control can go from offset [a] to offset [t] in one step: by fall-through, or by a jump, branch or
    call. *)
Inductive goes (bytes : list Z) : Z -> Z -> Prop :=
| goes_on : forall a i b, stands bytes a i b -> ~ In (fst (key i)) no_fall_through -> goes bytes a b
| goes_to : forall a i b ks k os o t, stands bytes a i b -> snd (key i) = ks ++ [k] -> values i = os ++ [o] ->
    address k b o = Some t -> goes bytes a t.

(** Reachable from an entry point. *)
Inductive reach (step : Z -> Z -> Prop) (entries : list Z) : Z -> Prop :=
| reach_entry : forall e, In e entries -> reach step entries e
| reach_step : forall a t, reach step entries a -> step a t -> reach step entries t.

(** An offset of the binary. *)
Definition inside (bytes : list Z) (a : Z) : Prop := 0 <= a < Z.of_nat (List.length bytes).

(** The instructions [not1 ext,0] at [a] and [jmpf] behind it: the jump goes to the other memory. *)
Definition memory_switch (bytes : list Z) (a : Z) : Prop :=
  exists b x c, stands bytes a (Not1 269 0) b /\ stands bytes b (Jmpf x) c.

(** Binaries of up to 1 GiB. *)
Definition moderate (bytes : list Z) : Prop := Z.of_nat (List.length bytes) <= 1073741824.

(** A step that is no jump into another memory. *)
Definition goes_here (bytes : list Z) (a t : Z) : Prop := goes bytes a t /\ ~ memory_switch bytes (a - 2).

(** ** Labels *)

(** The name in the jump operand of an instruction, if it is a name: the last operand of jumps, branches and
    calls. *)
Definition code_label (i : instr expr imode) : option string :=
  match rev (snd (key i)), rev (op_list i) with
  | (A12 | A16 | R8 | R16) :: _, inl (EName name) :: _ => Some name
  | _, _ => None
  end.

(** Where the jump operand of the machine instruction [i] leads, for the address [next] behind it. *)
Definition leads (i : instr Z Z) (next t : Z) : Prop :=
  exists ks k os o, snd (key i) = ks ++ [k] /\ values i = os ++ [o] /\ address k next o = Some t.

(** How often a label is defined. *)
Definition is_label (name : string) (s : statement) : bool :=
  match s with SLabel n => String.eqb n name | _ => false end.
Definition definitions (name : string) (l : list statement) : nat := List.length (filter (is_label name) l).

(** ** Overlaps and images *)

(** No instruction begins inside another one, for a list of positions and statements. *)
Definition no_overlap (l : list (option Z * statement)) : Prop :=
  forall p q i j, In (Some p, SInstr i) l -> In (Some q, SInstr j) l -> p < q -> p + doc_length i <= q.

(** Equal up to zeros at the end. *)
Definition same_image (a b : list Z) : Prop := exists m n, a ++ repeat 0 m = b ++ repeat 0 n.

(** Every label that an instruction jumps to is defined. *)
Definition labels_defined (l : list statement) : Prop :=
  forall i name, In (SInstr i) l -> code_label i = Some name -> In (SLabel name) l.

(** A binary whose code is in order: at each offset that control can reach stands an instruction, its jumps
    lead into the binary, and no reachable offset lies within it. *)
Definition well_behaved (bytes entries : list Z) : Prop :=
  forall a, reach (goes bytes) entries a -> inside bytes a ->
    exists i b, stands bytes a i b /\ (forall t, leads i b t -> inside bytes t) /\
      (forall c, reach (goes bytes) entries c -> inside bytes c -> a < c -> b <= c).

(** ** Data lines *)

(** The numbers of a data line with the offsets they stand for. *)
Fixpoint numbered (p : Z) (items : list byte_value) : list (Z * Z) :=
  match items with
  | [] => []
  | BVExpr (ENumber v _) :: t => (p, v) :: numbered (p + 1) t
  | _ :: t => numbered (p + 1) t
  end.

(** All data of a list of positions and statements, in order. *)
Definition data_of (l : list (option Z * statement)) : list (Z * Z) :=
  flat_map (fun d => match d with (Some p, SDirective (DByte items)) => numbered p items | _ => [] end) l.

(** The offset belongs to an instruction. *)
Definition code_offset (l : list (option Z * statement)) (o : Z) : Prop :=
  exists p i, In (Some p, SInstr i) l /\ p <= o < p + doc_length i.

(** ** Positions in remarks *)

(** The text is the number in hexadecimal, with four digits at least. *)
Definition hex_of (text : string) (p : Z) : Prop :=
  exists vs, some_digits 16 text vs /\ (4 <= List.length vs)%nat /\ positional 16 vs = p.

(** The text gives the numbers, separated by commas. *)
Definition lists_positions (text : string) (ps : list Z) : Prop :=
  exists ts, text = String.concat ", " ts /\ Forall2 hex_of ts ps.

(** The instructions at the positions [p] and [q] share an offset. *)
Definition overlapping (l : list (option Z * statement)) (p q : Z) : Prop :=
  exists i j, In (Some p, SInstr i) l /\ In (Some q, SInstr j) l /\ p <> q /\ p < q + doc_length j /\ q < p + doc_length i.
