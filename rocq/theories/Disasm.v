(** The disassembler: /repo/src/disasm.rs and the [disassemble] command, /repo/src/lib.rs 476-527. *)
From Coq Require Import ZArith List String Ascii Bool.
From Verif Require Import Base Expr Instr Ast Printer.
Import ListNotations.
Open Scope string_scope.
Open Scope list_scope.
Open Scope Z_scope.

(** [DisasmError], /repo/src/disasm.rs 9-14, without [NoSuchFile]: reading the file is not modelled. *)
Inductive disasm_error : Type :=
| NoInstruction (pos byte : Z)
| UnknownFileType (name : string).

(** [Result<_, DisasmError>], as in /repo/src/disasm.rs 20; the outcome around it adds the panics. *)
Definition fallible (A : Type) : Type := outcome (A + disasm_error).

(** [InstructionGraph], /repo/src/disasm.rs 1030-1034.  The maps [jump_to] and [jump_from] hold the same
    pairs in the two directions; here is one list of pairs, from and to. *)
Record graph : Type := mkGraph {
  g_instrs : list (Z * instr Z Z);
  g_jumps : list (Z * Z)
}.

(** [InstructionGraph::new], /repo/src/disasm.rs 1058-1064. *)
Definition new_graph : graph := mkGraph [] [].

(** [HashMap::get] on a map keyed by positions, as in /repo/src/disasm.rs 68. *)
Fixpoint lookup {A : Type} (k : Z) (l : list (Z * A)) : option A :=
  match l with
  | [] => None
  | (q, v) :: t => if q =? k then Some v else lookup k t
  end.

(** [HashMap::insert], as in /repo/src/disasm.rs 1100. *)
Definition insert {A : Type} (k : Z) (v : A) (l : list (Z * A)) : list (Z * A) :=
  (k, v) :: filter (fun p => negb (fst p =? k)) l.

(** [graph.instrs().get(&pos)], /repo/src/disasm.rs 1095-1097. *)
Definition instr_at (g : graph) (pos : Z) : option (instr Z Z) := lookup pos (g_instrs g).

(** [InstructionGraph::contains_instr], /repo/src/disasm.rs 1117-1119. *)
Definition contains_instr (g : graph) (pos : Z) : bool :=
  match instr_at g pos with Some _ => true | None => false end.

(** [InstructionGraph::instr], /repo/src/disasm.rs 1099-1102. *)
Definition add_instr (g : graph) (pos : Z) (i : instr Z Z) : graph :=
  mkGraph (insert pos i (g_instrs g)) (g_jumps g).

(** Equality of pairs, for the sets of /repo/src/disasm.rs 1032-1033. *)
Definition pair_eqb (p q : Z * Z) : bool := (fst p =? fst q) && (snd p =? snd q).

(** [InstructionGraph::jump_to], /repo/src/disasm.rs 1104-1115. *)
Definition jump_to (g : graph) (from to : Z) : graph :=
  if existsb (pair_eqb (from, to)) (g_jumps g) then g
  else mkGraph (g_instrs g) ((from, to) :: g_jumps g).

(** [InstructionGraph::instr_arrived_from], /repo/src/disasm.rs 1088-1093. *)
Definition arrived_from (g : graph) (pos from : Z) : bool := existsb (pair_eqb (from, pos)) (g_jumps g).

(** The test of /repo/src/disasm.rs 359-370, 592-600 and 817-825: the instruction at [pos] follows
    [not1 ext,0], so that a [jmpf] there leaves for another memory. *)
Definition leaves (g : graph) (pos : Z) : bool :=
  if 2 <=? pos then
    match instr_at g (pos - 2) with
    | Some (Not1 d9 b3) => (d9 =? 269) && (b3 =? 0) && arrived_from g pos (pos - 2)
    | _ => false
    end
  else false.

(** [rel16], /repo/src/disasm.rs 738-740.  Simplified here and in [branch8]: the sum wraps as in a release
    build; a debug build panics instead, which takes a binary of almost 2 GiB. *)
Definition branch16 (rel next : Z) : Z := wrap_usize (wrap32 (wrap32 (rel + wrap32 next) - 1)).

(** [rel8], /repo/src/disasm.rs 742-744. *)
Definition branch8 (rel next : Z) : Z := wrap_usize (wrap32 (rel + wrap32 next)).

(** The address of a [jmp] or [call], /repo/src/disasm.rs 811-814 and 892-895. *)
Definition page_address (abs next : Z) : Z := Z.lor (Z.land next 61440) (Z.land (wrap_usize abs) 4095).

(** [targets], /repo/src/disasm.rs 746-918. *)
Definition targets (pos : Z) (i : instr Z Z) (g : graph) : list Z :=
  let next := pos + size i in
  match i with
  | Jmp a => [page_address a next]
  | Jmpf a => if leaves g pos then [] else [wrap_usize a]
  | Br r => [branch8 r next]
  | Brf r => [branch16 r next]
  | Bz r => [branch8 r next; next]
  | Bnz r => [branch8 r next; next]
  | Bp _ _ r => [branch8 r next; next]
  | Bpc _ _ r => [branch8 r next; next]
  | Bn _ _ r => [branch8 r next; next]
  | Dbnz_d9 _ r => [branch8 r next; next]
  | Dbnz_Ri _ r => [branch8 r next; next]
  | Be_i8 _ r => [branch8 r next; next]
  | Be_d9 _ r => [branch8 r next; next]
  | Be_Rj _ _ r => [branch8 r next; next]
  | Bne_i8 _ r => [branch8 r next; next]
  | Bne_d9 _ r => [branch8 r next; next]
  | Bne_Rj _ _ r => [branch8 r next; next]
  | Call a => [page_address a next; next]
  | Callf a => [wrap_usize a; next]
  | Callr r => [branch16 r next; next]
  | Ret => []
  | Reti => []
  | _ => [next]
  end.

(** The length of the binary, [bytes.len()] (/repo/src/disasm.rs 931). *)
Definition blen (bytes : list Z) : Z := Z.of_nat (List.length bytes).

(** The body of the inner loop, /repo/src/disasm.rs 931-956, for one position; [positions] is the worklist
    of the next round.  The message of line 935 is not modelled. *)
Definition visit (bytes : list Z) (pos : Z) (g : graph) (positions : list Z) : fallible (graph * list Z) :=
  if pos =? blen bytes then Ok (inl (g, positions))
  else if blen bytes <? pos then Ok (inl (g, positions))
  else
    let! decoded := decode (skipn (Z.to_nat pos) bytes) in
    match decoded with
    | Some i =>
        let ts := targets pos i g in
        let g1 := fold_left (fun acc t => jump_to acc pos t) ts g in
        let g2 := add_instr g1 pos i in
        Ok (inl (g2, positions ++ filter (fun t => negb (contains_instr g2 t)) ts))
    | None => Ok (inr (NoInstruction pos (nth (Z.to_nat pos) bytes 0)))
    end.

(** The inner loop, /repo/src/disasm.rs 930-957. *)
Fixpoint visit_all (bytes locs : list Z) (g : graph) (positions : list Z) : fallible (graph * list Z) :=
  match locs with
  | [] => Ok (inl (g, positions))
  | pos :: t =>
      let! r := visit bytes pos g positions in
      match r with
      | inl (g', positions') => visit_all bytes t g' positions'
      | inr e => Ok (inr e)
      end
  end.

(** The outer loop, /repo/src/disasm.rs 926-958, for at most [fuel] rounds. *)
Fixpoint discover (fuel : nat) (bytes positions : list Z) (g : graph) : fallible graph :=
  match positions with
  | [] => Ok (inl g)
  | _ =>
      match fuel with
      | O => Diverge
      | S f =>
          let! r := visit_all bytes positions g [] in
          match r with
          | inl (g', positions') => discover f bytes positions' g'
          | inr e => Ok (inr e)
          end
      end
  end.

(** [build_instruction_graph], /repo/src/disasm.rs 920-960. *)
Definition build_instruction_graph (fuel : nat) (entry_points bytes : list Z) : fallible graph :=
  discover fuel bytes entry_points new_graph.

(** [{:04x}] of a [usize], /repo/src/disasm.rs 281-283. *)
Definition show_usize_hex_lower (n : Z) : string := pad_zeros 4 (natural digit_char_lower 16 n).

(** [Names], /repo/src/disasm.rs 962-966. *)
Record dnames : Type := mkDnames {
  n_labels : list (Z * string);
  n_psw_bits : list (Z * string);
  n_aliases : list (Z * string)
}.

(** [compute_bit_aliases], /repo/src/disasm.rs 210-218. *)
Definition psw_bits : list (Z * string) :=
  fold_left (fun acc p => insert (snd p) (fst p) acc)
    [("cy", 7); ("ac", 6); ("irbk1", 4); ("irbk0", 3); ("ov", 2); ("rambk0", 1); ("p", 0)] [].

(** The registers named one by one in [compute_aliases], /repo/src/disasm.rs 221-277. *)
Definition register_table : list (string * Z) :=
  [("acc", 256); ("psw", 257); ("b", 258); ("c", 259); ("trl", 260); ("trh", 261); ("sp", 262); ("pcon", 263);
   ("ie", 264); ("ip", 265); ("ext", 269); ("ocr", 270); ("t0con", 272); ("t0prr", 273); ("t0l", 274);
   ("t0lr", 275); ("t0h", 276); ("t0hr", 277); ("t1cnt", 280); ("t1lc", 282); ("t1l", 283); ("t1lr", 283);
   ("t1hc", 284); ("t1h", 285); ("t1hr", 285); ("mcr", 288); ("stad", 290); ("cnr", 291); ("tdr", 292);
   ("xbnk", 293); ("vccr", 295); ("scon0", 304); ("sbuf0", 305); ("sbr", 306); ("scon1", 308); ("sbuf1", 309);
   ("p1", 324); ("p1ddr", 325); ("p1fcr", 326); ("p3", 332); ("p3ddr", 333); ("p3int", 334); ("fpr", 340);
   ("p7", 348); ("i01cr", 349); ("i23cr", 350); ("isl", 351); ("mplsw", 352); ("mplsta", 353); ("mplrst", 354);
   ("vsel", 355); ("vrmad1", 356); ("vrmad2", 357); ("vtrbf", 358); ("vlreg", 359); ("btcr", 383); ("xram", 384)].

(** The loop for the remaining registers, /repo/src/disasm.rs 278-286. *)
Definition fill_alias (acc : list (Z * string)) (loc : Z) : list (Z * string) :=
  match lookup loc acc with
  | Some _ => acc
  | None =>
      if (384 <=? loc) && (loc <=? 507) then insert loc ("xram_" ++ show_usize_hex_lower loc)%string acc
      else insert loc ("sfr_" ++ show_usize_hex_lower loc)%string acc
  end.

(** [compute_aliases], /repo/src/disasm.rs 220-287. *)
Definition aliases : list (Z * string) :=
  fold_left fill_alias (map (fun k => 256 + Z.of_nat k) (seq 0 256))
    (fold_left (fun acc p => insert (snd p) (fst p) acc) register_table []).

(** The name of [Names::gen_label], /repo/src/disasm.rs 1013. *)
Definition label_name (pos : Z) : string := ("label_" ++ show_usize_hex pos)%string.

(** [Names::gen_label], /repo/src/disasm.rs 1011-1015. *)
Definition gen_label (ls : list (Z * string)) (pos : Z) : list (Z * string) :=
  match lookup pos ls with
  | Some _ => ls
  | None => insert pos (label_name pos) ls
  end.

(** The body of the loop of [compute_labels], /repo/src/disasm.rs 290-467. *)
Definition label_of (g : graph) (ls : list (Z * string)) (p : Z * instr Z Z) : list (Z * string) :=
  let (pos, i) := p in
  let next := pos + size i in
  match i with
  | Jmp a => gen_label ls (page_address a next)
  | Jmpf a => if leaves g pos then ls else gen_label ls (wrap_usize a)
  | Br r => gen_label ls (branch8 r next)
  | Brf r => gen_label ls (branch16 r next)
  | Bz r => gen_label ls (branch8 r next)
  | Bnz r => gen_label ls (branch8 r next)
  | Bp _ _ r => gen_label ls (branch8 r next)
  | Bpc _ _ r => gen_label ls (branch8 r next)
  | Bn _ _ r => gen_label ls (branch8 r next)
  | Dbnz_d9 _ r => gen_label ls (branch8 r next)
  | Dbnz_Ri _ r => gen_label ls (branch8 r next)
  | Be_i8 _ r => gen_label ls (branch8 r next)
  | Be_d9 _ r => gen_label ls (branch8 r next)
  | Be_Rj _ _ r => gen_label ls (branch8 r next)
  | Bne_i8 _ r => gen_label ls (branch8 r next)
  | Bne_d9 _ r => gen_label ls (branch8 r next)
  | Bne_Rj _ _ r => gen_label ls (branch8 r next)
  | Call a => gen_label ls (page_address a next)
  | Callf a => gen_label ls (wrap_usize a)
  | Callr r => gen_label ls (branch16 r next)
  | _ => ls
  end.

(** [compute_labels], /repo/src/disasm.rs 289-468.  The code goes through the instructions in the order of
    the hash map; every order gives the same map. *)
Definition compute_labels (g : graph) : list (Z * string) := fold_left (label_of g) (g_instrs g) [].

(** [build_names], /repo/src/disasm.rs 202-208. *)
Definition build_names (g : graph) : dnames := mkDnames (compute_labels g) psw_bits aliases.

(** [Expr::num], /repo/src/expression.rs 79-81. *)
Definition hex (n : Z) : expr := ENumber n Hex.

(** [label_expr], /repo/src/disasm.rs 165-170. *)
Definition label_expr (n : dnames) (addr : Z) : expr :=
  match lookup addr (n_labels n) with Some name => EName name | None => hex (wrap32 addr) end.

(** [mem_expr], /repo/src/disasm.rs 172-177. *)
Definition mem_expr (n : dnames) (addr : Z) : expr :=
  match lookup (wrap_usize addr) (n_aliases n) with Some name => EName name | None => hex addr end.

(** [bits_expr], /repo/src/disasm.rs 179-188. *)
Definition bits_expr (n : dnames) (mem addr : Z) : expr :=
  if mem =? 257 then
    match lookup (wrap_usize addr) (n_psw_bits n) with Some name => EName name | None => hex addr end
  else hex addr.

(** [IndirectionMode::from], /repo/src/expression.rs 533-541. *)
Definition mode (n : Z) : outcome imode := match imode_from n with Some m => Ok m | None => Panic end.

(** [lift_instr], /repo/src/disasm.rs 470-736. *)
Definition lift_instr (pos : Z) (g : graph) (i : instr Z Z) (n : dnames) : outcome (instr expr imode) :=
  let next := pos + size i in
  match i with
  | Add_i8 v => Ok (Add_i8 (hex v))
  | Add_d9 d => Ok (Add_d9 (mem_expr n d))
  | Add_Ri r => let! m := mode r in Ok (Add_Ri m)
  | Addc_i8 v => Ok (Addc_i8 (hex v))
  | Addc_d9 d => Ok (Addc_d9 (mem_expr n d))
  | Addc_Ri r => let! m := mode r in Ok (Addc_Ri m)
  | Sub_i8 v => Ok (Sub_i8 (hex v))
  | Sub_d9 d => Ok (Sub_d9 (mem_expr n d))
  | Sub_Ri r => let! m := mode r in Ok (Sub_Ri m)
  | Subc_i8 v => Ok (Subc_i8 (hex v))
  | Subc_d9 d => Ok (Subc_d9 (mem_expr n d))
  | Subc_Ri r => let! m := mode r in Ok (Subc_Ri m)
  | Inc_d9 d => Ok (Inc_d9 (mem_expr n d))
  | Inc_Ri r => let! m := mode r in Ok (Inc_Ri m)
  | Dec_d9 d => Ok (Dec_d9 (mem_expr n d))
  | Dec_Ri r => let! m := mode r in Ok (Dec_Ri m)
  | Mul => Ok Mul
  | Div => Ok Div
  | And_i8 v => Ok (And_i8 (hex v))
  | And_d9 d => Ok (And_d9 (mem_expr n d))
  | And_Ri r => let! m := mode r in Ok (And_Ri m)
  | Or_i8 v => Ok (Or_i8 (hex v))
  | Or_d9 d => Ok (Or_d9 (mem_expr n d))
  | Or_Ri r => let! m := mode r in Ok (Or_Ri m)
  | Xor_i8 v => Ok (Xor_i8 (hex v))
  | Xor_d9 d => Ok (Xor_d9 (mem_expr n d))
  | Xor_Ri r => let! m := mode r in Ok (Xor_Ri m)
  | Rol => Ok Rol
  | Rolc => Ok Rolc
  | Ror => Ok Ror
  | Rorc => Ok Rorc
  | Ld_d9 d => Ok (Ld_d9 (mem_expr n d))
  | Ld_Ri r => let! m := mode r in Ok (Ld_Ri m)
  | St_d9 d => Ok (St_d9 (mem_expr n d))
  | St_Ri r => let! m := mode r in Ok (St_Ri m)
  | Mov_d9 v d => Ok (Mov_d9 (hex v) (mem_expr n d))
  | Mov_Rj v r => let! m := mode r in Ok (Mov_Rj (hex v) m)
  | Ldc => Ok Ldc
  | Push d => Ok (Push (mem_expr n d))
  | Pop d => Ok (Pop (mem_expr n d))
  | Xch_d9 d => Ok (Xch_d9 (mem_expr n d))
  | Xch_Ri r => let! m := mode r in Ok (Xch_Ri m)
  | Jmp a => Ok (Jmp (label_expr n (page_address a next)))
  | Jmpf a => if leaves g pos then Ok (Jmpf (hex (wrap32 (wrap_usize a)))) else Ok (Jmpf (label_expr n (wrap_usize a)))
  | Br r => Ok (Br (label_expr n (branch8 r next)))
  | Brf r => Ok (Brf (label_expr n (branch16 r next)))
  | Bz r => Ok (Bz (label_expr n (branch8 r next)))
  | Bnz r => Ok (Bnz (label_expr n (branch8 r next)))
  | Bp d b r => Ok (Bp (mem_expr n d) (bits_expr n d b) (label_expr n (branch8 r next)))
  | Bpc d b r => Ok (Bpc (mem_expr n d) (bits_expr n d b) (label_expr n (branch8 r next)))
  | Bn d b r => Ok (Bn (mem_expr n d) (bits_expr n d b) (label_expr n (branch8 r next)))
  | Dbnz_d9 d r => Ok (Dbnz_d9 (mem_expr n d) (label_expr n (branch8 r next)))
  | Dbnz_Ri k r => let! m := mode k in Ok (Dbnz_Ri m (label_expr n (branch8 r next)))
  | Be_i8 v r => Ok (Be_i8 (hex v) (label_expr n (branch8 r next)))
  | Be_d9 d r => Ok (Be_d9 (mem_expr n d) (label_expr n (branch8 r next)))
  | Be_Rj k v r => let! m := mode k in Ok (Be_Rj m (hex v) (label_expr n (branch8 r next)))
  | Bne_i8 v r => Ok (Bne_i8 (hex v) (label_expr n (branch8 r next)))
  | Bne_d9 d r => Ok (Bne_d9 (mem_expr n d) (label_expr n (branch8 r next)))
  | Bne_Rj k v r => let! m := mode k in Ok (Bne_Rj m (hex v) (label_expr n (branch8 r next)))
  | Call a => Ok (Call (label_expr n (page_address a next)))
  | Callf a => Ok (Callf (label_expr n (wrap_usize a)))
  | Callr r => Ok (Callr (label_expr n (branch16 r next)))
  | Ret => Ok Ret
  | Reti => Ok Reti
  | Clr1 d b => Ok (Clr1 (mem_expr n d) (bits_expr n d b))
  | Set1 d b => Ok (Set1 (mem_expr n d) (bits_expr n d b))
  | Not1 d b => Ok (Not1 (mem_expr n d) (bits_expr n d b))
  | Nop => Ok Nop
  | Ldf => Ok Ldf
  | Stf => Ok Stf
  end.

(** [InstructionGraph::lift_instrs], /repo/src/disasm.rs 1037-1055. *)
Fixpoint lift_instrs (g : graph) (n : dnames) (l : list (Z * instr Z Z)) : outcome (list (Z * instr expr imode)) :=
  match l with
  | [] => Ok []
  | (pos, i) :: t =>
      let! j := lift_instr pos g i n in
      let! r := lift_instrs g n t in
      Ok ((pos, j) :: r)
  end.

(** [build_byte_mask], /repo/src/disasm.rs 190-200.  The vector is a predicate here; the indices are in
    bounds because [decode] only reads bytes that exist. *)
Definition masked (l : list (Z * instr expr imode)) (p : Z) : bool :=
  existsb (fun e => (fst e <=? p) && (p <? fst e + size (snd e))) l.

(** [InstructionGraph::find_overlaps], /repo/src/disasm.rs 1066-1086; the range [1..2] of line 1069 has the
    one element 1. *)
Definition find_overlaps (l : list (Z * instr expr imode)) (pos : Z) : list Z :=
  match lookup pos l with
  | None => []
  | Some i =>
      (if 1 <=? pos then
         match lookup (pos - 1) l with
         | Some i2 => if pos <=? size i2 + (pos - 1) - 1 then [pos - 1] else []
         | None => []
         end
       else []) ++
      filter (fun q => match lookup q l with Some _ => true | None => false end)
        (map (fun k => Z.of_nat k + pos) (seq 1 (Z.to_nat (size i) - 1)))
  end.

(** [DStatement], /repo/src/disasm.rs 1174-1178. *)
Record dstatement : Type := mkD { d_pos : option Z; d_statement : statement; d_comment : option string }.

(** [DStatement::comment], /repo/src/disasm.rs 1256-1258. *)
Definition d_remark (c : string) : dstatement := mkD None (SComment c) None.

(** [DStatement::org], /repo/src/disasm.rs 1248-1254. *)
Definition d_org (pos : Z) : dstatement := mkD (Some pos) (SDirective (DOrg pos)) None.

(** [DStatement::label], /repo/src/disasm.rs 1264-1266. *)
Definition d_label (name : string) : dstatement := mkD None (SLabel name) None.

(** [DStatement::alias], /repo/src/disasm.rs 1240-1246. *)
Definition d_alias (name : string) (value : expr) : dstatement := mkD None (SAlias name value) None.

(** [DStatement::cnop], /repo/src/disasm.rs 1228-1238. *)
Definition d_cnop (add multiple : Z) : dstatement :=
  mkD None (SDirective (DCnop (hex (wrap32 add)) (hex (wrap32 multiple)))) None.

(** [push_instr] and [push_instr_cmt], /repo/src/disasm.rs 1153-1167, with [DStatement::instr] and
    [plus_comment], 1260-1262 and 1268-1286: there is no older comment. *)
Definition d_instr (pos : Z) (i : instr expr imode) (cmt : option string) : dstatement := mkD (Some pos) (SInstr i) cmt.

(** The text shown for one byte, /repo/src/disasm.rs 1194-1206. *)
Definition byte_text (b : Z) : string :=
  if (32 <=? b) && (b <=? 126) then String (ascii_of_nat (Z.to_nat b)) ""
  else if b =? 9 then "\t"
  else if b =? 10 then "\n"
  else if b =? 13 then "\r"
  else ".".

(** [DStatement::bytes], /repo/src/disasm.rs 1189-1214. *)
Definition d_bytes (pos : Z) (bytes : list Z) : dstatement :=
  mkD (Some pos) (SDirective (DByte (map (fun b => BVExpr (hex b)) bytes)))
    (if existsb (fun b => (32 <=? b) && (b <=? 126)) bytes then Some (String.concat "" (map byte_text bytes)) else None).

(** [all_zeros], /repo/src/disasm.rs 140-147. *)
Definition all_zeros (bytes : list Z) : bool := forallb (fun b => b =? 0) bytes.

(** [byte_range], /repo/src/disasm.rs 157-163: the bytes from [pos] up to the next one of an instruction;
    [bytes] is what follows [pos]. *)
Fixpoint byte_range (mask : Z -> bool) (pos : Z) (bytes : list Z) : list Z :=
  match bytes with
  | [] => []
  | b :: t => if mask pos then [] else b :: byte_range mask (pos + 1) t
  end.

(** [read_chunk(.., 16)], /repo/src/disasm.rs 149-155. *)
Definition read_chunk (bytes : list Z) : list Z := firstn 16 bytes.

(** The list of positions in the comments, /repo/src/disasm.rs 57-66 and 73-82. *)
Definition position_list (l : list Z) : string := String.concat ", " (map show_usize_hex l).

(** Insertion into a sorted list, for the sort of /repo/src/disasm.rs 72. *)
Fixpoint sort_insert (x : Z) (l : list Z) : list Z :=
  match l with [] => [x] | y :: t => if x <=? y then x :: l else y :: sort_insert x t end.

(** [vec.sort()], /repo/src/disasm.rs 72, as insertion sort: equal positions do not differ. *)
Definition sort (l : list Z) : list Z := fold_right sort_insert [] l.

(** The comment on where an instruction is reached from, /repo/src/disasm.rs 69-90. *)
Definition arrival_comment (flag : bool) (g : graph) (pos : Z) : option string :=
  let froms := map fst (filter (fun p => snd p =? pos) (g_jumps g)) in
  if flag then
    match froms with
    | [] => None
    | _ => Some ("Arrived from: " ++ position_list (sort froms))%string
    end
  else None.

(** What the loop over the positions reads and does not change, /repo/src/disasm.rs 21-34. *)
Record listing : Type := mkListing {
  l_flag : bool;
  l_entries : list Z;
  l_bytes : list Z;
  l_graph : graph;
  l_lifted : list (Z * instr expr imode);
  l_names : dnames
}.

(** [entry_points.contains(&pos)], /repo/src/disasm.rs 40. *)
Definition is_entry (c : listing) (pos : Z) : bool := existsb (Z.eqb pos) (l_entries c).

(** The first part of the loop body, /repo/src/disasm.rs 40-44. *)
Definition entry_part (c : listing) (pos : Z) : list dstatement :=
  if is_entry c pos then [d_remark ""; d_remark "Entry point"; d_org pos] else [].

(** The arm for an instruction, /repo/src/disasm.rs 46-95; [written] is [written_mask]. *)
Definition instr_part (c : listing) (written : Z -> bool) (pos : Z) (i : instr expr imode) : list dstatement :=
  (if (0 <? pos) && negb (masked (l_lifted c) (pos - 1)) && negb (is_entry c pos) then
     d_remark "" :: (if written (pos - 1) then [] else [d_org pos])
   else []) ++
  (match lookup pos (n_labels (l_names c)) with Some name => [d_label name] | None => [] end) ++
  (match find_overlaps (l_lifted c) pos with
   | [] => []
   | o => [d_remark ("Overlaps with: " ++ position_list o)%string]
   end) ++
  [d_instr pos i (arrival_comment (l_flag c) (l_graph c) pos)].

(** The arm for data, /repo/src/disasm.rs 98-112, for a chunk that is not all zeros. *)
Definition data_part (c : listing) (written : Z -> bool) (pos : Z) (chunk : list Z) : list dstatement :=
  (if (0 <? pos) && masked (l_lifted c) (pos - 1) then [d_remark ""] else []) ++
  (if (0 <? pos) && negb (written (pos - 1)) && negb (masked (l_lifted c) (pos - 1)) then [d_remark ""; d_org pos] else []) ++
  [d_bytes pos chunk].

(** [written_mask[pos + idx] = true] for the bytes of a chunk, /repo/src/disasm.rs 109-111. *)
Definition mark (written : Z -> bool) (pos len : Z) : Z -> bool := fun p => ((pos <=? p) && (p <? pos + len)) || written p.

(** The loop over the positions, /repo/src/disasm.rs 39-121. *)
Fixpoint emit (fuel : nat) (c : listing) (written : Z -> bool) (pos : Z) : outcome (list dstatement) :=
  if pos <? blen (l_bytes c) then
    match fuel with
    | O => Diverge
    | S f =>
        match lookup pos (l_lifted c) with
        | Some i =>
            let! r := emit f c written (pos + 1) in
            Ok (entry_part c pos ++ instr_part c written pos i ++ r)
        | None =>
            if masked (l_lifted c) pos then
              let! r := emit f c written (pos + 1) in
              Ok (entry_part c pos ++ r)
            else
              let chunk := read_chunk (byte_range (masked (l_lifted c)) pos (skipn (Z.to_nat pos) (l_bytes c))) in
              let n := blen chunk in
              if all_zeros chunk then
                let! r := emit f c written (pos + n) in
                Ok (entry_part c pos ++ r)
              else
                let! r := emit f c (mark written pos n) (pos + n) in
                Ok (entry_part c pos ++ data_part c written pos chunk ++ r)
        end
    end
  else Ok [].

(** Insertion by position, for the sorts of /repo/src/disasm.rs 982 and 991. *)
Fixpoint sort_pair (x : Z * string) (l : list (Z * string)) : list (Z * string) :=
  match l with [] => [x] | y :: t => if fst x <=? fst y then x :: l else y :: sort_pair x t end.

(** [sorted_psw_bits] and [sorted_aliases], /repo/src/disasm.rs 977-993. *)
Definition sorted_pairs (l : list (Z * string)) : list (Z * string) := fold_right sort_pair [] l.

(** The text that starts the comments of /repo/src/disasm.rs 123-131. *)
Definition newline : string := String "010" "".

(** The end of the listing, /repo/src/disasm.rs 123-134. *)
Definition tail_part (c : listing) : list dstatement :=
  [d_remark (newline ++ "Pad size of binary"); d_cnop (blen (l_bytes c) mod 512) 512;
   d_remark (newline ++ "PSW bits")] ++
  map (fun p => d_alias (snd p) (hex (wrap32 (fst p)))) (sorted_pairs (n_psw_bits (l_names c))) ++
  [d_remark (newline ++ "Special Function Registers")] ++
  map (fun p => d_alias (snd p) (hex (wrap32 (fst p)))) (sorted_pairs (n_aliases (l_names c))).

(** [disassemble], /repo/src/disasm.rs 16-135. *)
Definition disassemble (fuel : nat) (flag : bool) (entry_points bytes : list Z) : fallible (list dstatement) :=
  let! r := build_instruction_graph fuel entry_points bytes in
  match r with
  | inr e => Ok (inr e)
  | inl g =>
      let n := build_names g in
      let! lifted := lift_instrs g n (g_instrs g) in
      let c := mkListing flag entry_points bytes g lifted n in
      let! r := emit (S (List.length bytes)) c (fun _ => false) 0 in
      Ok (inl (r ++ tail_part c))
  end.

(** A line of the listing, /repo/src/lib.rs 511-523. *)
Definition show_dstatement (positions : bool) (d : dstatement) : string :=
  ((if positions then match d_pos d with Some p => show_usize_hex p ++ "| " | None => "    | " end else "") ++
   show_statement (d_statement d) ++
   (match d_comment d with Some c => " ; " ++ c | None => "" end) ++ newline)%string.

(** The entry points of the file types, /repo/src/lib.rs 492-507. *)
Definition entry_points_of (file_type : string) : option (list Z) :=
  if String.eqb file_type "game" || String.eqb file_type "file" || String.eqb file_type "raw" then
    Some [0; 3; 11; 19; 27; 35; 43; 51; 59; 67; 75; 304]
  else if String.eqb file_type "bios" then
    Some [0; 3; 11; 19; 27; 35; 43; 51; 59; 67; 75; 304; 256; 264; 272; 288; 304; 320; 496]
  else None.

(** [disassemble_cmd], /repo/src/lib.rs 476-527, from the contents of the file to the text written. *)
Definition disassemble_cmd (fuel : nat) (positions flag : bool) (file_type : string) (bytes : list Z) : fallible string :=
  match entry_points_of file_type with
  | None => Ok (inr (UnknownFileType file_type))
  | Some entries =>
      let! r := disassemble fuel flag entries bytes in
      match r with
      | inr e => Ok (inr e)
      | inl l => Ok (inl (String.concat "" (map (show_dstatement positions) l)))
      end
  end.
