(** The assembler passes: /repo/src/asm.rs 232-371 and 567-698. *)
From Coq Require Import ZArith List String Ascii Bool.
From Verif Require Import Base Expr Bits Instr Ast.
Import ListNotations.
Open Scope Z_scope.

(** [add_name], /repo/src/asm.rs 567-582 (spans dropped). *)
Definition add_name (name : string) (value : Z) (m : smap Z) : outcome (smap Z) :=
  if mcontains m name then Err (NameAlreadyExists name) else Ok (minsert m name value).

(** The mutable variables of [compute_labels], /repo/src/asm.rs 597-601. *)
Record lab_state : Type := mkLab {
  l_globals : smap Z;
  l_locals : smap (smap Z);
  l_local : smap Z;
  l_current : string;
  l_pos : Z
}.

(** Loop body of [compute_labels], /repo/src/asm.rs 603-636. *)
Definition label_step (pr : profile) (s : statement) (st : lab_state) : outcome lab_state :=
  match s with
  | SDirective d =>
      let! n := dir_size pr d (l_pos st) in
      let! p := chk32 pr (l_pos st + n) in
      Ok (mkLab (l_globals st) (l_locals st) (l_local st) (l_current st) p)
  | SLabel name =>
      if is_local name then
        let! lo := add_name (lower name) (l_pos st) (l_local st) in
        Ok (mkLab (l_globals st) (l_locals st) lo (l_current st) (l_pos st))
      else
        let! gl := add_name (lower name) (l_pos st) (l_globals st) in
        Ok (mkLab gl (minsert (l_locals st) (l_current st) (l_local st)) [] (lower name) (l_pos st))
  | SInstr i =>
      let! p := chk32 pr (l_pos st + wrap32 (size i)) in
      Ok (mkLab (l_globals st) (l_locals st) (l_local st) (l_current st) p)
  | SVariable _ _ | SAlias _ _ => Ok st
  | SComment _ => Ok st
  | SMacroCall _ _ => Panic
  end.

(** The loop, /repo/src/asm.rs 602-636. *)
Fixpoint label_loop (pr : profile) (l : list statement) (st : lab_state) : outcome lab_state :=
  match l with
  | [] => Ok st
  | s :: t => let! st' := label_step pr s st in label_loop pr t st'
  end.

(** [compute_labels], /repo/src/asm.rs 596-641. *)
Definition compute_labels (pr : profile) (l : list statement) : outcome names :=
  let! st := label_loop pr l (mkLab [] [] [] EmptyString 0) in
  Ok (mkNames (l_globals st)
        (if mcontains (l_locals st) (l_current st) then l_locals st
         else minsert (l_locals st) (l_current st) (l_local st))).

(** The mutable variables of [compute_names], /repo/src/asm.rs 645-648. *)
Record nam_state : Type := mkNam { n_globals : smap Z; n_pos : Z; n_max : Z }.

(** Loop body of [compute_names], /repo/src/asm.rs 651-677. *)
Definition name_step (pr : profile) (s : statement) (st : nam_state) : outcome nam_state :=
  let! st1 :=
    match s with
    | SDirective d =>
        let! n := dir_size pr d (n_pos st) in
        let! p := chk32 pr (n_pos st + n) in
        Ok (mkNam (n_globals st) p (n_max st))
    | SLabel _ => Ok st
    | SInstr i =>
        let! p := chk32 pr (n_pos st + wrap32 (size i)) in
        Ok (mkNam (n_globals st) p (n_max st))
    | SVariable name e | SAlias name e =>
        let! v := eval pr (map_env "Name"%string (n_globals st)) e in
        let! gl := add_name (lower name) v (n_globals st) in
        Ok (mkNam gl (n_pos st) (n_max st))
    | SComment _ => Ok st
    | SMacroCall _ _ => Panic
    end in
  Ok (mkNam (n_globals st1) (n_pos st1) (if n_max st1 <? n_pos st1 then n_pos st1 else n_max st1)).

(** The loop, /repo/src/asm.rs 649-678. *)
Fixpoint name_loop (pr : profile) (l : list statement) (st : nam_state) : outcome nam_state :=
  match l with
  | [] => Ok st
  | s :: t => let! st' := name_step pr s st in name_loop pr t st'
  end.

(** [compute_names], /repo/src/asm.rs 643-698.  The final copies of the maps (679-690) drop the spans
    and are the identity here. *)
Definition compute_names (pr : profile) (l : list statement) : outcome (Z * names) :=
  let! labels := compute_labels pr l in
  let! st := name_loop pr l (mkNam (globals labels) 0 0) in
  let! m := chk32 pr (n_max st + 1) in
  Ok (wrap_usize m, mkNames (n_globals st) (locals labels)).

(** The mutable variables of [generate_bytes], /repo/src/asm.rs 242-245. *)
Record gen_state : Type := mkGen { g_out : list Z; g_pos : Z; g_current : string }.

(** [for byte in bytes { output[pos] = *byte; pos = pos + 1; }], /repo/src/asm.rs 272-275, 289-292,
    293-296 and 355-358. *)
Fixpoint emit (pr : profile) (bs : list Z) (out : list Z) (pos : Z) : outcome (list Z * Z) :=
  match bs with
  | [] => Ok (out, pos)
  | b :: t =>
      let! out' := write_at out pos b in
      let! pos' := chk_usize pr (pos + 1) in
      emit pr t out' pos'
  end.

(** One item of [.byte], /repo/src/asm.rs 254-276. *)
Definition emit_item (pr : profile) (en : env) (b : byte_value) (out : list Z) (pos : Z) : outcome (list Z * Z) :=
  match b with
  | BVExpr e =>
      let! value := eval pr en e in
      if (value <? -128) || (255 <? value) then Err (ByteOutOfRange value)
      else emit pr [Z.land value 255] out pos
  | BVString vec => emit pr vec out pos
  end.

(** The loop over the items, /repo/src/asm.rs 253-277. *)
Fixpoint emit_items (pr : profile) (en : env) (l : list byte_value) (out : list Z) (pos : Z)
  : outcome (list Z * Z) :=
  match l with
  | [] => Ok (out, pos)
  | b :: t => let! (out', pos') := emit_item pr en b out pos in emit_items pr en t out' pos'
  end.

(** The loop over the words, /repo/src/asm.rs 325-338. *)
Fixpoint emit_words (pr : profile) (en : env) (l : list expr) (out : list Z) (pos : Z) : outcome (list Z * Z) :=
  match l with
  | [] => Ok (out, pos)
  | e :: t =>
      let! value := eval pr en e in
      if (value <? -32768) || (65535 <? value) then Err (WordOutOfRange value)
      else
        let w := Z.land value 65535 in
        let! (out', pos') := emit pr [Z.land w 255; Z.land (Z.shiftr w 8) 255] out pos in
        emit_words pr en t out' pos'
  end.

(** [.text] and [.string], /repo/src/asm.rs 279-313; [pad] is the filler. *)
Definition emit_text (pr : profile) (pad size : Z) (bs : list Z) (out : list Z) (pos : Z) : outcome (list Z * Z) :=
  let len := Z.of_nat (List.length bs) in
  if size <? len then Err (NumberOfBytesIsLongerThanLength size len)
  else
    let! (out', pos') := emit pr bs out pos in
    emit pr (repeat pad (Z.to_nat (size - len))) out' pos'.

(** Directives in [generate_bytes], /repo/src/asm.rs 249-345. *)
Definition gen_dir (pr : profile) (ns : names) (d : directive) (st : gen_state) : outcome (list Z * Z) :=
  match d with
  | DByte items =>
      let! en := as_env ns "Name"%string (g_current st) in
      emit_items pr en items (g_out st) (g_pos st)
  | DText size bs => emit_text pr 32 size bs (g_out st) (g_pos st)
  | DString size bs => emit_text pr 0 size bs (g_out st) (g_pos st)
  | DOrg location =>
      if 65535 <? location then Err (InvalidCodeLocation (wrap32 location))
      else Ok (g_out st, location)
  | DWord words =>
      let! en := as_env ns "Name"%string (g_current st) in
      emit_words pr en words (g_out st) (g_pos st)
  | DInclude _ _ => Panic
  | DCnop _ _ =>
      let! n := dir_size pr d (wrap32 (g_pos st)) in
      let! p := chk_usize pr (g_pos st + wrap_usize n) in
      Ok (g_out st, p)
  end.

(** Loop body of [generate_bytes], /repo/src/asm.rs 247-369. *)
Definition gen_step (pr : profile) (ns : names) (s : statement) (st : gen_state) : outcome gen_state :=
  match s with
  | SDirective d =>
      let! (out, pos) := gen_dir pr ns d st in
      Ok (mkGen out pos (g_current st))
  | SLabel name =>
      if is_local name then Ok st else Ok (mkGen (g_out st) (g_pos st) name)
  | SInstr i =>
      let! next := chk_usize pr (g_pos st + size i) in
      let! j := eval_instr pr next (g_current st) ns i in
      let! (out, pos) := emit pr (encode j) (g_out st) (g_pos st) in
      Ok (mkGen out pos (g_current st))
  | SVariable _ _ | SAlias _ _ => Ok st
  | SComment _ => Ok st
  | SMacroCall _ _ => Panic
  end.

(** The loop, /repo/src/asm.rs 246-369. *)
Fixpoint gen_loop (pr : profile) (ns : names) (l : list statement) (st : gen_state) : outcome gen_state :=
  match l with
  | [] => Ok st
  | s :: t => let! st' := gen_step pr ns s st in gen_loop pr ns t st'
  end.

(** [generate_bytes], /repo/src/asm.rs 239-371. *)
Definition generate_bytes (pr : profile) (l : list statement) (ns : names) (out : list Z) : outcome (list Z) :=
  let! st := gen_loop pr ns l (mkGen out 0 EmptyString) in
  Ok (g_out st).

(** [vec![0; n]], /repo/src/asm.rs 234: more than [isize::MAX] bytes is a capacity-overflow panic.
    Simplified: memory exhaustion is not modelled. *)
Definition zero_vec (n : Z) : outcome (list Z) :=
  if 9223372036854775807 <? n then Panic else Ok (repeat 0 (Z.to_nat n)).

(** [assemble], /repo/src/asm.rs 232-237. *)
Definition assemble (pr : profile) (l : list statement) : outcome (list Z) :=
  let! (max_pos, ns) := compute_names pr l in
  let! n := chk_usize pr (max_pos - 1) in
  let! out := zero_vec n in
  generate_bytes pr l ns out.
