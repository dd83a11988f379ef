(** The assembler passes with the spans they report: /repo/src/asm.rs 232-371 and 567-698, /repo/src/instruction.rs
    348-538 and /repo/src/ast.rs 240-286. *)
From Coq Require Import ZArith List String Ascii Bool.
From Verif Require Import Base Expr Bits Instr Ast Asm Span.
Import ListNotations.
Open Scope Z_scope.

(** A computation of the model without spans, used where the code makes no error (wrapping arithmetic, writing to the
    output, environments: /repo/src/asm.rs 234-371) or one that carries no span (/repo/src/files.rs 60-76, /repo/src/img.rs 553-635). *)
Definition no_place {A : Type} (x : outcome A) : placed A :=
  match x with
  | Ok a => POk a
  | Err e => PErr e []
  | Panic => PPanic
  | Diverge => PDiverge
  end.

(** [eval] with a number of bits, /repo/src/instruction.rs 348-355. *)
Definition eval_bits_s (pr : profile) (en : env) (bits : Z) (e : sexpr) : placed Z :=
  let? value := eval_s pr en e in
  if negb (Z.shiftr value bits =? 0) then PErr (NumOutOfRange bits value) [span_of e] else POk value.

(** [rel8], /repo/src/instruction.rs 373-385. *)
Definition rel8_s (pr : profile) (en : env) (pos : Z) (e : sexpr) : placed Z :=
  let? address := eval_s pr en e in
  if (0 <=? address) && (address <=? 65535) then
    let? value := no_place (chk32 pr (address - wrap32 pos)) in
    if (-128 <=? value) && (value <=? 127) then POk value
    else PErr (SignedNumOutOfRange 8 value) [span_of e]
  else PErr (InvalidAddress address) [span_of e].

(** [eval12], /repo/src/instruction.rs 387-403. *)
Definition eval12_s (pr : profile) (en : env) (pos : Z) (e : sexpr) : placed Z :=
  let? addr := eval_bits_s pr en 16 e in
  let val_top := Z.land addr 61440 in
  let pos_top := Z.land pos 61440 in
  let value := Z.land addr 4095 in
  if negb (val_top =? pos_top)
  then PErr (AddrBitsDontMatch pos addr (Z.land (Z.shiftr pos_top 12) 255) (Z.land (Z.shiftr val_top 12) 255)) [span_of e]
  else POk value.

(** [rel16], /repo/src/instruction.rs 405-417. *)
Definition rel16_s (pr : profile) (en : env) (pos : Z) (e : sexpr) : placed Z :=
  let? address := eval_s pr en e in
  if (0 <=? address) && (address <=? 65535) then
    let? diff := no_place (chk32 pr (address - wrap32 pos)) in
    let? value := no_place (chk32 pr (diff + 1)) in
    if (-32768 <=? value) && (value <=? 32767) then POk value
    else PErr (SignedNumOutOfRange 16 value) [span_of e]
  else PErr (InvalidAddress address) [span_of e].

(** [Instr::eval], /repo/src/instruction.rs 421-538; [pos] is the position after the instruction. *)
Definition eval_instr_s (pr : profile) (pos : Z) (label : string) (ns : names) (i : instr sexpr imode)
  : placed (instr Z Z) :=
  let? nenv := no_place (as_env ns "Name" label) in
  let? venv := no_place (as_env ns "Variable" label) in
  let? lenv := no_place (as_env ns "Label" label) in
  match i with
  | Add_i8 a => let? a' := eval_bits_s pr nenv 8 a in POk (Add_i8 a')
  | Add_d9 a => let? a' := eval_bits_s pr venv 9 a in POk (Add_d9 a')
  | Add_Ri a => POk (Add_Ri (imode_index a))
  | Addc_i8 a => let? a' := eval_bits_s pr nenv 8 a in POk (Addc_i8 a')
  | Addc_d9 a => let? a' := eval_bits_s pr venv 9 a in POk (Addc_d9 a')
  | Addc_Ri a => POk (Addc_Ri (imode_index a))
  | Sub_i8 a => let? a' := eval_bits_s pr nenv 8 a in POk (Sub_i8 a')
  | Sub_d9 a => let? a' := eval_bits_s pr venv 9 a in POk (Sub_d9 a')
  | Sub_Ri a => POk (Sub_Ri (imode_index a))
  | Subc_i8 a => let? a' := eval_bits_s pr nenv 8 a in POk (Subc_i8 a')
  | Subc_d9 a => let? a' := eval_bits_s pr venv 9 a in POk (Subc_d9 a')
  | Subc_Ri a => POk (Subc_Ri (imode_index a))
  | Inc_d9 a => let? a' := eval_bits_s pr venv 9 a in POk (Inc_d9 a')
  | Inc_Ri a => POk (Inc_Ri (imode_index a))
  | Dec_d9 a => let? a' := eval_bits_s pr venv 9 a in POk (Dec_d9 a')
  | Dec_Ri a => POk (Dec_Ri (imode_index a))
  | Mul => POk Mul
  | Div => POk Div
  | And_i8 a => let? a' := eval_bits_s pr nenv 8 a in POk (And_i8 a')
  | And_d9 a => let? a' := eval_bits_s pr venv 9 a in POk (And_d9 a')
  | And_Ri a => POk (And_Ri (imode_index a))
  | Or_i8 a => let? a' := eval_bits_s pr nenv 8 a in POk (Or_i8 a')
  | Or_d9 a => let? a' := eval_bits_s pr venv 9 a in POk (Or_d9 a')
  | Or_Ri a => POk (Or_Ri (imode_index a))
  | Xor_i8 a => let? a' := eval_bits_s pr nenv 8 a in POk (Xor_i8 a')
  | Xor_d9 a => let? a' := eval_bits_s pr venv 9 a in POk (Xor_d9 a')
  | Xor_Ri a => POk (Xor_Ri (imode_index a))
  | Rol => POk Rol
  | Rolc => POk Rolc
  | Ror => POk Ror
  | Rorc => POk Rorc
  | Ld_d9 a => let? a' := eval_bits_s pr venv 9 a in POk (Ld_d9 a')
  | Ld_Ri a => POk (Ld_Ri (imode_index a))
  | St_d9 a => let? a' := eval_bits_s pr venv 9 a in POk (St_d9 a')
  | St_Ri a => POk (St_Ri (imode_index a))
  | Mov_d9 a b => let? a' := eval_bits_s pr nenv 8 a in let? b' := eval_bits_s pr venv 9 b in POk (Mov_d9 a' b')
  | Mov_Rj a b => let? a' := eval_bits_s pr nenv 8 a in POk (Mov_Rj a' (imode_index b))
  | Ldc => POk Ldc
  | Push a => let? a' := eval_bits_s pr venv 9 a in POk (Push a')
  | Pop a => let? a' := eval_bits_s pr venv 9 a in POk (Pop a')
  | Xch_d9 a => let? a' := eval_bits_s pr venv 9 a in POk (Xch_d9 a')
  | Xch_Ri a => POk (Xch_Ri (imode_index a))
  | Jmp a => let? a' := eval12_s pr lenv pos a in POk (Jmp a')
  | Jmpf a => let? a' := eval_bits_s pr lenv 16 a in POk (Jmpf a')
  | Br a => let? a' := rel8_s pr lenv pos a in POk (Br a')
  | Brf a => let? a' := rel16_s pr lenv pos a in POk (Brf a')
  | Bz a => let? a' := rel8_s pr lenv pos a in POk (Bz a')
  | Bnz a => let? a' := rel8_s pr lenv pos a in POk (Bnz a')
  | Bp a b c => let? a' := eval_bits_s pr venv 9 a in let? b' := eval_bits_s pr nenv 3 b in let? c' := rel8_s pr lenv pos c in POk (Bp a' b' c')
  | Bpc a b c => let? a' := eval_bits_s pr venv 9 a in let? b' := eval_bits_s pr nenv 3 b in let? c' := rel8_s pr lenv pos c in POk (Bpc a' b' c')
  | Bn a b c => let? a' := eval_bits_s pr venv 9 a in let? b' := eval_bits_s pr nenv 3 b in let? c' := rel8_s pr lenv pos c in POk (Bn a' b' c')
  | Dbnz_d9 a b => let? a' := eval_bits_s pr venv 9 a in let? b' := rel8_s pr lenv pos b in POk (Dbnz_d9 a' b')
  | Dbnz_Ri a b => let? b' := rel8_s pr lenv pos b in POk (Dbnz_Ri (imode_index a) b')
  | Be_i8 a b => let? a' := eval_bits_s pr nenv 8 a in let? b' := rel8_s pr lenv pos b in POk (Be_i8 a' b')
  | Be_d9 a b => let? a' := eval_bits_s pr venv 9 a in let? b' := rel8_s pr lenv pos b in POk (Be_d9 a' b')
  | Be_Rj a b c => let? b' := eval_bits_s pr nenv 8 b in let? c' := rel8_s pr lenv pos c in POk (Be_Rj (imode_index a) b' c')
  | Bne_i8 a b => let? a' := eval_bits_s pr nenv 8 a in let? b' := rel8_s pr lenv pos b in POk (Bne_i8 a' b')
  | Bne_d9 a b => let? a' := eval_bits_s pr venv 9 a in let? b' := rel8_s pr lenv pos b in POk (Bne_d9 a' b')
  | Bne_Rj a b c => let? b' := eval_bits_s pr nenv 8 b in let? c' := rel8_s pr lenv pos c in POk (Bne_Rj (imode_index a) b' c')
  | Call a => let? a' := eval12_s pr lenv pos a in POk (Call a')
  | Callf a => let? a' := eval_bits_s pr lenv 16 a in POk (Callf a')
  | Callr a => let? a' := rel16_s pr lenv pos a in POk (Callr a')
  | Ret => POk Ret
  | Reti => POk Reti
  | Clr1 a b => let? a' := eval_bits_s pr venv 9 a in let? b' := eval_bits_s pr nenv 3 b in POk (Clr1 a' b')
  | Set1 a b => let? a' := eval_bits_s pr venv 9 a in let? b' := eval_bits_s pr nenv 3 b in POk (Set1 a' b')
  | Not1 a b => let? a' := eval_bits_s pr venv 9 a in let? b' := eval_bits_s pr nenv 3 b in POk (Not1 a' b')
  | Nop => POk Nop
  | Ldf => POk Ldf
  | Stf => POk Stf
  end.

(** [Directive::eval_cnop_expr], /repo/src/ast.rs 241-247. *)
Definition eval_cnop_expr_s (e : sexpr) : placed Z :=
  match e with
  | XNumber_ _ n _ => POk n
  | _ => PErr MustBeLiteralNumber [span_of e]
  end.

(** [Directive::eval_cnop], /repo/src/ast.rs 249-264; the loop is that of Ast.v. *)
Definition eval_cnop_s (pr : profile) (pos : Z) (add multiple : sexpr) : placed Z :=
  let? a := eval_cnop_expr_s add in
  let? m := eval_cnop_expr_s multiple in
  if m =? 0 then POk a
  else let? mult := no_place (cnop_loop pr pos m) in no_place (chk32 pr (mult + a)).

(** The counter of /repo/src/ast.rs 270-276. *)
Definition item_size_s (b : sbyte) : Z :=
  match b with SBExpr _ => 1 | SBString _ vals => Z.of_nat (List.length vals) end.

(** The loop of /repo/src/ast.rs 270-276. *)
Fixpoint items_size_s (l : list sbyte) : Z :=
  match l with [] => 0 | b :: t => item_size_s b + items_size_s t end.

(** [Directive::size], /repo/src/ast.rs 266-286. *)
Definition dir_size_s (pr : profile) (d : sdirective) (pos : Z) : placed Z :=
  match d with
  | SDByte _ items => POk (wrap32 (items_size_s items))
  | SDOrg _ location => no_place (chk32 pr (wrap32 location - pos))
  | SDWord _ words => POk (wrap32 (2 * Z.of_nat (List.length words)))
  | SDText _ size _ => POk (wrap32 size)
  | SDString _ size _ => POk (wrap32 size)
  | SDInclude _ _ _ => POk 0
  | SDCnop _ add multiple => let? p := eval_cnop_s pr pos add multiple in no_place (chk32 pr (p - pos))
  end.

(** [NameValue], /repo/src/asm.rs 584-588: where a name was given its value, and the value. *)
Definition name_value : Type := pspan * Z.

(** [add_name], /repo/src/asm.rs 567-582. *)
Definition add_name_s (name : string) (value : name_value) (m : smap name_value) : placed (smap name_value) :=
  match mget m name with
  | Some existing => PErr (NameAlreadyExists name) [fst value; fst existing]
  | None => POk (minsert m name value)
  end.

(** The mutable variables of [compute_labels], /repo/src/asm.rs 597-601. *)
Record lab_state_s : Type := mkLabS {
  ls_globals : smap name_value;
  ls_locals : smap (smap name_value);
  ls_local : smap name_value;
  ls_current : string;
  ls_pos : Z
}.

(** Loop body of [compute_labels], /repo/src/asm.rs 603-636; the span of a label statement is its own (ast.rs 477-490). *)
Definition label_step_s (pr : profile) (s : sstatement) (st : lab_state_s) : placed lab_state_s :=
  match s with
  | SSDirective d =>
      let? n := dir_size_s pr d (ls_pos st) in
      let? p := no_place (chk32 pr (ls_pos st + n)) in
      POk (mkLabS (ls_globals st) (ls_locals st) (ls_local st) (ls_current st) p)
  | SSLabel sp name =>
      if is_local name then
        let? lo := add_name_s (lower name) (sp, ls_pos st) (ls_local st) in
        POk (mkLabS (ls_globals st) (ls_locals st) lo (ls_current st) (ls_pos st))
      else
        let? gl := add_name_s (lower name) (sp, ls_pos st) (ls_globals st) in
        POk (mkLabS gl (minsert (ls_locals st) (ls_current st) (ls_local st)) [] (lower name) (ls_pos st))
  | SSInstr _ i =>
      let? p := no_place (chk32 pr (ls_pos st + wrap32 (size i))) in
      POk (mkLabS (ls_globals st) (ls_locals st) (ls_local st) (ls_current st) p)
  | SSVariable _ _ _ | SSAlias _ _ _ => POk st
  | SSComment _ => POk st
  | SSMacroCall _ _ _ => PPanic
  end.

(** The loop, /repo/src/asm.rs 602-636. *)
Fixpoint label_loop_s (pr : profile) (l : list sstatement) (st : lab_state_s) : placed lab_state_s :=
  match l with
  | [] => POk st
  | s :: t => let? st' := label_step_s pr s st in label_loop_s pr t st'
  end.

(** [NamesBuilder], /repo/src/asm.rs 590-594. *)
Record names_builder : Type := mkBuilder { b_globals : smap name_value; b_locals : smap (smap name_value) }.

(** [compute_labels], /repo/src/asm.rs 596-641. *)
Definition compute_labels_s (pr : profile) (l : list sstatement) : placed names_builder :=
  let? st := label_loop_s pr l (mkLabS [] [] [] EmptyString 0) in
  POk (mkBuilder (ls_globals st)
        (if mcontains (ls_locals st) (ls_current st) then ls_locals st
         else minsert (ls_locals st) (ls_current st) (ls_local st))).

(** The copy of one map without the spans, /repo/src/asm.rs 679-682 and 685-688. *)
Definition values (m : smap name_value) : smap Z := map (fun x => (fst x, snd (snd x))) m.

(** The mutable variables of [compute_names], /repo/src/asm.rs 645-648. *)
Record nam_state_s : Type := mkNamS { ns_globals : smap name_value; ns_pos : Z; ns_max : Z }.

(** Loop body of [compute_names], /repo/src/asm.rs 651-677; the environment is the [MapEnv] of 856-883. *)
Definition name_step_s (pr : profile) (s : sstatement) (st : nam_state_s) : placed nam_state_s :=
  let? st1 :=
    match s with
    | SSDirective d =>
        let? n := dir_size_s pr d (ns_pos st) in
        let? p := no_place (chk32 pr (ns_pos st + n)) in
        POk (mkNamS (ns_globals st) p (ns_max st))
    | SSLabel _ _ => POk st
    | SSInstr _ i =>
        let? p := no_place (chk32 pr (ns_pos st + wrap32 (size i))) in
        POk (mkNamS (ns_globals st) p (ns_max st))
    | SSVariable sp name e | SSAlias sp name e =>
        let? v := eval_s pr (map_env "Name"%string (values (ns_globals st))) e in
        let? gl := add_name_s (lower name) (sp, v) (ns_globals st) in
        POk (mkNamS gl (ns_pos st) (ns_max st))
    | SSComment _ => POk st
    | SSMacroCall _ _ _ => PPanic
    end in
  POk (mkNamS (ns_globals st1) (ns_pos st1) (if ns_max st1 <? ns_pos st1 then ns_pos st1 else ns_max st1)).

(** The loop, /repo/src/asm.rs 649-678. *)
Fixpoint name_loop_s (pr : profile) (l : list sstatement) (st : nam_state_s) : placed nam_state_s :=
  match l with
  | [] => POk st
  | s :: t => let? st' := name_step_s pr s st in name_loop_s pr t st'
  end.

(** [compute_names], /repo/src/asm.rs 643-698. *)
Definition compute_names_s (pr : profile) (l : list sstatement) : placed (Z * names) :=
  let? labels := compute_labels_s pr l in
  let? st := name_loop_s pr l (mkNamS (b_globals labels) 0 0) in
  let? m := no_place (chk32 pr (ns_max st + 1)) in
  POk (wrap_usize m, mkNames (values (ns_globals st)) (map (fun x => (fst x, values (snd x))) (b_locals labels))).

(** One item of [.byte], /repo/src/asm.rs 254-276. *)
Definition emit_item_s (pr : profile) (en : env) (b : sbyte) (out : list Z) (pos : Z) : placed (list Z * Z) :=
  match b with
  | SBExpr e =>
      let? value := eval_s pr en e in
      if (value <? -128) || (255 <? value) then PErr (ByteOutOfRange value) [span_of e]
      else no_place (emit pr [Z.land value 255] out pos)
  | SBString _ vec => no_place (emit pr vec out pos)
  end.

(** The loop over the items, /repo/src/asm.rs 253-277. *)
Fixpoint emit_items_s (pr : profile) (en : env) (l : list sbyte) (out : list Z) (pos : Z) : placed (list Z * Z) :=
  match l with
  | [] => POk (out, pos)
  | b :: t => let? (out', pos') := emit_item_s pr en b out pos in emit_items_s pr en t out' pos'
  end.

(** The loop over the words, /repo/src/asm.rs 325-338. *)
Fixpoint emit_words_s (pr : profile) (en : env) (l : list sexpr) (out : list Z) (pos : Z) : placed (list Z * Z) :=
  match l with
  | [] => POk (out, pos)
  | e :: t =>
      let? value := eval_s pr en e in
      if (value <? -32768) || (65535 <? value) then PErr (WordOutOfRange value) [span_of e]
      else
        let w := Z.land value 65535 in
        let? (out', pos') := no_place (emit pr [Z.land w 255; Z.land (Z.shiftr w 8) 255] out pos) in
        emit_words_s pr en t out' pos'
  end.

(** [.text] and [.string], /repo/src/asm.rs 279-313; [pad] is the filler. *)
Definition emit_text_s (pr : profile) (s : pspan) (pad size : Z) (bs : list Z) (out : list Z) (pos : Z) : placed (list Z * Z) :=
  let len := Z.of_nat (List.length bs) in
  if size <? len then PErr (NumberOfBytesIsLongerThanLength size len) [s]
  else
    let? (out', pos') := no_place (emit pr bs out pos) in
    no_place (emit pr (repeat pad (Z.to_nat (size - len))) out' pos').

(** Directives in [generate_bytes], /repo/src/asm.rs 249-345. *)
Definition gen_dir_s (pr : profile) (ns : names) (d : sdirective) (st : gen_state) : placed (list Z * Z) :=
  match d with
  | SDByte _ items =>
      let? en := no_place (as_env ns "Name"%string (g_current st)) in
      emit_items_s pr en items (g_out st) (g_pos st)
  | SDText s size bs => emit_text_s pr s 32 size bs (g_out st) (g_pos st)
  | SDString s size bs => emit_text_s pr s 0 size bs (g_out st) (g_pos st)
  | SDOrg s location =>
      if 65535 <? location then PErr (InvalidCodeLocation (wrap32 location)) [s]
      else POk (g_out st, location)
  | SDWord _ words =>
      let? en := no_place (as_env ns "Name"%string (g_current st)) in
      emit_words_s pr en words (g_out st) (g_pos st)
  | SDInclude _ _ _ => PPanic
  | SDCnop _ _ _ =>
      let? n := dir_size_s pr d (wrap32 (g_pos st)) in
      let? p := no_place (chk_usize pr (g_pos st + wrap_usize n)) in
      POk (g_out st, p)
  end.

(** Loop body of [generate_bytes], /repo/src/asm.rs 247-369. *)
Definition gen_step_s (pr : profile) (ns : names) (s : sstatement) (st : gen_state) : placed gen_state :=
  match s with
  | SSDirective d =>
      let? (out, pos) := gen_dir_s pr ns d st in
      POk (mkGen out pos (g_current st))
  | SSLabel _ name =>
      if is_local name then POk st else POk (mkGen (g_out st) (g_pos st) name)
  | SSInstr _ i =>
      let? next := no_place (chk_usize pr (g_pos st + size i)) in
      let? j := eval_instr_s pr next (g_current st) ns i in
      let? (out, pos) := no_place (emit pr (encode j) (g_out st) (g_pos st)) in
      POk (mkGen out pos (g_current st))
  | SSVariable _ _ _ | SSAlias _ _ _ => POk st
  | SSComment _ => POk st
  | SSMacroCall _ _ _ => PPanic
  end.

(** The loop, /repo/src/asm.rs 246-369. *)
Fixpoint gen_loop_s (pr : profile) (ns : names) (l : list sstatement) (st : gen_state) : placed gen_state :=
  match l with
  | [] => POk st
  | s :: t => let? st' := gen_step_s pr ns s st in gen_loop_s pr ns t st'
  end.

(** [assemble], /repo/src/asm.rs 232-237, with [generate_bytes] (239-371). *)
Definition assemble_s (pr : profile) (l : list sstatement) : placed (list Z) :=
  let? (max_pos, ns) := compute_names_s pr l in
  let? n := no_place (chk_usize pr (max_pos - 1)) in
  let? out := no_place (zero_vec n) in
  let? st := gen_loop_s pr ns l (mkGen out 0 EmptyString) in
  POk (g_out st).
