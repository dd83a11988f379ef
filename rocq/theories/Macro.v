(** Instruction selection and macro expansion: [make_instr] in /repo/src/parser.rs 917-1112,
    [replace_macro_args] in /repo/src/expression.rs 119-208 and /repo/src/asm.rs 700-852. *)
From Coq Require Import ZArith List String Ascii Bool.
From Verif Require Import Base Expr Instr Ast.
Import ListNotations.
Open Scope string_scope.
Open Scope list_scope.

(** [make_instr], /repo/src/parser.rs 917-1112, arm by arm, in source order (the number is the
    line of the first arm of the mnemonic); the lists of permitted argument types carried by
    [WrongInstructionArgs] are dropped, and so is the [Option], which is always [Some]. *)
Definition make_instr (name : string) (args : list arg) : outcome (instr expr imode) :=
  if String.eqb name "add" then (* 921 *)
    match args with
    | [AImm imm] => Ok (Add_i8 imm)
    | [AEx mem] => Ok (Add_d9 mem)
    | [AIM im] => Ok (Add_Ri im)
    | _ => Err (WrongInstructionArgs "add")
    end else
  if String.eqb name "addc" then (* 929 *)
    match args with
    | [AImm imm] => Ok (Addc_i8 imm)
    | [AEx mem] => Ok (Addc_d9 mem)
    | [AIM im] => Ok (Addc_Ri im)
    | _ => Err (WrongInstructionArgs "addc")
    end else
  if String.eqb name "sub" then (* 937 *)
    match args with
    | [AImm imm] => Ok (Sub_i8 imm)
    | [AEx mem] => Ok (Sub_d9 mem)
    | [AIM im] => Ok (Sub_Ri im)
    | _ => Err (WrongInstructionArgs "sub")
    end else
  if String.eqb name "subc" then (* 945 *)
    match args with
    | [AImm imm] => Ok (Subc_i8 imm)
    | [AEx mem] => Ok (Subc_d9 mem)
    | [AIM im] => Ok (Subc_Ri im)
    | _ => Err (WrongInstructionArgs "subc")
    end else
  if String.eqb name "inc" then (* 953 *)
    match args with
    | [AEx mem] => Ok (Inc_d9 mem)
    | [AIM im] => Ok (Inc_Ri im)
    | _ => Err (WrongInstructionArgs "inc")
    end else
  if String.eqb name "dec" then (* 956 *)
    match args with
    | [AEx mem] => Ok (Dec_d9 mem)
    | [AIM im] => Ok (Dec_Ri im)
    | _ => Err (WrongInstructionArgs "dec")
    end else
  if String.eqb name "mul" then (* 959 *)
    match args with
    | [] => Ok Mul
    | _ => Err (WrongInstructionArgs "mul")
    end else
  if String.eqb name "div" then (* 961 *)
    match args with
    | [] => Ok Div
    | _ => Err (WrongInstructionArgs "div")
    end else
  if String.eqb name "and" then (* 963 *)
    match args with
    | [AImm imm] => Ok (And_i8 imm)
    | [AEx mem] => Ok (And_d9 mem)
    | [AIM im] => Ok (And_Ri im)
    | _ => Err (WrongInstructionArgs "and")
    end else
  if String.eqb name "or" then (* 971 *)
    match args with
    | [AImm imm] => Ok (Or_i8 imm)
    | [AEx mem] => Ok (Or_d9 mem)
    | [AIM im] => Ok (Or_Ri im)
    | _ => Err (WrongInstructionArgs "or")
    end else
  if String.eqb name "xor" then (* 979 *)
    match args with
    | [AImm imm] => Ok (Xor_i8 imm)
    | [AEx mem] => Ok (Xor_d9 mem)
    | [AIM im] => Ok (Xor_Ri im)
    | _ => Err (WrongInstructionArgs "xor")
    end else
  if String.eqb name "rol" then (* 987 *)
    match args with
    | [] => Ok Rol
    | _ => Err (WrongInstructionArgs "rol")
    end else
  if String.eqb name "rolc" then (* 989 *)
    match args with
    | [] => Ok Rolc
    | _ => Err (WrongInstructionArgs "rolc")
    end else
  if String.eqb name "ror" then (* 991 *)
    match args with
    | [] => Ok Ror
    | _ => Err (WrongInstructionArgs "ror")
    end else
  if String.eqb name "rorc" then (* 993 *)
    match args with
    | [] => Ok Rorc
    | _ => Err (WrongInstructionArgs "rorc")
    end else
  if String.eqb name "ld" then (* 995 *)
    match args with
    | [AEx mem] => Ok (Ld_d9 mem)
    | [AIM im] => Ok (Ld_Ri im)
    | _ => Err (WrongInstructionArgs "ld")
    end else
  if String.eqb name "st" then (* 998 *)
    match args with
    | [AEx mem] => Ok (St_d9 mem)
    | [AIM im] => Ok (St_Ri im)
    | _ => Err (WrongInstructionArgs "st")
    end else
  if String.eqb name "mov" then (* 1001 *)
    match args with
    | [AImm imm; AEx mem] => Ok (Mov_d9 imm mem)
    | [AImm imm; AIM im] => Ok (Mov_Rj imm im)
    | _ => Err (WrongInstructionArgs "mov")
    end else
  if String.eqb name "ldc" then (* 1011 *)
    match args with
    | [] => Ok Ldc
    | _ => Err (WrongInstructionArgs "ldc")
    end else
  if String.eqb name "push" then (* 1013 *)
    match args with
    | [AEx mem] => Ok (Push mem)
    | _ => Err (WrongInstructionArgs "push")
    end else
  if String.eqb name "pop" then (* 1015 *)
    match args with
    | [AEx mem] => Ok (Pop mem)
    | _ => Err (WrongInstructionArgs "pop")
    end else
  if String.eqb name "xch" then (* 1017 *)
    match args with
    | [AEx mem] => Ok (Xch_d9 mem)
    | [AIM im] => Ok (Xch_Ri im)
    | _ => Err (WrongInstructionArgs "xch")
    end else
  if String.eqb name "jmp" then (* 1020 *)
    match args with
    | [AEx mem] => Ok (Jmp mem)
    | _ => Err (WrongInstructionArgs "jmp")
    end else
  if String.eqb name "jmpf" then (* 1022 *)
    match args with
    | [AEx mem] => Ok (Jmpf mem)
    | _ => Err (WrongInstructionArgs "jmpf")
    end else
  if String.eqb name "br" then (* 1024 *)
    match args with
    | [AEx mem] => Ok (Br mem)
    | _ => Err (WrongInstructionArgs "br")
    end else
  if String.eqb name "brf" then (* 1026 *)
    match args with
    | [AEx mem] => Ok (Brf mem)
    | _ => Err (WrongInstructionArgs "brf")
    end else
  if String.eqb name "bz" then (* 1028 *)
    match args with
    | [AEx mem] => Ok (Bz mem)
    | _ => Err (WrongInstructionArgs "bz")
    end else
  if String.eqb name "bnz" then (* 1030 *)
    match args with
    | [AEx mem] => Ok (Bnz mem)
    | _ => Err (WrongInstructionArgs "bnz")
    end else
  if String.eqb name "bp" then (* 1032 *)
    match args with
    | [AEx m1; AEx m2; AEx m3] => Ok (Bp m1 m2 m3)
    | _ => Err (WrongInstructionArgs "bp")
    end else
  if String.eqb name "bpc" then (* 1038 *)
    match args with
    | [AEx m1; AEx m2; AEx m3] => Ok (Bpc m1 m2 m3)
    | _ => Err (WrongInstructionArgs "bpc")
    end else
  if String.eqb name "bn" then (* 1044 *)
    match args with
    | [AEx m1; AEx m2; AEx m3] => Ok (Bn m1 m2 m3)
    | _ => Err (WrongInstructionArgs "bn")
    end else
  if String.eqb name "dbnz" then (* 1050 *)
    match args with
    | [AEx m1; AEx m2] => Ok (Dbnz_d9 m1 m2)
    | [AIM im; AEx mem] => Ok (Dbnz_Ri im mem)
    | _ => Err (WrongInstructionArgs "dbnz")
    end else
  if String.eqb name "be" then (* 1060 *)
    match args with
    | [AImm imm; AEx mem] => Ok (Be_i8 imm mem)
    | [AEx m1; AEx m2] => Ok (Be_d9 m1 m2)
    | [AIM im; AImm imm; AEx mem] => Ok (Be_Rj im imm mem)
    | _ => Err (WrongInstructionArgs "be")
    end else
  if String.eqb name "bne" then (* 1074 *)
    match args with
    | [AImm imm; AEx mem] => Ok (Bne_i8 imm mem)
    | [AEx m1; AEx m2] => Ok (Bne_d9 m1 m2)
    | [AIM im; AImm imm; AEx mem] => Ok (Bne_Rj im imm mem)
    | _ => Err (WrongInstructionArgs "bne")
    end else
  if String.eqb name "call" then (* 1088 *)
    match args with
    | [AEx mem] => Ok (Call mem)
    | _ => Err (WrongInstructionArgs "call")
    end else
  if String.eqb name "callf" then (* 1090 *)
    match args with
    | [AEx mem] => Ok (Callf mem)
    | _ => Err (WrongInstructionArgs "callf")
    end else
  if String.eqb name "callr" then (* 1092 *)
    match args with
    | [AEx mem] => Ok (Callr mem)
    | _ => Err (WrongInstructionArgs "callr")
    end else
  if String.eqb name "ret" then (* 1094 *)
    match args with
    | [] => Ok Ret
    | _ => Err (WrongInstructionArgs "ret")
    end else
  if String.eqb name "reti" then (* 1096 *)
    match args with
    | [] => Ok Reti
    | _ => Err (WrongInstructionArgs "reti")
    end else
  if String.eqb name "clr1" then (* 1098 *)
    match args with
    | [AEx d9; AEx b3] => Ok (Clr1 d9 b3)
    | _ => Err (WrongInstructionArgs "clr1")
    end else
  if String.eqb name "set1" then (* 1100 *)
    match args with
    | [AEx d9; AEx b3] => Ok (Set1 d9 b3)
    | _ => Err (WrongInstructionArgs "set1")
    end else
  if String.eqb name "not1" then (* 1102 *)
    match args with
    | [AEx d9; AEx b3] => Ok (Not1 d9 b3)
    | _ => Err (WrongInstructionArgs "not1")
    end else
  if String.eqb name "nop" then (* 1104 *)
    match args with
    | [] => Ok Nop
    | _ => Err (WrongInstructionArgs "nop")
    end else
  if String.eqb name "ldf" then (* 1106 *)
    match args with
    | [] => Ok Ldf
    | _ => Err (WrongInstructionArgs "ldf")
    end else
  if String.eqb name "stf" then (* 1108 *)
    match args with
    | [] => Ok Stf
    | _ => Err (WrongInstructionArgs "stf")
    end else
  Err UnknownInstruction.

(** [Expr::replace_macro_args], /repo/src/expression.rs 119-208 (spans dropped).  The recursion into an
    argument (lines 195-197) is not on a subexpression, so it is fuelled; running out of fuel is
    [Diverge]. *)
Fixpoint replace_expr (fuel : nat) (labels : smap string) (args : smap arg) : expr -> outcome expr :=
  fix go (e : expr) : outcome expr :=
    match e with
    | EXor l r => let! a := go l in let! b := go r in Ok (EXor a b)
    | EAnd l r => let! a := go l in let! b := go r in Ok (EAnd a b)
    | EOr l r => let! a := go l in let! b := go r in Ok (EOr a b)
    | EName n => Ok (EName n)
    | EPlus l r => let! a := go l in let! b := go r in Ok (EPlus a b)
    | EMinus l r => let! a := go l in let! b := go r in Ok (EMinus a b)
    | EUnaryMinus x => let! a := go x in Ok (EUnaryMinus a)
    | ETimes l r => let! a := go l in let! b := go r in Ok (ETimes a b)
    | EDivide l r => let! a := go l in let! b := go r in Ok (EDivide a b)
    | ENumber n r => Ok (ENumber n r)
    | EUpperByte x => let! a := go x in Ok (EUpperByte a)
    | ELowerByte x => let! a := go x in Ok (ELowerByte a)
    | EMacroLabel n =>
        match mget labels n with
        | Some label => Ok (EName label)
        | None => Err MacroLabelOutsideOfMacro
        end
    | EMacroArg n =>
        match mget args n with
        | Some (AImm _) => Err ImmediateValueNotAllowedHere
        | Some (AEx x) =>
            match fuel with
            | O => Diverge
            | S f => replace_expr f labels args x
            end
        | Some (AIM _) => Err IndirectionModeNotAllowedHere
        | Some (AMacroArg _) => Err MacroArgOutsideOfMacro
        | None => Err InvalidMacroArg
        end
    end.

(** [replace_args], /repo/src/asm.rs 716-749. *)
Fixpoint replace_args (fuel : nat) (labels : smap string) (argmap : smap arg) (args : list arg)
  : outcome (list arg) :=
  match args with
  | [] => Ok []
  | a :: t =>
      let! a' :=
        match a with
        | AMacroArg n => match mget argmap n with Some x => Ok x | None => Err InvalidMacroArg end
        | AImm e => let! e' := replace_expr fuel labels argmap e in Ok (AImm e')
        | AEx e => let! e' := replace_expr fuel labels argmap e in Ok (AEx e')
        | AIM m => Ok (AIM m)
        end in
      let! t' := replace_args fuel labels argmap t in
      Ok (a' :: t')
  end.

(** [str::replace("%", "")], /repo/src/asm.rs 760. *)
Fixpoint strip_percent (s : string) : string :=
  match s with
  | EmptyString => EmptyString
  | String c t => if Ascii.eqb c "%" then strip_percent t else String c (strip_percent t)
  end.

(** The [argmap] of /repo/src/asm.rs 795-804: insertions in order, so a later parameter of the same
    name replaces an earlier one. *)
Fixpoint make_argmap (m : smap arg) (params : list string) (args : list arg) : smap arg :=
  match params, args with
  | p :: ps, a :: rest => make_argmap (minsert m p a) ps rest
  | _, _ => m
  end.

Section Expand.
(** [Uuid::new_v4()], /repo/src/asm.rs 761, as the text of the [n]-th identifier drawn in the run with
    the dashes removed.  An oracle: nothing is assumed about it here. *)
Variable uuid : nat -> string.

(** [gen_labels], /repo/src/asm.rs 751-771; [n] counts the identifiers drawn so far. *)
Fixpoint gen_labels (map : smap string) (n : nat) (body : list macro_statement)
  : outcome (smap string * nat) :=
  match body with
  | [] => Ok (map, n)
  | MMacroLabel name :: t =>
      if mcontains map name then Err (DuplicateLabel name)
      else gen_labels (minsert map name (strip_percent name ++ "_" ++ uuid n)%string) (S n) t
  | _ :: t => gen_labels map n t
  end.

(** The loop over the macro body in [expand], /repo/src/asm.rs 807-850; [call] is the recursive call of
    [expand] (lines 815-820), [fuel] that of [replace_expr].  The indexing [labels[name]] of line 846
    panics on a missing key. *)
Fixpoint expand_body (call : nat -> string -> list arg -> outcome (list statement * nat))
    (fuel : nat) (ms : macros) (labels : smap string) (argmap : smap arg)
    (n : nat) (body : list macro_statement) : outcome (list statement * nat) :=
  match body with
  | [] => Ok ([], n)
  | s :: t =>
      let! (here, n1) :=
        match s with
        | MInstr iname iargs =>
            match find_macro ms iname (List.length iargs) with
            | Some _ =>
                let! new_args := replace_args fuel labels argmap iargs in
                call n iname new_args
            | None =>
                let! new_args := replace_args fuel labels argmap iargs in
                let! i := make_instr iname new_args in
                Ok ([SInstr i], n)
            end
        | MLabel name => Ok ([SLabel name], n)
        | MMacroLabel name =>
            match mget labels name with
            | Some l => Ok ([SLabel l], n)
            | None => Panic
            end
        end in
      let! (rest, n2) := expand_body call fuel ms labels argmap n1 t in
      Ok (here ++ rest, n2)
  end.

(** [expand], /repo/src/asm.rs 773-852 (spans dropped); fuelled because macros may call macros. *)
Fixpoint expand (fuel : nat) (ms : macros) (n : nat) (name : string) (args : list arg)
  : outcome (list statement * nat) :=
  match fuel with
  | O => Diverge
  | S f =>
      match find_macro ms name (List.length args) with
      | None => Err (NoSuchMacro name)
      | Some def =>
          if Nat.eqb (List.length args) (List.length (m_args def)) then
            let argmap := make_argmap [] (m_args def) args in
            let! (labels, n1) := gen_labels [] n (m_body def) in
            expand_body (expand f ms) f ms labels argmap n1 (m_body def)
          else Err (WrongNumberOfMacroArgs (List.length (m_args def)) (List.length args))
      end
  end.

(** The loop of [expand_macros], /repo/src/asm.rs 701-712. *)
Fixpoint expand_list (fuel : nat) (ms : macros) (n : nat) (l : list statement)
  : outcome (list statement * nat) :=
  match l with
  | [] => Ok ([], n)
  | SMacroCall name args :: t =>
      let! (here, n1) := expand fuel ms n name args in
      let! (rest, n2) := expand_list fuel ms n1 t in
      Ok (here ++ rest, n2)
  | s :: t =>
      let! (rest, n2) := expand_list fuel ms n t in
      Ok (s :: rest, n2)
  end.

(** [expand_macros], /repo/src/asm.rs 700-714. *)
Definition expand_macros (fuel : nat) (s : statements) : outcome statements :=
  let! (l, _) := expand_list fuel (st_macros s) 0 (st_list s) in
  Ok (mkStatements (st_macros s) l).

End Expand.
