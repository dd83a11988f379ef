(** The [Display] implementations: /repo/src/expression.rs 232-462, /repo/src/instruction.rs 244-344 and
    /repo/src/ast.rs 198-227, 335-416, 493-668. *)
From Coq Require Import ZArith List String Ascii Bool Arith.
From Verif Require Import Base Expr Instr Ast.
Import ListNotations.
Open Scope string_scope.
Open Scope list_scope.
Local Open Scope Z_scope.

(** A digit in upper case, as written by the [X] format (/repo/src/expression.rs 406). *)
Definition digit_char (v : Z) : ascii :=
  if v <? 10 then ascii_of_nat (Z.to_nat (48 + v)) else ascii_of_nat (Z.to_nat (55 + v)).

(** A digit in lower case, as written by the [x] format (/repo/src/disasm.rs 281). *)
Definition digit_char_lower (v : Z) : ascii :=
  if v <? 10 then ascii_of_nat (Z.to_nat (48 + v)) else ascii_of_nat (Z.to_nat (87 + v)).

(** The digits of a non-negative number in front of [acc]; Rust's integer formatting, used for instance in
    /repo/src/expression.rs 403-412.  A number below 2^64 has at most 64 digits in any base. *)
Fixpoint digits (fuel : nat) (dig : Z -> ascii) (base n : Z) (acc : string) : string :=
  match fuel with
  | O => acc
  | S f =>
      let acc' := String (dig (n mod base)) acc in
      if n / base =? 0 then acc' else digits f dig base (n / base) acc'
  end.

(** The digits of a non-negative number below 2^64, /repo/src/expression.rs 403-412. *)
Definition natural (dig : Z -> ascii) (base n : Z) : string := digits 64 dig base n "".

(** Zero padding, as in the formats of /repo/src/expression.rs 406-412. *)
Definition pad_zeros (width : nat) (s : string) : string :=
  (string_of_list_ascii (repeat "0"%char (width - String.length s)) ++ s)%string.

(** [{}] of an integer, /repo/src/expression.rs 403. *)
Definition show_dec (n : Z) : string :=
  if n <? 0 then String "-" (natural digit_char 10 (- n)) else natural digit_char 10 n.

(** [{:0wX}], [{:0wo}] and [{:0wb}] of an [i32], /repo/src/expression.rs 406-412: negative numbers are
    written in two's complement. *)
Definition show_radix (base : Z) (width : nat) (n : Z) : string :=
  pad_zeros width (natural digit_char base (n mod 4294967296)).

(** [{:04X}] of a [usize], /repo/src/ast.rs 378. *)
Definition show_usize_hex (n : Z) : string := pad_zeros 4 (natural digit_char 16 n).

(** The number arm of [Display for Expr], /repo/src/expression.rs 402-413. *)
Definition show_number (n : Z) (r : radix) : string :=
  match r with
  | Decimal => show_dec n
  | Hex => if (n <=? 255)%Z then "$" ++ show_radix 16 2 n else "$" ++ show_radix 16 4 n
  | Octal => "$" ++ show_radix 8 4 n
  | Binary => "%" ++ show_radix 2 8 n
  end%string.

(** [Expr::complex], /repo/src/expression.rs 445-462. *)
Definition complex (e : expr) : bool :=
  match e with
  | EXor _ _ => true
  | EAnd _ _ => true
  | EOr _ _ => true
  | EName _ => false
  | EPlus _ _ => true
  | EMinus _ _ => true
  | EUnaryMinus _ => true
  | ETimes _ _ => true
  | EDivide _ _ => true
  | ENumber _ _ => false
  | EUpperByte _ => true
  | ELowerByte _ => true
  | EMacroLabel _ => false
  | EMacroArg _ => false
  end.

(** An operand, in parentheses if it is complex, /repo/src/expression.rs 236-244. *)
Definition operand (e : expr) (shown : string) : string :=
  if complex e then ("(" ++ shown ++ ")")%string else shown.

(** [Display for Expr], /repo/src/expression.rs 232-442. *)
Fixpoint show_expr (e : expr) : string :=
  match e with
  | EXor l r => operand l (show_expr l) ++ " ^ " ++ operand r (show_expr r)
  | EAnd l r => operand l (show_expr l) ++ " & " ++ operand r (show_expr r)
  | EOr l r => operand l (show_expr l) ++ " | " ++ operand r (show_expr r)
  | EName n => n
  | EPlus l r => operand l (show_expr l) ++ " + " ++ operand r (show_expr r)
  | EMinus l r => operand l (show_expr l) ++ " - " ++ operand r (show_expr r)
  | EUnaryMinus x => "-" ++ operand x (show_expr x)
  | ETimes l r => operand l (show_expr l) ++ " * " ++ operand r (show_expr r)
  | EDivide l r => operand l (show_expr l) ++ " / " ++ operand r (show_expr r)
  | ENumber n r => show_number n r
  | EUpperByte x => ">" ++ operand x (show_expr x)
  | ELowerByte x => "<" ++ operand x (show_expr x)
  | EMacroLabel n => n
  | EMacroArg n => n
  end%string.

(** [Display for IndirectionMode], /repo/src/expression.rs 544-554. *)
Definition show_imode (m : imode) : string :=
  match m with R0 => "@R0" | R1 => "@R1" | R2 => "@R2" | R3 => "@R3" end.

(** [Display for Arg], /repo/src/expression.rs 564-573. *)
Definition show_arg (a : arg) : string :=
  match a with
  | AImm e => "#" ++ show_expr e
  | AEx e => show_expr e
  | AIM m => show_imode m
  | AMacroArg n => n
  end%string.

(** [Display for Instr], /repo/src/instruction.rs 244-344. *)
Definition show_instr (i : instr expr imode) : string :=
  match i with
  | Add_i8 imm => "add   #" ++ show_expr imm
  | Add_d9 d9 => "add   " ++ show_expr d9
  | Add_Ri im => "add   " ++ show_imode im
  | Addc_i8 imm => "addc  #" ++ show_expr imm
  | Addc_d9 d9 => "addc  " ++ show_expr d9
  | Addc_Ri im => "addc  " ++ show_imode im
  | Sub_i8 imm => "sub   #" ++ show_expr imm
  | Sub_d9 d9 => "sub   " ++ show_expr d9
  | Sub_Ri im => "sub   " ++ show_imode im
  | Subc_i8 imm => "subc  #" ++ show_expr imm
  | Subc_d9 d9 => "subc  " ++ show_expr d9
  | Subc_Ri im => "subc  " ++ show_imode im
  | Inc_d9 d9 => "inc   " ++ show_expr d9
  | Inc_Ri im => "inc   " ++ show_imode im
  | Dec_d9 d9 => "dec   " ++ show_expr d9
  | Dec_Ri im => "dec   " ++ show_imode im
  | Mul => "mul"
  | Div => "div"
  | And_i8 imm => "and   #" ++ show_expr imm
  | And_d9 d9 => "and   " ++ show_expr d9
  | And_Ri im => "and   " ++ show_imode im
  | Or_i8 imm => "or    #" ++ show_expr imm
  | Or_d9 d9 => "or    " ++ show_expr d9
  | Or_Ri im => "or    " ++ show_imode im
  | Xor_i8 imm => "xor   #" ++ show_expr imm
  | Xor_d9 d9 => "xor   " ++ show_expr d9
  | Xor_Ri im => "xor   " ++ show_imode im
  | Rol => "rol"
  | Rolc => "rolc"
  | Ror => "ror"
  | Rorc => "rorc"
  | Ld_d9 d9 => "ld    " ++ show_expr d9
  | Ld_Ri im => "ld    " ++ show_imode im
  | St_d9 d9 => "st    " ++ show_expr d9
  | St_Ri im => "st    " ++ show_imode im
  | Mov_d9 imm d9 => "mov   #" ++ show_expr imm ++ ", " ++ show_expr d9
  | Mov_Rj imm im => "mov   #" ++ show_expr imm ++ ", " ++ show_imode im
  | Ldc => "ldc"
  | Push d9 => "push  " ++ show_expr d9
  | Pop d9 => "pop   " ++ show_expr d9
  | Xch_d9 d9 => "xch   " ++ show_expr d9
  | Xch_Ri ri => "xch   " ++ show_imode ri
  | Jmp a12 => "jmp   " ++ show_expr a12
  | Jmpf a16 => "jmpf  " ++ show_expr a16
  | Br r8 => "br    " ++ show_expr r8
  | Brf r16 => "brf   " ++ show_expr r16
  | Bz r8 => "bz    " ++ show_expr r8
  | Bnz r8 => "bnz   " ++ show_expr r8
  | Bp d9 b3 r8 => "bp    " ++ show_expr d9 ++ ", " ++ show_expr b3 ++ ", " ++ show_expr r8
  | Bpc d9 b3 r8 => "bpc   " ++ show_expr d9 ++ ", " ++ show_expr b3 ++ ", " ++ show_expr r8
  | Bn d9 b3 r8 => "bn    " ++ show_expr d9 ++ ", " ++ show_expr b3 ++ ", " ++ show_expr r8
  | Dbnz_d9 d9 r8 => "dbnz  " ++ show_expr d9 ++ ", " ++ show_expr r8
  | Dbnz_Ri im r8 => "dbnz  " ++ show_imode im ++ ", " ++ show_expr r8
  | Be_i8 imm r8 => "be    #" ++ show_expr imm ++ ", " ++ show_expr r8
  | Be_d9 d9 r8 => "be    " ++ show_expr d9 ++ ", " ++ show_expr r8
  | Be_Rj im imm r8 => "be    " ++ show_imode im ++ ", #" ++ show_expr imm ++ ", " ++ show_expr r8
  | Bne_i8 imm r8 => "bne   #" ++ show_expr imm ++ ", " ++ show_expr r8
  | Bne_d9 d9 r8 => "bne   " ++ show_expr d9 ++ ", " ++ show_expr r8
  | Bne_Rj im imm r8 => "bne   " ++ show_imode im ++ ", #" ++ show_expr imm ++ ", " ++ show_expr r8
  | Call a12 => "call  " ++ show_expr a12
  | Callf a16 => "callf " ++ show_expr a16
  | Callr r16 => "callr " ++ show_expr r16
  | Ret => "ret"
  | Reti => "reti"
  | Clr1 d9 b3 => "clr1  " ++ show_expr d9 ++ ", " ++ show_expr b3
  | Set1 d9 b3 => "set1  " ++ show_expr d9 ++ ", " ++ show_expr b3
  | Not1 d9 b3 => "not1  " ++ show_expr d9 ++ ", " ++ show_expr b3
  | Nop => "nop"
  | Ldf => "ldf"
  | Stf => "stf"
  end%string.

(** [escape_string], /repo/src/ast.rs 606-668.  The final [String::from_utf8(..).unwrap()] does not fail
    for ASCII bytes. *)
Definition escape_byte (b : Z) : string :=
  if b =? 7 then "\a"
  else if b =? 8 then "\b"
  else if b =? 12 then "\f"
  else if b =? 10 then "\n"
  else if b =? 13 then "\r"
  else if b =? 9 then "\t"
  else if b =? 11 then "\v"
  else if b =? 0 then "\0"
  else String (ascii_of_nat (Z.to_nat b)) "".

(** The loop of [escape_string], /repo/src/ast.rs 609-666. *)
Fixpoint escape_string (bytes : list Z) : string :=
  match bytes with
  | [] => ""
  | b :: t => (escape_byte b ++ escape_string t)%string
  end.

(** [Display for ByteValue], /repo/src/ast.rs 335-344. *)
Definition show_byte_value (b : byte_value) : string :=
  match b with
  | BVExpr e => show_expr e
  | BVString bytes => """" ++ escape_string bytes ++ """"
  end%string.

(** The loops over the items, /repo/src/ast.rs 357-365 and 383-391. *)
Definition show_list {A : Type} (sep : string) (show : A -> string) (l : list A) : string :=
  match l with
  | [] => ""
  | x :: t => show x ++ String.concat "" (map (fun y => (sep ++ show y)%string) t)
  end%string.

(** [Display for SpriteType], /repo/src/ast.rs 171-178. *)
Definition show_sprite_type (t : sprite_type) : string := match t with Simple => "simple" | Masked => "masked" end.

(** [Display for IncludeHeader], /repo/src/ast.rs 180-187. *)
Definition show_include_header (h : include_header) : string := match h with HeaderYes => "yes" | HeaderNo => "no" end.

(** [Display for IncludeType], /repo/src/ast.rs 198-227. *)
Definition show_include_type (t : include_type) : string :=
  match t with
  | IncAsm => "asm"
  | IncBytes => "bytes"
  | IncCHeader => "cpp"
  | IncIcon speed eyecatch =>
      "icon" ++ (match speed with Some s => " speed = " ++ show_expr s | None => "" end)
      ++ (match eyecatch with
          | Some e => (if speed then ", eyecatch = """ else " eyecatch = """) ++ show_byte_value e ++ """"
          | None => "" end)
  | IncSprite typ header =>
      "sprite type = """ ++ show_sprite_type typ ++ """, header = """ ++ show_include_header header ++ """"
  end%string.

(** [Display for Directive], /repo/src/ast.rs 346-416. *)
Definition show_directive (d : directive) : string :=
  match d with
  | DCnop a b => "  .cnop " ++ show_expr a ++ ", " ++ show_expr b
  | DByte items => "  .byte " ++ show_list "," show_byte_value items
  | DText size bytes => "  .text " ++ show_dec size ++ " " ++ escape_string bytes
  | DString size bytes => "  .string " ++ show_dec size ++ " " ++ escape_string bytes
  | DOrg num => if (num =? 0)%Z then "  .org " ++ show_dec num else "  .org $" ++ show_usize_hex num
  | DWord words => "  .word " ++ show_list ", " show_expr words
  | DInclude typ path =>
      match typ with
      | IncAsm => "  .include """ ++ path ++ """"
      | IncIcon speed eyecatch =>
          "  .include icon """ ++ path ++ """"
          ++ (match speed with Some s => " speed = " ++ show_expr s | None => "" end)
          ++ (match eyecatch with
              | Some e => (if speed then ", eyecatch = " else " eyecatch = ") ++ show_byte_value e
              | None => "" end)
      | _ => "  .include " ++ show_include_type typ ++ " """ ++ path ++ """"
      end
  end%string.

(** White space for [str::trim], /repo/src/ast.rs 510, on ASCII. *)
Definition is_white (c : ascii) : bool :=
  let n := nat_of_ascii c in ((Nat.leb 9 n && Nat.leb n 13) || Nat.eqb n 32)%bool.

(** [comment.trim().is_empty()], /repo/src/ast.rs 510. *)
Fixpoint all_white (s : string) : bool :=
  match s with EmptyString => true | String c t => (is_white c && all_white t)%bool end.

(** The [Comment] arm of [Display for Statement], /repo/src/ast.rs 509-518. *)
Definition show_comment (c : string) : string :=
  if all_white c then c
  else match c with
       | String n t => if Ascii.eqb n "010" then String "010" ("  ;; " ++ t) else "  ;; " ++ c
       | EmptyString => "  ;; " ++ c
       end%string.

(** [Display for Statement], /repo/src/ast.rs 493-528. *)
Definition show_statement (s : statement) : string :=
  match s with
  | SDirective d => show_directive d
  | SLabel text => text ++ ":"
  | SInstr i => "  " ++ show_instr i
  | SVariable name e => name ++ " = " ++ show_expr e
  | SAlias name e => name ++ " EQU " ++ show_expr e
  | SComment c => show_comment c
  | SMacroCall name args => name ++ String.concat "" (map (fun a => (" " ++ show_arg a)%string) args)
  end%string.

(** [Display for Statements], /repo/src/ast.rs 591-604. *)
Definition show_statements (l : list statement) : string := show_list (String "010" "") show_statement l.

(** The output of [expand_file], /repo/src/asm.rs 32. *)
Definition expand_output (l : list statement) : string := (show_statements l ++ String "010" "")%string.
