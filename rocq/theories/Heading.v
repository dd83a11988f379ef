(** Whole error messages: the headings above the places, the advice under them, and [print_error] as it is:
    /repo/src/lib.rs 562-1043.  Colours are left out. *)
From Coq Require Import ZArith List String Ascii Bool.
From Verif Require Import Base Expr Lexer Files Printer Report Span Message.
Import ListNotations.
Open Scope string_scope.
Local Open Scope Z_scope.

(** [ArgType], /repo/src/ast.rs 69-79. *)
Inductive arg_type : Type := TImm | TD9 | TIM | TB3 | TA12 | TA16 | TR8 | TR16 | TMacro.

(** [ArgType::to_str], /repo/src/ast.rs 112-124. *)
Definition to_str (t : arg_type) : string :=
  match t with
  | TImm => "#i8"
  | TD9 => "d9"
  | TIM => "@Ri"
  | TB3 => "b3"
  | TA12 => "a12"
  | TA16 => "a16"
  | TR8 => "r8"
  | TR16 => "r16"
  | TMacro => "%arg"
  end.

(** The lists of argument types given to [wrong_args] in [make_instr], /repo/src/parser.rs 917-1112, by the name of the
    instruction.  The model of [make_instr] (Macro.v) leaves them out of the error; the name is enough to find them, as
    each name has one [wrong_args]. *)
Definition arg_types (name : string) : list (list arg_type) :=
  match name with
  | "add" => [[TImm]; [TD9]; [TIM]]
  | "addc" => [[TImm]; [TD9]; [TIM]]
  | "sub" => [[TImm]; [TD9]; [TIM]]
  | "subc" => [[TImm]; [TD9]; [TIM]]
  | "inc" => [[TD9]; [TIM]]
  | "dec" => [[TD9]; [TIM]]
  | "mul" => []
  | "div" => []
  | "and" => [[TImm]; [TD9]; [TIM]]
  | "or" => [[TImm]; [TD9]; [TIM]]
  | "xor" => [[TImm]; [TD9]; [TIM]]
  | "rol" => []
  | "rolc" => []
  | "ror" => []
  | "rorc" => []
  | "ld" => [[TD9]; [TIM]]
  | "st" => [[TD9]; [TIM]]
  | "mov" => [[TImm; TD9]; [TImm; TIM]]
  | "ldc" => []
  | "push" => [[TD9]]
  | "pop" => [[TD9]]
  | "xch" => [[TD9]; [TIM]]
  | "jmp" => [[TA12]]
  | "jmpf" => [[TA16]]
  | "br" => [[TR8]]
  | "brf" => [[TR16]]
  | "bz" => [[TR8]]
  | "bnz" => [[TR8]]
  | "bp" => [[TD9; TB3; TR8]]
  | "bpc" => [[TD9; TB3; TR8]]
  | "bn" => [[TD9; TB3; TR8]]
  | "dbnz" => [[TD9; TR8]; [TIM; TR8]]
  | "be" => [[TImm; TR8]; [TD9; TR8]; [TIM; TImm; TR8]]
  | "bne" => [[TImm; TR8]; [TD9; TR8]; [TIM; TImm; TR8]]
  | "call" => [[TA12]]
  | "callf" => [[TA16]]
  | "callr" => [[TR16]]
  | "ret" => []
  | "reti" => []
  | "clr1" => [[TD9; TB3]]
  | "set1" => [[TD9; TB3]]
  | "not1" => [[TD9; TB3]]
  | "nop" => []
  | "ldf" => []
  | "stf" => []
  | _ => []
  end.

(** The texts of [AssemblyError] (/repo/src/asm.rs 387-456) that the errors of the model do not carry: the value on the
    left of a division ([DivideByZero], /repo/src/expression.rs 492), the path of an image, the reason given by the
    system or by the image library, and the text written where a path, a sprite type or a header was expected. *)
Record texts : Type := mkTexts {
  x_left : string;
  x_path : string;
  x_reason : string;
  x_written : string
}.

(** [{:X}] of an [i32], /repo/src/lib.rs 614 and 666. *)
Definition show_i32_hex (n : Z) : string := "0x" ++ show_radix 16 0 n.

(** [{:04X}] of an [i32] made a [usize], /repo/src/lib.rs 687. *)
Definition show_as_usize_hex (n : Z) : string := "0x" ++ show_usize_hex (n mod 18446744073709551616).

(** [{:04b}] of a byte, /repo/src/lib.rs 701 and 708. *)
Definition show_bits4 (n : Z) : string := pad_zeros 4 (natural digit_char 2 n).

(** The lines above the first place: each arm of [print_error] up to its first [highlight_line],
    /repo/src/lib.rs 565-1041. *)
Definition above (x : texts) (e : error) : string :=
  match e with
  | NameNotFound kind name => kind ++ " '" ++ name ++ "' not found" ++ nl ++ nl
  | DivideByZero => "Divide by zero: " ++ x_left x ++ "/0" ++ nl ++ nl
  | MustBeLiteralNumber => " Must be a literal number" ++ nl ++ nl
  | NumberOfBytesIsLongerThanLength length number_of_bytes =>
      "Number of bytes given (" ++ show_dec number_of_bytes ++ ") is longer than the specified length (" ++
      show_dec length ++ ")" ++ nl ++ nl
  | NameAlreadyExists name => "Name already exists: " ++ name ++ nl ++ nl ++ "The name found here..." ++ nl
  | InvalidCodeLocation location => "Invalid code location: " ++ show_i32_hex location ++ nl ++ nl
  | NumOutOfRange bits value =>
      "Value out of range: " ++ show_dec value ++ ". Expected unsigned " ++ show_dec bits ++ " bit number." ++ nl ++ nl
  | ByteOutOfRange value => "Byte out of range: " ++ show_dec value ++ nl ++ nl
  | WordOutOfRange value => "Word out of range: " ++ show_dec value ++ nl ++ nl
  | SignedNumOutOfRange bits value =>
      "Value out of range: " ++ show_dec value ++ ". Expected signed " ++ show_dec bits ++ " bit number." ++ nl ++ nl
  | InvalidAddress value => "Invalid address: " ++ show_i32_hex value ++ nl ++ nl
  | AddrBitsDontMatch pos value pos_top value_top =>
      "Target is a 12 bit absolution position, and the top 4 bits of the" ++ nl ++
      "  target (" ++ show_as_usize_hex value ++ ") don't match the top 4 bits of the current instruction" ++ nl ++
      "  position (" ++ "0x" ++ show_usize_hex pos ++ ")" ++ nl ++ nl ++
      "  Top 4 bits of target:   " ++ show_bits4 value_top ++ nl ++
      "  Top 4 bits of position: " ++ show_bits4 pos_top ++ nl ++ nl
  | UnexpectedChar _ => "Unexpected Character" ++ nl ++ nl
  | UnexpectedToken => "Unexpected Token" ++ nl ++ nl
  | InvalidInstruction => "Invalid Instruction" ++ nl ++ nl
  | ExpectedTokenNotFound name => "Expected to find " ++ name ++ nl ++ nl
  | InvalidExpression => "Invalid Expression" ++ nl ++ nl
  | MissingBytes => "The " ++ nl ++ ".byte" ++ " directive requires at least one byte specified." ++ nl ++ nl
  | MissingWords => "The " ++ nl ++ ".word" ++ " directive requires at least one word specified." ++ nl ++ nl
  | UnknownDirective => "Unknown Directive" ++ nl ++ nl
  | UnknownInstruction => "Unknown Instruction/Macro" ++ nl ++ nl
  | WrongInstructionArgs name => "Wrong arguments for instruction " ++ name ++ "." ++ nl ++ nl
  | UnexpectedEof => "Unexpected EOF" ++ nl ++ nl
  | FileLoadFailure file => "Error loading file " ++ file ++ ": " ++ x_reason x ++ nl ++ nl
  | FileUtf8Error file => "UTF-8 Error loading file " ++ file ++ ": " ++ x_reason x ++ nl ++ nl
  | MacroNameConflictsWithInstruction name =>
      "Cannot name macro " ++ name ++ ": it conflicts with the instruction of the same name." ++ nl ++ nl
  | MacroAlreadyExists name arity =>
      "Macro " ++ name ++ " already exists for arity=" ++ show_dec (Z.of_nat arity) ++ "." ++ nl ++ nl ++
      "This macro:" ++ nl
  | DuplicateMacroArg => "Duplicate macro arg." ++ nl ++ nl
  | InvalidMacroArg => "No such macro argument name." ++ nl ++ nl
  | WrongNumberOfMacroArgs def_args inv_args =>
      "Wrong number of arguments passed to macro. Expected " ++ show_dec (Z.of_nat def_args) ++ ", found " ++
      show_dec (Z.of_nat inv_args) ++ nl ++ nl
  | DuplicateLabel _ => "Found duplicate label" ++ nl ++ nl
  | MacroLabelOutsideOfMacro => "Macro label found outside of macro definition." ++ nl ++ nl
  | MacroArgOutsideOfMacro => "Macro arg found outside of macro definition." ++ nl ++ nl
  | ImmediateValueNotAllowedHere =>
      "Immediate value not allowed within an expression or another immediate value." ++ nl ++ nl
  | IndirectionModeNotAllowedHere =>
      "Indirection mode not allowed within an expression or immediate value." ++ nl ++ nl
  | NoSuchMacro name => "No macro definition found for name " ++ name ++ "." ++ nl ++ nl
  | InvalidIconSize w h =>
      "Invalid icon size in " ++ x_path x ++ ". Expected " ++ show_dec w ++ "x" ++ show_dec h ++ "." ++ nl ++ nl
  | InvalidPaletteSize size expected =>
      "Invalid palette size in " ++ x_path x ++ ". Expected " ++ show_dec expected ++ ", found " ++ show_dec size ++
      "." ++ nl ++ nl
  | ImageParseError => "Error parsing image " ++ x_path x ++ ": " ++ x_reason x ++ nl ++ nl
  | InvalidPath => "Invalid path " ++ x_written x ++ "." ++ nl ++ nl
  | InvalidSpriteType => "Invalid sprite type: " ++ x_written x ++ "." ++ nl ++ nl
  | SpriteTooWide width =>
      "Sprite is too wide to fit in header: " ++ show_dec width ++ "." ++ nl ++ nl ++
      "The sprite header encodes width and height as bytes." ++ nl ++
      "If you want to include the sprite, but leave out the header, use header=""no""." ++ nl ++ nl
  | SpriteTooTall height =>
      "Sprite is too tall to fit in header: " ++ show_dec height ++ "." ++ nl ++ nl ++
      "The sprite header encodes width and height as bytes." ++ nl ++
      "If you want to include the sprite, but leave out the header, use header=""no""." ++ nl ++ nl
  | InvalidSpriteHeader => "Invalid value for sprite header: " ++ x_written x ++ "." ++ nl ++ nl
  end.

(** The lines between the two places of an error that has two, /repo/src/lib.rs 603-607, 872 and 892-897. *)
Definition between (e : error) : string :=
  match e with
  | NameAlreadyExists _ => nl ++ "...was already declared here" ++ nl
  | MacroAlreadyExists _ _ => nl ++ "Already exists here:" ++ nl
  | WrongNumberOfMacroArgs _ _ => nl ++ "Expected:" ++ nl ++ nl
  | _ => ""
  end.

(** The loop over the arguments of a form, /repo/src/lib.rs 803-821: the separator in front of all but the first. *)
Fixpoint show_args (first : bool) (l : list arg_type) : string :=
  match l with
  | [] => ""
  | t :: l => (if first then "" else ", ") ++ to_str t ++ show_args false l
  end.

(** The loop over the forms, /repo/src/lib.rs 801-823. *)
Fixpoint show_forms (name : string) (l : list (list arg_type)) : string :=
  match l with
  | [] => ""
  | f :: l => "  " ++ name ++ " " ++ show_args true f ++ nl ++ show_forms name l
  end.

(** The advice under [WrongInstructionArgs], /repo/src/lib.rs 779-825. *)
Definition show_advice (name : string) (types : list (list arg_type)) : string :=
  nl ++
  match types with
  | [] | [[]] => name ++ " expects 0 arguments." ++ nl ++ nl
  | _ =>
      "Allowed form" ++ (if (1 <? List.length types)%nat then "s" else "") ++ " for instruction " ++ name ++ ":" ++ nl ++
      show_forms name types
  end ++ nl.

(** The lines under the last place: each arm of [print_error] after its last [highlight_line],
    /repo/src/lib.rs 713, 779-825, 874 and 904. *)
Definition below (e : error) : string :=
  match e with
  | AddrBitsDontMatch _ _ _ _ => nl
  | WrongInstructionArgs name => show_advice name (arg_types name)
  | MacroAlreadyExists _ _ => nl
  | WrongNumberOfMacroArgs _ _ => nl
  | _ => ""
  end.

(** [print_error], /repo/src/lib.rs 562-1043: all the text written. *)
Definition print_error_text (pr : profile) (fs : source_files) (x : texts) (e : error) (at_ : list pspan) : outcome string :=
  let! blocks := print_error pr fs e at_ in
  Ok (above x e ++ String.concat (between e) blocks ++ below e).
