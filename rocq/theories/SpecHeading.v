(** What error messages say.  Nothing here refers to the functions of Heading.v, except for the record of the texts that
    come from outside. *)
From Coq Require Import ZArith List String Ascii Bool.
From Verif Require Import Base Expr Instr Ast Printer SpecIsa Heading SpecMessage.
Import ListNotations.
Open Scope string_scope.
Local Open Scope Z_scope.

(** How an operand of each kind is written in the reference, /repo/docs/instructions.md 33-37. *)
Definition operand_text (k : kind) : string :=
  match k with
  | I8 => "#i8"
  | D9 => "d9"
  | Ri => "@Ri"
  | B3 => "b3"
  | A12 => "a12"
  | A16 => "a16"
  | R8 => "r8"
  | R16 => "r16"
  end.

(** A form of the reference on a line of its own. *)
Definition form_line (f : form) : string :=
  "  " ++ f_name f ++ " " ++ String.concat ", " (map operand_text (f_kinds f)) ++ line_feed.

(** The forms of an instruction, in the order of the reference. *)
Definition forms (name : string) : list form := filter (fun f => String.eqb (f_name f) name) isa.

(** The advice on how an instruction may be written. *)
Inductive advice (name : string) : string -> Prop :=
| no_operands f : forms name = [f] -> f_kinds f = [] ->
    advice name (line_feed ++ name ++ " expects 0 arguments." ++ line_feed ++ line_feed ++ line_feed)
| one_form f : forms name = [f] -> f_kinds f <> [] ->
    advice name (line_feed ++ "Allowed form for instruction " ++ name ++ ":" ++ line_feed ++ form_line f ++ line_feed)
| many_forms : (1 < List.length (forms name))%nat ->
    advice name (line_feed ++ "Allowed forms for instruction " ++ name ++ ":" ++ line_feed ++
                 String.concat "" (map form_line (forms name)) ++ line_feed).

(** A text occurs in another. *)
Definition within (part whole : string) : Prop := exists before after, whole = before ++ part ++ after.

(** What the lines above the places have to say, by error: the names and numbers of the error in a phrase each. *)
Definition phrases (x : texts) (e : error) : list string :=
  match e with
  | NameNotFound kind name => [kind ++ " '" ++ name ++ "' not found"]
  | DivideByZero => ["by zero: " ++ x_left x ++ "/0"]
  | NumberOfBytesIsLongerThanLength len given => ["given (" ++ show_dec given ++ ")"; "length (" ++ show_dec len ++ ")"]
  | NameAlreadyExists name => ["already exists: " ++ name ++ line_feed]
  | NumOutOfRange bits value => ["range: " ++ show_dec value ++ "."; "unsigned " ++ show_dec bits ++ " bit"]
  | SignedNumOutOfRange bits value => ["range: " ++ show_dec value ++ "."; " signed " ++ show_dec bits ++ " bit"]
  | ByteOutOfRange value => ["Byte out of range: " ++ show_dec value ++ line_feed]
  | WordOutOfRange value => ["Word out of range: " ++ show_dec value ++ line_feed]
  | InvalidCodeLocation loc => ["code location: 0x" ++ natural digit_char 16 (loc mod 2 ^ 32) ++ line_feed]
  | InvalidAddress a => ["address: 0x" ++ natural digit_char 16 (a mod 2 ^ 32) ++ line_feed]
  | AddrBitsDontMatch pos value pos_top value_top =>
      ["target (0x" ++ pad_zeros 4 (natural digit_char 16 (value mod 2 ^ 64)) ++ ")";
       "position (0x" ++ pad_zeros 4 (natural digit_char 16 pos) ++ ")";
       "Top 4 bits of target:   " ++ pad_zeros 4 (natural digit_char 2 value_top) ++ line_feed;
       "Top 4 bits of position: " ++ pad_zeros 4 (natural digit_char 2 pos_top) ++ line_feed]
  | ExpectedTokenNotFound what => ["Expected to find " ++ what ++ line_feed]
  | MissingBytes => [".byte directive"; "at least one byte"]
  | MissingWords => [".word directive"; "at least one word"]
  | WrongInstructionArgs name => ["instruction " ++ name ++ "."]
  | FileLoadFailure path | FileUtf8Error path => ["rror loading file " ++ path ++ ": " ++ x_reason x ++ line_feed]
  | MacroNameConflictsWithInstruction name => ["macro " ++ name ++ ": it conflicts with the instruction"]
  | MacroAlreadyExists name arity => ["Macro " ++ name ++ " already exists"; "arity=" ++ show_dec (Z.of_nat arity) ++ "."]
  | WrongNumberOfMacroArgs expected got =>
      ["Expected " ++ show_dec (Z.of_nat expected) ++ ","; "found " ++ show_dec (Z.of_nat got) ++ line_feed]
  | NoSuchMacro name => ["name " ++ name ++ "."]
  | InvalidIconSize w h => ["in " ++ x_path x ++ "."; "Expected " ++ show_dec w ++ "x" ++ show_dec h ++ "."]
  | InvalidPaletteSize size expected =>
      ["in " ++ x_path x ++ "."; "Expected " ++ show_dec expected ++ ","; "found " ++ show_dec size ++ "."]
  | ImageParseError => ["image " ++ x_path x ++ ": " ++ x_reason x ++ line_feed]
  | InvalidPath => ["path " ++ x_written x ++ "."]
  | InvalidSpriteType => ["sprite type: " ++ x_written x ++ "."]
  | InvalidSpriteHeader => ["sprite header: " ++ x_written x ++ "."]
  | SpriteTooWide w => ["too wide"; ": " ++ show_dec w ++ "."; "header=""no"""]
  | SpriteTooTall h => ["too tall"; ": " ++ show_dec h ++ "."; "header=""no"""]
  | MustBeLiteralNumber => ["literal number"]
  | UnexpectedChar _ => ["Unexpected Character"]
  | UnexpectedToken => ["Unexpected Token"]
  | InvalidInstruction => ["Invalid Instruction"]
  | InvalidExpression => ["Invalid Expression"]
  | UnknownDirective => ["Unknown Directive"]
  | UnknownInstruction => ["Unknown Instruction/Macro"]
  | UnexpectedEof => ["Unexpected EOF"]
  | DuplicateMacroArg => ["Duplicate macro arg"]
  | InvalidMacroArg => ["No such macro argument"]
  | DuplicateLabel _ => ["duplicate label"]
  | MacroLabelOutsideOfMacro => ["Macro label found outside"]
  | MacroArgOutsideOfMacro => ["Macro arg found outside"]
  | ImmediateValueNotAllowedHere => ["Immediate value not allowed"]
  | IndirectionModeNotAllowedHere => ["Indirection mode not allowed"]
  end.

(** No space in a name. *)
Definition no_space (s : string) : Prop := ~ In " "%char (list_ascii_of_string s).

Definition an_i32 (n : Z) : Prop := - 2 ^ 31 <= n < 2 ^ 31.
Definition a_usize (n : Z) : Prop := 0 <= n < 2 ^ 64.
Definition a_u8 (n : Z) : Prop := 0 <= n < 256.

(** The errors that the types of the program and the lexer allow (/repo/src/asm.rs 387-456): numbers of their types, names
    without spaces, and the four names given to scopes (the last one to that of the speed of an icon). *)
Definition possible (e : error) : Prop :=
  match e with
  | NameNotFound kind name => In kind ["Name"; "Variable"; "Label"; "HashMap"]
  | NumberOfBytesIsLongerThanLength a b => a_usize a /\ a_usize b
  | InvalidCodeLocation n | ByteOutOfRange n | WordOutOfRange n | InvalidAddress n => an_i32 n
  | NumOutOfRange b n | SignedNumOutOfRange b n => a_usize b /\ an_i32 n
  | AddrBitsDontMatch pos value pt vt => a_usize pos /\ an_i32 value /\ a_u8 pt /\ a_u8 vt
  | MacroAlreadyExists name arity => no_space name /\ a_usize (Z.of_nat arity)
  | WrongNumberOfMacroArgs a b => a_usize (Z.of_nat a) /\ a_usize (Z.of_nat b)
  | InvalidIconSize a b | InvalidPaletteSize a b => a_usize a /\ a_usize b
  | SpriteTooWide a | SpriteTooTall a => a_usize a
  | _ => True
  end.

(** The same error as far as its heading can tell: the name of a doubled label and the position of a character are only
    shown by the place, and where a file name ends is not marked. *)
Definition alike (e e' : error) : Prop :=
  match e, e' with
  | DuplicateLabel _, DuplicateLabel _ | UnexpectedChar _, UnexpectedChar _
  | FileLoadFailure _, FileLoadFailure _ | FileUtf8Error _, FileUtf8Error _ => True
  | _, _ => e = e'
  end.

(** What is said between the two places of an error that has two. *)
Definition between_phrases (e : error) : list string :=
  match e with
  | NameAlreadyExists _ => [line_feed ++ "...was already declared here" ++ line_feed]
  | MacroAlreadyExists _ _ => [line_feed ++ "Already exists here:" ++ line_feed]
  | WrongNumberOfMacroArgs _ _ => [line_feed ++ "Expected:" ++ line_feed]
  | _ => []
  end.

(** A text of whole lines. *)
Definition whole_lines (s : string) : Prop := s = "" \/ exists r, s = r ++ line_feed.
