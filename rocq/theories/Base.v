(** Common definitions: outcomes, build profiles, machine integers, byte vectors, ASCII text. *)
From Coq Require Import ZArith List String Ascii Bool.
Import ListNotations.
Open Scope Z_scope.

(** The error values.  One type for [EvaluationError] (/repo/src/expression.rs 7-17),
    [EncodingError] (/repo/src/instruction.rs 7-31), [LexerError] (/repo/src/lexer.rs 273-276),
    [ParseError] (/repo/src/parser.rs 13-32) and [AssemblyError] (/repo/src/asm.rs 387-456): the
    [From] implementations (/repo/src/asm.rs 458-565) map the former to the latter constructor by
    constructor.  Simplified: spans, tokens and file names carried for messages are dropped. *)
Inductive error : Type :=
| NameNotFound (kind name : string)
| DivideByZero
| MustBeLiteralNumber
| NumberOfBytesIsLongerThanLength (len nbytes : Z)
| NameAlreadyExists (name : string)
| InvalidCodeLocation (loc : Z)
| InvalidPath
| InvalidIconSize (w h : Z)
| InvalidPaletteSize (size expected : Z)
| SpriteTooWide (w : Z)
| SpriteTooTall (h : Z)
| InvalidSpriteHeader
| ImageParseError
| NumOutOfRange (bits value : Z)
| ByteOutOfRange (value : Z)
| WordOutOfRange (value : Z)
| SignedNumOutOfRange (bits value : Z)
| InvalidAddress (value : Z)
| AddrBitsDontMatch (pos value pos_top value_top : Z)
| UnexpectedChar (pos : Z)
| UnexpectedToken
| InvalidInstruction
| ExpectedTokenNotFound (what : string)
| InvalidExpression
| MissingBytes
| MissingWords
| UnknownDirective
| UnknownInstruction
| WrongInstructionArgs (name : string)
| UnexpectedEof
| FileLoadFailure (path : string)
| FileUtf8Error (path : string)
| MacroNameConflictsWithInstruction (name : string)
| MacroAlreadyExists (name : string) (arity : nat)
| DuplicateMacroArg
| InvalidMacroArg
| WrongNumberOfMacroArgs (expected got : nat)
| DuplicateLabel (name : string)
| MacroLabelOutsideOfMacro
| MacroArgOutsideOfMacro
| ImmediateValueNotAllowedHere
| IndirectionModeNotAllowedHere
| NoSuchMacro (name : string)
| InvalidSpriteType.

(** The result of running a Rust function: [Result::Ok], [Result::Err], a panic, or (only for
    fuelled functions) not finished within the given fuel.  Models Rust's [Result] plus the two
    ways a call may fail to return; used for every function of /repo returning [Result]
    (for instance /repo/src/asm.rs 232). *)
Inductive outcome (A : Type) : Type :=
| Ok (a : A)
| Err (e : error)
| Panic
| Diverge.
Arguments Ok {A} a.
Arguments Err {A} e.
Arguments Panic {A}.
Arguments Diverge {A}.

(** Rust's [?] operator (for instance /repo/src/asm.rs 233). *)
Definition bind {A B : Type} (x : outcome A) (f : A -> outcome B) : outcome B :=
  match x with
  | Ok a => f a
  | Err e => Err e
  | Panic => Panic
  | Diverge => Diverge
  end.

Notation "'let!' x := a 'in' b" := (bind a (fun x => b))
  (at level 200, x pattern, a at level 100, b at level 200).

(** Build profile: /repo/Cargo.toml has no [profile] section, so overflow checks are on in debug
    builds and off in release builds. *)
Inductive profile : Type := Debug | Release.

(** Range of [i32]; values of type [i32] in /repo (for instance /repo/src/expression.rs 464). *)
Definition fits32 (z : Z) : bool := (-2147483648 <=? z) && (z <=? 2147483647).

(** [as i32] casts (for instance /repo/src/asm.rs 343) and wrapping [i32] arithmetic. *)
Definition wrap32 (z : Z) : Z := (z + 2147483648) mod 4294967296 - 2147483648.

(** Result of an [i32] operation whose mathematical result is [z] (for instance
    /repo/src/expression.rs 482). *)
Definition chk32 (pr : profile) (z : Z) : outcome Z :=
  if fits32 z then Ok z
  else match pr with Debug => Panic | Release => Ok (wrap32 z) end.

(** Range of [usize] on 64-bit targets (for instance /repo/src/asm.rs 244). *)
Definition fits_usize (z : Z) : bool := (0 <=? z) && (z <=? 18446744073709551615).

(** [as usize] casts of [i32] values (/repo/src/asm.rs 343). *)
Definition wrap_usize (z : Z) : Z := z mod 18446744073709551616.

(** Result of a [usize] operation whose mathematical result is [z] (/repo/src/asm.rs 343). *)
Definition chk_usize (pr : profile) (z : Z) : outcome Z :=
  if fits_usize z then Ok z
  else match pr with Debug => Panic | Release => Ok (wrap_usize z) end.

(** A [Vec<u8>] (/repo/src/asm.rs 234) is a list of integers; reading at an index. *)
Definition get_at {A : Type} (l : list A) (i : Z) : option A :=
  if i <? 0 then None else nth_error l (Z.to_nat i).

(** Replacing the element at an index, for the assignments of /repo/src/asm.rs 267-357. *)
Fixpoint set_nth {A : Type} (l : list A) (i : nat) (v : A) : option (list A) :=
  match l, i with
  | [], _ => None
  | _ :: t, O => Some (v :: t)
  | x :: t, S j => match set_nth t j v with Some t' => Some (x :: t') | None => None end
  end.

(** [output[pos] = b] (/repo/src/asm.rs 267): a panic when out of bounds. *)
Definition write_at {A : Type} (l : list A) (i : Z) (v : A) : outcome (list A) :=
  if i <? 0 then Panic
  else match set_nth l (Z.to_nat i) v with Some l' => Ok l' | None => Panic end.

(** [HashMap<String, A>] (/repo/src/env.rs 20): association list, the first entry wins. *)
Definition smap (A : Type) : Type := list (string * A).

(** [HashMap::get] (/repo/src/env.rs 14). *)
Fixpoint mget {A : Type} (m : smap A) (k : string) : option A :=
  match m with
  | [] => None
  | (k', v) :: t => if String.eqb k k' then Some v else mget t k
  end.

(** [HashMap::insert] (/repo/src/asm.rs 579). *)
Definition minsert {A : Type} (m : smap A) (k : string) (v : A) : smap A := (k, v) :: m.

(** [HashMap::contains_key] (/repo/src/asm.rs 572). *)
Definition mcontains {A : Type} (m : smap A) (k : string) : bool :=
  match mget m k with Some _ => true | None => false end.

(** ASCII lower-casing of a character; [str::to_lowercase] (/repo/src/expression.rs 475) restricted to
    ASCII text (simplification). *)
Definition lower_ascii (c : ascii) : ascii :=
  let n := nat_of_ascii c in
  if (Nat.leb 65 n && Nat.leb n 90)%bool then ascii_of_nat (n + 32) else c.

(** [str::to_lowercase], /repo/src/asm.rs 612, restricted to ASCII text (simplification). *)
Fixpoint lower (s : string) : string :=
  match s with
  | EmptyString => EmptyString
  | String c t => String (lower_ascii c) (lower t)
  end.

(** [name.starts_with(".")] (/repo/src/env.rs 47, /repo/src/asm.rs 348 and 607). *)
Definition is_local (s : string) : bool :=
  match s with
  | String c _ => Ascii.eqb c "."%char
  | EmptyString => false
  end.
