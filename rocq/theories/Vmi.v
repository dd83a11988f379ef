(** The VMI file: [generate_vmi], /repo/src/lib.rs 348-474.  Reading the VMS file and writing the result are
    left out: the function takes the contents and returns the bytes. *)
From Coq Require Import ZArith List String Ascii Bool.
From Verif Require Import Base.
Import ListNotations.
Open Scope Z_scope.

(** [Weekday] of the chrono crate, as used in /repo/src/lib.rs 461-469. *)
Inductive weekday : Type := Mon | Tue | Wed | Thu | Fri | Sat | Sun.

(** What is read of [Local::now()], /repo/src/lib.rs 441-461. *)
Record datetime : Type := mkDate {
  d_year : Z; d_month : Z; d_day : Z; d_hour : Z; d_minute : Z; d_second : Z; d_weekday : weekday }.

(** [str::as_bytes] (/repo/src/lib.rs 373). *)
Fixpoint str_bytes (s : string) : list Z :=
  match s with
  | EmptyString => []
  | String c t => Z.of_nat (nat_of_ascii c) :: str_bytes t
  end.

(** The last part of [input_file.split('/')], /repo/src/lib.rs 367-368 and 376-377. *)
Fixpoint last_part (s sofar : string) : string :=
  match s with
  | EmptyString => sofar
  | String c t => if Ascii.eqb c "/" then last_part t EmptyString else last_part t (sofar ++ String c EmptyString)
  end.

(** [Regex::new("\\.vms$").replace(filename, "")], /repo/src/lib.rs 369-370: the text before the first
    place where nothing but [.vms] is left. *)
Fixpoint strip_vms (s : string) : string :=
  if String.eqb s ".vms" then EmptyString
  else match s with
       | EmptyString => EmptyString
       | String c t => String c (strip_vms t)
       end.

(** A byte of a string, or zero behind its end: the loops of /repo/src/lib.rs 392-397, 405-410 and 414-419. *)
Definition byte_or_zero (bytes : list Z) (idx : nat) : Z :=
  match nth_error bytes idx with Some b => b | None => 0 end.

(** Writing consecutive bytes of the array, as the loops of /repo/src/lib.rs 386-474 do. *)
Fixpoint put (arr : list Z) (at_ : Z) (vals : list Z) : outcome (list Z) :=
  match vals with
  | [] => Ok arr
  | v :: t => let! arr1 := write_at arr at_ v in put arr1 (at_ + 1) t
  end.

(** Reading [n] consecutive bytes of the VMS file, /repo/src/lib.rs 386-388: a panic beyond its end. *)
Fixpoint take_from (bytes : list Z) (at_ : Z) (n : nat) : outcome (list Z) :=
  match n with
  | O => Ok []
  | S m =>
      match get_at bytes at_ with
      | None => Panic
      | Some b => let! t := take_from bytes (at_ + 1) m in Ok (b :: t)
      end
  end.

(** The first [n] bytes of [to_le_bytes], /repo/src/lib.rs 434 and 444. *)
Fixpoint le_bytes (n : nat) (v : Z) : list Z :=
  match n with
  | O => []
  | S m => v mod 256 :: le_bytes m (v / 256)
  end.

(** The match of /repo/src/lib.rs 461-469. *)
Definition weekday_number (w : weekday) : Z :=
  match w with Sun => 0 | Mon => 1 | Tue => 2 | Wed => 3 | Thu => 4 | Fri => 5 | Sat => 6 end.

(** One byte of the checksum, /repo/src/lib.rs 427-430. *)
Definition checksum_byte (arr : list Z) (i : Z) (letter : Z) : outcome (list Z) :=
  match get_at arr (80 + i) with
  | None => Panic
  | Some b => write_at arr i (Z.land b letter)
  end.

(** [generate_vmi], /repo/src/lib.rs 348-474. *)
Definition generate_vmi (input_file : string) (vms : list Z) (copyright : string) (offset : Z) (now : datetime)
  : outcome (list Z) :=
  let filename := last_part input_file EmptyString in
  let basename_bytes := str_bytes (strip_vms filename) in
  let filename_bytes := str_bytes filename in
  let bytes := repeat 0 108 in
  let! description := take_from vms (offset + 16) 32 in
  let! bytes := put bytes 4 description in
  let! bytes := put bytes 36 (map (byte_or_zero (str_bytes copyright)) (seq 0 32)) in
  let! bytes := put bytes 78 [1; 0] in
  let! bytes := put bytes 80 (map (byte_or_zero basename_bytes) (seq 0 8)) in
  let! bytes := put bytes 88 (map (byte_or_zero filename_bytes) (seq 0 12)) in
  let! bytes := if 0 <? offset then write_at bytes 100 2 else Ok bytes in
  let! bytes := checksum_byte bytes 0 83 in
  let! bytes := checksum_byte bytes 1 69 in
  let! bytes := checksum_byte bytes 2 71 in
  let! bytes := checksum_byte bytes 3 65 in
  let! bytes := put bytes 104 (le_bytes 4 (Z.of_nat (List.length vms))) in
  let! bytes := put bytes 68 (le_bytes 2 (d_year now mod 65536)) in
  let! bytes := write_at bytes 70 (d_month now mod 256) in
  let! bytes := write_at bytes 71 (d_day now mod 256) in
  let! bytes := write_at bytes 72 (d_hour now mod 256) in
  let! bytes := write_at bytes 73 (d_minute now mod 256) in
  let! bytes := write_at bytes 74 (d_second now mod 256) in
  write_at bytes 75 (weekday_number (d_weekday now)).

(** The offset chosen by the [vmi] command, /repo/src/lib.rs 253-255. *)
Definition vmi_offset (game : bool) : Z := if game then 512 else 0.
