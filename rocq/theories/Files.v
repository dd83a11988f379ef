(** Source files and paths: /repo/src/files.rs.  Paths are Unix paths kept as text; the functions of
    [std::path] used there are modelled on that text. *)
From Coq Require Import ZArith List String Ascii Bool Arith.
From Verif Require Import Base.
Import ListNotations.
Open Scope string_scope.
Open Scope list_scope.
Local Open Scope nat_scope.

(** The pieces of a path between slashes: [std::path], used in /repo/src/files.rs 109 and 130-138. *)
Fixpoint segments (s : string) : list string :=
  match s with
  | EmptyString => [EmptyString]
  | String c t =>
      if Ascii.eqb c "/" then EmptyString :: segments t
      else match segments t with
           | [] => [String c EmptyString]
           | h :: r => String c h :: r
           end
  end.

(** [std::path::Component] on Unix; [Path] is used throughout /repo/src/files.rs. *)
Inductive component : Type := RootDir | CurDir | ParentDir | Normal (name : string).

(** A piece other than the first, [std::path::Components]: empty pieces and dots are dropped
    (for [==] in /repo/src/files.rs 109). *)
Definition segment_component (seg : string) : list component :=
  if (String.eqb seg "" || String.eqb seg ".")%bool then []
  else if String.eqb seg ".." then [ParentDir]
  else [Normal seg].

(** [Path::is_absolute] on Unix, /repo/src/files.rs 86 and 131. *)
Definition is_absolute (p : string) : bool :=
  match p with String c _ => Ascii.eqb c "/" | EmptyString => false end.

(** [Path::components], as used by [==] in /repo/src/files.rs 109: a dot counts only as the very first
    piece. *)
Definition components (p : string) : list component :=
  (if is_absolute p then [RootDir] else
   match segments p with s :: _ => if String.eqb s "." then [CurDir] else [] | [] => [] end) ++
  flat_map segment_component (segments p).

(** Equality of components, for /repo/src/files.rs 109. *)
Definition component_eqb (a b : component) : bool :=
  match a, b with
  | RootDir, RootDir => true
  | CurDir, CurDir => true
  | ParentDir, ParentDir => true
  | Normal s, Normal t => String.eqb s t
  | _, _ => false
  end.

(** Equality of lists of components, for /repo/src/files.rs 109. *)
Fixpoint components_eqb (a b : list component) : bool :=
  match a, b with
  | [], [] => true
  | x :: s, y :: t => (component_eqb x y && components_eqb s t)%bool
  | _, _ => false
  end.

(** [==] on [Path], /repo/src/files.rs 109: the components agree. *)
Definition path_eqb (p q : string) : bool := components_eqb (components p) (components q).

(** A component as text, for /repo/src/files.rs 137. *)
Definition component_text (c : component) : string :=
  match c with RootDir => "" | CurDir => "." | ParentDir => ".." | Normal s => s end.

(** Components as a path, for /repo/src/files.rs 137. *)
Definition render (l : list component) : string :=
  match l with
  | [RootDir] => "/"
  | _ => String.concat "/" (map component_text l)
  end.

(** [Path::parent], /repo/src/files.rs 137.  Simplified: the code returns a slice of the text; here the
    components before the last one are written out anew, which names the same path up to repeated
    slashes and dots. *)
Definition parent (p : string) : option string :=
  match rev (components p) with
  | [] => None
  | RootDir :: _ => None
  | _ :: t => Some (render (rev t))
  end.

(** Does the text end with a slash?  For [Path::join], /repo/src/files.rs 139. *)
Fixpoint ends_with_slash (p : string) : bool :=
  match p with
  | EmptyString => false
  | String c EmptyString => Ascii.eqb c "/"
  | String _ t => ends_with_slash t
  end.

(** [Path::join] on Unix, /repo/src/files.rs 139 and 153. *)
Definition join (p q : string) : string :=
  if is_absolute q then q
  else match p with
       | EmptyString => q
       | _ => if ends_with_slash p then (p ++ q)%string else (p ++ "/" ++ q)%string
       end.

(** The file system as seen by one call: [Path::is_file], [Path::is_dir] and the contents found by
    [File::open] and [read_to_end] (/repo/src/files.rs 60-68), [None] when that fails. *)
Record fs : Type := mkFs { is_file : string -> bool; is_dir : string -> bool; read_bytes : string -> option string }.

(** A byte within a range, for /repo/src/files.rs 73. *)
Definition in_range (lo hi : nat) (c : ascii) : bool :=
  (Nat.leb lo (nat_of_ascii c) && Nat.leb (nat_of_ascii c) hi)%bool.

(** The check made by [String::from_utf8], /repo/src/files.rs 73. *)
Fixpoint valid_utf8 (s : string) : bool :=
  match s with
  | EmptyString => true
  | String a t =>
      if in_range 0 127 a then valid_utf8 t
      else match t with
      | String b t2 =>
          if (in_range 194 223 a && in_range 128 191 b)%bool then valid_utf8 t2
          else match t2 with
          | String c t3 =>
              if (((Ascii.eqb a "224" && in_range 160 191 b) || (in_range 225 236 a && in_range 128 191 b) ||
                   (Ascii.eqb a "237" && in_range 128 159 b) || (in_range 238 239 a && in_range 128 191 b))
                  && in_range 128 191 c)%bool
              then valid_utf8 t3
              else match t3 with
              | String d t4 =>
                  if (((Ascii.eqb a "240" && in_range 144 191 b) || (in_range 241 243 a && in_range 128 191 b) ||
                       (Ascii.eqb a "244" && in_range 128 143 b)) && in_range 128 191 c && in_range 128 191 d)%bool
                  then valid_utf8 t4 else false
              | EmptyString => false
              end
          | EmptyString => false
          end
      | EmptyString => false
      end
  end.

(** [load_file] with [load_bytes], /repo/src/files.rs 60-76. *)
Definition load_file (w : fs) (path : string) : outcome string :=
  match read_bytes w path with
  | None => Err (FileLoadFailure path)
  | Some bytes => if valid_utf8 bytes then Ok bytes else Err (FileUtf8Error path)
  end.

(** [SourceFile], /repo/src/files.rs 31-35; [FileID] (14-17) is its number. *)
Record source_file : Type := mkFile { sf_id : nat; sf_name : string; sf_contents : string }.

(** [SourceFiles], /repo/src/files.rs 51-54. *)
Record source_files : Type := mkFiles { working_dir : string; sf_list : list source_file }.

(** [SourceFiles::new], /repo/src/files.rs 79-92; the working directory is given (simplification). *)
Definition new_files (wd : string) : source_files := mkFiles wd [].

(** [SourceFiles::for_id], /repo/src/files.rs 94-100. *)
Definition for_id (s : source_files) (id : nat) : option source_file :=
  if Nat.ltb id (List.length (sf_list s)) then nth_error (sf_list s) id else None.

(** The loop of [get_id], /repo/src/files.rs 108-112. *)
Fixpoint find_name (l : list source_file) (idx : nat) (name : string) : option nat :=
  match l with
  | [] => None
  | f :: t => if path_eqb (sf_name f) name then Some idx else find_name t (S idx) name
  end.

(** [SourceFiles::get_id], /repo/src/files.rs 106-114. *)
Definition get_id (s : source_files) (name : string) : option nat := find_name (sf_list s) 0 name.

(** [SourceFiles::path], /repo/src/files.rs 123-155; the warnings are left out. *)
Definition path_of (w : fs) (s : source_files) (root : option string) (filename : string) : outcome string :=
  match root with
  | None => Ok (join (working_dir s) filename)
  | Some root_file =>
      let! correct :=
        if is_absolute filename then Ok filename
        else if is_dir w root_file then Ok (join root_file filename)
        else match parent root_file with
             | None => Panic
             | Some dir => Ok (join dir filename)
             end in
      if (is_file w correct || negb (is_file w filename))%bool then Ok correct else Ok filename
  end.

(** [SourceFiles::load], /repo/src/files.rs 157-178: the file and the new state. *)
Definition load (w : fs) (s : source_files) (root : option string) (filename : string)
  : outcome (source_file * source_files) :=
  let! path := path_of w s root filename in
  match get_id s path with
  | Some id => match nth_error (sf_list s) id with Some f => Ok (f, s) | None => Panic end
  | None =>
      let! contents := load_file w path in
      let f := mkFile (List.length (sf_list s)) path contents in
      Ok (f, mkFiles (working_dir s) (sf_list s ++ [f]))
  end.
