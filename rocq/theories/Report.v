(** Quoting a source line under an error message: /repo/src/lib.rs 1045-1193. *)
From Coq Require Import ZArith List String Ascii Bool Arith.
From Verif Require Import Base Lexer.
Import ListNotations.
Open Scope string_scope.
Open Scope list_scope.
Local Open Scope nat_scope.

(** [start_of_line], /repo/src/lib.rs 1174-1181: [bytes[loc - 1]] panics beyond the end of the text. *)
Fixpoint start_of_line (loc : nat) (text : string) : outcome nat :=
  match loc with
  | O => Ok 0
  | S p =>
      match get p text with
      | None => Panic
      | Some c => if Ascii.eqb c LF then Ok loc else start_of_line p text
      end
  end.

(** [bytes.len() - 2] of /repo/src/lib.rs 1188 as [usize]: underflows for a text shorter than two bytes. *)
Definition len_minus_2 (pr : profile) (len : Z) : outcome Z :=
  if (2 <=? len)%Z then Ok (len - 2)%Z
  else match pr with Debug => Panic | Release => Ok (wrap_usize (len - 2)) end.

(** The test in the loop of [end_of_line], /repo/src/lib.rs 1187-1188, at a position [loc] inside the
    text.  [bytes.len() - 1] does not underflow there; [bytes.len() - 2] does for a text of one byte. *)
Definition ends_here (pr : profile) (loc : nat) (text : string) : outcome bool :=
  let len := Z.of_nat (String.length text) in
  match get loc text with
  | None => Panic
  | Some c =>
      if ((Z.of_nat loc <? len - 1)%Z && Ascii.eqb c LF)%bool then Ok true
      else
        let! len2 := len_minus_2 pr len in
        if ((Z.of_nat loc <? len2)%Z && Ascii.eqb c CR)%bool then
          match get (S loc) text with
          | None => Panic
          | Some d => Ok (Ascii.eqb d LF)
          end
        else Ok false
  end.

(** The loop of [end_of_line], /repo/src/lib.rs 1186-1191. *)
Fixpoint end_loop (pr : profile) (fuel loc : nat) (text : string) : outcome nat :=
  match fuel with
  | O => Diverge
  | S f =>
      if loc <? String.length text then
        let! stop := ends_here pr loc text in
        if stop then Ok loc else end_loop pr f (S loc) text
      else Ok loc
  end.

(** [end_of_line], /repo/src/lib.rs 1183-1193; each round moves towards the end of the text. *)
Definition end_of_line (pr : profile) (pos : nat) (text : string) : outcome nat :=
  end_loop pr (S (String.length text - pos)) pos text.

(** [line_for_pos], /repo/src/lib.rs 1170-1172; slicing panics unless the bounds are in order and inside. *)
Definition line_for_pos (pr : profile) (pos : nat) (text : string) : outcome string :=
  let! a := start_of_line pos text in
  let! b := end_of_line pr pos text in
  if ((a <=? b) && (b <=? String.length text))%bool then Ok (substring a (b - a) text) else Panic.

(** [UnicodeSegmentation::graphemes] (/repo/src/lib.rs 1129) on ASCII text: single characters, and the pair
    CR LF. *)
Fixpoint graphemes (s : string) : list string :=
  match s with
  | EmptyString => []
  | String c t =>
      match t with
      | String d t2 =>
          if (Ascii.eqb c CR && Ascii.eqb d LF)%bool then String c (String d EmptyString) :: graphemes t2
          else String c EmptyString :: graphemes t
      | EmptyString => [String c EmptyString]
      end
  end.

(** The regular expression [^\s$] of /repo/src/lib.rs 1126: one blank character. *)
Definition one_blank (g : string) : bool :=
  match g with
  | String c EmptyString => is_space c
  | _ => false
  end.

(** The loop over the characters of the line, /repo/src/lib.rs 1133-1148: what is pushed and the final
    [col]. *)
Fixpoint caret_loop (gs : list string) (col start stop : nat) : string * nat :=
  match gs with
  | [] => (EmptyString, col)
  | g :: t =>
      if col <? start then
        let '(r, c) := caret_loop t (S col) start stop in
        ((if one_blank g then g else " ") ++ r, c)%string
      else if col =? start then
        let '(r, c) := caret_loop t (S col) start stop in (String "^" r, c)
      else if col <? stop then
        let '(r, c) := caret_loop t (S col) start stop in (String "^" r, c)
      else (EmptyString, col)
  end.

(** A character repeated, as by the loops of /repo/src/lib.rs 1150-1160. *)
Definition times (n : nat) (c : ascii) : string := string_of_list_ascii (repeat c n).

(** [caret], /repo/src/lib.rs 1124-1168. *)
Definition caret (start stop : nat) (line msg : string) : string :=
  let '(r, col) := caret_loop (graphemes line) 0 start stop in
  let r2 :=
    if col <=? start then
      (r ++ times (start - col) " " ++
       (if (start =? stop)%nat then String "^" EmptyString else times (stop - start) "^"))%string
    else r in
  match msg with
  | EmptyString => r2
  | _ => (r2 ++ " " ++ msg)%string
  end.
