(** The instruction derive macro: /repo/waterbear-instruction-derive/src/lib.rs.
    A pattern string is parsed to bit ranges; encoder and decoder are computed from the ranges.
    The quoted code the macro generates is modelled by its meaning. *)
From Coq Require Import ZArith List String Ascii Bool.
From Verif Require Import Base.
Import ListNotations.
Open Scope Z_scope.

(** [Bit], lib.rs 188-192. *)
Inductive bit : Type :=
| BLit (v : Z)
| BRef (name : ascii) (idx : Z).

(** [BitRange], lib.rs 203-207. *)
Inductive range : Type :=
| RLit (v : Z) (size : Z)
| RRef (name : ascii) (high low : Z).

(** The class [\s] of the regular expression of lib.rs 271, restricted to ASCII text (simplification). *)
Definition is_ws (c : ascii) : bool :=
  let n := Z.of_nat (nat_of_ascii c) in (n =? 32) || (9 <=? n) && (n <=? 13).

(** [\s+] removed from the pattern, lib.rs 269-274. *)
Fixpoint strip_ws (s : string) : string :=
  match s with
  | EmptyString => EmptyString
  | String c t => if is_ws c then strip_ws t else String c (strip_ws t)
  end.

(** Decimal digit value, used by [usize::from_str_radix] at lib.rs 255. *)
Definition digit (c : ascii) : option Z :=
  let n := Z.of_nat (nat_of_ascii c) in
  if (48 <=? n) && (n <=? 57) then Some (n - 48) else None.

(** The class [[a-z]] of the token regular expression, lib.rs 248. *)
Definition is_name (c : ascii) : bool :=
  let n := Z.of_nat (nat_of_ascii c) in (97 <=? n) && (n <=? 122).

(** The [[0-9]*\]] part of the token regular expression, lib.rs 248-256: reads digits and the closing
    bracket.  Simplified: [from_str_radix] of line 255 overflows beyond 64 bits, here it does not. *)
Fixpoint read_idx (s : string) (acc : Z) : option (Z * string) :=
  match s with
  | EmptyString => None
  | String c t =>
      if Ascii.eqb c "]"%char then Some (acc, t)
      else match digit c with
           | Some d => read_idx t (acc * 10 + d)
           | None => None
           end
  end.

(** [match_token] and [tokenize_bit_pattern], lib.rs 246-287; [None] is the compile-time panic.
    The regular expression also matches a colon before [1], [0] or the name; the code then panics, at
    line 262 or at the [unwrap] of line 255.  The fuel is the length of the text. *)
Fixpoint tokenize (fuel : nat) (s : string) : option (list bit) :=
  match fuel with
  | O => match s with EmptyString => Some [] | _ => None end
  | S f =>
      match s with
      | EmptyString => Some []
      | String c t =>
          if Ascii.eqb c "1"%char then option_map (cons (BLit 1)) (tokenize f t)
          else if Ascii.eqb c "0"%char then option_map (cons (BLit 0)) (tokenize f t)
          else if Ascii.eqb c "["%char then
            match t with
            | String n (String d t') =>
                match is_name n, digit d with
                | true, Some v =>
                    match read_idx t' v with
                    | Some (k, rest) => option_map (cons (BRef n k)) (tokenize f rest)
                    | None => None
                    end
                | _, _ => None
                end
            | _ => None
            end
          else None
      end
  end.

(** [tokenize_bit_pattern], lib.rs 269-287; every token takes at least one character. *)
Definition tokenize_bit_pattern (p : string) : option (list bit) :=
  let s := strip_ws p in tokenize (String.length s) s.

(** The grouping loop of [bits_to_range], lib.rs 314-357.  [cur] is the current chunk, reversed.
    Simplified: for index 0 followed by the same operand, [idx - 1] of line 341 overflows, which stops a
    debug build of the macro; here, as in a release build, a new chunk begins. *)
Fixpoint chunks (bits : list bit) (cur : list bit) : list (list bit) :=
  match bits with
  | [] => match cur with [] => [] | _ => [rev cur] end
  | b :: rest =>
      match cur with
      | [] => chunks rest [b]
      | last :: _ =>
          let same :=
            match last, b with
            | BLit _, BLit _ => true
            | BRef n i, BRef n' i' => Ascii.eqb n n' && (i - 1 =? i')
            | _, _ => false
            end in
          if same then chunks rest (b :: cur) else rev cur :: chunks rest [b]
      end
  end.

(** The literal branch of [chunk_to_range], lib.rs 291-300: most significant bit first. *)
Fixpoint lit_value (bits : list bit) (acc : Z) : Z :=
  match bits with
  | BLit v :: t => lit_value t (Z.lor (Z.shiftl acc 1) v)
  | _ => acc
  end.

(** [chunk_to_range], lib.rs 289-312. *)
Definition chunk_to_range (c : list bit) : option range :=
  match c with
  | [] => None
  | BLit _ :: _ => Some (RLit (lit_value c 0) (Z.of_nat (List.length c)))
  | BRef n hi :: _ =>
      match List.last c (BLit 0) with
      | BRef _ lo => Some (RRef n hi lo)
      | BLit _ => None
      end
  end.

(** Collecting the results of the loops of lib.rs 314-364 and 562-573; [None] stands for their panics. *)
Fixpoint all_some {A : Type} (l : list (option A)) : option (list A) :=
  match l with
  | [] => Some []
  | None :: _ => None
  | Some a :: t => option_map (cons a) (all_some t)
  end.

(** [bits_to_range], lib.rs 314-364. *)
Definition bits_to_range (bits : list bit) : option (list range) :=
  all_some (map chunk_to_range (chunks bits [])).

(** Grouping by eight, lib.rs 562-573. *)
Fixpoint group8 (fuel : nat) (l : list bit) : list (list bit) :=
  match fuel with
  | O => []
  | S f => match l with [] => [] | _ => firstn 8 l :: group8 f (skipn 8 l) end
  end.

(** [parse_bit_pattern], lib.rs 557-580. *)
Definition parse_bit_pattern (p : string) : option (list (list range)) :=
  match tokenize_bit_pattern p with
  | None => None
  | Some toks =>
      if Nat.eqb (Nat.modulo (List.length toks) 8) 0
      then all_some (map bits_to_range (group8 (List.length toks) toks))
      else None
  end.

(** [make_mask], lib.rs 366-372. *)
Definition make_mask (n : Z) : Z :=
  fold_left (fun v idx => Z.lor v (Z.shiftl 1 (Z.of_nat idx))) (seq 0 (Z.to_nat n)) 0.

(** Operand valuation: the variables [a], [b], [c] of the generated match arms, lib.rs 582-612. *)
Definition operand (args : list Z) (name : ascii) : Z :=
  nth (nat_of_ascii name - 97) args 0.

(** [x as u8] in the generated code, lib.rs 535-545. *)
Definition to_u8 (z : Z) : Z := z mod 256.

(** [x as u32] in the generated code, lib.rs 535-545. *)
Definition to_u32 (z : Z) : Z := z mod 4294967296.

(** One disjunct of the generated byte expression, lib.rs 520-550; [pos] is the position counter. *)
Definition range_term (pos : Z) (args : list Z) (r : range) : Z :=
  match r with
  | RLit v size => to_u8 (Z.shiftl v (pos - size))
  | RRef n high low =>
      let size := 1 + high - low in
      let mask := Z.shiftl (make_mask size) (high + 1 - size) in
      let lshift := pos - size in
      let shift_amount := low - lshift in
      if shift_amount =? 0 then to_u8 (Z.land mask (to_u32 (operand args n)))
      else if 0 <? shift_amount then to_u8 (Z.shiftr (Z.land mask (to_u32 (operand args n))) shift_amount)
      else to_u8 (to_u32 (Z.shiftl (Z.land mask (to_u32 (operand args n))) (Z.abs shift_amount)))
  end.

(** The size of a range, lib.rs 522 and 529. *)
Definition range_size (r : range) : Z :=
  match r with RLit _ s => s | RRef _ h l => 1 + h - l end.

(** [byte_to_tokens], lib.rs 517-555: the disjunction of the terms of one byte. *)
Fixpoint encode_byte (pos : Z) (args : list Z) (rs : list range) : Z :=
  match rs with
  | [] => 0
  | r :: t => Z.lor (range_term pos args r) (encode_byte (pos - range_size r) args t)
  end.

(** The generated [encode] arm of one variant, lib.rs 42-62. *)
Definition encode_ranges (rss : list (list range)) (args : list Z) : list Z :=
  map (encode_byte 8 args) rss.

(** [bit_combinations], lib.rs 374-386. *)
Fixpoint bit_combinations (size : nat) : list Z :=
  match size with
  | O => []
  | S O => [1; 0]
  | S k => flat_map (fun n => [Z.lor (Z.shiftl 1 (Z.of_nat k)) n; n]) (bit_combinations k)
  end.

(** The possible values of one range, lib.rs 388-418 (inner part). *)
Definition range_literals (r : range) : list Z :=
  match r with
  | RLit v _ => [v]
  | RRef _ h l => bit_combinations (Z.to_nat (1 + h - l))
  end.

(** [combinations_to_bits], lib.rs 420-442: size and values.  The list of [literal_combinations] is
    reversed twice in the code (388-418, 445-449), hence in order here. *)
Fixpoint combinations_to_bits (rs : list range) : Z * list Z :=
  match rs with
  | [] => (0, [])
  | [r] => (range_size r, range_literals r)
  | r :: t =>
      let (size, bytes) := combinations_to_bits t in
      (size + range_size r,
       flat_map (fun num => map (fun b => to_u8 (Z.lor (Z.shiftl num size) b)) bytes)
                (range_literals r))
  end.

(** [all_possible_opcodes], lib.rs 444-453 (the sorting does not matter for a match pattern). *)
Definition all_possible_opcodes (rs : list range) : list Z := snd (combinations_to_bits rs).

(** One disjunct of an extractor, lib.rs 491-502. *)
Definition extract_term (byte bitpos high low : Z) : Z :=
  let size := high + 1 - low in
  let mask := Z.shiftl (make_mask size) (bitpos - size) in
  Z.shiftl (Z.shiftr (Z.land byte mask) (bitpos - size)) (high + 1 - size).

(** The loop over the ranges of one byte, lib.rs 485-505, keeping the parts of operand [name]. *)
Fixpoint extract_byte (name : ascii) (bitpos byte : Z) (rs : list range) : Z :=
  match rs with
  | [] => 0
  | RLit _ size :: t => extract_byte name (bitpos - size) byte t
  | RRef n h l :: t =>
      let rest := extract_byte name (bitpos - (h + 1 - l)) byte t in
      if Ascii.eqb n name then Z.lor (extract_term byte bitpos h l) rest else rest
  end.

(** [ranges_to_extractors], lib.rs 462-515: the disjunction of all parts of operand [name]. *)
Fixpoint extract (name : ascii) (rss : list (list range)) (bytes : list Z) : Z :=
  match rss, bytes with
  | rs :: rt, b :: bt => Z.lor (extract_byte name 8 b rs) (extract name rt bt)
  | _, _ => 0
  end.

(** The operand names in order, [LETTERS], lib.rs 582-608. *)
Definition letters : list ascii := ["a"; "b"; "c"]%char.
