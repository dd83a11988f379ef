(** Text in grapheme clusters, and places in it. *)
From Coq Require Import ZArith List String Ascii Bool.
From Verif Require Import Base Lexer.
From Verif Require SpecLex.
Import ListNotations.
Open Scope string_scope.
Open Scope list_scope.
Local Open Scope nat_scope.

(** An ASCII byte; all bytes of other characters are above. *)
Definition low (c : ascii) : Prop := nat_of_ascii c < 128.

Fixpoint every (P : ascii -> Prop) (s : string) : Prop :=
  match s with
  | EmptyString => True
  | String c t => P c /\ every P t
  end.

Fixpoint joined (ps : list string) : string :=
  match ps with
  | [] => ""
  | p :: t => (p ++ joined t)%string
  end.

(** The clusters of a text and of what remains of it after some of them. *)
Definition clusters_of (seg : string -> list string) (text : string) (ps : list string) : Prop :=
  joined ps = text /\ forall a b, ps = a ++ b -> seg (joined b) = b.

(** Clusters in which ASCII characters stand alone, except CR LF: nothing is combined with them. *)
Inductive tidy : list string -> Prop :=
| tidy_none : tidy []
| tidy_crlf : forall ps, tidy ps -> tidy (String CR (String LF "") :: ps)
| tidy_ascii : forall c ps, low c -> (c = CR -> forall t, joined ps <> String LF t) -> tidy ps -> tidy (String c "" :: ps)
| tidy_other : forall p ps, p <> "" -> every (fun c => ~ low c) p -> tidy ps -> tidy (p :: ps).

(** The clusters of ASCII text: this is what the rules of Unicode say about it. *)
Inductive ascii_clusters : string -> list string -> Prop :=
| ac_none : ascii_clusters "" []
| ac_crlf : forall t ps, ascii_clusters t ps -> ascii_clusters (String CR (String LF t)) (String CR (String LF "") :: ps)
| ac_one : forall c t ps, low c -> (c = CR -> forall u, t <> String LF u) -> ascii_clusters t ps -> ascii_clusters (String c t) (String c "" :: ps).

(** * Places *)

Definition line_break (p : string) : bool := (String.eqb p (String CR (String LF "")) || String.eqb p (String LF ""))%bool.

(** The clusters behind the last line break. *)
Fixpoint column (ps : list string) (sofar : nat) : nat :=
  match ps with
  | [] => sofar
  | p :: t => if line_break p then column t 0 else column t (S sofar)
  end.

(** The place behind some clusters: bytes, lines from one, clusters of the line. *)
Definition cluster_place (f : nat) (before : list string) : location :=
  mkLoc f (String.length (joined before)) (1 + List.length (filter line_break before)) (column before 0).

(** The same token, placed behind the same clusters: once in bytes ([SpecLex.place]) and once in clusters. *)
Definition same_token (f : nat) (ps : list string) (t u : token) : Prop :=
  t_type u = t_type t /\
  exists b1 r1 b2 r2, ps = b1 ++ r1 /\ ps = b2 ++ r2 /\
    t_span t = mkSpan (SpecLex.place f (joined b1)) (SpecLex.place f (joined b2)) /\
    t_span u = mkSpan (cluster_place f b1) (cluster_place f b2).

(** A character of Unicode at which a text begins, other than ASCII, that is white space: U+0085, U+00A0, U+1680, U+2000 to U+200A, U+2028,
    U+2029, U+202F, U+205F and U+3000. *)
Definition wide_spaces : list (list nat) :=
  [[194; 133]; [194; 160]; [225; 154; 128]; [226; 128; 168]; [226; 128; 169]; [226; 128; 175]; [226; 129; 159]; [227; 128; 128]] ++
  map (fun k => [226; 128; 128 + k]) (seq 0 11).

Fixpoint bytes_of (l : list nat) : string :=
  match l with
  | [] => ""
  | n :: t => String (ascii_of_nat n) (bytes_of t)
  end.

Definition wide_space (s : string) : Prop := exists l t, In l wide_spaces /\ s = (bytes_of l ++ t)%string.

(** No such space at the start of a cluster. *)
Definition no_wide_space (ps : list string) : Prop := forall a b, ps = a ++ b -> ~ wide_space (joined b).
