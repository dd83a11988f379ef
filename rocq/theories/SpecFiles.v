(** What identifying source files should mean. *)
From Coq Require Import List String Ascii Bool.
From Verif Require Import Base Files.
Import ListNotations.
Open Scope string_scope.

(** Two spellings of a path that differ only in repeated slashes, dots between slashes and a slash at the
    end. *)
Inductive same_path : string -> string -> Prop :=
| sp_refl : forall p, same_path p p
| sp_sym : forall p q, same_path p q -> same_path q p
| sp_trans : forall p q r, same_path p q -> same_path q r -> same_path p r
| sp_slashes : forall a b, same_path (a ++ "//" ++ b) (a ++ "/" ++ b)
| sp_dot : forall a b, same_path (a ++ "/./" ++ b) (a ++ "/" ++ b)
| sp_last_dot : forall a, same_path (a ++ "/.") (a ++ "/")
| sp_last_slash : forall a, a <> "" -> same_path (a ++ "/") a.

(** A request to load a file, with the file system as it is at that time. *)
Record request : Type := mkRequest { rq_fs : fs; rq_root : option string; rq_name : string }.

(** The state after a sequence of requests, of which some may have failed. *)
Fixpoint after (s : source_files) (l : list request) : source_files :=
  match l with
  | [] => s
  | r :: t =>
      match load (rq_fs r) s (rq_root r) (rq_name r) with
      | Ok (_, s1) => after s1 t
      | _ => after s t
      end
  end.
