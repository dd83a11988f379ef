(** Programs that differ in letter case only. *)
From Coq Require Import List String Ascii Bool.
From Verif Require Import Base Ast Lexer CHeader Parser Files Include SpecLex SpecInclude.
Import ListNotations.
Open Scope string_scope.
Open Scope list_scope.

(** The same files, with letters changed in case in some of them. *)
Record recased (w v : fs) : Prop := mkRecased {
  rd_file : forall p, is_file w p = is_file v p;
  rd_dir : forall p, is_dir w p = is_dir v p;
  rd_read : forall p,
    match read_bytes w p, read_bytes v p with
    | None, None => True
    | Some a, Some b => a = b \/ recase true a b
    | _, _ => False
    end }.

(** C headers are read in another way; either no file has a line that includes a C header, or the files
    are the same read as C headers. *)
Definition headers_alike (w v : fs) : Prop :=
  (forall p a i toks line q, read_bytes w p = Some a -> lex_input (new_input i a) = Ok toks -> In line (lines toks) ->
     ~ header_include (map t_type line) q) \/
  (forall p a b i, read_bytes w p = Some a -> read_bytes v p = Some b ->
     header_lex (new_input i a) = header_lex (new_input i b)).

(** Files included as bytes are the same. *)
Definition bytes_alike (w v : fs) (fuel : nat) (wd name : string) : Prop :=
  forall f s toks out T stmts p q, load w (new_files wd) None (join wd name) = Ok (f, s) ->
    lex_input (new_input (sf_id f) (sf_contents f)) = Ok toks -> replace_includes fuel w (join wd name) s toks = Ok (out, T) ->
    parse out = Ok stmts -> In (SDirective (DInclude IncBytes p)) (st_list stmts) ->
    found w (join wd name) p q -> read_bytes w q = read_bytes v q.
