(** * Model of /repo/richard/data_source/SparqlDataSource.py

    The endpoint is any stateful function from query text to a response
    ([ask]); the file system is a map from file names to contents; [hash] is
    [hashlib.sha1(..).hexdigest()]. *)

From Coq Require Import ZArith String Ascii List Bool.
From Verif Require Import Py Effects.
Import ListNotations.
Local Open Scope string_scope.
Local Open Scope list_scope.
Local Open Scope monad_scope.

Definition nl : string := String (ascii_of_nat 10) "".

(** SparqlDataSource.py 6-8 *)
Definition ID : string := "id".
Definition TEXT : string := "text".
Definition CONSTANT : string := "constant".

(** SparqlDataSource.py 114-127 *)
Definition prepare_term (lang : string) (term : value) (index : nat) (column : string) : string :=
  match term with
  | VNone => "?term" ++ py_str (VInt (Z.of_nat index))
  | VStr s =>
      if String.eqb column ID then "<" ++ s ++ ">"
      else if String.eqb column CONSTANT then s
      else "'" ++ s ++ "'@" ++ lang
  | _ => py_str term
  end%string.

(** SparqlDataSource.py 130-137, for the two values *)
Definition prepare_variables (v0 v1 : value) (t0 t1 : string) : list string :=
  match (if is_none v0 then [t0] else []) ++ (if is_none v1 then [t1] else []) with
  | [] => ["*"]
  | l => l
  end.

(** SparqlDataSource.py 140-145 *)
Definition prepare_text_variables (v0 v1 : value) (t0 t1 c0 c1 : string) : list string :=
  (if is_none v0 && String.eqb c0 TEXT then [t0] else []) ++
  (if is_none v1 && String.eqb c1 TEXT then [t1] else []).

(** SparqlDataSource.py 95-111 *)
Definition create_query (lang : string) (variables text_variables : list string) (t0 t1 table : string) : string :=
  let locale_filter := fold_left (fun acc tv =>
      (acc ++ nl ++ "                FILTER(LANG(" ++ tv ++ ") = """ ++ lang ++ """) ." ++ nl ++ "            ")%string)
      text_variables "" in
  (nl ++ "            SELECT " ++ join " " variables ++ " WHERE {" ++ nl
      ++ "                " ++ t0 ++ " " ++ table ++ " " ++ t1 ++ " ." ++ nl
      ++ "                " ++ locale_filter ++ nl
      ++ "            }" ++ nl ++ "        ")%string.

(** one element of [data['results']['bindings']]: variable to its ['value'] *)
Definition item : Type := list (string * value).

(** [terms[i][1:]] *)
Definition drop_first (s : string) : string := match s with EmptyString => "" | String _ t => t end.

(** SparqlDataSource.py 152-160 *)
Definition result_cell (it : item) (v : value) (t : string) : outcome value :=
  if is_none v then match bget (drop_first t) it with Some x => Ok x | None => Exn KeyErr end
  else Ok v.
(** SparqlDataSource.py 148-163 *)
Fixpoint prepare_results (items : list item) (v0 v1 : value) (t0 t1 : string) : outcome (list (list value)) :=
  match items with
  | [] => Ok []
  | it :: rest =>
      match result_cell it v0 t0, result_cell it v1 t1 with
      | Ok a, Ok b =>
          match prepare_results rest v0 v1 t0 t1 with
          | Ok rs => Ok ([a; b] :: rs)
          | o => o
          end
      | Ok _, Exn e => Exn e
      | Exn e, _ => Exn e
      | _, _ => OutOfFuel
      end
  end.

(** what [requests.get] returns: an error status (403, 429 or 400), a body
    that is not the expected JSON, or bindings *)
Inductive response : Type := RStatus (code : Z) | RBadJson | RData (items : list item).

Record query : Type := mkQuery { q_table : string; q_columns : list string; q_values : list value }.

Section Sparql.
  Variable E : Type.
  Variable lang : string.
  Variable ask : string -> M E response.

  (** SparqlDataSource.py 59-67: the text that is sent *)
  Definition query_text (q : query) : outcome string :=
    match q_values q, q_columns q with
    | v0 :: v1 :: _, c0 :: c1 :: _ =>
        let t0 := prepare_term lang v0 0 c0 in
        let t1 := prepare_term lang v1 1 c1 in
        Ok (create_query lang (prepare_variables v0 v1 t0 t1) (prepare_text_variables v0 v1 t0 t1 c0 c1) t0 t1 (q_table q))
    | _, _ => Exn IndexErr
    end.

  (** SparqlDataSource.py 54-92.  (With fewer than two columns this is an
      IndexError even for values that do not look at their column.) *)
  Definition do_select (q : query) : M E (list (list value)) :=
    match query_text q, q_values q, q_columns q with
    | Ok text, v0 :: v1 :: _, c0 :: c1 :: _ =>
        r <- ask text ;;
        match r with
        | RStatus code =>
            throw (Raise (if Z.eqb code 403 then "Not allowed" else if Z.eqb code 429 then "Too many requests" else "Bad request"))
        | RBadJson => throw ValueErr
        | RData items =>
            match prepare_results items v0 v1 (prepare_term lang v0 0 c0) (prepare_term lang v1 1 c1) with
            | Ok rows => ret rows
            | Exn e => throw e
            | OutOfFuel => no_fuel
            end
        end
    | _, _, _ => throw IndexErr
    end.

  (** ** the cache *)
  Variable hash : string -> string.

  (** a cache file: the pickled result, or only a part of it *)
  Inductive content : Type := Complete (rows : list (list value)) | Truncated.
  Record sps : Type := mkSps { files : list (string * content); endpoint : E }.

  Fixpoint file_get (n : string) (fs : list (string * content)) : option content :=
    match fs with
    | [] => None
    | (k, c) :: rest => if String.eqb n k then Some c else file_get n rest
    end.
  Fixpoint file_put (n : string) (c : content) (fs : list (string * content)) : list (string * content) :=
    match fs with
    | [] => [(n, c)]
    | (k, d) :: rest => if String.eqb n k then (k, c) :: rest else (k, d) :: file_put n c rest
    end.

  (** SparqlDataSource.py 30-31 *)
  Definition cache_key (q : query) : string :=
    hash (q_table q ++ py_str (VList (map VStr (q_columns q))) ++ py_str (VList (q_values q)))%string.

  (** what goes wrong while the result is written (lines 44-50) *)
  Inductive fault : Type :=
  | NoFault
  | OpenFails           (** [open(.., 'wb')] is an OSError *)
  | DumpFails           (** [pickle.dump] is an OSError, e.g. the disk is full *)
  | DiesBeforeOpen      (** the process ends after the request *)
  | DiesInDump.         (** the process ends before the file is complete *)

  Inductive select_result : Type :=
  | Answered (rows : list (list value))
  | Raised (e : exn)
  | Died.

  (** SparqlDataSource.py 26-52, with a cache directory *)
  Definition cached_select (f : fault) (q : query) (s : sps) : select_result * sps :=
    let name := cache_key q in
    match file_get name (files s) with
    | Some (Complete rows) => (Answered rows, s)
    | Some Truncated => (Raised (Raise "Ran out of input"), s)     (* not an OSError *)
    | None =>
        match do_select q (endpoint s) with
        | (Exn e, e') => (Raised e, mkSps (files s) e')
        | (OutOfFuel, e') => (Raised (Raise "recursion"), mkSps (files s) e')
        | (Ok rows, e') =>
            match f with
            | NoFault => (Answered rows, mkSps (file_put name (Complete rows) (files s)) e')
            | OpenFails => (Answered rows, mkSps (files s) e')
            | DumpFails => (Answered rows, mkSps (file_put name Truncated (files s)) e')
            | DiesBeforeOpen => (Died, mkSps (files s) e')
            | DiesInDump => (Died, mkSps (file_put name Truncated (files s)) e')
            end
        end
    end.

  (** a history: selects, each with what goes wrong; after [Died] a new
      process goes on with the same files *)
  Definition event : Type := (query * fault * select_result)%type.
  Fixpoint run_selects (h : list (query * fault)) (s : sps) : list event * sps :=
    match h with
    | [] => ([], s)
    | (q, f) :: rest =>
        let '(r, s1) := cached_select f q s in
        let '(tr, s2) := run_selects rest s1 in
        ((q, f, r) :: tr, s2)
    end.
End Sparql.
