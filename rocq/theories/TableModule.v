(** * Modules whose relations are tables

    A relation as in /repo/richard/module/SimpleMemoryModule.py 30-31
    ([query]) or as in the domain modules that users write: the query
    function hands the values to a data source's [select], and the data
    source fulfils the contract of
    /repo/richard/interface/SomeDataSource.py 10-18: exactly the rows that
    agree with every value that is not [None].
    (That the Sqlite data source fulfils it is proved in SqliteProofs.v.) *)

From Coq Require Import ZArith String List Bool.
From Verif Require Import Py Effects Solver.
Import ListNotations.
Local Open Scope list_scope.
Local Open Scope monad_scope.

(** SomeDataSource.py 16-17: [column=value] for each value that is not [None] *)
Definition row_matches (values row : list value) : bool :=
  forall2b (fun v x => is_none v || py_eq v x) values row.

Section Table.
  Context {W : Type}.
  (** the rows of each table; [None]: there is no such table *)
  Variable tables : W -> string -> option (list (list value)).

  Definition table_query (p : string) (sv : solver_if W) (values : list value) (c : ctx) : M W qres :=
    w <- get ;;
    match tables w p with
    | Some rows => ret (QRows (map VList (filter (row_matches values) rows)))
    | None => throw DbErr
    end.

  Definition table_module : modul W := fun w p =>
    match tables w p with
    | Some _ => Some (mkRel p [] (table_query p) None)
    | None => None
    end.
End Table.
