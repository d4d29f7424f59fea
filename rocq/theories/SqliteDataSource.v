(** * Model of /repo/richard/data_source/Sqlite3DataSource.py (and of the
      statements of MySqlDataSource.py and PsycoPg2/3DataSource.py) *)

From Coq Require Import ZArith String Ascii List Bool.
From Verif Require Import Py Effects Sql.
Import ListNotations.
Local Open Scope string_scope.
Local Open Scope list_scope.
Local Open Scope monad_scope.

(** Sqlite3DataSource.py 14-19: the loop that builds [where] and
    [variables].  [mark] is the placeholder: "?" here; "%s" in
    MySqlDataSource.py 14-19, PsycoPg2DataSource.py 16-21 and
    PsycoPg3DataSource.py 16-21, which are otherwise the same. *)
Fixpoint where_loop (mark : string) (where_ : string) (variables : list value)
    (columns : list string) (values : list value) : string * list value :=
  match columns, values with
  | column :: columns', v :: values' =>
      if is_none v then where_loop mark where_ variables columns' values'
      else where_loop mark (where_ ++ " AND " ++ column ++ "=" ++ mark)%string (variables ++ [v]) columns' values'
  | _, _ => (where_, variables)
  end.

(** Sqlite3DataSource.py 22-23 *)
Definition select_text (mark table : string) (columns : list string) (values : list value) : string :=
  ("SELECT " ++ join "," columns ++ " FROM " ++ table ++ " WHERE "
    ++ fst (where_loop mark "TRUE" [] columns values))%string.
Definition select_params (columns : list string) (values : list value) : list value :=
  snd (where_loop "" "" [] columns values).

(** Sqlite3DataSource.py 27-31 *)
Definition insert_text (table : string) (columns : list string) (values : list value) : string :=
  ("INSERT OR IGNORE INTO " ++ table ++ " (" ++ join "," columns ++ ") VALUES ("
    ++ join ", " (map (fun _ => "?") values) ++ ")")%string.

(** Sqlite3DataSource.py 34-37 *)
Definition delete_text (table : string) (columns : list string) : string :=
  ("DELETE FROM " ++ table ++ " WHERE " ++ join "AND " (map (fun c => (c ++ " = ? ")%string) columns))%string.

(** The connection: the last committed state and the current one.  Python's
    [sqlite3] opens a transaction before the first INSERT or DELETE; only
    [commit] makes the changes permanent.  richard never calls it. *)
Record conn : Type := mkConn { committed : sqldb; current : sqldb }.

Definition run_sql (text : string) (params : list value) : M conn (list (list value)) :=
  fun c => let '(o, d) := execute text params (current c) in (o, mkConn (committed c) d).

(** Sqlite3DataSource.py 12-24 *)
Definition sq_select (table : string) (columns : list string) (values : list value) : M conn (list (list value)) :=
  run_sql (select_text "?" table columns values) (select_params columns values).
(** Sqlite3DataSource.py 27-31 *)
Definition sq_insert (table : string) (columns : list string) (values : list value) : M conn unit :=
  run_sql (insert_text table columns values) values ;;; ret tt.
(** Sqlite3DataSource.py 34-37 *)
Definition sq_delete (table : string) (columns : list string) (values : list value) : M conn unit :=
  run_sql (delete_text table columns) values ;;; ret tt.
(** Sqlite3DataSource.py 40-41 *)
Definition sq_clear : M conn unit := throw (Raise "clear not implemented").

(** [connection.commit()], which the application may call *)
Definition sq_commit (c : conn) : conn := mkConn (current c) (current c).
(** the process ends, or the connection is closed, and is opened again *)
Definition sq_reopen (c : conn) : conn := mkConn (committed c) (committed c).
