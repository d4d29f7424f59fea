(** * Model of /repo/richard/data_source/MySqlDataSource.py,
      PsycoPg2DataSource.py and PsycoPg3DataSource.py

    The three have the same [select] (lines 12-24, 12-26 and 12-26), which
    marks parameters with [%s].  The drivers and servers are not in /repo.  The
    model of a driver is what PEP 249 says about this style: [%s] stands for a
    parameter, [%%] for a percent sign, and anything else after a percent sign
    is an error.  The server is the engine of Sql.v. *)

From Coq Require Import ZArith String Ascii List Bool.
From Verif Require Import Py Effects Sql SqliteDataSource.
Import ListNotations.
Local Open Scope string_scope.
Local Open Scope list_scope.

(** the statement with the marks of Sql.v.  A question mark is no mark in this
    style, nor anything else that the engine knows. *)
Fixpoint driver_text (s : string) : outcome string :=
  match s with
  | EmptyString => Ok ""
  | String c rest =>
      if Ascii.eqb c "%" then
        match rest with
        | String d rest' =>
            if Ascii.eqb d "s" then match driver_text rest' with Ok t => Ok (String "?" t) | o => o end
            else if Ascii.eqb d "%" then match driver_text rest' with Ok t => Ok (String "%" t) | o => o end
            else Exn ValueErr
        | EmptyString => Exn ValueErr
        end
      else if Ascii.eqb c "?" then Exn DbErr
      else match driver_text rest with Ok t => Ok (String c t) | o => o end
  end.

(** MySqlDataSource.py 12-24, PsycoPg2DataSource.py 12-26, PsycoPg3DataSource.py 12-26 *)
Definition server_select (table : string) (columns : list string) (values : list value) : M conn (list (list value)) :=
  fun c => match driver_text (select_text "%s" table columns values) with
           | Ok text => run_sql text (select_params columns values) c
           | Exn e => (Exn e, c)
           | OutOfFuel => (OutOfFuel, c)
           end.
