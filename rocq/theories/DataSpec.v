(** * What data sources should do, in terms of lists of records *)

From Coq Require Import ZArith String List Bool.
From Verif Require Import Py.
Import ListNotations.
Local Open Scope list_scope.

(** a record: the columns that were given and their values *)
Record given : Type := mkGiven { g_cols : list string; g_vals : list value }.

(** the value at the place of column [c] *)
Fixpoint at_column (c : string) (cols : list string) (vals : list value) : value :=
  match cols, vals with
  | k :: cols', v :: vals' => if String.eqb c k then v else at_column c cols' vals'
  | _, _ => VNone
  end.
Definition field (g : given) (c : string) : value := at_column c (g_cols g) (g_vals g).

(** the record has, in each column of the query for which a value is
    given, that value *)
Definition fits (columns : list string) (values : list value) (g : given) : bool :=
  forall2b (fun c v => is_none v || py_eq (field g c) v) columns values.

(** SELECT columns FROM records WHERE column=value ... *)
Definition spec_select (columns : list string) (values : list value) (records : list given) : list (list value) :=
  map (fun g => map (field g) columns) (filter (fits columns values) records).

(** ** histories *)
Inductive ds_op : Type :=
| OpInsert (table : string) (columns : list string) (values : list value)
| OpClear.

(** the records that were inserted into [t] since the last clear *)
Fixpoint records_since (t : string) (h : list ds_op) (acc : list given) : list given :=
  match h with
  | [] => acc
  | OpInsert t' cs vs :: h' => records_since t h' (if String.eqb t t' then acc ++ [mkGiven cs vs] else acc)
  | OpClear :: h' => records_since t h' []
  end.
Definition records (t : string) (h : list ds_op) : list given := records_since t h [].
