(** * Models of /repo/richard/data_source/SimpleDataSource.py,
      /repo/richard/data_source/CsvImporter.py,
      /repo/richard/interface/SomeDataSource.py ([select_column]) and
      /repo/richard/type/OrderedSet.py *)

From Coq Require Import ZArith String List Bool.
From Verif Require Import Py Effects.
Import ListNotations.
Local Open Scope list_scope.
Local Open Scope monad_scope.

(** ** SimpleDataSource *)

(** SimpleDataSource.py 10: the records of each table *)
Definition sds_store : Type := list (string * list binding).

Fixpoint sds_get (t : string) (s : sds_store) : option (list binding) :=
  match s with
  | [] => None
  | (k, rs) :: rest => if String.eqb t k then Some rs else sds_get t rest
  end.
Fixpoint sds_put (t : string) (rs : list binding) (s : sds_store) : sds_store :=
  match s with
  | [] => [(t, rs)]
  | (k, rs') :: rest => if String.eqb t k then (k, rs) :: rest else (k, rs') :: sds_put t rs rest
  end.

(** SimpleDataSource.py 55-60 ([create_dict]); [zip] stops at the shorter *)
Fixpoint create_dict_from (d : binding) (columns : list string) (values : list value) : binding :=
  match columns, values with
  | key :: columns', val :: values' =>
      create_dict_from (if is_none val then d else bset key val d) columns' values'
  | _, _ => d
  end.
Definition create_dict : list string -> list value -> binding := create_dict_from [].

(** SimpleDataSource.py 18-25 *)
Definition sds_insert (t : string) (columns : list string) (values : list value) (s : sds_store) : sds_store :=
  let rec := create_dict columns values in
  match sds_get t s with
  | None => sds_put t [rec] s
  | Some rs => sds_put t (rs ++ [rec]) s
  end.

(** SimpleDataSource.py 39-43: a key that the record lacks is ignored *)
Definition sds_record_ok (values : binding) (record : binding) : bool :=
  forallb (fun kv => match bget (fst kv) record with
                     | Some v => py_eq v (snd kv)
                     | None => true
                     end) values.

(** SimpleDataSource.py 45: [record[column]] *)
Fixpoint sds_row (record : binding) (columns : list string) : outcome (list value) :=
  match columns with
  | [] => Ok []
  | c :: rest =>
      match bget c record with
      | None => Exn KeyErr
      | Some v => match sds_row record rest with
                  | Ok r => Ok (v :: r)
                  | Exn e => Exn e
                  | OutOfFuel => OutOfFuel
                  end
      end
  end.

(** SimpleDataSource.py 38-48 *)
Fixpoint sds_rows (values : binding) (columns : list string) (records : list binding) : outcome (list (list value)) :=
  match records with
  | [] => Ok []
  | r :: rest =>
      if sds_record_ok values r then
        match sds_row r columns with
        | Ok row => match sds_rows values columns rest with
                    | Ok rows => Ok (row :: rows)
                    | Exn e => Exn e
                    | OutOfFuel => OutOfFuel
                    end
        | Exn e => Exn e
        | OutOfFuel => OutOfFuel
        end
      else sds_rows values columns rest
  end.

(** SimpleDataSource.py 29-48 *)
Definition sds_select (t : string) (columns : list string) (list_values : list value) (s : sds_store)
    : outcome (list (list value)) :=
  match sds_get t s with
  | None => Ok []
  | Some rs => sds_rows (create_dict columns list_values) columns rs
  end.

(** SimpleDataSource.py 51-52 *)
Definition sds_clear (s : sds_store) : sds_store := [].

(** ** select_column: SomeDataSource.py 21-22 *)
Fixpoint first_column (rows : list (list value)) : outcome (list value) :=
  match rows with
  | [] => Ok []
  | [] :: _ => Exn IndexErr
  | (v :: _) :: rest => match first_column rest with
                        | Ok l => Ok (v :: l)
                        | Exn e => Exn e
                        | OutOfFuel => OutOfFuel
                        end
  end.
Definition select_column (select : outcome (list (list value))) : outcome (list value) :=
  match select with Ok rows => first_column rows | Exn e => Exn e | OutOfFuel => OutOfFuel end.

(** ** CsvImporter *)

(** CsvImporter.py 20-27: the values are the elements that have a header *)
Fixpoint csv_values (headers row : list string) : list value :=
  match headers, row with
  | _ :: hs, e :: es => VStr e :: csv_values hs es
  | _, _ => []
  end.

(** CsvImporter.py 9-30: the loop over the rows of the reader, with its
    state ([line], [headers]).  [csv.reader] itself is in [Csv.v]. *)
Fixpoint csv_loop {W} (insert : string -> list string -> list value -> M W unit) (table : string)
    (line : nat) (headers : list string) (rows : list (list string)) : M W unit :=
  match rows with
  | [] => ret tt
  | row :: rest =>
      match row with
      | [] => csv_loop insert table line headers rest
      | _ :: _ =>
          match line with
          | O => csv_loop insert table (S line) row rest
          | S _ => insert table headers (csv_values headers row) ;;;
                   csv_loop insert table (S line) headers rest
          end
      end
  end.
Definition csv_import {W} insert (table : string) (rows : list (list string)) : M W unit :=
  csv_loop insert table 0 [] rows.

(** ** OrderedSet *)

(** OrderedSet.py 16: the keys of [_d], in the dict's order *)
Definition oset : Type := list value.

(** OrderedSet.py 33-34.  (Looking up an unhashable value is a TypeError;
    the operations below are only given hashable values.) *)
Definition os_contains (x : value) (s : oset) : bool := existsb (fun y => py_eq y x) s.
(** OrderedSet.py 18-19: an equal key keeps its place (and stays the old object) *)
Definition os_add (x : value) (s : oset) : oset := if os_contains x s then s else s ++ [x].
(** OrderedSet.py 21-22 *)
Definition os_clear (s : oset) : oset := [].
(** OrderedSet.py 24-25 *)
Definition os_discard (x : value) (s : oset) : oset := filter (fun y => negb (py_eq y x)) s.
(** OrderedSet.py 15-16: [dict.fromkeys] *)
Definition os_init (l : list value) : oset := fold_left (fun s x => os_add x s) l [].
(** OrderedSet.py 36-37 *)
Definition os_len (s : oset) : nat := length s.
(** OrderedSet.py 27-31; [islice] rejects a negative index *)
Definition os_getitem (i : Z) (s : oset) : outcome value :=
  if (i <? 0)%Z then Exn ValueErr
  else match nth_error s (Z.to_nat i) with Some x => Ok x | None => Exn IndexErr end.
