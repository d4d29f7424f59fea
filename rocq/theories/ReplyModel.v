(** * Model of the tables in replies:
      /repo/tests/integration/chat80/write_grammar.py 49-69

    The rest of that file, and intents.pl, are in [TalkModel.v]. *)

From Coq Require Import ZArith QArith String Ascii List Bool Arith.
From Verif Require Import Py Effects Earley.
Import ListNotations.
Close Scope Q_scope.
Local Open Scope string_scope.
Local Open Scope list_scope.

(** [int(value)] of a float *)
Definition int_of_float (q : Q) : Z := Z.quot (Qnum q) (Zpos (Qden q)).

Fixpoint letters (s : string) : list value :=
  match s with EmptyString => [] | String c s' => VStr (String c "") :: letters s' end.

(** write_grammar.py 60-69.  [+=] with a text on the right also works for a
    list, to which it adds the characters; not modelled: this list is the one
    in the output buffer, which is about to be cleared *)
Definition format_cell (cell unit_ : value) : outcome value :=
  let formatted := match cell with VFloat q => VStr (py_str (VInt (int_of_float q))) | _ => cell end in
  if py_eq unit_ (VStr "") then Ok formatted
  else
    let tail := append " " (py_str unit_) in
    match formatted with
    | VStr s => Ok (VStr (append s tail))
    | VList l => Ok (VList (l ++ letters tail))
    | _ => Exn TypeErr
    end.

(** [units[i]] *)
Definition unit_at (units : value) (i : nat) : outcome value :=
  let at_ l := match nth_error l i with Some u => Ok u | None => Exn IndexErr end in
  match units with
  | VList l | VTuple l => at_ l
  | VStr s => at_ (letters s)
  | _ => Exn TypeErr
  end.

(** write_grammar.py 53-55 *)
Fixpoint format_cells (units : value) (i : nat) (row : list value) : outcome (list value) :=
  match row with
  | [] => Ok []
  | cell :: rest =>
      obind (unit_at units i) (fun u =>
        obind (format_cell cell u) (fun c =>
          obind (format_cells units (S i) rest) (fun cs => Ok (c :: cs))))
  end.

(** a row as a sequence, and [row[0]] *)
Definition cells_of (row : value) : option (list value) :=
  match row with VList l | VTuple l => Some l | VStr s => Some (letters s) | _ => None end.
Definition row_key (row : value) : outcome value :=
  match cells_of row with
  | Some (k :: _) => Ok k
  | Some [] => Exn IndexErr
  | None => Exn TypeErr
  end.

(** write_grammar.py 50: [sorted(table, key = lambda row: row[0])].  All keys
    are taken first.  Sorting is stable; when two keys cannot be compared,
    Python's sort meets two such keys too, since it compares any two that are
    next to each other in its result. *)
Fixpoint insert_row (k row : value) (l : list (value * value)) : outcome (list (value * value)) :=
  match l with
  | [] => Ok [(k, row)]
  | (k', row') :: rest =>
      match py_lt k' k with
      | None => Exn TypeErr
      | Some true => obind (insert_row k row rest) (fun r => Ok ((k', row') :: r))
      | Some false => Ok ((k, row) :: l)
      end
  end.
Fixpoint row_keys (table : list value) : outcome (list (value * value)) :=
  match table with
  | [] => Ok []
  | row :: rest => obind (row_key row) (fun k => obind (row_keys rest) (fun l => Ok ((k, row) :: l)))
  end.
Definition sort_rows (keyed : list (value * value)) : outcome (list (value * value)) :=
  fold_right (fun kr acc => obind acc (insert_row (fst kr) (snd kr))) (Ok []) keyed.

(** write_grammar.py 52-56 *)
Fixpoint format_rows (units : value) (rows : list value) : outcome (list value) :=
  match rows with
  | [] => Ok []
  | row :: rest =>
      match cells_of row with
      | None => Exn TypeErr
      | Some cells =>
          obind (format_cells units 0 cells) (fun item => obind (format_rows units rest) (fun l => Ok (VList item :: l)))
      end
  end.

(** write_grammar.py 49-57 *)
Definition table_text (args : list value) : outcome value :=
  match args with
  | [table; units] =>
      match cells_of table with
      | None => Exn TypeErr
      | Some rows =>
          obind (row_keys rows) (fun keyed =>
            obind (sort_rows keyed) (fun sorted =>
              obind (format_rows units (map snd sorted)) (fun l => Ok (VList l))))
      end
  | _ => Exn TypeErr
  end.
Definition format_table {W} (args : list value) : M W value :=
  match table_text args with
  | Ok v => ret v
  | Exn e => throw e
  | OutOfFuel => no_fuel
  end.
