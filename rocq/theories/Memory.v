(** * Models of /repo/richard/module/SimpleMemoryModule.py,
      /repo/richard/module/BasicOutputBuffer.py and
      /repo/richard/module/BasicDialogContext.py *)

From Coq Require Import ZArith String List Bool.
From Verif Require Import Py Effects Solver CoreModule SimpleDataSource Sql SqliteDataSource.
Import ListNotations.
Local Open Scope string_scope.
Local Open Scope list_scope.
Local Open Scope monad_scope.

(** ** SimpleMemoryModule *)
Section Memory.
  Context {W : Type}.
  (** the data source *)
  Variable select : string -> list string -> list value -> M W (list (list value)).
  Variable insert : string -> list string -> list value -> M W unit.

  (** SimpleMemoryModule.py 30-31 *)
  Definition memory_query : solver_if W -> list value -> ctx -> M W qres := fun sv values c =>
    rs <- select (c_pred c) (c_cols c) values ;;
    ret (QRows (map VList rs)).

  (** SimpleMemoryModule.py 34-35 *)
  Definition memory_write : solver_if W -> list value -> ctx -> M W unit := fun sv values c =>
    insert (c_pred c) (c_cols c) values.

  (** SimpleMemoryModule.py 22-27: a relation without functions of its own *)
  Definition memory_relation (p : string) (columns : list string) : relation W :=
    mkRel p columns memory_query (Some memory_write).
  (** the same for a relation that has its own query function *)
  Definition memory_relation_with (p : string) (columns : list string)
      (q : solver_if W -> list value -> ctx -> M W qres) : relation W :=
    mkRel p columns q (Some memory_write).
End Memory.

Fixpoint relation_get {W} (p : string) (l : list (relation W)) : option (relation W) :=
  match l with
  | [] => None
  | r :: rest => if String.eqb p (r_pred r) then Some r else relation_get p rest
  end.

(** ** BasicOutputBuffer *)
Section Output.
  Context {W : Type}.
  Variable L : lens W sds_store.

  Definition buffer_select (t : string) (columns : list string) (values : list value) : M W (list (list value)) :=
    w <- get ;;
    match sds_select t columns values (lget L w) with
    | Ok rs => ret rs
    | Exn e => throw e
    | OutOfFuel => no_fuel
    end.
  Definition buffer_insert (t : string) (columns : list string) (values : list value) : M W unit :=
    w <- get ;; put (lset L (sds_insert t columns values (lget L w)) w).
  (** BasicOutputBuffer.py 20-21 *)
  Definition buffer_clear : M W unit := w <- get ;; put (lset L [] w).

  (** BasicOutputBuffer.py 11-17 *)
  Definition buffer_columns : list (string * list string) :=
    [ ("output_type", ["type"]);
      ("output_value", ["value"]);
      ("output_value_with_unit", ["value"; "unit"]);
      ("output_table", ["results"; "units"]);
      ("output_list", ["elements"]);
      ("output_name_not_found", ["name"]);
      ("output_unknown_word", ["word"]) ].
  Definition output_buffer : modul W := fun _ p =>
    relation_get p (map (fun pc => memory_relation buffer_select buffer_insert (fst pc) (snd pc)) buffer_columns).
End Output.

(** ** BasicDialogContext *)
Section Dialog.
  Context {W : Type}.
  Variable L : lens W conn.

  (** an operation of the data source on the module's connection *)
  Definition on_conn {A} (m : M conn A) : M W A := fun w =>
    let '(o, c) := m (lget L w) in (o, lset L c w).

  Definition dialog_select (t : string) (columns : list string) (values : list value) : M W (list (list value)) :=
    on_conn (sq_select t columns values).
  Definition dialog_insert (t : string) (columns : list string) (values : list value) : M W unit :=
    on_conn (sq_insert t columns values).
  Definition dialog_delete (t : string) (columns : list string) (values : list value) : M W unit :=
    on_conn (sq_delete t columns values).

  (** BasicDialogContext.py 21-29 *)
  Definition with_context : solver_if W -> list value -> ctx -> M W qres := fun sv values c =>
    name <- item values 0 ;;
    body <- item values 1 ;;
    dialog_insert "context" ["name"] [name] ;;;
    sv_solve sv body (c_binding c) ;;;
    dialog_delete "context" ["name"] [name] ;;;
    ret (QRows [VList [VNone; VNone]]).

  (** BasicDialogContext.py 31-36 *)
  Definition start_context : solver_if W -> list value -> ctx -> M W qres := fun sv values c =>
    name <- item values 0 ;;
    dialog_insert "context" ["name"] [name] ;;;
    ret (QRows [VList [VNone]]).

  (** BasicDialogContext.py 39-44 *)
  Definition end_context : solver_if W -> list value -> ctx -> M W qres := fun sv values c =>
    name <- item values 0 ;;
    dialog_delete "context" ["name"] [name] ;;;
    ret (QRows [VList [VNone]]).

  (** BasicDialogContext.py 47-53: a new database with empty tables *)
  Definition dialog_tables : sqldb :=
    [ ("dialog_isa", mkTbl ["entity"; "type"] [] []); ("context", mkTbl ["name"] [] []) ].
  Definition dialog_clear : M W unit := w <- get ;; put (lset L (mkConn dialog_tables dialog_tables) w).

  (** BasicDialogContext.py 13-18 *)
  Definition dialog_relations : list (relation W) :=
    [ memory_relation dialog_select dialog_insert "dialog_isa" ["entity"; "type"];
      memory_relation dialog_select dialog_insert "context" ["name"];
      memory_relation_with dialog_insert "with_context" ["name"; "body"] with_context;
      memory_relation_with dialog_insert "start_context" ["name"] start_context;
      memory_relation_with dialog_insert "end_context" ["name"] end_context ].
  Definition dialog_context : modul W := fun _ p => relation_get p dialog_relations.
End Dialog.
