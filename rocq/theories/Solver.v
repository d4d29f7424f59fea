(** * Model of /repo/richard/core/Solver.py, /repo/richard/core/Model.py,
      /repo/richard/entity/Relation.py and ExecutionContext.py

    The Python solver, the relations' query functions and the modules call
    each other through [context.solver].  The model ties this knot with
    fuel: [solver_at (S n)] handles a call and gives [solver_at n] to the
    query functions (and to nested disjunctions).

    Not modelled: predicate statistics (Solver.py 45-49).
    Simplified: iterating over a non-empty [ResultIterator] as if it were a
    list of bindings (Solver.py 34-35; its items are strings) is a
    [TypeError] at once. *)

From Coq Require Import ZArith String List Bool.
From Verif Require Import Py Effects.
Import ListNotations.
Local Open Scope string_scope.
Local Open Scope list_scope.
Local Open Scope monad_scope.

(** /repo/richard/core/constants.py 56 *)
Definition DISJUNCTION : string := "$disjunction".

(** What [solve] returns: a list of bindings, or a [ResultIterator]
    (/repo/richard/entity/ResultIterator.py 11-14) of which only
    [single_result] and [number] matter to callers. *)
Inductive sres : Type :=
| SList (l : list binding)
| SIter (single : value) (number : nat).

(** [len(results)] *)
Definition sres_len (r : sres) : nat :=
  match r with SList l => length l | SIter _ n => n end.

(** [for b in results] *)
Definition sres_items {W} (r : sres) : M W (list binding) :=
  match r with
  | SList l => ret l
  | SIter _ O => ret []
  | SIter _ (S _) => throw TypeErr
  end.

(** What a query function returns: an iterable of rows, a
    [ResultIterator], or something that cannot be iterated. *)
Inductive qres : Type :=
| QRows (rows : list value)
| QIter (single : value) (number : nat)
| QNotIterable.

(** /repo/richard/interface/SomeSolver.py: the two operations that query
    functions can call *)
Record solver_if (W : Type) : Type := mkSolver {
  sv_solve : value -> binding -> M W sres;
  sv_write : value -> M W unit
}.
Arguments sv_solve {W} s.
Arguments sv_write {W} s.
Arguments mkSolver {W}.

(** /repo/richard/type/ExecutionContext.py 7-12, without the solver,
    which is passed separately *)
Record ctx : Type := mkCtx {
  c_pred : string;             (** [relation.predicate] *)
  c_cols : list string;        (** [relation.arguments] *)
  c_args : list value;         (** [arguments] *)
  c_binding : binding          (** [binding] *)
}.

(** /repo/richard/entity/Relation.py 5-29 (the sizes, which only the
    optimizer uses, are modelled there) *)
Record relation (W : Type) : Type := mkRel {
  r_pred : string;
  r_cols : list string;
  r_query : solver_if W -> list value -> ctx -> M W qres;
  r_write : option (solver_if W -> list value -> ctx -> M W unit)
}.
Arguments r_pred {W} r.
Arguments r_cols {W} r.
Arguments r_query {W} r.
Arguments r_write {W} r.
Arguments mkRel {W}.

(** A module maps a predicate to at most one relation; the mapping may
    change with the state (e.g. when rules are learned).
    /repo/richard/interface/SomeModule.py 6-20 *)
Definition modul (W : Type) : Type := W -> string -> option (relation W).

(** the messages of Solver.py 25, 116 and 169, 131 *)
Definition not_a_list (atoms : value) : exn :=
  Raise (append "Solver can only solve lists of atoms, this is not a list: " (py_str atoms)).
Definition no_relation (p : string) : exn := Raise (append "No relation called '" (append p "' available in the model")).
Definition not_combined (p : string) : exn :=
  Raise (append "A relation that returns a ResultIterator can't be used in combination with another relation by the same name: " p).

Section Solver.
  Context {W : Type}.
  (** /repo/richard/core/Model.py 18-21: the core module first *)
  Variable mods : list (modul W).

  (** /repo/richard/core/Model.py 24-30 *)
  Fixpoint find_relations_in (ms : list (modul W)) (w : W) (p : string) : list (relation W) :=
    match ms with
    | [] => []
    | m :: t =>
        match m w p with
        | Some r => r :: find_relations_in t w p
        | None => find_relations_in t w p
        end
    end.
  Definition find_relations : W -> string -> list (relation W) := find_relations_in mods.

  (** Solver.py 144-160 *)
  Definition db_value (b : binding) (arg : value) : value :=
    match arg with
    | VVar x => match bget x b with Some v => v | None => VNone end
    | _ => arg
    end.
  Definition db_values (b : binding) (args : list value) : list value :=
    map (db_value b) args.

  (** [v[i]] *)
  Definition subscript (v : value) (i : nat) : M W value :=
    match v with
    | VList l | VTuple l =>
        match nth_error l i with Some x => ret x | None => throw IndexErr end
    | VStr s =>
        match String.get i s with Some c => ret (VStr (String c "")) | None => throw IndexErr end
    | _ => throw TypeErr
    end.

  (** Solver.py 81-94: the loop over the arguments for one row; [i] is the
      index, the state is [result] and [conflict] *)
  Fixpoint match_args (v : value) (binding : binding) (i : nat) (args : list value)
      (result : Py.binding) (conflict : bool) : M W (Py.binding * bool) :=
    match args with
    | [] => ret (result, conflict)
    | arg :: rest =>
        match arg with
        | VVar x =>
            match bget x binding with
            | Some _ => match_args v binding (S i) rest result conflict
            | None =>
                vi <- subscript v i ;;
                let conflict' :=
                  match bget x result with
                  | Some old => negb (py_eq old vi)
                  | None => false
                  end in
                match_args v binding (S i) rest (bset x vi result) (conflict || conflict')
            end
        | _ =>
            vi <- subscript v i ;;
            let conflict' := negb (is_none vi) && negb (py_eq arg vi) in
            match_args v binding (S i) rest result (conflict || conflict')
        end
    end.

  (** Solver.py 72-101 *)
  Definition create_results (values : list value) (b : binding) (args : list value)
      : M W (list binding) :=
    foldM (fun results v =>
             rc <- match_args v b 0 args b false ;;
             let '(result, conflict) := rc in
             if conflict then ret results else ret (results ++ [result]))
          [] values.

  (** Solver.py 134-139: rows seen so far are remembered by their text *)
  Definition add_row (rows : list value) (row : value) : list value :=
    if existsb (fun r => String.eqb (py_str r) (py_str row)) rows then rows
    else rows ++ [row].

  (** Solver.py 123-141: the loop over the relations; [many] is
      [len(relations) > 1] *)
  Fixpoint collect_rows (sv : solver_if W) (many : bool) (rels : list (relation W))
      (values : list value) (args : list value) (b : binding) (rows : list value)
      : M W qres :=
    match rels with
    | [] => ret (QRows rows)
    | rel :: rest =>
        out <- r_query rel sv values (mkCtx (r_pred rel) (r_cols rel) args b) ;;
        match out with
        | QIter s n =>
            if many then throw (not_combined (r_pred rel))
            else ret (QIter s n)
        | QNotIterable => throw TypeErr
        | QRows out_values =>
            collect_rows sv many rest values args b (fold_left add_row out_values rows)
        end
    end.

  (** Solver.py 112-141 *)
  Definition find_relation_values (sv : solver_if W) (p : string) (args : list value) (b : binding)
      : M W qres :=
    w <- get ;;
    let rels := find_relations w p in
    match rels with
    | [] => throw (no_relation p)
    | _ => collect_rows sv (Nat.ltb 1 (length rels)) rels (db_values b args) args b []
    end.

  (** Solver.py 104-109 *)
  Fixpoint solve_disjuncts (sv : solver_if W) (ds : list value) (b : binding) : M W sres :=
    match ds with
    | [] => ret (SList [])
    | d :: rest =>
        r <- sv_solve sv d b ;;
        match sres_len r with
        | O => solve_disjuncts sv rest b
        | S _ => ret r
        end
    end.

  (** iterating over the disjuncts of [atom[1]] *)
  Definition solve_disjunction (sv : solver_if W) (ds : value) (b : binding) : M W sres :=
    match ds with
    | VList l | VTuple l => solve_disjuncts sv l b
    | _ => throw TypeErr
    end.

  (** Solver.py 59-66: only the first row is checked; the messages are
      modelled without the predicate and the numbers.  (The check that
      [values] is a list always holds: line 120 creates it.) *)
  Definition check_first_row (rows : list value) (args : list value) : M W unit :=
    match rows with
    | [] => ret tt
    | VList r :: _ =>
        if Nat.eqb (length r) (length args) then ret tt
        else throw (Raise "wrong number of arguments in the results")
    | _ :: _ => throw (Raise "results should be lists")
    end.

  (** Solver.py 54-69 *)
  Definition solve_relation (sv : solver_if W) (p : string) (args : list value) (b : binding)
      : M W sres :=
    values <- find_relation_values sv p args b ;;
    match values with
    | QIter s n => ret (SIter s n)
    | QNotIterable => throw TypeErr
    | QRows rows =>
        check_first_row rows args ;;;
        results <- create_results rows b args ;;
        ret (SList results)
    end.

  (** Solver.py 42-43: [atom[0]] and [atom[1:]].  Atoms are tuples; a list
      works as well.  (A string is subscriptable too, but this is
      simplified to a [TypeError].) *)
  Definition atom_parts (atom : value) : M W (value * list value) :=
    match atom with
    | VTuple (p :: args) | VList (p :: args) => ret (p, args)
    | VTuple [] | VList [] => throw IndexErr
    | _ => throw TypeErr
    end.

  (** Solver.py 41-69.  A predicate that is not a string is never found in
      the model; the error message then fails to concatenate. *)
  Definition solve_single (sv : solver_if W) (atom : value) (b : binding) : M W sres :=
    pa <- atom_parts atom ;;
    let '(p, args) := pa in
    match p with
    | VStr ps =>
        if String.eqb ps DISJUNCTION then
          match args with
          | [] => throw IndexErr
          | ds :: _ => solve_disjunction sv ds b
          end
        else solve_relation sv ps args b
    | _ => throw TypeErr
    end.

  (** Solver.py 35-37: append the results that are not there yet *)
  Definition add_binding (result : list binding) (r : binding) : list binding :=
    if dict_in r result then result else result ++ [r].

  (** Solver.py 27-38 *)
  Fixpoint solve_atoms (sv : solver_if W) (atoms : list value) (b : binding) : M W sres :=
    match atoms with
    | [] => ret (SList [b])
    | atom :: rest =>
        match rest with
        | [] => solve_single sv atom b
        | _ :: _ =>
            r <- solve_single sv atom b ;;
            bindings <- sres_items r ;;
            result <- foldM (fun acc b' =>
                               rr <- solve_atoms sv rest b' ;;
                               rs <- sres_items rr ;;
                               ret (fold_left add_binding rs acc))
                            [] bindings ;;
            ret (SList result)
        end
    end.

  (** Solver.py 22-25 *)
  Definition solve_F (sv : solver_if W) (atoms : value) (b : binding) : M W sres :=
    match atoms with
    | VList l => solve_atoms sv l b
    | _ => throw (not_a_list atoms)
    end.

  (** Solver.py 171-174 *)
  Fixpoint write_rels (sv : solver_if W) (rels : list (relation W)) (args : list value) : M W unit :=
    match rels with
    | [] => ret tt
    | rel :: rest =>
        (match r_write rel with
         | Some f => f sv args (mkCtx (r_pred rel) (r_cols rel) args [])
         | None => ret tt
         end) ;;;
        write_rels sv rest args
    end.

  (** Solver.py 163-174 *)
  Definition write_F (sv : solver_if W) (atom : value) : M W unit :=
    pa <- atom_parts atom ;;
    let '(p, args) := pa in
    match p with
    | VStr ps =>
        w <- get ;;
        match find_relations w ps with
        | [] => throw (no_relation ps)
        | rels => write_rels sv rels args
        end
    | _ => throw TypeErr
    end.

  (** the knot *)
  Fixpoint solver_at (n : nat) : solver_if W :=
    match n with
    | O => mkSolver (fun _ _ => no_fuel) (fun _ => no_fuel)
    | S n' => let sv := solver_at n' in mkSolver (solve_F sv) (write_F sv)
    end.

  (** [Solver(model).solve(atoms, binding)] with recursion limit [n] *)
  Definition solve (n : nat) (atoms : value) (b : binding) : M W sres :=
    sv_solve (solver_at n) atoms b.
  (** [Solver(model).write_atom(atom)] with recursion limit [n] *)
  Definition write_atom (n : nat) (atom : value) : M W unit :=
    sv_write (solver_at n) atom.
End Solver.
