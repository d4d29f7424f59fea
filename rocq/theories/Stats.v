(** * Model of the statistics of /repo/richard/core/Solver.py

    A solver can count how often it solves an atom with a predicate.  The
    counts are part of the state: the state of the modules next to the
    dictionary [stats]. *)

From Coq Require Import ZArith String List Bool Arith.
From Verif Require Import Py Effects Solver InferenceModule.
Import ListNotations.
Local Open Scope list_scope.
Local Open Scope monad_scope.

(** Solver.py 19: the dictionary [self.stats], in the order of insertion *)
Definition stats : Type := list (string * nat).

(** Solver.py 47-49 *)
Fixpoint count_up (p : string) (st : stats) : stats :=
  match st with
  | [] => [(p, 1)]
  | (k, n) :: t => if String.eqb k p then (k, S n) :: t else (k, n) :: count_up p t
  end.

(** the state of the modules, seen from the state with the statistics *)
Definition beside {W S} (L : lens W S) : lens (W * stats) S :=
  mkLens (fun v => lget L (fst v)) (fun s v => (lset L s (fst v), snd v)).

Section Stats.
  Context {W : Type}.
  Notation V := (W * stats)%type.
  Variable mods : list (modul V).
  (** Solver.py 16-18: the argument [log_stats] *)
  Variable log_stats : bool.

  (** Solver.py 46-49.  Simplified: a predicate that is not a string is not
      counted; the call then ends with an exception. *)
  Definition tick (p : value) : M V unit :=
    match p with
    | VStr s => if log_stats then (v <- get ;; put (fst v, count_up s (snd v))) else ret tt
    | _ => ret tt
    end.

  (** Solver.py 41-69 *)
  Definition solve_single_s (sv : solver_if V) (atom : value) (b : binding) : M V sres :=
    pa <- atom_parts atom ;;
    tick (fst pa) ;;;
    solve_single mods sv atom b.

  (** Solver.py 27-38, as [solve_atoms] of Solver.v *)
  Fixpoint solve_atoms_s (sv : solver_if V) (atoms : list value) (b : binding) : M V sres :=
    match atoms with
    | [] => ret (SList [b])
    | atom :: rest =>
        match rest with
        | [] => solve_single_s sv atom b
        | _ :: _ =>
            r <- solve_single_s sv atom b ;;
            bindings <- sres_items r ;;
            result <- foldM (fun acc b' =>
                               rr <- solve_atoms_s sv rest b' ;;
                               rs <- sres_items rr ;;
                               ret (fold_left add_binding rs acc))
                            [] bindings ;;
            ret (SList result)
        end
    end.

  (** Solver.py 22-25 *)
  Definition solve_F_s (sv : solver_if V) (atoms : value) (b : binding) : M V sres :=
    match atoms with
    | VList l => solve_atoms_s sv l b
    | _ => throw (not_a_list atoms)
    end.

  (** the solver that the query functions are given is the same solver, so
      that it counts on in the same dictionary *)
  Fixpoint solver_at_s (n : nat) : solver_if V :=
    match n with
    | O => mkSolver (fun _ _ => no_fuel) (fun _ => no_fuel)
    | S n' => let sv := solver_at_s n' in mkSolver (solve_F_s sv) (write_F mods sv)
    end.

  (** [Solver(model, log_stats).solve(atoms, binding)] with recursion limit [n] *)
  Definition solve_s (n : nat) (atoms : value) (b : binding) : M V sres :=
    sv_solve (solver_at_s n) atoms b.
  (** [Solver(model, log_stats).write_atom(atom)] with recursion limit [n] *)
  Definition write_atom_s (n : nat) (atom : value) : M V unit :=
    sv_write (solver_at_s n) atom.
End Stats.
