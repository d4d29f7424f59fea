(** * Specification: conjunctive queries, Datalog rules and their least model

    Independent of the solver. *)

From Coq Require Import ZArith String List Bool.
From Verif Require Import Py.
Import ListNotations.
Local Open Scope list_scope.

(** constants: integers, strings and nested tuples/lists of these *)
Fixpoint constant (v : value) : bool :=
  match v with
  | VInt _ | VStr _ => true
  | VTuple l | VList l => forallb constant l
  | _ => false
  end.

(** an argument of a flat atom: a variable or a constant *)
Definition flat_arg (v : value) : Prop := (exists x, v = VVar x) \/ constant v = true.

(** a flat atom p(a1, ..., an) *)
Record fatom : Type := mkAtom { fa_pred : string; fa_args : list value }.
Definition atom_value (a : fatom) : value := VTuple (VStr (fa_pred a) :: fa_args a).

(** a Datalog rule: head :- body *)
Record frule : Type := mkFRule { fr_head : fatom; fr_body : list fatom }.

(** an assignment of values to variable names *)
Definition assignment : Type := string -> value.
Definition const_assignment (s : assignment) : Prop := forall x, constant (s x) = true.

(** the instance of an argument *)
Definition inst (s : assignment) (v : value) : value :=
  match v with VVar x => s x | _ => v end.

(** the variables of an atom, of a list of atoms *)
Definition fvar (x : string) (a : fatom) : Prop := In (VVar x) (fa_args a).
Definition fvars (x : string) (l : list fatom) : Prop := exists a, In a l /\ fvar x a.

Section Model.
  (** the tables *)
  Variable db : string -> list (list value).
  Variable rules : list frule.

  (** the least model of the tables and rules *)
  Inductive derivable : string -> list value -> Prop :=
  | d_table p t : In t (db p) -> derivable p t
  | d_rule r s :
      In r rules -> const_assignment s ->
      (forall a, In a (fr_body r) -> derivable (fa_pred a) (map (inst s) (fa_args a))) ->
      derivable (fa_pred (fr_head r)) (map (inst s) (fa_args (fr_head r))).

  (** the assignment makes all atoms true *)
  Definition satisfies (s : assignment) (query : list fatom) : Prop :=
    forall a, In a query -> derivable (fa_pred a) (map (inst s) (fa_args a)).
End Model.

(** the assignment agrees with a binding *)
Definition agrees (s : assignment) (b : binding) : Prop :=
  forall x v, bget x b = Some v -> s x = v.

(** [r] is exactly the restriction of [s] to the variables of [b] and of
    the query *)
Definition answer_of (s : assignment) (b : binding) (query : list fatom) (r : binding) : Prop :=
  forall x, (bget x b <> None \/ fvars x query -> bget x r = Some (s x)) /\
            (bget x b = None -> ~ fvars x query -> bget x r = None).

(** all values of a binding are constants *)
Definition const_binding (b : binding) : Prop :=
  forall x v, bget x b = Some v -> constant v = true.

(** every head variable occurs in the body *)
Definition range_restricted (r : frule) : Prop :=
  forall x, fvar x (fr_head r) -> fvars x (fr_body r).
