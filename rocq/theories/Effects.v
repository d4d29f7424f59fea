(** * Outcomes and the effect monad

    A Python call either returns, raises, or (in the model) runs out of
    fuel, which stands for Python's recursion limit or for
    non-termination.  The mutable state [W] survives an exception. *)

From Coq Require Import ZArith String List.
From Verif Require Import Py.
Import ListNotations.

(** the exceptions that the modelled code can raise *)
Inductive exn : Type :=
| Raise (msg : string)          (** an explicit [raise Exception(...)] *)
| TypeErr | KeyErr | IndexErr | AttributeErr | ValueErr | ZeroDiv | DbErr.

Inductive outcome (A : Type) : Type :=
| Ok (a : A)
| Exn (e : exn)
| OutOfFuel.
Arguments Ok {A} a.
Arguments Exn {A} e.
Arguments OutOfFuel {A}.

Definition M (W A : Type) : Type := W -> outcome A * W.

Definition ret {W A} (a : A) : M W A := fun w => (Ok a, w).
Definition throw {W A} (e : exn) : M W A := fun w => (Exn e, w).
Definition no_fuel {W A} : M W A := fun w => (OutOfFuel, w).
Definition bind {W A B} (m : M W A) (f : A -> M W B) : M W B :=
  fun w => match m w with
           | (Ok a, w') => f a w'
           | (Exn e, w') => (Exn e, w')
           | (OutOfFuel, w') => (OutOfFuel, w')
           end.
Definition get {W} : M W W := fun w => (Ok w, w).
Definition put {W} (w' : W) : M W unit := fun _ => (Ok tt, w').

Declare Scope monad_scope.
Delimit Scope monad_scope with monad.
Notation "x <- m ;; f" := (bind m (fun x => f))
  (at level 61, m at next level, right associativity) : monad_scope.
Notation "m ;;; f" := (bind m (fun _ => f))
  (at level 61, right associativity) : monad_scope.

(** [for x in l: ...] threading an accumulator *)
Fixpoint foldM {W A B} (f : B -> A -> M W B) (acc : B) (l : list A) : M W B :=
  match l with
  | [] => ret acc
  | x :: t => bind (f acc x) (fun acc' => foldM f acc' t)
  end.

(** an operation whose failure is a [TypeError] *)
Definition or_throw {W A} (e : exn) (o : option A) : M W A :=
  match o with Some a => ret a | None => throw e end.

(** A named part of the mutable state. *)
Record lens (W S : Type) : Type := mkLens {
  lget : W -> S;
  lset : S -> W -> W
}.
Arguments lget {W S} l.
Arguments lset {W S} l.
Arguments mkLens {W S}.

Record lens_ok {W S} (L : lens W S) : Prop := {
  lens_get_set : forall s w, lget L (lset L s w) = s;
  lens_set_get : forall w, lset L (lget L w) w = w;
  lens_set_set : forall s s' w, lset L s (lset L s' w) = lset L s w
}.
