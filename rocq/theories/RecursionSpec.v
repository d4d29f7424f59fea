(** * Specification: which atoms are asked for while rules are followed

    Independent of the solver.  Atoms are followed from left to right; a call is
    a predicate with the arguments that are known when it is asked for. *)

From Coq Require Import ZArith String List Bool.
From Verif Require Import Py DatalogSpec.
Import ListNotations.
Local Open Scope list_scope.

(** the arguments of a call: a value, or [None] when it is asked for *)
Definition call : Type := list (option value).

(** the head of a rule, with the values of [s], can be what the call asks for *)
Definition head_fits (s : assignment) (head : fatom) (c : call) : Prop :=
  Forall2 (fun h o => forall v, o = Some v -> inst s h = v) (fa_args head) c.

(** the call gives the variable [x] of the head a value *)
Definition given (x : string) (head : fatom) (c : call) : Prop :=
  exists i v, nth_error (fa_args head) i = Some (VVar x) /\ nth_error c i = Some (Some v).

(** [c] is what is asked for with the atom [a], when the variables in [K] have
    the values of [s] *)
Definition asked (s : assignment) (K : string -> Prop) (a : fatom) (c : call) : Prop :=
  Forall2 (fun v o => match v with
                      | VVar x => (K x /\ o = Some (s x)) \/ (~ K x /\ o = None)
                      | _ => o = Some v
                      end) (fa_args a) c.

Section Calls.
  Variable db : string -> list (list value).
  Variable rules : list frule.

  (** the call [p], [c] leads to the call [p'], [c']: it is the next one in the
      body of a rule of [p] of which the atoms before it are true *)
  Inductive leads_to (p : string) (c : call) (p' : string) (c' : call) : Prop :=
  | leads r s before a after :
      In r rules -> fa_pred (fr_head r) = p -> const_assignment s -> head_fits s (fr_head r) c ->
      fr_body r = before ++ a :: after -> satisfies db rules s before ->
      fa_pred a = p' -> asked s (fun x => given x (fr_head r) c \/ fvars x before) a c' ->
      leads_to p c p' c'.

  (** the calls that a query begins with, when [b] holds what is known *)
  Inductive begins (q : list fatom) (b : binding) (p : string) (c : call) : Prop :=
  | begin s before a after :
      q = before ++ a :: after -> const_assignment s -> agrees s b -> satisfies db rules s before ->
      fa_pred a = p -> asked s (fun x => bget x b <> None \/ fvars x before) a c ->
      begins q b p c.
End Calls.

(** ** chains in a table of pairs *)
Section Chains.
  Variable rows : list (list value).

  (** one or more rows, each of which begins where the one before it ends *)
  Inductive chain : value -> value -> Prop :=
  | one_row x y : In [x; y] rows -> chain x y
  | more_rows x z y : In [x; z] rows -> chain z y -> chain x y.

  (** a circle can be reached from [x] *)
  Definition circular (x : value) : Prop := exists z, (x = z \/ chain x z) /\ chain z z.

  (** a circle can be reached from [o]; from somewhere, if that is not known *)
  Definition starts_circular (o : option value) : Prop :=
    match o with Some x => circular x | None => exists x, circular x end.
End Chains.

(** what is known of an argument *)
Definition start (b : binding) (v : value) : option value :=
  match v with VVar x => bget x b | _ => Some v end.

(** path(X, Y) :- edge(X, Y).   path(X, Y) :- edge(X, Z), path(Z, Y). *)
Definition transitive (edge path X Y Z : string) : list frule :=
  [ mkFRule (mkAtom path [VVar X; VVar Y]) [mkAtom edge [VVar X; VVar Y]];
    mkFRule (mkAtom path [VVar X; VVar Y]) [mkAtom edge [VVar X; VVar Z]; mkAtom path [VVar Z; VVar Y]] ].
