(** * Specification: first-order queries that the optimizer can reorder

    Independent of the optimizer and of the solver. *)

From Coq Require Import QArith String List Bool.
From Verif Require Import Py DatalogSpec FolSpec.
Import ListNotations.
Local Close Scope Q_scope.
Local Open Scope string_scope.
Local Open Scope list_scope.

(** the formula has queries inside *)
Definition has_body (f : fol) : bool :=
  match f with FAtom _ | FEq _ _ | FCmp _ _ _ => false | _ => true end.

Definition no_list (v : value) : Prop := match v with VList _ => False | _ => True end.

Section Tidy.
  (** the predicates whose atoms may be put before the other formulas *)
  Variable moved : string -> bool.
  Definition is_moved (f : fol) : bool :=
    match f with FAtom a => moved (fa_pred a) | _ => false end.

  (** The place of [f] in a query, between formulas with the variables
      [before] and the formulas [after], when the variables in [B] have a
      value.  The variable that [all] or [count] gives a value does not occur
      in an atom that may be put before it.  Any other variable in a nested
      query has a value, or occurs nowhere else in the query. *)
  Definition placed (before B : list string) (f : fol) (after : list fol) : Prop :=
    has_body f = true -> forall x, In x (fol_vars f) ->
      (In x (fol_binds f) -> ~ In x (vars (filter is_moved after))) /\
      (~ In x (fol_binds f) -> In x B \/ (~ In x before /\ ~ In x (vars after))).

  (** every formula has such a place, in the query and in the nested queries;
      there are no disjunctions, name resolvers and lists of values *)
  Fixpoint tidy (B : list string) (f : fol) {struct f} : Prop :=
    let tidies := fix tidies (before B : list string) (q : list fol) {struct q} : Prop :=
      match q with
      | [] => True
      | f :: q' => tidy B f /\ placed before B f q' /\ tidies (fol_vars f ++ before) (fol_binds f ++ B) q'
      end in
    match f with
    | FAtom a => fa_pred a <> "resolve_name" /\ Forall no_list (fa_args a)
    | FEq t u | FCmp _ t u => no_list t /\ no_list u
    | FNot _ q | FSome q | FDet _ _ q | FCount _ q => tidies [] B q
    | FOr _ => False
    | FAll x range body => tidies [] B range /\ tidies [] (x :: B) body
    end.
  Fixpoint tidies (before B : list string) (q : list fol) {struct q} : Prop :=
    match q with
    | [] => True
    | f :: q' => tidy B f /\ placed before B f q' /\ tidies (fol_vars f ++ before) (fol_binds f ++ B) q'
    end.
End Tidy.

(** ** which atoms are put first *)
Section Sizes.
  (** the relations of a predicate: their size, and the number of values of
      each argument; [None] when it is to be ignored *)
  Variable relations : string -> list (option Q * list (option Q)).

  (** the sizes of all its relations are known *)
  Definition sized_pred (p : string) : bool :=
    forallb (fun r => match fst r with Some _ => true | None => false end) (relations p).

  (** known sizes stay below the limit, arguments have at least one value *)
  Definition sane_sizes (infinite : Q) : Prop := forall p r n, In r (relations p) -> fst r = Some n ->
    Qle 0 n /\ Qlt n infinite /\ forall m, In (Some m) (snd r) -> Qle 1 m.

  (** each size comes with one number for each argument *)
  Definition sizes_match (arity : string -> nat) : Prop := forall p r n, In r (relations p) -> fst r = Some n ->
    length (snd r) = arity p.

  (** the predicates of the library have no size *)
  Definition core_unsized : Prop := forall p,
    In p ["equals"; "less_than"; "greater_than"; "not"; "none"; "scoped"; "all"; "count";
          "det_equals"; "det_less_than"; "det_greater_than"] ->
    relations p <> [] /\ forall r, In r (relations p) -> fst r = None.
End Sizes.
