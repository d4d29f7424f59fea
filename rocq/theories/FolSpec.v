(** * Specification: first-order queries and rules, and what they mean

    Queries and rule bodies that combine flat atoms with the comparison
    predicates, negation, [scoped], disjunction, [all], [count] and the
    numeric determiners.  Independent of the solver. *)

From Coq Require Import ZArith String List Bool Arith.
From Verif Require Import Py DatalogSpec.
Import ListNotations.
Local Open Scope string_scope.
Local Open Scope list_scope.

Inductive fol : Type :=
| FAtom (a : fatom)                               (** p(t1, ..., tn) *)
| FEq (t u : value)                               (** t = u *)
| FCmp (less : bool) (t u : value)                (** t < u, or t > u *)
| FNot (none : bool) (q : list fol)               (** there is no ... *)
| FSome (q : list fol)                            (** there is some ... *)
| FOr (alts : list (list fol))                    (** the first alternative that can be met *)
| FAll (x : string) (range body : list fol)       (** every x in range ... *)
| FCount (x : string) (q : list fol)              (** x is the number of ... *)
| FDet (c : comparison) (k : Z) (q : list fol).   (** the number of ... is equal / less / greater *)

Definition det_name (c : comparison) : string :=
  match c with Eq => "det_equals" | Lt => "det_less_than" | Gt => "det_greater_than" end.

(** the atom that stands for a formula, as the user writes it in a query *)
Fixpoint fol_value (f : fol) : value :=
  match f with
  | FAtom a => atom_value a
  | FEq t u => VTuple [VStr "equals"; t; u]
  | FCmp less t u => VTuple [VStr (if less then "less_than" else "greater_than"); t; u]
  | FNot none q => VTuple [VStr (if none then "none" else "not"); VList (map fol_value q)]
  | FSome q => VTuple [VStr "scoped"; VList (map fol_value q)]
  | FOr alts => VTuple [VStr "$disjunction"; VList (map (fun q => VList (map fol_value q)) alts)]
  | FAll x range body => VTuple [VStr "all"; VVar x; VList (map fol_value range); VList (map fol_value body)]
  | FCount x q => VTuple [VStr "count"; VVar x; VList (map fol_value q)]
  | FDet c k q => VTuple [VStr (det_name c); VList (map fol_value q); VInt k]
  end.

(** a rule: head :- body *)
Record folrule : Type := mkFolRule { rl_head : fatom; rl_body : list fol }.

Definition arg_vars (l : list value) : list string :=
  flat_map (fun v => match v with VVar x => [x] | _ => [] end) l.

(** the variables to which a formula gives a value *)
Fixpoint fol_binds (f : fol) : list string :=
  match f with
  | FAtom a => arg_vars (fa_args a)
  | FEq t u => arg_vars [t; u]
  | FOr (q :: _) => flat_map fol_binds q
  | FAll x _ _ => [x]
  | FCount x _ => [x]
  | _ => []
  end.
Definition binds (q : list fol) : list string := flat_map fol_binds q.

(** all its variables *)
Fixpoint fol_vars (f : fol) : list string :=
  match f with
  | FAtom a => arg_vars (fa_args a)
  | FEq t u | FCmp _ t u => arg_vars [t; u]
  | FNot _ q | FSome q | FDet _ _ q => flat_map fol_vars q
  | FOr alts => flat_map (fun q => flat_map fol_vars q) alts
  | FAll x range body => x :: flat_map fol_vars range ++ flat_map fol_vars body
  | FCount x q => x :: flat_map fol_vars q
  end.
Definition vars (q : list fol) : list string := flat_map fol_vars q.

(** ** Meaning *)

(** the assignments give the variables in [B] the same values *)
Definition same_on (B : list string) (s s' : assignment) : Prop := forall x, In x B -> s x = s' x.

(** numbers are ordered by size, strings by character code, tuples and lists
    lexicographically *)
Inductive less : value -> value -> Prop :=
| less_int i j : (i < j)%Z -> less (VInt i) (VInt j)
| less_text a c : String.compare a c = Lt -> less (VStr a) (VStr c)
| less_tuple l m : less_seq l m -> less (VTuple l) (VTuple m)
| less_list l m : less_seq l m -> less (VList l) (VList m)
with less_seq : list value -> list value -> Prop :=
| ls_nil y m : less_seq [] (y :: m)
| ls_first x y l m : x <> y -> less x y -> less_seq (x :: l) (y :: m)
| ls_rest x l m : less_seq l m -> less_seq (x :: l) (x :: m).

Section Meaning.
  (** which rows stand in which relation *)
  Variable ext : string -> list value -> Prop.

  (** [holds B f s]: the formula is true for the assignment, when the
      variables in [B] have been given their value before.  The other
      variables inside a negation, a quantifier or a count are local to it. *)
  Fixpoint holds (B : list string) (f : fol) (s : assignment) {struct f} : Prop :=
    let all_hold := fix all_hold (B : list string) (q : list fol) (s : assignment) {struct q} : Prop :=
      match q with
      | [] => True
      | f :: q' => holds B f s /\ all_hold (fol_binds f ++ B) q' s
      end in
    (** [q] can be met, with the given values for the variables in [B] *)
    let possible := fun B q s => exists s', const_assignment s' /\ same_on B s s' /\ all_hold B q s' in
    (** the number of ways in which [q] can be met *)
    let number := fun B q s n => exists rows : list (list value), NoDup rows /\ length rows = n /\
      forall row, In row rows <->
        exists s', const_assignment s' /\ same_on B s s' /\ all_hold B q s' /\ row = map s' (flat_map fol_binds q) in
    match f with
    | FAtom a => ext (fa_pred a) (map (inst s) (fa_args a))
    | FEq t u => inst s t = inst s u
    | FCmp true t u => less (inst s t) (inst s u)
    | FCmp false t u => less (inst s u) (inst s t)
    | FNot _ q => ~ possible B q s
    | FSome q => possible B q s
    | FOr alts =>
        (fix first (alts : list (list fol)) : Prop :=
           match alts with
           | [] => False
           | q :: rest => all_hold B q s \/ (~ possible B q s /\ first rest)
           end) alts
    | FAll x range body =>
        let in_range := fun v => exists s', const_assignment s' /\ same_on B s s' /\ s' x = v /\ all_hold B range s' in
        in_range (s x) /\
        forall v, in_range v ->
          exists s', const_assignment s' /\ same_on B s s' /\ s' x = v /\ all_hold (x :: B) body s'
    | FCount x q => exists n, number B q s n /\ s x = VInt (Z.of_nat n)
    | FDet c k q => exists n, number B q s n /\ Z.compare (Z.of_nat n) k = c
    end.

  Fixpoint all_hold (B : list string) (q : list fol) (s : assignment) {struct q} : Prop :=
    match q with
    | [] => True
    | f :: q' => holds B f s /\ all_hold (fol_binds f ++ B) q' s
    end.
End Meaning.

(** the relations of a program: a row is in a relation exactly when it is in
    its table or is the head of a rule instance whose body is true *)
Definition completed (db : string -> list (list value)) (rules : list folrule)
    (ext : string -> list value -> Prop) : Prop :=
  forall p t, ext p t <->
    In t (db p) \/
    exists r s, In r rules /\ const_assignment s /\ all_hold ext [] (rl_body r) s /\
      fa_pred (rl_head r) = p /\ t = map (inst s) (fa_args (rl_head r)).

(** ** Well-formed queries *)

(** the value of the argument is known when the variables in [B] are *)
Definition known_arg (B : list string) (v : value) : Prop :=
  match v with VVar x => In x B | _ => True end.

Section WellFormed.
  (** what an atom must be like *)
  Variable good_atom : fatom -> Prop.
  (** variables that may or may not have a value already: the head
      variables of the rule to which the formula belongs *)
  Variable H : list string.

  Definition local (B : list string) (xs : list string) : Prop :=
    forall x, In x xs -> In x B \/ ~ In x H.

  (** [well_formed B f]: when the variables in [B] have a value, [f] can be
      evaluated; comparisons get values, the local variables of nested
      formulas do not occur in the head, the variable of [all] and [count]
      is fresh, the alternatives of a disjunction bind the same variables *)
  Fixpoint well_formed (B : list string) (f : fol) {struct f} : Prop :=
    let wfs := fix wfs (B : list string) (q : list fol) {struct q} : Prop :=
      match q with
      | [] => True
      | f :: q' => well_formed B f /\ wfs (fol_binds f ++ B) q'
      end in
    match f with
    | FAtom a => good_atom a
    | FEq t u => flat_arg t /\ flat_arg u /\ (known_arg B t \/ known_arg B u)
    | FCmp _ t u => flat_arg t /\ flat_arg u /\ known_arg B t /\ known_arg B u
    | FNot _ q | FSome q | FDet _ _ q => local B (vars q) /\ wfs B q
    | FOr alts =>
        (fix each (l : list (list fol)) : Prop :=
           match l with
           | [] => True
           | q :: rest => (local B (vars q) /\ wfs B q /\
               forall x, In x (binds q ++ B) <-> In x (fol_binds (FOr alts) ++ B)) /\ each rest
           end) alts
    | FAll x range body =>
        ~ In x B /\ ~ In x H /\ In x (binds range) /\
        local B (vars range) /\ wfs B range /\ local (x :: B) (vars body) /\ wfs (x :: B) body
    | FCount x q => ~ In x B /\ ~ In x H /\ ~ In x (vars q) /\ local B (vars q) /\ wfs B q
    end.

  Fixpoint wfs (B : list string) (q : list fol) {struct q} : Prop :=
    match q with
    | [] => True
    | f :: q' => well_formed B f /\ wfs (fol_binds f ++ B) q'
    end.
End WellFormed.

(** a rule whose body is well-formed without knowing the head variables, and
    gives them all a value *)
Definition good_rule (good_atom : fatom -> Prop) (r : folrule) : Prop :=
  good_atom (rl_head r) /\
  wfs good_atom (arg_vars (fa_args (rl_head r))) [] (rl_body r) /\
  incl (arg_vars (fa_args (rl_head r))) (binds (rl_body r)).

(** ** Answers *)

(** [r] holds exactly the values of a satisfying assignment for the variables
    of [b] and those that the query binds *)
Definition fol_answer (ext : string -> list value -> Prop) (q : list fol) (b : binding)
    (s : assignment) (r : binding) : Prop :=
  const_assignment s /\ agrees s b /\ all_hold ext (keys b) q s /\
  forall x, (In x (keys b ++ binds q) -> bget x r = Some (s x)) /\
            (~ In x (keys b ++ binds q) -> bget x r = None).

(** ** When a query can be evaluated without an error *)

(** the predicates of a formula *)
Fixpoint fol_preds (f : fol) : list string :=
  match f with
  | FAtom a => [fa_pred a]
  | FEq _ _ | FCmp _ _ _ => []
  | FNot _ q | FSome q | FDet _ _ q | FCount _ q => flat_map fol_preds q
  | FOr alts => flat_map (fun q => flat_map fol_preds q) alts
  | FAll _ range body => flat_map fol_preds range ++ flat_map fol_preds body
  end.
Definition preds (q : list fol) : list string := flat_map fol_preds q.

(** how deep queries are nested *)
Fixpoint fol_depth (f : fol) : nat :=
  match f with
  | FAtom _ | FEq _ _ | FCmp _ _ _ => 0
  | FNot _ q | FSome q | FDet _ _ q | FCount _ q => S (list_max (map fol_depth q))
  | FOr alts => list_max (map (fun q => S (list_max (map fol_depth q))) alts)
  | FAll _ range body => Nat.max (S (list_max (map fol_depth range))) (S (list_max (map fol_depth body)))
  end.
Definition depth (q : list fol) : nat := S (list_max (map fol_depth q)).

(** no predicate depends on itself *)
Definition hierarchical (rank : string -> nat) (rules : list folrule) : Prop :=
  forall r, In r rules -> forall p, In p (preds (rl_body r)) -> rank p < rank (fa_pred (rl_head r)).

(** the values can be put in order *)
Inductive comparable : value -> value -> Prop :=
| cmp_int i j : comparable (VInt i) (VInt j)
| cmp_text a c : comparable (VStr a) (VStr c)
| cmp_tuple l m : comparable_seq l m -> comparable (VTuple l) (VTuple m)
| cmp_list l m : comparable_seq l m -> comparable (VList l) (VList m)
with comparable_seq : list value -> list value -> Prop :=
| cs_left l : comparable_seq [] l
| cs_right l : comparable_seq l []
| cs_first x y l m : x <> y -> comparable x y -> comparable_seq (x :: l) (y :: m)
| cs_rest x l m : comparable_seq l m -> comparable_seq (x :: l) (x :: m).

(** no lists inside *)
Fixpoint no_lists (v : value) : bool :=
  match v with
  | VInt _ | VStr _ => true
  | VTuple l => forallb no_lists l
  | _ => false
  end.

Section Safe.
  Variable ext : string -> list value -> Prop.

  (** [safe B f s]: whatever values are tried for the other variables,
      comparisons only get values that can be put in order, and [all] ranges
      over values without lists *)
  Fixpoint safe (B : list string) (f : fol) (s : assignment) {struct f} : Prop :=
    let all_safe := fix all_safe (B : list string) (q : list fol) (s : assignment) {struct q} : Prop :=
      match q with
      | [] => True
      | f :: q' => safe B f s /\
          forall s', const_assignment s' -> same_on B s s' -> holds ext B f s' -> all_safe (fol_binds f ++ B) q' s'
      end in
    match f with
    | FAtom _ | FEq _ _ => True
    | FCmp _ t u => comparable (inst s t) (inst s u)
    | FNot _ q | FSome q | FDet _ _ q | FCount _ q => all_safe B q s
    | FOr alts => (fix each (l : list (list fol)) : Prop :=
                     match l with [] => True | q :: rest => all_safe B q s /\ each rest end) alts
    | FAll x range body =>
        all_safe B range s /\
        forall s', const_assignment s' -> same_on B s s' ->
          (exists s2, const_assignment s2 /\ same_on B s s2 /\ s2 x = s' x /\ all_hold ext B range s2) ->
          no_lists (s' x) = true /\ all_safe (x :: B) body s'
    end.

  Fixpoint all_safe (B : list string) (q : list fol) (s : assignment) {struct q} : Prop :=
    match q with
    | [] => True
    | f :: q' => safe B f s /\
        forall s', const_assignment s' -> same_on B s s' -> holds ext B f s' -> all_safe (fol_binds f ++ B) q' s'
    end.
End Safe.

(** ** Sorts: a check on queries and rules, without looking at the data *)

Inductive sort : Type := Number | Text.
Definition of_sort (c : sort) (v : value) : Prop :=
  match c, v with Number, VInt _ | Text, VStr _ => True | _, _ => False end.

Section Sorted.
  (** the sorts of the columns of each relation, and of the variables *)
  Variable sig : string -> list sort.
  Variable env : string -> sort.

  Definition arg_sorted (c : sort) (v : value) : Prop :=
    match v with VVar x => env x = c | _ => of_sort c v end.

  Fixpoint sorted (f : fol) : Prop :=
    let all := fix all (q : list fol) : Prop :=
      match q with [] => True | f :: q' => sorted f /\ all q' end in
    match f with
    | FAtom a => Forall2 arg_sorted (sig (fa_pred a)) (fa_args a)
    | FEq t u | FCmp _ t u => exists c, arg_sorted c t /\ arg_sorted c u
    | FNot _ q | FSome q | FDet _ _ q => all q
    | FOr alts => (fix each (l : list (list fol)) : Prop :=
                     match l with [] => True | q :: l' => all q /\ each l' end) alts
    | FAll _ range body => all range /\ all body
    | FCount x q => env x = Number /\ all q
    end.
  Fixpoint all_sorted (q : list fol) : Prop :=
    match q with [] => True | f :: q' => sorted f /\ all_sorted q' end.
End Sorted.

(** the variables of a rule can be given sorts *)
Definition sorted_rule (sig : string -> list sort) (r : folrule) : Prop :=
  exists env, sorted sig env (FAtom (rl_head r)) /\ all_sorted sig env (rl_body r).

(** the rows have the sorts of the columns *)
Definition sorted_rows (sig : string -> list sort) (ext : string -> list value -> Prop) (p : string) : Prop :=
  forall t, ext p t -> Forall2 of_sort (sig p) t.
