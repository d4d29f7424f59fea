(** * Specification vocabulary for the solver properties

    Nothing here mentions how the solver works. *)

From Coq Require Import ZArith String List Bool.
From Verif Require Import Py Effects.
Import ListNotations.
Local Open Scope list_scope.

(** [r] contains every entry of [b], with the same value *)
Definition keeps_entries (b r : binding) : Prop :=
  forall k v, bget k b = Some v -> bget k r = Some v.

(** [x] is a direct argument of an atom of [atoms], or of an atom in one
    of the alternatives of an inline disjunction of [atoms] *)
Inductive direct_var (x : string) : value -> Prop :=
| dv_arg atoms p args atom :
    In atom atoms -> (atom = VTuple (p :: args) \/ atom = VList (p :: args)) ->
    p <> VStr "$disjunction"%string ->
    In (VVar x) args -> direct_var x (VList atoms)
| dv_disj atoms alts rest atom alternatives d :
    In atom atoms ->
    (atom = VTuple (VStr "$disjunction"%string :: alternatives :: rest)
     \/ atom = VList (VStr "$disjunction"%string :: alternatives :: rest)) ->
    (alternatives = VList alts \/ alternatives = VTuple alts) ->
    In d alts -> direct_var x d ->
    direct_var x (VList atoms).

(** no two different positions hold equal bindings *)
Definition no_duplicates (l : list binding) : Prop :=
  forall i j a b, i <> j -> nth_error l i = Some a -> nth_error l j = Some b ->
    dict_eq a b = false.

(** [r] occurs in [l], up to equality of dicts *)
Definition mem (r : binding) (l : list binding) : Prop :=
  exists r', In r' l /\ dict_eq r r' = true.

(** [r] is reached from [b] by solving the atoms one after the other,
    where [step a b b'] says that [b'] is a solution of atom [a] from [b] *)
Inductive chain (step : value -> binding -> binding -> Prop)
  : list value -> binding -> binding -> Prop :=
| chain_nil b : chain step [] b b
| chain_cons a rest b b' r :
    step a b b' -> chain step rest b' r -> chain step (a :: rest) b r.

(** What it means that [r] is the input binding [b] extended by matching
    the arguments [args] with the row [row] (equality is Python's [==]). *)
Record row_fits (b : binding) (args row : list value) (r : binding) : Prop := {
  (** nothing that was bound changes *)
  rf_old : forall k v, bget k b = Some v -> opt_eq (bget k r) (Some v) = true;
  (** each unbound variable gets the row's value at its position(s) *)
  rf_var : forall i x, nth_error args i = Some (VVar x) -> bget x b = None ->
             exists v, nth_error row i = Some v /\ opt_eq (bget x r) (Some v) = true;
  (** constants agree with the row, unless the row says [None] *)
  rf_const : forall i arg, nth_error args i = Some arg -> (forall x, arg <> VVar x) ->
             exists v, nth_error row i = Some v /\ (v = VNone \/ py_eq arg v = true);
  (** nothing else is bound *)
  rf_only : forall k, bget k b = None -> ~ In (VVar k) args -> bget k r = None
}.

(** the value that a query function must receive for an argument *)
Inductive received (b : binding) : value -> value -> Prop :=
| rec_bound x v : bget x b = Some v -> received b (VVar x) v
| rec_unbound x : bget x b = None -> received b (VVar x) VNone
| rec_const a : (forall x, a <> VVar x) -> received b a a.

(** the first of [alts] with a non-empty answer decides; alternatives are
    tried in order, threading the state, and not after the first success.
    [answer d w rs w']: alternative [d] in state [w] has the answers [rs]. *)
Inductive first_success {W : Type} (answer : value -> W -> list binding -> W -> Prop)
  : list value -> W -> list binding -> W -> Prop :=
| fs_none w : first_success answer [] w [] w
| fs_here d rest w rs w' : rs <> [] -> answer d w rs w' ->
    first_success answer (d :: rest) w rs w'
| fs_next d rest w w1 rs w' : answer d w [] w1 ->
    first_success answer rest w1 rs w' ->
    first_success answer (d :: rest) w rs w'.

(** all rows are lists of the right length made of data (None, booleans,
    integers, strings and nested containers of these) *)
Fixpoint is_data (v : value) : bool :=
  match v with
  | VNone | VBool _ | VInt _ | VStr _ => true
  | VTuple l | VList l => forallb is_data l
  | _ => false
  end.
Definition good_rows (arity : nat) (rows : list value) : Prop :=
  forall row, In row rows ->
    exists items, row = VList items /\ length items = arity /\ is_data row = true.

(** [kept] are the first occurrences of the elements of a list, in order;
    [seen] was there before *)
Inductive firsts {A : Type} : list A -> list A -> list A -> Prop :=
| fo_nil seen : firsts seen [] []
| fo_old seen x l kept : In x seen -> firsts seen l kept -> firsts seen (x :: l) kept
| fo_new seen x l kept : ~ In x seen -> firsts (x :: seen) l kept -> firsts seen (x :: l) (x :: kept).

(** [out] holds, in order, one [R]-image for each element of a list that
    has one *)
Inductive images {A B : Type} (R : A -> B -> Prop) : list A -> list B -> Prop :=
| im_nil : images R [] []
| im_some x l y out : R x y -> images R l out -> images R (x :: l) (y :: out)
| im_none x l out : (forall y, ~ R x y) -> images R l out -> images R (x :: l) out.

(** ** Running a conjunction, effects included *)

(** the atoms are done depth first: an atom once for each way of doing those
    before it, in the order of their solutions, in the state it is in by then *)
Section Running.
  Context {W : Type}.
  Variable step : value -> binding -> W -> list binding -> W -> Prop.
  Variable stops : value -> binding -> W -> exn -> W -> Prop.

  Inductive runs : list value -> binding -> W -> list binding -> W -> Prop :=
  | runs_nil b w : runs [] b w [b] w
  | runs_cons a rest b w l1 w1 l w2 :
      step a b w l1 w1 -> runs_each rest l1 w1 l w2 -> runs (a :: rest) b w l w2
  with runs_each : list value -> list binding -> W -> list binding -> W -> Prop :=
  | each_nil rest w : runs_each rest [] w [] w
  | each_cons rest b bs w l w1 ls w2 :
      runs rest b w l w1 -> runs_each rest bs w1 ls w2 -> runs_each rest (b :: bs) w (l ++ ls) w2.

  (** an exception ends it, with the effects so far *)
  Inductive runs_into : list value -> binding -> W -> exn -> W -> Prop :=
  | into_first a rest b w e w1 : stops a b w e w1 -> runs_into (a :: rest) b w e w1
  | into_later a rest b w done b' later w1 l w2 e w3 :
      step a b w (done ++ b' :: later) w1 -> runs_each rest done w1 l w2 ->
      runs_into rest b' w2 e w3 -> runs_into (a :: rest) b w e w3.
End Running.

(** [kept] are the different ones of [all], in the order of their first occurrence *)
Inductive different : list binding -> list binding -> list binding -> Prop :=
| different_nil seen : different seen [] []
| different_skip seen r all kept : mem r seen -> different seen all kept -> different seen (r :: all) kept
| different_keep seen r all kept : ~ mem r seen -> different (seen ++ [r]) all kept -> different seen (r :: all) (r :: kept).
