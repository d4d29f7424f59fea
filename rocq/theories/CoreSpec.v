(** * Specification vocabulary for the core predicates *)

From Coq Require Import ZArith QArith String List Bool.
From Verif Require Import Py Effects Solver SolverSpec CoreModule.
Import ListNotations.
Local Close Scope Q_scope.
Local Open Scope nat_scope.
Local Open Scope list_scope.

(** the predicate [p] is defined by the core module only *)
Definition only_core {W} (mods : list (modul W)) (w : W) (p : string) : Prop :=
  exists ms, mods = core_module :: ms /\ forall m, In m ms -> m w p = None.

(** what a call of a core predicate answers when it computes the value [v]
    for its result argument [R]: an unbound variable gets the value, a
    constant is compared with it, a bound variable is not compared *)
Definition put_result (b : binding) (R v : value) : list binding :=
  match R with
  | VVar x => match bget x b with
              | None => [bset x v b]
              | Some _ => [b]
              end
  | _ => if py_eq R v then [b] else []
  end.

(** the result of a call, given that its body has been solved *)
Definition after {W} (solved : outcome sres * W) (f : sres -> list binding) : outcome sres * W :=
  match solved with
  | (Ok r, w) => (Ok (SList (f r)), w)
  | (Exn e, w) => (Exn e, w)
  | (OutOfFuel, w) => (OutOfFuel, w)
  end.

(** sums of rational numbers *)
Fixpoint Qsum (l : list Q) : Q :=
  match l with [] => 0%Q | q :: t => (q + Qsum t)%Q end.

(** the value of a variable is the number [q] *)
Definition has_number (x : string) (r : binding) (q : Q) : Prop :=
  exists v, bget x r = Some v /\ num_of v = Some q.

(** [t'] is [t] with the bound variables replaced by their values *)
Inductive substituted (b : binding) : value -> value -> Prop :=
| sub_bound x v : bget x b = Some v -> substituted b (VVar x) v
| sub_unbound x : bget x b = None -> substituted b (VVar x) (VVar x)
| sub_list l l' : Forall2 (substituted b) l l' -> substituted b (VList l) (VList l')
| sub_tuple l l' : Forall2 (substituted b) l l' -> substituted b (VTuple l) (VTuple l')
| sub_other v : (forall x, v <> VVar x) -> (forall l, v <> VList l) -> (forall l, v <> VTuple l) ->
    substituted b v v.

(** the writes that an atom stands for: the write functions that the modules
    have for its predicate, in module order, applied to its arguments *)
Fixpoint write_actions {W} (mods : list (modul W)) (w : W) (sv : solver_if W)
    (p : string) (args : list value) : list (M W unit) :=
  match mods with
  | [] => []
  | m :: t =>
      match m w p with
      | Some rel =>
          match r_write rel with
          | Some f => f sv args (mkCtx (r_pred rel) (r_cols rel) args []) :: write_actions t w sv p args
          | None => write_actions t w sv p args
          end
      | None => write_actions t w sv p args
      end
  end.

(** running actions one after the other *)
Inductive performs {W} : list (M W unit) -> W -> W -> Prop :=
| pf_nil w : performs [] w w
| pf_cons (a : M W unit) rest w w1 w2 :
    a w = (Ok tt, w1) -> performs rest w1 w2 -> performs (a :: rest) w w2.

(** the distinct values of a list in order of first occurrence, where
    equality is Python's [==]; the values [seen] came before *)
Inductive first_values : list value -> list value -> list value -> Prop :=
| fv_nil seen : first_values seen [] []
| fv_old seen x y l kept : In y seen -> py_eq x y = true ->
    first_values seen l kept -> first_values seen (x :: l) kept
| fv_new seen x l kept : (forall y, In y seen -> py_eq x y = false) ->
    first_values (x :: seen) l kept -> first_values seen (x :: l) (x :: kept).

(** [bset] for a variable that is not bound in [b]; a bound one stays *)
Definition set_unbound (b : binding) (x : string) (v : value) (r : binding) : binding :=
  match bget x b with Some _ => r | None => bset x v r end.

(** a strict weak order on the values in [P] *)
Record weak_order (P : value -> Prop) (less : value -> value -> option bool) : Prop := {
  wo_total : forall a b, P a -> P b -> less a b <> None;
  wo_trans : forall a b c, P a -> P b -> P c ->
    less a b = Some true -> less b c = Some true -> less a c = Some true;
  wo_negtrans : forall a b c, P a -> P b -> P c ->
    less a b = Some true -> less c b = Some false -> less a c = Some true
}.

(** [r] is the first of the solutions [rs] whose [y]-value is optimal *)
Definition first_best (better : value -> value -> option bool) (y : string)
    (rs : list binding) (r : binding) (v : value) : Prop :=
  bget y r = Some v /\
  exists pre post, rs = pre ++ r :: post /\
    (forall r' v', In r' pre -> bget y r' = Some v' -> better v v' = Some true) /\
    (forall r' v', In r' post -> bget y r' = Some v' -> better v' v = Some false).

(** [number] and [text] values *)
Definition is_number (v : value) : Prop := exists q, num_of v = Some q.
Definition is_text (v : value) : Prop := exists s, v = VStr s.

(** the atoms are written one after the other; each is known to some module *)
Inductive stores {W} (mods : list (modul W)) (sv : solver_if W) : list value -> W -> W -> Prop :=
| st_nil w : stores mods sv [] w w
| st_cons p args rest w w1 w2 :
    (exists m, In m mods /\ m w p <> None) ->
    performs (write_actions mods w sv p args) w w1 ->
    stores mods sv rest w1 w2 ->
    stores mods sv (VTuple (VStr p :: args) :: rest) w w2.
