(** * What the meaning of a sentence is

    Every inner node of the parse tree has its own assignment of sentence
    variables to the variables of its rule.  [explains] says how the
    assignments of parent and child are connected and what the node means;
    it knows no counter and no order of evaluation. *)

From Coq Require Import ZArith String Ascii List Bool.
From Verif Require Import Py Effects Grammar Earley Composer.
Import ListNotations.
Local Open Scope string_scope.
Local Open Scope list_scope.

(** the variable [x] occurs in [v], at any depth *)
Inductive occurs (x : string) : value -> Prop :=
| occurs_var : occurs x (VVar x)
| occurs_tuple v l : In v l -> occurs x v -> occurs x (VTuple l)
| occurs_list v l : In v l -> occurs x v -> occurs x (VList l)
| occurs_body v a l : In v l -> occurs x v -> occurs x (VTmpl a l).

(** the variable [x] is an argument of one of the atoms of a list of atoms *)
Definition argument (x : string) (v : value) : Prop :=
  exists atoms args, v = VList atoms /\
    (In (VTuple args) atoms \/ In (VList args) atoms) /\ In (VVar x) args.

(** a name that starts with the dollar sign *)
Definition dollar (x : string) : Prop := exists s, x = String "$" s.

(** the variables in the syntax of a rule *)
Definition declared (r : crule) (x : string) : Prop :=
  In x (k_args (g_ante r)) \/ exists c, In c (g_cons r) /\ In x (k_args c).

(** replacing variables by variables, and reified variables by the names of
    variables *)
Fixpoint rename (a : string -> option string) (v : value) : value :=
  match v with
  | VVar x => match a x with Some y => VVar y | None => VVar x end
  | VReif x => match a x with Some y => VStr y | None => VReif x end
  | VTuple l => VTuple (map (rename a) l)
  | VList l => VList (map (rename a) l)
  | VTmpl args body => VTmpl args (map (rename a) body)
  | _ => v
  end.

(** an assignment for each node: a node is given by the child numbers that
    lead to it *)
Definition assignment : Type := list nat -> string -> option string.

Inductive executable_atoms (r : crule) (sems children : list value) : value -> Prop :=
| exec_children : m_exec (g_mean r) = None -> executable_atoms r sems children (VList children)
| exec_own f v : m_exec (g_mean r) = Some f -> f sems = Ok v -> executable_atoms r sems children v.

Inductive dialog_atoms (r : crule) (sems : list value) : list value -> Prop :=
| dialog_list l : m_dialog (g_mean r) = DAtoms l -> dialog_atoms r sems l
| dialog_call f v l : m_dialog (g_mean r) = DCall f -> f sems = Ok v -> elements v = Some l ->
    dialog_atoms r sems l.

Inductive explains : assignment -> ctree -> list string -> composed -> Prop :=
| explains_node (sigma : assignment) cat children form r incoming sems infs exe f s x d :
    explain_children (sigma []) (fun i q => sigma (i :: q)) children (g_cons r) sems infs exe ->
    m_sem (g_mean r) = Some f -> f sems = Ok s ->
    executable_atoms r sems exe x -> dialog_atoms r sems d ->
    (* the variables of the antecedent are those of the parent; the last of
       equal ones counts *)
    (forall j a, nth_error (k_args (g_ante r)) j = Some a ->
                 ~ In a (skipn (S j) (k_args (g_ante r))) ->
                 exists v, nth_error incoming j = Some v /\ sigma [] a = Some v) ->
    (* exactly the declared variables and the arguments of the atoms have a
       sentence variable *)
    (forall y, sigma [] y <> None <-> declared r y \/ argument y s /\ ~ dollar y) ->
    explains sigma (Node cat children form r) incoming
      (rename (sigma []) s, map (rename (sigma [])) (infs ++ d), rename (sigma []) x)
with explain_children : (string -> option string) -> (nat -> assignment) -> list ctree -> list constituent ->
                        list value -> list value -> list value -> Prop :=
| no_children a tau conss : explain_children a tau [] conss [] [] []
| no_constituents a tau ts : explain_children a tau ts [] [] [] []
| silent_leaf a tau cat form r ts c conss sems infs exe :
    m_sem (g_mean r) = None ->
    explain_children a (fun i => tau (S i)) ts conss sems infs exe ->
    explain_children a tau (Node cat [] form r :: ts) (c :: conss) sems infs exe
| spoken_leaf a tau cat form r ts c conss f v sems infs exe :
    m_sem (g_mean r) = Some f -> f [] = Ok v ->
    explain_children a (fun i => tau (S i)) ts conss sems infs exe ->
    explain_children a tau (Node cat [] form r :: ts) (c :: conss) (v :: sems) infs exe
| inner_node a tau cat t1 ts1 form r ts c conss vars s i x xs sems infs exe :
    Forall2 (fun arg v => a arg = Some v) (k_args c) vars ->
    explains (tau O) (Node cat (t1 :: ts1) form r) vars (s, i, x) -> elements x = Some xs ->
    explain_children a (fun i => tau (S i)) ts conss sems infs exe ->
    explain_children a tau (Node cat (t1 :: ts1) form r :: ts) (c :: conss) (s :: sems) (i ++ infs) (xs ++ exe).

(** the inner nodes that take part in the meaning: those with a constituent *)
Inductive inner : ctree -> list nat -> crule -> Prop :=
| inner_root cat t ts form r : inner (Node cat (t :: ts) form r) [] r
| inner_child cat ts form r i t c p r' :
    nth_error ts i = Some t -> nth_error (g_cons r) i = Some c -> inner t p r' ->
    inner (Node cat ts form r) (i :: p) r'.

(** [v] is the sentence variable of [x] at node [p], and it does not come from
    the parent *)
Definition own (sigma : assignment) (t : ctree) (p : list nat) (x v : string) : Prop :=
  exists r, inner t p r /\ ~ In x (k_args (g_ante r)) /\ sigma p x = Some v.

(** the names with the numbers after [n] up to [n'] *)
Definition between (n n' : nat) (v : string) : Prop := exists k, n < k <= n' /\ v = var_name k.
