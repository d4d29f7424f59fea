(** * Specification vocabulary for the query optimizer

    Independent of how the passes work. *)

From Coq Require Import ZArith QArith String List Bool Permutation.
From Verif Require Import Py DatalogSpec.
Import ListNotations.
Local Close Scope Q_scope.
Local Open Scope string_scope.
Local Open Scope list_scope.

(** ** nested atoms *)

(** a name resolver *)
Definition is_resolver (atom : value) : bool :=
  match atom with VTuple (VStr p :: _) => String.eqb p "resolve_name" | _ => false end.

(** the name resolvers of the lists of atoms in [v], in reading order.
    Arguments of an atom that are lists are looked into, arguments that are
    tuples are not. *)
Fixpoint resolvers (v : value) : list value :=
  match v with
  | VList l => flat_map (fun atom => if is_resolver atom then [atom] else resolvers atom) l
  | VTuple l => flat_map (fun term => match term with VList _ => resolvers term | _ => [] end) l
  | _ => []
  end.
(** [v] without them *)
Fixpoint without_resolvers (v : value) : value :=
  match v with
  | VList l => VList (flat_map (fun atom => if is_resolver atom then [] else [without_resolvers atom]) l)
  | VTuple l => VTuple (map (fun term => match term with VList _ => without_resolvers term | _ => term end) l)
  | _ => v
  end.

(** no list of atoms in [v] holds the empty tuple *)
Fixpoint no_empty_atom (v : value) : bool :=
  match v with
  | VList l => forallb (fun atom => is_resolver atom ||
                        (match atom with VTuple [] => false | _ => true end && no_empty_atom atom)) l
  | VTuple l => forallb (fun term => match term with VList _ => no_empty_atom term | _ => true end) l
  | _ => true
  end.

(** the predicates, variables and constants that occur in [v], from left to
    right *)
Fixpoint leaves (v : value) : list value :=
  match v with
  | VList l | VTuple l => flat_map leaves l
  | _ => [v]
  end.

(** ** the same atoms in another order, at every level *)

(** an argument that is a list of atoms *)
Inductive body : value -> list value -> Prop :=
| body_intro args atoms : body (VList (VTuple args :: atoms)) (VTuple args :: atoms).

Inductive reordered : list value -> list value -> Prop :=
| reordered_intro l m m' :
    Permutation l m -> reordered_atoms m m' -> reordered l m'
with reordered_atoms : list value -> list value -> Prop :=
| ra_nil : reordered_atoms [] []
| ra_cons a a' l l' : reordered_atom a a' -> reordered_atoms l l' -> reordered_atoms (a :: l) (a' :: l')
with reordered_atom : value -> value -> Prop :=
| rat_same a : reordered_atom a a
| rat_arguments a args args' :
    a = VTuple args \/ a = VList args -> reordered_arguments args args' ->
    reordered_atom a (VTuple args')
with reordered_arguments : list value -> list value -> Prop :=
| rar_nil : reordered_arguments [] []
| rar_same t l l' : (forall b, ~ body t b) -> reordered_arguments l l' -> reordered_arguments (t :: l) (t :: l')
| rar_body t b b' l l' :
    body t b -> reordered b b' -> reordered_arguments l l' ->
    reordered_arguments (t :: l) (VList b' :: l').

(** ** the order by cost *)
Section Cost.
  (** the relations of a predicate: their size, and the number of values of
      each argument; [None] when it is to be ignored *)
  Variable relations : string -> list (option Q * list (option Q)).
  Variable infinite : Q.

  (** [known bound a]: the argument has a value when the variables [bound] have *)
  Definition known (bound : list string) (a : value) : Prop :=
    match a with
    | VVar x => In x bound
    | VList _ | VTuple _ => False
    | _ => True
    end.

  (** the product of the numbers of values of the known arguments *)
  Inductive divisor (bound : list string) : list value -> list (option Q) -> Q -> Prop :=
  | div_nil : divisor bound [] [] 1
  | div_ignored a args ns q : divisor bound args ns q -> divisor bound (a :: args) (None :: ns) q
  | div_known a n args ns q : known bound a -> divisor bound args ns q ->
      divisor bound (a :: args) (Some n :: ns) (n * q)
  | div_unknown a n args ns q : ~ known bound a -> divisor bound args ns q ->
      divisor bound (a :: args) (Some n :: ns) q.

  (** the expected number of rows *)
  Definition rows (bound : list string) (args : list value) (r : option Q * list (option Q)) (c : Q) : Prop :=
    match fst r with
    | None => c = infinite
    | Some n => exists q, divisor bound args (snd r) q /\ ~ Qeq q 0 /\ Qeq (c * q) n
    end.

  (** the largest one of all relations of the predicate; no relation costs
      nothing *)
  Definition cost (bound : list string) (atom : value) (c : Q) : Prop :=
    exists p args, (atom = VTuple (p :: args) \/ atom = VList (p :: args) \/
                    exists s, atom = VStr s /\ p :: args = map (fun ch => VStr (String ch "")) (list_ascii_of_string s)) /\
      let rs := match p with VStr p => relations p | _ => [] end in
      (rs = [] /\ c = 0%Q \/
       (exists r, In r rs /\ rows bound args r c) /\
       forall r, In r rs -> exists c', rows bound args r c' /\ Qle c' c).

  (** [m] is [l] in the order of increasing cost, where elements of equal cost
      keep their order *)
  Definition ranking (f : value -> Q) (l m : list value) : Prop :=
    Permutation l m /\
    (forall i j a b, i < j -> nth_error m i = Some a -> nth_error m j = Some b -> Qle (f a) (f b)) /\
    (forall c, filter (fun a => Qeq_bool (f a) c) m = filter (fun a => Qeq_bool (f a) c) l).

  (** [x] occurs in [v], outside templates *)
  Inductive mentions (x : string) : value -> Prop :=
  | mentions_var : mentions x (VVar x)
  | mentions_tuple v l : In v l -> mentions x v -> mentions x (VTuple l)
  | mentions_list v l : In v l -> mentions x v -> mentions x (VList l).

  (** the cheapest atom first, the others after they are ranked again with its
      variables bound; the same for the lists of atoms in its arguments *)
  Inductive cheapest_first : list string -> list value -> list value -> Prop :=
  | cf_nil bound : cheapest_first bound [] []
  | cf_cons bound bound' f todo a a' rest result :
      (forall x, In x todo -> cost bound x (f x)) ->
      ranking f todo (a :: rest) ->
      cheapest_atom bound a a' ->
      (forall x, In x bound' <-> In x bound \/ mentions x a) ->
      cheapest_first bound' rest result ->
      cheapest_first bound todo (a' :: result)
  with cheapest_atom : list string -> value -> value -> Prop :=
  | ca_same bound a :
      (forall args t b, a = VTuple args \/ a = VList args -> In t args -> ~ body t b) ->
      cheapest_atom bound a a
  | ca_arguments bound a args args' t b :
      a = VTuple args \/ a = VList args -> In t args -> body t b ->
      cheapest_arguments bound args args' -> cheapest_atom bound a (VTuple args')
  with cheapest_arguments : list string -> list value -> list value -> Prop :=
  | car_nil bound : cheapest_arguments bound [] []
  | car_same bound t l l' : (forall b, ~ body t b) -> cheapest_arguments bound l l' ->
      cheapest_arguments bound (t :: l) (t :: l')
  | car_body bound t b b' l l' :
      body t b -> cheapest_first bound b b' -> cheapest_arguments bound l l' ->
      cheapest_arguments bound (t :: l) (VList b' :: l').
End Cost.

(** ** isolated atoms *)

(** [unscoped l m]: [m] is [l] with some elements ('scoped', [...]) replaced by
    their contents *)
Inductive unscoped : list value -> list value -> Prop :=
| us_nil : unscoped [] []
| us_atom a l m : unscoped l m -> unscoped (a :: l) (a :: m)
| us_scoped inner inner' l m :
    unscoped inner inner' -> unscoped l m ->
    unscoped (VTuple [VStr "scoped"; VList inner] :: l) (inner' ++ m).

(** no two elements at different places are equal *)
Fixpoint all_different (l : list value) : Prop :=
  match l with
  | [] => True
  | a :: t => (forall x, In x t -> py_eq a x = false) /\ all_different t
  end.

(** [subsequence g l]: [g] is [l] without some elements, in the same order *)
Inductive subsequence : list value -> list value -> Prop :=
| sub_nil : subsequence [] []
| sub_keep a g l : subsequence g l -> subsequence (a :: g) (a :: l)
| sub_drop a g l : subsequence g l -> subsequence g (a :: l).

(** [a] and [b] have a variable in common that is not one of [excluded] *)
Definition linked (excluded : list string) (a b : value) : Prop :=
  exists x, mentions x a /\ mentions x b /\ ~ In x excluded.
(** a path of links within [l] *)
Inductive path (excluded : list string) (l : list value) : value -> value -> Prop :=
| path_refl a : path excluded l a a
| path_step a b c : In b l -> linked excluded a b -> path excluded l b c -> path excluded l a c.
Definition connected (excluded : list string) (l : list value) : Prop :=
  forall a b, In a l -> In b l -> path excluded l a b.

(** [isolated roots atoms result]: the first atom stays first.  The others
    are split in groups that hang together by the variables the first atom
    does not have, and that share no such variable with each other.  A group
    with a root variable stays as it is; each other group is isolated in the
    same way and put in a 'scoped'. *)
Inductive isolated : list string -> list value -> list value -> Prop :=
| iso_nil roots : isolated roots [] []
| iso_cons roots head rest groups (excluded : list string) results :
    (forall x, In x excluded <-> mentions x head) ->
    Permutation rest (concat groups) ->
    (forall g, In g groups -> g <> [] /\ subsequence g rest /\ connected excluded g) ->
    (forall i j g g' a b, i <> j -> nth_error groups i = Some g -> nth_error groups j = Some g' ->
       In a g -> In b g' -> ~ linked excluded a b) ->
    isolated_groups roots excluded groups results ->
    isolated roots (head :: rest) (head :: concat results)
with isolated_groups : list string -> list string -> list (list value) -> list (list value) -> Prop :=
| ig_nil roots excluded : isolated_groups roots excluded [] []
| ig_root roots excluded g groups results a x :
    In a g -> mentions x a -> ~ In x excluded -> In x roots ->
    isolated_groups roots excluded groups results ->
    isolated_groups roots excluded (g :: groups) (g :: results)
| ig_scoped roots excluded g r groups results :
    (forall a x, In a g -> mentions x a -> ~ In x excluded -> ~ In x roots) ->
    isolated [] g r ->
    isolated_groups roots excluded groups results ->
    isolated_groups roots excluded (g :: groups) ([VTuple [VStr "scoped"; VList r]] :: results).
