(** * Models of /repo/richard/processor/semantic_composer/optimizer/

    FrontResolveName.py, SortByCost.py, IsolateIndependentParts.py and
    BasicQueryOptimizer.py.  A Python [set] of names is a list in which only
    membership counts.  Simplified: costs are exact rationals (Python divides
    with rounding); a predicate that is a tuple with a list in it, which cannot
    be hashed, has no relations instead of being a [TypeError]. *)

From Coq Require Import ZArith QArith String List Bool.
From Verif Require Import Py Effects Atoms Earley Composer.
Import ListNotations.
Local Close Scope Q_scope.
Local Open Scope nat_scope.
Local Open Scope string_scope.
Local Open Scope list_scope.
Local Open Scope outcome_scope.

(** /repo/richard/core/constants.py 12, 51 *)
Definition RESOLVE_NAME : string := "resolve_name".
Definition INFINITE : Q := inject_Z 1000000000000.

Definition name_in (x : string) (l : list string) : bool := existsb (String.eqb x) l.

(** ** FrontResolveName.py *)

(** FrontResolveName.py 13-32 for a list, 35-47 for a tuple: the name
    resolvers, and what is left *)
Fixpoint extract (v : value) : outcome (list value * value) :=
  match v with
  | VList l =>
      p <- (fix atoms (l : list value) : outcome (list value * list value) :=
         match l with
         | [] => Ok ([], [])
         | atom :: rest =>
             x <- match atom with
                  | VList _ => p <- extract atom ;; Ok (fst p, [snd p])
                  | VTuple [] => Exn IndexErr
                  | VTuple (name :: _) =>
                      if py_eq name (VStr RESOLVE_NAME) then Ok ([atom], [])
                      else p <- extract atom ;; Ok (fst p, [snd p])
                  | _ => Ok ([], [atom])
                  end ;;
             y <- atoms rest ;;
             Ok (fst x ++ fst y, snd x ++ snd y)
         end) l ;;
      Ok (fst p, VList (snd p))
  | VTuple l =>
      p <- (fix terms (l : list value) : outcome (list value * list value) :=
         match l with
         | [] => Ok ([], [])
         | term :: rest =>
             x <- match term with
                  | VList _ => p <- extract term ;; Ok (fst p, [snd p])
                  | _ => Ok ([], [term])
                  end ;;
             y <- terms rest ;;
             Ok (fst x ++ fst y, snd x ++ snd y)
         end) l ;;
      Ok (fst p, VTuple (snd p))
  | _ => Ok ([], v)
  end.

(** FrontResolveName.py 8-10 *)
Definition front (composition : list value) : outcome (list value) :=
  p <- extract (VList composition) ;;
  match snd p with
  | VList others => Ok (fst p ++ others)
  | _ => Exn TypeErr
  end.

(** ** SortByCost.py *)

(** /repo/richard/entity/Relation.py 5-30: the sizes; [None] is [IGNORED] *)
Record sizes : Type := mkSizes {
  z_relation : option Q;
  z_arguments : list (option Q)
}.

Section Sort.
  (** /repo/richard/core/Model.py 24-30 *)
  Variable find_relations : string -> list sizes.

  (** a list cannot be a key of a dict *)
  Definition relations_of (predicate : value) : outcome (list sizes) :=
    match predicate with
    | VStr p => Ok (find_relations p)
    | VList _ => Exn TypeErr
    | _ => Ok []
    end.

  (** SortByCost.py 72-84: what one argument contributes *)
  Definition factor (bound : list string) (argument : value) (size : option Q) : Q :=
    match size with
    | None => 1%Q
    | Some n =>
        match argument with
        | VVar x => if name_in x bound then n else 1%Q
        | VList _ | VTuple _ => 1%Q
        | _ => n
        end
    end.
  Fixpoint size_product (bound : list string) (arguments : list value) (ns : list (option Q)) : Q :=
    match arguments, ns with
    | a :: arguments', n :: ns' => (factor bound a n * size_product bound arguments' ns')%Q
    | _, _ => 1%Q
    end.

  (** SortByCost.py 61-88 *)
  Definition relation_cost (bound : list string) (arguments : list value) (r : sizes) : outcome Q :=
    match z_relation r with
    | None => Ok INFINITE
    | Some n =>
        if Nat.eqb (length arguments) (length (z_arguments r)) then
          let p := size_product bound arguments (z_arguments r) in
          if Qeq_bool p 0 then Exn ZeroDiv else Ok (n / p)%Q
        else Exn (Raise "Number of argument sizes doesn't match that of relation")
    end.

  (** [max] of a list that is not empty *)
  Fixpoint max_cost (m : Q) (l : list Q) : Q :=
    match l with
    | [] => m
    | c :: t => max_cost (if Qle_bool c m then m else c) t
    end.

  (** SortByCost.py 54-92 *)
  Definition calculate_cost (bound : list string) (atom : value) : outcome Q :=
    predicate <- first atom ;;
    rels <- relations_of predicate ;;
    let arguments := match elements atom with Some l => tl l | None => [] end in
    costs <- omap (relation_cost bound arguments) rels ;;
    match costs with
    | [] => Ok 0%Q
    | c :: t => Ok (max_cost c t)
    end.

  (** [results.sort(key=...)]: a stable sort *)
  Fixpoint cost_insert (x : Q * value) (l : list (Q * value)) : list (Q * value) :=
    match l with
    | [] => [x]
    | y :: t => if Qle_bool (fst x) (fst y) then x :: l else y :: cost_insert x t
    end.
  Fixpoint cost_sort (l : list (Q * value)) : list (Q * value) :=
    match l with
    | [] => []
    | x :: t => cost_insert x (cost_sort t)
    end.

  (** SortByCost.py 26-32 *)
  Definition rank (bound : list string) (todo : list value) : outcome (list value) :=
    results <- omap (fun atom => c <- calculate_cost bound atom ;; Ok (c, atom)) todo ;;
    Ok (map snd (cost_sort results)).

  Section Arguments.
    (** [self.sort] *)
    Variable sort : list string -> list value -> outcome (list value).

    (** SortByCost.py 44-45 *)
    Definition is_body (argument : value) : bool :=
      match argument with VList (VTuple _ :: _) => true | _ => false end.
    (** SortByCost.py 44-47 *)
    Definition sort_argument (bound : list string) (argument : value) : outcome value :=
      match argument with
      | VList l => if is_body argument then l' <- sort bound l ;; Ok (VList l') else Ok argument
      | _ => Ok argument
      end.
    (** SortByCost.py 40-51; a text has no arguments that are lists *)
    Definition sort_arguments (bound : list string) (atom : value) : outcome value :=
      match atom with
      | VTuple l | VList l =>
          l' <- omap (sort_argument bound) l ;;
          Ok (if existsb is_body l then VTuple l' else atom)
      | _ => Ok atom
      end.

    (** SortByCost.py 21-37; [n]: the number of atoms.  [done] is what is put
        before the result. *)
    Fixpoint sort_rest (n : nat) (bound : list string) (todo : list value) : outcome (list value) :=
      match n, todo with
      | _, [] => Ok []
      | O, _ :: _ => OutOfFuel
      | S n', _ :: _ =>
          sorted <- rank bound todo ;;
          match sorted with
          | [] => Exn IndexErr
          | atom :: rest =>
              atom' <- sort_arguments bound atom ;;
              result <- sort_rest n' (bound ++ atom_variables atom') rest ;;
              Ok (atom' :: result)
          end
      end.
  End Arguments.

  (** SortByCost.py 12-18; [d]: the depth of the composition *)
  Fixpoint sort_depth (d : nat) (bound : list string) (composition : list value) : outcome (list value) :=
    match d with
    | O => OutOfFuel
    | S d' => sort_rest (sort_depth d') (length composition) bound composition
    end.

  Fixpoint depth (v : value) : nat :=
    match v with
    | VList l | VTuple l => S (fold_right (fun x n => Nat.max (depth x) n) 0 l)
    | _ => 0
    end.
  Definition sort (composition : list value) : outcome (list value) :=
    sort_depth (depth (VList composition)) [] composition.
End Sort.

(** ** IsolateIndependentParts.py *)

(** IsolateIndependentParts.py 5-8 *)
Record batch : Type := mkBatch { b_atoms : list value; b_variables : list string }.

(** [len(a & b) > 0] *)
Definition share (a b : list string) : bool := existsb (fun x => name_in x b) a.

(** IsolateIndependentParts.py 48-52 *)
Definition first_batches (atoms : list value) (excluded : list string) : list batch :=
  map (fun atom => mkBatch [atom] (filter (fun x => negb (name_in x excluded)) (atom_variables atom))) atoms.

(** IsolateIndependentParts.py 58-67 *)
Fixpoint add_batch (b : batch) (new_batches : list batch) : list batch :=
  match new_batches with
  | [] => [b]
  | found :: rest =>
      if share (b_variables b) (b_variables found)
      then mkBatch (b_atoms found ++ b_atoms b) (b_variables found ++ b_variables b) :: rest
      else found :: add_batch b rest
  end.
(** IsolateIndependentParts.py 56-67 *)
Definition merge_batches (collection : list batch) : list batch :=
  fold_left (fun new_batches b => add_batch b new_batches) collection [].
(** IsolateIndependentParts.py 55-72 *)
Fixpoint stabilize (n : nat) (collection : list batch) : outcome (list batch) :=
  match n with
  | O => OutOfFuel
  | S n' =>
      let new_batches := merge_batches collection in
      if Nat.eqb (length new_batches) (length collection) then Ok collection
      else stabilize n' new_batches
  end.

(** IsolateIndependentParts.py 79-92 *)
Definition restore_atom_order (atoms : list value) (b : batch) : batch :=
  mkBatch (flat_map (fun atom =>
             match find (fun batch_atom => py_eq batch_atom atom) (b_atoms b) with
             | Some batch_atom => [batch_atom]
             | None => []
             end) atoms)
          (b_variables b).

(** IsolateIndependentParts.py 45-76 *)
Definition collect_batches (atoms : list value) (excluded : list string) : outcome (list batch) :=
  collection <- stabilize (S (length atoms)) (first_batches atoms excluded) ;;
  Ok (map (restore_atom_order atoms) collection).

(** IsolateIndependentParts.py 21-42; [n]: the number of atoms *)
Fixpoint isolate_from (n : nat) (atoms : list value) (root_variables : list string) : outcome (list value) :=
  match atoms with
  | [] => Ok []
  | head :: rest =>
      match n with
      | O => OutOfFuel
      | S n' =>
          batches <- collect_batches rest (atom_variables head) ;;
          parts <- omap (fun b =>
            if share (b_variables b) root_variables then Ok (b_atoms b)
            else recursed <- isolate_from n' (b_atoms b) [] ;;
                 Ok [VTuple [VStr "scoped"; VList recursed]]) batches ;;
          Ok (head :: concat parts)
      end
  end.
Definition isolate (atoms : list value) (root_variables : list string) : outcome (list value) :=
  isolate_from (length atoms) atoms root_variables.

(** ** BasicQueryOptimizer.py 16-29 *)
Definition optimize (find_relations : string -> list sizes) (semantics : list value)
    (root_variables : list string) : outcome (list (string * value)) :=
  resolved <- front semantics ;;
  sorted <- sort find_relations resolved ;;
  isolated <- isolate sorted root_variables ;;
  Ok [("Semantics", VList semantics); ("Names resolved", VList resolved);
      ("Sorted by cost", VList sorted); ("Isolated", VList isolated)].
