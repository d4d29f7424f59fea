(** * Models of
      /repo/richard/processor/semantic_composer/SemanticComposer.py,
      /repo/richard/processor/semantic_composer/helper/VariableGenerator.py and
      /repo/richard/processor/parser/helper/grammar_functions.py

    The [sem], [exec] and [dialog] functions of the rules are arbitrary
    functions from values to an outcome.  Simplified: they have no side
    effects, and the number and names of their parameters are part of the
    function (a wrong number of arguments is a [TypeErr] outcome of it).
    The state is the number of the variable generator. *)

From Coq Require Import ZArith String Ascii List Bool.
From Verif Require Import Py Effects Grammar Earley.
Import ListNotations.
Local Open Scope string_scope.
Local Open Scope list_scope.
Local Open Scope monad_scope.

(** ** VariableGenerator.py *)

(** SemanticComposer.py 30 *)
Definition prefix : string := "$".
(** [self.prefix + str(self.number)] *)
Definition var_name (n : nat) : string := append prefix (repr_Z (Z.of_nat n)).
(** VariableGenerator.py 15-17 *)
Definition next : M nat string := fun n => (Ok (var_name (S n)), S n).
(** [for _ in range(k)]: that many names *)
Fixpoint next_for {A} (l : list A) : M nat (list string) :=
  match l with
  | [] => ret []
  | _ :: t => v <- next ;; vs <- next_for t ;; ret (v :: vs)
  end.
(** VariableGenerator.py 24-25 *)
Definition generated (x : string) : bool := String.prefix prefix x.

(** ** the meaning of a read rule *)

Inductive dialog : Type :=
| DAtoms (atoms : list value)
| DCall (f : list value -> outcome value).
Record meaning : Type := mkMeaning {
  m_sem : option (list value -> outcome value);
  m_exec : option (list value -> outcome value);
  m_dialog : dialog
}.
Notation ctree := (@tree meaning).
Notation crule := (grule meaning).

(** EarleyParser.py 117-160: the meaning of the rule of a scanned word:
    [lambda: word] for a regular expression, nothing for a word *)
Definition scanned (w : option string) : meaning :=
  match w with
  | Some s => mkMeaning (Some (fun args => match args with [] => Ok (VStr s) | _ => Exn TypeErr end)) None (DAtoms [])
  | None => mkMeaning None None (DAtoms [])
  end.
(** EarleyParser.py 63-69: [sem=lambda s: s]; Chart.py 25-28: no meaning *)
Definition delta_meaning : meaning :=
  mkMeaning (Some (fun args => match args with [s] => Ok s | _ => Exn TypeErr end)) None (DAtoms []).
Definition gamma_meaning : meaning := mkMeaning None None (DAtoms []).

(** a call of a Python function *)
Definition call (f : list value -> outcome value) (args : list value) : M nat value :=
  fun n => (f args, n).

(** what a [for] loop over [v] visits: the elements of a list or tuple, the
    characters of a text; anything else is not iterable *)
Fixpoint characters (s : string) : list value :=
  match s with
  | EmptyString => []
  | String c s' => VStr (String c EmptyString) :: characters s'
  end.
Definition elements (v : value) : option (list value) :=
  match v with
  | VList l | VTuple l => Some l
  | VStr s => Some (characters s)
  | _ => None
  end.
(** [l.extend(v)] *)
Definition extend {W} (l : list value) (v : value) : M W (list value) :=
  match elements v with Some e => ret (l ++ e) | None => throw TypeErr end.

(** ** the map from formal to sentence variables, a dict *)
Definition vmap : Type := list (string * string).
Fixpoint mget (x : string) (m : vmap) : option string :=
  match m with
  | [] => None
  | (y, v) :: t => if String.eqb x y then Some v else mget x t
  end.
(** [m[x] = v]; the order of the dict does not matter here *)
Definition mset (x v : string) (m : vmap) : vmap := (x, v) :: m.

(** SemanticComposer.py 118-119 *)
Fixpoint map_antecedent (m : vmap) (args incoming : list string) : M nat vmap :=
  match args, incoming with
  | [], _ => ret m
  | _ :: _, [] => throw IndexErr
  | a :: args', v :: incoming' => map_antecedent (mset a v m) args' incoming'
  end.
(** SemanticComposer.py 123-125, for one constituent *)
Definition map_argument (m : vmap) (arg : string) : M nat vmap :=
  match mget arg m with
  | Some _ => ret m
  | None => v <- next ;; ret (mset arg v m)
  end.
(** SemanticComposer.py 115-127 *)
Definition create_map (r : crule) (incoming : list string) : M nat vmap :=
  m <- map_antecedent [] (k_args (g_ante r)) incoming ;;
  foldM (fun m c => foldM map_argument m (k_args c)) m (g_cons r).

(** SemanticComposer.py 134-137, for one argument *)
Definition map_semantic_argument (m : vmap) (arg : value) : M nat vmap :=
  match arg with
  | VVar x =>
      match mget x m with
      | Some _ => ret m
      | None => if generated x then ret m else v <- next ;; ret (mset x v m)
      end
  | _ => ret m
  end.
(** SemanticComposer.py 130-137 *)
Definition extend_map_with_semantics (m : vmap) (semantics : value) : M nat vmap :=
  match semantics with
  | VList atoms =>
      foldM (fun m atom =>
               match elements atom with
               | Some args => foldM map_semantic_argument m args
               | None => throw TypeErr
               end) m atoms
  | _ => ret m
  end.

(** SemanticComposer.py 140-152 *)
Fixpoint unify_variables (m : vmap) (v : value) : value :=
  match v with
  | VList l => VList (map (unify_variables m) l)
  | VTuple l => VTuple (map (unify_variables m) l)
  | VTmpl args body => VTmpl args (map (unify_variables m) body)
  | VVar x => match mget x m with Some y => VVar y | None => v end
  | VReif x => match mget x m with Some y => VStr y | None => v end
  | _ => v
  end.

(** ** SemanticComposer.py 59-64 *)
Fixpoint check_for_sem (node : ctree) : M nat unit :=
  match node with
  | Node _ children form r =>
      (if String.eqb form "" && match m_sem (g_mean r) with None => true | Some _ => false end
       then throw (Raise "missing key 'sem'") else ret tt) ;;;
      (fix all (l : list ctree) : M nat unit :=
         match l with [] => ret tt | c :: t => check_for_sem c ;;; all t end) children
  end.

(** [[map[arg] for arg in consequent.arguments]] *)
Fixpoint lookup_all (m : vmap) (args : list string) : M nat (list string) :=
  match args with
  | [] => ret []
  | a :: t =>
      match mget a m with
      | Some v => vs <- lookup_all m t ;; ret (v :: vs)
      | None => throw KeyErr
      end
  end.

(** [rule.sem( *args)] *)
Definition call_sem (r : crule) (args : list value) : M nat value :=
  match m_sem (g_mean r) with Some f => call f args | None => throw TypeErr end.

(** what [compose] returns: the semantics, the inferences and the executable
    atoms *)
Definition composed : Type := (value * list value * value)%type.

(** SemanticComposer.py 88-112: what happens after the children *)
Definition compose_node (r : crule) (m : vmap) (sems infs exe : list value) : M nat composed :=
  semantics <- call_sem r sems ;;
  executable <- match m_exec (g_mean r) with Some f => call f sems | None => ret (VList exe) end ;;
  infs <- match m_dialog (g_mean r) with
          | DCall f => v <- call f sems ;; extend infs v
          | DAtoms l => ret (infs ++ l)
          end ;;
  m <- extend_map_with_semantics m semantics ;;
  ret (unify_variables m semantics, map (unify_variables m) infs, unify_variables m executable).

(** SemanticComposer.py 67-112 *)
Fixpoint compose (node : ctree) (incoming : list string) : M nat composed :=
  match node with
  | Node _ children _ r =>
      m <- create_map r incoming ;;
      acc <- (fix loop (children : list ctree) (conss : list constituent) (sems infs exe : list value)
               : M nat (list value * list value * list value) :=
         match children, conss with
         | child :: children', c :: conss' =>
             match child with
             | Node _ [] _ cr =>
                 match m_sem (g_mean cr) with
                 | Some f => v <- call f [] ;; loop children' conss' (sems ++ [v]) infs exe
                 | None => loop children' conss' sems infs exe
                 end
             | _ =>
                 vars <- lookup_all m (k_args c) ;;
                 p <- compose child vars ;;
                 exe' <- extend exe (snd p) ;;
                 loop children' conss' (sems ++ [fst (fst p)]) (infs ++ snd (fst p)) exe'
             end
         | _, _ => ret (sems, infs, exe)
         end) children (g_cons r) [] [] [] ;;
      compose_node r m (fst (fst acc)) (snd (fst acc)) (snd acc)
  end.

(** SemanticComposerProduct.py: the iterations by name, in order *)
Record product : Type := mkProduct {
  p_iterations : list (string * value);
  p_inferences : list value;
  p_executable : value;
  p_root_variables : list string
}.

(** SemanticComposer.py 37-56.  [optimize] is [None] without a query
    optimizer *)
Definition process (optimize : option (list value -> list string -> outcome (list (string * value))))
  (node : ctree) : M nat product :=
  check_for_sem node ;;;
  root <- match node with Node _ _ _ r => next_for (k_args (g_ante r)) end ;;
  p <- compose node root ;;
  its <- match optimize with
         | Some o =>
             match fst (fst p) with
             | VList atoms => fun n => (o atoms root, n)
             | _ => throw (Raise "Sentence semantics is not a list of atoms")
             end
         | None => ret [("Semantics", fst (fst p))]
         end ;;
  ret (mkProduct its (snd (fst p)) (snd p) root).

(** ** grammar_functions.py *)

(** grammar_functions.py 14-26, what one element of [atoms] becomes.
    [replacement] holds what [extend] visits. *)
Fixpoint replace_one (token : value) (replacement : list value) (atom : value) : list value :=
  if py_eq atom token then replacement
  else match atom with
       | VTuple l => [VTuple (flat_map (replace_one token replacement) l)]
       | VList l => [VList (flat_map (replace_one token replacement) l)]
       | _ => [atom]
       end.
Definition replace (token : value) (replacement : list value) (atoms : list value) : list value :=
  flat_map (replace_one token replacement) atoms.

(** does [token] occur, so that [replaced.extend(replacement)] is run? *)
Fixpoint meets (token : value) (atom : value) : bool :=
  py_eq atom token ||
  match atom with
  | VTuple l | VList l => existsb (meets token) l
  | _ => false
  end.

(** [x[0]] *)
Definition first (v : value) : outcome value :=
  match v with
  | VList (x :: _) | VTuple (x :: _) => Ok x
  | VStr (String c _) => Ok (VStr (String c EmptyString))
  | VList [] | VTuple [] | VStr EmptyString => Exn IndexErr
  | _ => Exn TypeErr
  end.

(** grammar_functions.py 7-9, from the remaining formal arguments on *)
Fixpoint apply_from (args : list value) (replaced : list value) (values : list value) {struct values} : outcome (list value) :=
  match values with
  | [] => Ok replaced
  | v :: values' =>
      match args with
      | [] => Exn IndexErr
      | a :: args' =>
          obind (first a) (fun token =>
            match elements v with
            | Some e => apply_from args' (replace token e replaced) values'
            | None => if existsb (meets token) replaced then Exn TypeErr
                      else apply_from args' (replace token [] replaced) values'
            end)
      end
  end.
(** grammar_functions.py 5-11.  Anything but a template has no [body]. *)
Definition apply (template : value) (values : list value) : outcome value :=
  match template with
  | VTmpl args body =>
      obind (apply_from args body values) (fun l => Ok (VList l))
  | _ => Exn AttributeErr
  end.
