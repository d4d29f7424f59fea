(** * Model of /repo/richard/module/CoreModule.py *)

From Coq Require Import ZArith QArith Qreduction String List Bool.
From Verif Require Import Py Effects Solver Atoms.
Import ListNotations.
Local Close Scope Q_scope.
Local Open Scope nat_scope.
Local Open Scope string_scope.
Local Open Scope list_scope.
Local Open Scope monad_scope.

Section Core.
  Context {W : Type}.
  Notation query := (solver_if W -> list value -> ctx -> M W qres).

  (** [values[i]], [context.arguments[i]] *)
  Definition item (l : list value) (i : nat) : M W value :=
    match nth_error l i with Some v => ret v | None => throw IndexErr end.

  (** [v.name]: variables and reified variables have a name *)
  Definition name_of (v : value) : M W string :=
    match v with VVar x | VReif x => ret x | _ => throw AttributeErr end.

  (** [result[key]] *)
  Definition lookup (k : string) (b : binding) : M W value :=
    match bget k b with Some v => ret v | None => throw KeyErr end.

  Definition rows (l : list (list value)) : M W qres := ret (QRows (map VList l)).

  (** CoreModule.py 40-56 *)
  Definition q_equals : query := fun sv values c =>
    e1 <- item values 0 ;;
    e2 <- item values 1 ;;
    if is_none e1 then
      if is_none e2 then throw (Raise "== is called with two variables")
      else rows [[e2; e2]]
    else if is_none e2 then rows [[e1; e1]]
    else if py_eq e1 e2 then rows [[e1; e2]] else rows [].

  (** CoreModule.py 61-73 *)
  Definition q_greater_than : query := fun sv values c =>
    e1 <- item values 0 ;;
    e2 <- item values 1 ;;
    if is_none e1 then throw (Raise "> first argument is unbound")
    else if is_none e2 then throw (Raise "> second argument is unbound")
    else gt <- or_throw TypeErr (py_gt e1 e2) ;;
         if gt : bool then rows [values] else rows [].

  (** CoreModule.py 78-90 *)
  Definition q_less_than : query := fun sv values c =>
    e1 <- item values 0 ;;
    e2 <- item values 1 ;;
    if is_none e1 then throw (Raise "< first argument is unbound")
    else if is_none e2 then throw (Raise "< second argument is unbound")
    else lt <- or_throw TypeErr (py_lt e1 e2) ;;
         if lt : bool then rows [values] else rows [].

  (** CoreModule.py 95-108: the product comes before the checks, so an
      unbound argument is a [TypeError] *)
  Definition q_multiply : query := fun sv values c =>
    e1 <- item values 0 ;;
    e2 <- item values 1 ;;
    e3 <- or_throw TypeErr (py_mul e1 e2) ;;
    if is_none e1 then throw (Raise "* first argument is unbound")
    else if is_none e2 then throw (Raise "* second argument is unbound")
    else rows [[VNone; VNone; e3]].

  Definition vnat (n : nat) : value := VInt (Z.of_nat n).

  (** CoreModule.py 113-122 *)
  Definition q_count : query := fun sv values c =>
    body <- item values 1 ;;
    results <- sv_solve sv body (c_binding c) ;;
    rows [[vnat (sres_len results); VNone]].

  (** CoreModule.py 133-135, 206-208: [s += result[element_var.name]] *)
  Definition sum_step (element_var : value) (s : value) (result : binding) : M W value :=
    x <- name_of element_var ;;
    v <- lookup x result ;;
    or_throw TypeErr (py_add s v).

  (** CoreModule.py 127-139 *)
  Definition q_sum : query := fun sv values c =>
    element_var <- item (c_args c) 1 ;;
    body <- item values 2 ;;
    results <- sv_solve sv body (c_binding c) ;;
    bs <- sres_items results ;;
    s <- foldM (sum_step element_var) (VInt 0) bs ;;
    rows [[s; VNone; VNone]].

  (** CoreModule.py 157-160, 182-185: the loop keeps the best value and its
      entity; [better new old] is [new < old] or [new > old] *)
  Definition arg_step (better : value -> value -> option bool) (arg_var element_var : value)
      (acc : option value * value) (result : binding) : M W (option value * value) :=
    let '(best, entity) := acc in
    x <- name_of element_var ;;
    v <- lookup x result ;;
    replace <- (match best with
                | None => ret true
                | Some m => or_throw TypeErr (better v m)
                end) ;;
    if replace : bool then
      y <- name_of arg_var ;;
      e <- lookup y result ;;
      ret ((if is_none v then None else Some v), e)
    else ret (best, entity).

  Definition of_opt (o : option value) : value := match o with Some v => v | None => VNone end.

  (** CoreModule.py 144-164 and 169-189 *)
  Definition q_arg (better : value -> value -> option bool) : query := fun sv values c =>
    arg_var <- item (c_args c) 0 ;;
    element_var <- item (c_args c) 1 ;;
    body <- item values 2 ;;
    results <- sv_solve sv body (c_binding c) ;;
    match sres_len results with
    | O => rows []
    | S _ =>
        bs <- sres_items results ;;
        acc <- foldM (arg_step better arg_var element_var) (None, VNone) bs ;;
        let '(best, entity) := acc in
        rows [[entity; of_opt best; VNone]]
    end.
  Definition q_arg_min : query := q_arg py_lt.
  Definition q_arg_max : query := q_arg py_gt.

  (** [s / n] for a number [s] and a positive count [n]; exact (see Py) *)
  Definition py_div_nat (s : value) (n : nat) : option value :=
    match num_of s with
    | Some q => Some (VFloat (Qred (q / inject_Z (Z.of_nat n))))
    | None => None
    end.

  (** CoreModule.py 194-214 *)
  Definition q_avg : query := fun sv values c =>
    element_var <- item (c_args c) 1 ;;
    body <- item values 2 ;;
    results <- sv_solve sv body (c_binding c) ;;
    match sres_len results with
    | O => rows []
    | S _ =>
        bs <- sres_items results ;;
        s <- foldM (sum_step element_var) (VInt 0) bs ;;
        average <- or_throw TypeErr (py_div_nat s (length bs)) ;;
        rows [[average; VNone; VNone]]
    end.

  (** CoreModule.py 219-234 *)
  Definition q_percentage : query := fun sv values c =>
    nominator <- item values 1 ;;
    denominator <- item values 2 ;;
    nr <- sv_solve sv nominator (c_binding c) ;;
    dr <- sv_solve sv denominator (c_binding c) ;;
    match sres_len dr with
    | O => rows []
    | S _ =>
        rows [[VFloat (Qred (inject_Z (Z.of_nat (sres_len nr)) / inject_Z (Z.of_nat (sres_len dr))
                             * inject_Z 100)); VNone; VNone]]
    end.

  (** CoreModule.py 240-253 *)
  Definition q_not : query := fun sv values c =>
    body <- item values 0 ;;
    results <- sv_solve sv body (c_binding c) ;;
    match sres_len results with
    | S _ => rows []
    | O => rows [[VNone]]
    end.

  (** CoreModule.py 257-261 *)
  Definition q_let : query := fun sv values c =>
    v <- item values 1 ;;
    rows [[v; v]].

  (** [body, number = values] *)
  Definition unpack2 (values : list value) : M W (value * value) :=
    match values with [a; b] => ret (a, b) | _ => throw ValueErr end.

  (** CoreModule.py 265-277, 281-293, 297-309; [test count number] *)
  Definition q_det (test : value -> value -> option bool) : query := fun sv values c =>
    bn <- unpack2 values ;;
    let '(body, number) := bn in
    results <- sv_solve sv body (c_binding c) ;;
    ok <- or_throw TypeErr (test (vnat (sres_len results)) number) ;;
    if ok : bool then rows [[VNone; VNone]] else rows [].
  Definition q_det_equals : query := q_det (fun a b => Some (py_eq a b)).
  Definition q_det_greater_than : query := q_det py_gt.
  Definition q_det_less_than : query := q_det py_lt.

  (** the keys of [dict.fromkeys(l)]: TypeError on an unhashable element,
      else the distinct elements in order
      (/repo/richard/type/OrderedSet.py 15-19) *)
  Definition oset_add (s : list value) (v : value) : M W (list value) :=
    if hashable v then ret (if py_in v s then s else s ++ [v]) else throw TypeErr.

  (** CoreModule.py 319 *)
  Definition entity_of (quant_var : value) (acc : list value) (b : binding) : M W (list value) :=
    x <- name_of quant_var ;;
    v <- lookup x b ;;
    ret (acc ++ [v]).

  (** CoreModule.py 323-329 *)
  Definition all_step (sv : solver_if W) (quant_var body : value) (b : binding)
      (results : list value) (entity : value) : M W (list value) :=
    x <- name_of quant_var ;;
    bindings <- sv_solve sv body (bset x entity b) ;;
    match sres_len bindings with
    | O => ret results
    | S _ => oset_add results entity
    end.

  (** CoreModule.py 313-338 *)
  Definition q_all : query := fun sv values c =>
    quant_var <- item (c_args c) 0 ;;
    range <- item values 1 ;;
    body <- item values 2 ;;
    rr <- sv_solve sv range (c_binding c) ;;
    bs <- sres_items rr ;;
    es <- foldM (entity_of quant_var) [] bs ;;
    entities <- foldM oset_add [] es ;;
    results <- foldM (all_step sv quant_var body (c_binding c)) [] entities ;;
    if Nat.eqb (length results) (length entities)
    then rows (map (fun r => [r; VNone; VNone]) results)
    else rows [].

  (** CoreModule.py 342-354 *)
  Definition q_none : query := fun sv values c =>
    body <- item values 0 ;;
    results <- sv_solve sv body (c_binding c) ;;
    match sres_len results with
    | O => rows [[VNone]]
    | S _ => rows []
    end.

  (** CoreModule.py 359-372 *)
  Definition q_scoped : query := fun sv values c =>
    body <- item values 0 ;;
    results <- sv_solve sv body (c_binding c) ;;
    match sres_len results with
    | O => rows []
    | S _ => rows [[VNone]]
    end.

  (** CoreModule.py 376-390 *)
  Definition q_store : query := fun sv values c =>
    unbound_atoms <- item values 0 ;;
    match unbound_atoms with
    | VList atoms =>
        foldM (fun _ atom => sv_write sv atom) tt
              (map (fun a => bind_variables a (c_binding c)) atoms) ;;;
        rows [[VNone]]
    | _ => throw (Raise "'store' expects a list of atoms")
    end.

  (** CoreModule.py 407-416; [None] is the [return [fail_structure]] *)
  Fixpoint destructure_terms (atom structure : list value) : option (list value) :=
    match atom, structure with
    | a :: atom', s :: structure' =>
        let new_term :=
          if py_eq a s then Some s
          else match s with VVar _ => Some a | _ => None end in
        match new_term with
        | None => None
        | Some t =>
            match destructure_terms atom' structure' with
            | None => None
            | Some r => Some (t :: r)
            end
        end
    | _, _ => Some []
    end.

  (** [atoms[0]], where the code expects a list or tuple *)
  Definition first_item (v : value) : M W value :=
    match v with
    | VList (x :: _) | VTuple (x :: _) => ret x
    | VList [] | VTuple [] => throw IndexErr
    | _ => throw TypeErr
    end.

  (** CoreModule.py 395-420.  Simplified: a string as atom is a TypeError. *)
  Definition q_destructure : query := fun sv values c =>
    unbound_atoms <- item values 0 ;;
    atom <- first_item (bind_variables unbound_atoms (c_binding c)) ;;
    let structure := tl (c_args c) in
    let fail_structure := VNone :: map (fun _ => VNone) structure in
    match atom with
    | VTuple terms | VList terms =>
        if Nat.eqb (length terms) (length structure) then
          match destructure_terms terms structure with
          | Some r => rows [VNone :: r]
          | None => rows [fail_structure]
          end
        else rows [fail_structure]
    | _ => throw TypeErr
    end.

  (** [v in binding] and [binding[v]]: keys are strings *)
  Definition get_key (v : value) (b : binding) : M W (option value) :=
    if hashable v then
      ret (match v with VStr s => bget s b | _ => None end)
    else throw TypeErr.

  (** CoreModule.py 438-443 *)
  Definition combi_step (b : binding) (acc : list value) (v : value) : M W (list value) :=
    o <- get_key v b ;;
    ret (acc ++ [of_opt o]).

  (** CoreModule.py 436-452 *)
  Definition find_step (variable : value) (result : list value) (b : binding) : M W (list value) :=
    match variable with
    | VList vs =>
        combi <- foldM (combi_step b) [] vs ;;
        ret (if py_in (VList combi) result then result else result ++ [VList combi])
    | _ =>
        o <- get_key variable b ;;
        ret (match o with
             | Some v => if py_in v result then result else result ++ [v]
             | None => result
             end)
    end.

  Definition find_values : solver_if W -> list value -> ctx -> M W (list value) := fun sv values c =>
    variable <- item values 0 ;;
    body <- item values 1 ;;
    r <- sv_solve sv body (c_binding c) ;;
    bs <- sres_items r ;;
    foldM (find_step variable) [] bs.

  (** CoreModule.py 428-456 *)
  Definition q_find_all : query := fun sv values c =>
    result <- find_values sv values c ;;
    rows [[VNone; VNone; VList result]].

  (** CoreModule.py 465-473 *)
  Definition q_find_one : query := fun sv values c =>
    result <- find_values sv values c ;;
    match result with
    | [] => rows []
    | x :: _ => rows [[VNone; VNone; x]]
    end.

  (** CoreModule.py 13-36 *)
  Definition core_table : list (string * query) :=
    [ ("equals", q_equals);
      ("greater_than", q_greater_than);
      ("less_than", q_less_than);
      ("multiply", q_multiply);
      ("arg_min", q_arg_min);
      ("arg_max", q_arg_max);
      ("sum", q_sum);
      ("avg", q_avg);
      ("percentage", q_percentage);
      ("count", q_count);
      ("not", q_not);
      ("let", q_let);
      ("det_equals", q_det_equals);
      ("det_greater_than", q_det_greater_than);
      ("det_less_than", q_det_less_than);
      ("all", q_all);
      ("none", q_none);
      ("scoped", q_scoped);
      ("store", q_store);
      ("destructure", q_destructure);
      ("find_all", q_find_all);
      ("find_one", q_find_one) ].

  Fixpoint table_get (p : string) (t : list (string * query)) : option query :=
    match t with
    | [] => None
    | (k, q) :: t' => if String.eqb p k then Some q else table_get p t'
    end.

  Definition core_module : modul W := fun _ p =>
    match table_get p core_table with
    | Some q => Some (mkRel p [] q None)
    | None => None
    end.
End Core.
