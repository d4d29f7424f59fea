(** * Model of /repo/richard/module/InferenceModule.py and
      /repo/richard/type/InferenceRule.py

    [import_rules] and the parser it uses are in InferenceRuleParser.v. *)

From Coq Require Import ZArith String Ascii List Bool.
From Verif Require Import Py Effects Solver Atoms CoreModule.
Import ListNotations.
Local Open Scope string_scope.
Local Open Scope list_scope.
Local Open Scope monad_scope.

(** /repo/richard/type/InferenceRule.py 5-8; [head] is a tuple.  [body] is a
    list for facts and rules that the parser produces; [learn_rule] does not
    check this, so it is any value. *)
Record rule : Type := mkRule {
  ru_head : list value;
  ru_body : value
}.

(** the elements that [for atom in body] / [len(body)] see; [None] for a
    value that has no length *)
Definition elements (v : value) : option (list value) :=
  match v with VList l | VTuple l => Some l | _ => None end.

(** InferenceRule.py 18-23 ([get_all_variables]).  [body] not being
    iterable is a TypeError ([None]). *)
Definition rule_variables (r : rule) : option (list string) :=
  match elements (ru_body r) with
  | Some l => Some (atoms_variables (ru_head r) ++ atoms_variables l)
  | None => None
  end.

(** InferenceModule.py 16: [rules: dict[str, list[InferenceRule]]].  The
    keys are also the relations that [insert_rule] adds. *)
Definition rulebase : Type := list (string * list rule).

Fixpoint rules_get (p : string) (rb : rulebase) : option (list rule) :=
  match rb with
  | [] => None
  | (k, rs) :: t => if String.eqb p k then Some rs else rules_get p t
  end.

(** InferenceModule.py 28-30 *)
Fixpoint rules_add (p : string) (r : rule) (rb : rulebase) : rulebase :=
  match rb with
  | [] => [(p, [r])]
  | (k, rs) :: t => if String.eqb p k then (k, rs ++ [r]) :: t else (k, rs) :: rules_add p r t
  end.

(** [\w] for 8-bit characters: letters, digits and underscore; above 127
    the letters and numbers of Latin-1 *)
Definition word_char (c : ascii) : bool :=
  let n := nat_of_ascii c in
  (Nat.leb 48 n && Nat.leb n 57) || (Nat.leb 65 n && Nat.leb n 90)
  || (Nat.leb 97 n && Nat.leb n 122) || Nat.eqb n 95
  || existsb (Nat.eqb n) [170; 178; 179; 181; 185; 186; 188; 189; 190]
  || (Nat.leb 192 n && negb (Nat.eqb n 215) && negb (Nat.eqb n 247)).

Fixpoint all_word (s : string) : bool :=
  match s with EmptyString => true | String c t => word_char c && all_word t end.

(** /repo/richard/entity/Relation.py 22-23: [re.fullmatch('[\w_]+', predicate)] *)
Definition valid_predicate (p : string) : bool :=
  match p with EmptyString => false | _ => all_word p end.

Section Inference.
  Context {W : Type}.
  Variable L : lens W rulebase.

  (** InferenceModule.py 25-30 *)
  Definition insert_rule (r : rule) : M W unit :=
    match ru_head r with
    | [] => throw IndexErr
    | VStr p :: _ =>
        if valid_predicate p then
          w <- get ;; put (lset L (rules_add p r (lget L w)) w)
        else throw (Raise "Predicate is not a word")
    | _ => throw TypeErr
    end.

  (** InferenceModule.py 60-63 *)
  Definition bound_value (b : binding) (v : value) : value :=
    match v with
    | VVar x => match bget x b with Some u => u | None => v end
    | _ => v
    end.

  (** InferenceModule.py 58-85; [None] is [return []] *)
  Fixpoint bind_head (b : binding) (rule_args args : list value) (rb : binding) : option binding :=
    match rule_args, args with
    | ra :: rule_args', v :: args' =>
        let bv := bound_value b v in
        match ra with
        | VVar x =>
            match bv with
            | VVar _ => bind_head b rule_args' args' rb
            | _ =>
                match bget x rb with
                | Some old => if py_eq old bv then bind_head b rule_args' args' (bset x bv rb) else None
                | None => bind_head b rule_args' args' (bset x bv rb)
                end
            end
        | _ =>
            match bv with
            | VVar _ => bind_head b rule_args' args' rb
            | _ => if py_eq bv ra then bind_head b rule_args' args' rb else None
            end
        end
    | _, _ => Some rb
    end.

  (** InferenceModule.py 98-109; [None] is [return []] *)
  Fixpoint head_row (solution : binding) (rule_args args : list value) : option (list value) :=
    match rule_args, args with
    | ra :: rule_args', v :: args' =>
        let cell :=
          match v with
          | VVar _ => match ra with VVar x => bget x solution | _ => Some ra end
          | _ => Some v
          end in
        match cell with
        | None => None
        | Some x =>
            match head_row solution rule_args' args' with
            | None => None
            | Some r => Some (x :: r)
            end
        end
    | _, _ => Some []
    end.

  (** InferenceModule.py 92-113: one solution without a value for a head
      variable discards the results of all solutions *)
  Fixpoint head_rows (solutions : list binding) (rule_args args : list value) : option (list (list value)) :=
    match solutions with
    | [] => Some []
    | s :: rest =>
        match head_row s rule_args args with
        | None => None
        | Some r =>
            match head_rows rest rule_args args with
            | None => None
            | Some rs => Some (r :: rs)
            end
        end
    end.

  (** InferenceModule.py 52-113 *)
  Definition solve_rule (sv : solver_if W) (r : rule) (args : list value) (b : binding)
      : M W (list (list value)) :=
    let rule_args := tl (ru_head r) in
    vars <- (match b with
             | [] => ret []                       (* the comprehension has no items to test *)
             | _ => or_throw TypeErr (rule_variables r)
             end) ;;
    let rb := filter (fun kv => negb (existsb (String.eqb (fst kv)) vars)) b in
    match bind_head b rule_args args rb with
    | None => ret []
    | Some rb' =>
        body <- or_throw TypeErr (elements (ru_body r)) ;;
        bindings <- (match body with
                     | [] => ret [rb']
                     | _ :: _ => rr <- sv_solve sv (ru_body r) rb' ;; sres_items rr
                     end) ;;
        match head_rows bindings rule_args args with
        | None => ret []
        | Some rs => ret rs
        end
    end.

  (** InferenceModule.py 44-49.  Simplified: the rules are read once at the
      start, so a rule for this predicate that is learned while the loop
      runs is not seen by that loop. *)
  Definition handle_rule (sv : solver_if W) (values : list value) (c : ctx) : M W qres :=
    w <- get ;;
    match rules_get (c_pred c) (lget L w) with
    | None => throw KeyErr
    | Some rs =>
        results <- foldM (fun acc r => x <- solve_rule sv r (c_args c) (c_binding c) ;; ret (acc ++ x))
                         [] rs ;;
        ret (QRows (map VList results))
    end.

  (** InferenceModule.py 117-130 *)
  Definition learn_rule (sv : solver_if W) (values : list value) (c : ctx) : M W qres :=
    hb <- unpack2 values ;;
    let '(head, body) := hb in
    match head with
    | VTuple h =>
        insert_rule (mkRule (map (fun a => bind_variables a (c_binding c)) h)
                            (bind_variables body (c_binding c))) ;;;
        ret (QRows [VList [VNone; VNone]])
    | _ => throw (Raise "The head of a rule must be a single atom")
    end.

  (** InferenceModule.py 19-22, 27: the relations of the module; inserting a
      rule for [learn_rule] replaces the built-in relation *)
  Definition inference_module : modul W := fun w p =>
    match rules_get p (lget L w) with
    | Some _ => Some (mkRel p [] handle_rule None)
    | None => if String.eqb p "learn_rule" then Some (mkRel p [] learn_rule None) else None
    end.
End Inference.
