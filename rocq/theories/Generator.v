(** * Model of /repo/richard/core/BasicGenerator.py and of
      /repo/richard/core/System.py 53-54 ([read_output]) *)

From Coq Require Import ZArith String List Bool.
From Verif Require Import Py Effects Solver Grammar SimpleDataSource Memory.
Import ListNotations.
Local Open Scope string_scope.
Local Open Scope list_scope.
Local Open Scope monad_scope.

Section Generator.
  Context {W : Type}.

  (** what a write rule has besides its syntax: [if], [format], [post] *)
  Record wmean : Type := mkWMean {
    w_if : value;                                    (** [None] or a list of atoms *)
    w_format : option (list value -> M W value);
    w_post : option (value -> M W value)
  }.
  Notation wrule := (grule wmean).

  Variable grammar : gindex wmean.
  (** [self.solver.solve] *)
  Variable slv : value -> binding -> M W sres.

  (** BasicGenerator.py 105-107 *)
  Fixpoint init_binding (names : list string) (values : list value) (b : binding) : binding :=
    match names, values with
    | x :: names', v :: values' => init_binding names' values' (bset x v b)
    | _, _ => b
    end.

  (** [not rule.sem].  Simplified: other falsy conditions do not occur. *)
  Definition no_condition (v : value) : bool :=
    match v with VNone | VList [] => true | _ => false end.

  Definition hash_in (h : list chash) (used : list (list chash)) : bool := existsb (hash_eqb h) used.

  (** BasicGenerator.py 98-133: the loop, with its state.  A [ResultIterator]
      has no items that can be subscripted. *)
  Fixpoint find_rule_loop (used : list (list chash)) (values : list value) (rules : list wrule)
      (result : option wrule) (b : binding) (found : bool) : M W (option wrule * binding * bool) :=
    match rules with
    | [] => ret (result, b, found)
    | rule :: rest =>
        let b0 := init_binding (k_args (g_ante rule)) values [] in
        step <- (if no_condition (w_if (g_mean rule)) then ret (Some rule, b0, true)
                 else
                   r <- slv (w_if (g_mean rule)) b0 ;;
                   match r with
                   | SList [] => ret (result, b0, found)
                   | SList (b1 :: _) => ret (Some rule, b1, true)
                   | SIter _ O => ret (result, b0, found)
                   | SIter _ (S _) => throw TypeErr
                   end) ;;
        let '(result', b', found') := step in
        if found' && negb (hash_in (g_hash rule) used) then ret (result', b', found')
        else find_rule_loop used values rest result' b' found'
    end.

  (** BasicGenerator.py 90-135 *)
  Definition find_rule (used : list (list chash)) (cat : string) (values : list value)
      : M W (option wrule * binding * bool) :=
    find_rule_loop used values (find_rules grammar cat (length values)) None [] false.

  (** BasicGenerator.py 71-87 *)
  Definition consequent_values (c : constituent) (b : binding) : list value :=
    map (fun x => match k_type c with
                  | PWord => VStr ""
                  | _ => match bget x b with Some v => v | None => VStr "" end
                  end) (k_args c).

  Definition as_text (v : value) : option string := match v with VStr s => Some s | _ => None end.
  Fixpoint all_text (l : list value) : option (list string) :=
    match l with
    | [] => Some []
    | v :: rest => match as_text v, all_text rest with Some s, Some t => Some (s :: t) | _, _ => None end
    end.
  (** BasicGenerator.py 52-62 *)
  Definition combine_words (words : list value) : value :=
    match all_text words with
    | Some ss => VStr (String.concat "" ss)
    | None => match words with [x] => x | _ => VList words end
    end.

  Section Node.
    (** [self.generate_node] *)
    Variable node : list (list chash) -> string -> list value -> bool -> M W (value * list (list chash)).

    (** BasicGenerator.py 138-151 *)
    Definition single_consequent (rule : wrule) (used : list (list chash)) (c : constituent) (values : list value)
        : M W (value * list (list chash)) :=
      match k_type c with
      | PWord => ret (VStr (k_pred c), used)
      | _ =>
          if String.eqb (k_pred c) "value" then
            match values with v :: _ => ret (v, used) | [] => throw IndexErr end
          else if String.eqb (k_pred c) "text" then
            match values with v :: _ => ret (VStr (py_str v), used) | [] => throw IndexErr end
          else if String.eqb (k_pred c) "format" then
            match w_format (g_mean rule) with
            | Some f => v <- f values ;; ret (v, used)
            | None => throw TypeErr
            end
          else node used (k_pred c) values (k_optional c)
      end.

    (** BasicGenerator.py 39-42 *)
    Fixpoint consequents_loop (rule : wrule) (b : binding) (used : list (list chash)) (cs : list constituent)
        (words : list value) : M W (list value * list (list chash)) :=
      match cs with
      | [] => ret (words, used)
      | c :: rest =>
          vu <- single_consequent rule used c (consequent_values c b) ;;
          consequents_loop rule b (snd vu) rest (words ++ [fst vu])
      end.

    (** BasicGenerator.py 29-68; [used_rules] is one list that all calls
        append to, so it is returned *)
    Definition generate_node_F (used : list (list chash)) (cat : string) (values : list value) (optional : bool)
        : M W (value * list (list chash)) :=
      f <- find_rule used cat values ;;
      let '(rule, b, found) := f in
      wu <- (if found : bool then
               match rule with
               | Some r => consequents_loop r b (used ++ [g_hash r]) (g_cons r) []
               | None => throw AttributeErr
               end
             else if optional then ret ([], used)
             else throw (Raise "No rule found")) ;;
      let '(words, used') := wu in
      let result := combine_words words in
      match rule with
      | Some r =>
          match w_post (g_mean r) with
          | Some f => v <- f result ;; ret (v, used')
          | None => ret (result, used')
          end
      | None => ret (result, used')
      end.
  End Node.

  Fixpoint generate_node (n : nat) : list (list chash) -> string -> list value -> bool -> M W (value * list (list chash)) :=
    match n with
    | O => fun _ _ _ _ => no_fuel
    | S n' => generate_node_F (generate_node n')
    end.

  (** BasicGenerator.py 23-26, System.py 53-54 *)
  Variable L : lens W sds_store.
  Definition generate_output (n : nat) : M W value :=
    vu <- generate_node n [] "s" [] false ;;
    buffer_clear L ;;;
    ret (fst vu).
End Generator.
