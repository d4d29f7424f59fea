(** * Models of /repo/richard/processor/parser/BasicParser.py and of
      /repo/richard/processor/parser/earley/ (EarleyParser.py,
      tree_extract.py, unknown_word.py, entity/Chart.py,
      entity/ChartState.py)

    [S] is what a rule means; the parser only passes it on.  [re_match] is
    Python's [re.match]: the matched text, or [None].  Characters are 8-bit
    (see Py.v). *)

From Coq Require Import ZArith String Ascii List Bool Arith.
From Verif Require Import Py Effects Grammar.
Import ListNotations.
Local Open Scope string_scope.
Local Open Scope list_scope.

Definition obind {A B} (o : outcome A) (f : A -> outcome B) : outcome B :=
  match o with Ok a => f a | Exn e => Exn e | OutOfFuel => OutOfFuel end.
Declare Scope outcome_scope.
Notation "x <- m ;; f" := (obind m (fun x => f))
  (at level 61, m at next level, right associativity) : outcome_scope.
Local Open Scope outcome_scope.

(** [[f(x) for x in l]] *)
Fixpoint omap {A B} (f : A -> outcome B) (l : list A) : outcome (list B) :=
  match l with
  | [] => Ok []
  | x :: t => y <- f x ;; ys <- omap f t ;; Ok (y :: ys)
  end.

(** ** text *)

(** what [\s] matches: [str.isspace] below 256 *)
Definition is_space (c : ascii) : bool :=
  let n := nat_of_ascii c in
  (Nat.leb 9 n && Nat.leb n 13) || (Nat.leb 28 n && Nat.leb n 32) || Nat.eqb n 133 || Nat.eqb n 160.

(** BasicParser.py 31: [re.sub('\s+', ' ', text)].  [in_space]: the last
    character belonged to a whitespace sequence *)
Fixpoint squeeze (in_space : bool) (s : string) : string :=
  match s with
  | EmptyString => EmptyString
  | String c s' =>
      if is_space c then (if in_space then squeeze true s' else String " " (squeeze true s'))
      else String c (squeeze false s')
  end.
Definition normalize : string -> string := squeeze false.

(** [str.lower].  Simplified: letters A-Z and the accented capitals of
    Latin-1 (192-222 except 215) have a lower case. *)
Definition lower_ascii (c : ascii) : ascii :=
  let n := nat_of_ascii c in
  if (Nat.leb 65 n && Nat.leb n 90) || (Nat.leb 192 n && Nat.leb n 222 && negb (Nat.eqb n 215))
  then ascii_of_nat (n + 32) else c.
Fixpoint lower (s : string) : string :=
  match s with EmptyString => EmptyString | String c s' => String (lower_ascii c) (lower s') end.

(** [text[start:]] and [text[:n]] *)
Fixpoint drop (n : nat) (s : string) : string :=
  match n, s with
  | O, _ => s
  | S n', String _ s' => drop n' s'
  | S _, EmptyString => EmptyString
  end.
Fixpoint take (n : nat) (s : string) : string :=
  match n, s with
  | S n', String c s' => String c (take n' s')
  | _, _ => EmptyString
  end.

(** EarleyParser.py 207-209 *)
Definition read_word (text : string) (start : nat) (word : string) : bool :=
  String.eqb (take (String.length word) (lower (drop start text))) word.

(** [dictionary changed size during iteration] *)
Definition RuntimeErr : exn := Raise "RuntimeError".

Section Parser.
  Context {S : Type}.
  (** the [sem] of a scanned state: a function that returns the word for a
      regular expression, [None] for a word *)
  Variable scan_mean : option string -> S.
  Variable delta_mean gamma_mean : S.
  Variable re_match : string -> string -> outcome (option string).

  Notation rule := (grule S).

  (** ** ChartState.py *)
  Record cstate : Type := mkState {
    s_rule : rule;
    s_dot : nat;
    s_start : nat;
    s_end : nat
  }.

  (** ChartState.py 21-29: two states are the same key of a dict when both
      the hash and [==] agree *)
  Definition state_eqb (a b : cstate) : bool :=
    hash_eqb (g_hash (s_rule a)) (g_hash (s_rule b)) &&
    rule_equals (s_rule a) (s_rule b) &&
    Nat.eqb (s_dot a) (s_dot b) && Nat.eqb (s_start a) (s_start b) && Nat.eqb (s_end a) (s_end b).

  (** ChartState.py 38-39 *)
  Definition is_complete (s : cstate) : bool := Nat.leb (length (g_cons (s_rule s)) + 1) (s_dot s).

  (** [state.rule.consequents[state.dot_position - 1]] *)
  Definition next_cons (s : cstate) : option constituent := nth_error (g_cons (s_rule s)) (s_dot s - 1).

  (** ** Chart.py *)
  Record chart : Type := mkChart {
    ch_text : string;
    ch_states : list (list cstate);
    ch_completed : list (nat * list cstate)
  }.

  Definition states_at (ch : chart) (i : nat) : list cstate := nth i (ch_states ch) [].

  Fixpoint replace_nth {A} (i : nat) (x : A) (l : list A) : list A :=
    match i, l with
    | _, [] => []
    | O, _ :: t => x :: t
    | Datatypes.S i', y :: t => y :: replace_nth i' x t
    end.

  (** Chart.py 17-20 *)
  Definition empty_chart (text : string) : chart :=
    mkChart text (repeat [] (String.length text + 1)) [].

  Definition gamma_rule : rule :=
    new_rule (mkCons "gamma" ["G"] PRelation false false) [mkCons "delta" ["D"] PRelation false false] gamma_mean 0.
  (** Chart.py 23-29, 32-38 *)
  Definition incomplete_gamma : cstate := mkState gamma_rule 1 0 0.
  Definition complete_gamma (text : string) : cstate := mkState gamma_rule 2 0 (String.length text).

  (** Chart.py 41-46, OrderedSet.py 18-19, 33-34 *)
  Definition state_in (s : cstate) (l : list cstate) : bool := existsb (state_eqb s) l.
  Definition enqueue (s : cstate) (pos : nat) (ch : chart) : outcome chart :=
    match nth_error (ch_states ch) pos with
    | None => Exn IndexErr
    | Some l =>
        if state_in s l then Ok ch
        else Ok (mkChart (ch_text ch) (replace_nth pos (l ++ [s]) (ch_states ch)) (ch_completed ch))
    end.

  (** Chart.py 49-52 *)
  Fixpoint completed_get (i : nat) (d : list (nat * list cstate)) : option (list cstate) :=
    match d with
    | [] => None
    | (k, l) :: t => if Nat.eqb i k then Some l else completed_get i t
    end.
  Fixpoint completed_add (s : cstate) (d : list (nat * list cstate)) : list (nat * list cstate) :=
    match d with
    | [] => [(s_end s, [s])]
    | (k, l) :: t => if Nat.eqb (s_end s) k then (k, l ++ [s]) :: t else (k, l) :: completed_add s t
    end.
  Definition index_completed (s : cstate) (ch : chart) : chart :=
    mkChart (ch_text ch) (ch_states ch) (completed_add s (ch_completed ch)).

  (** ** EarleyParser.py *)

  (** EarleyParser.py 110-113 *)
  Fixpoint predict_loop (rules : list rule) (e : nat) (ch : chart) : outcome chart :=
    match rules with
    | [] => Ok ch
    | r :: rest => ch' <- enqueue (mkState r 1 e e) e ch ;; predict_loop rest e ch'
    end.
  (** EarleyParser.py 100-113 *)
  Definition predict (ix : gindex S) (ch : chart) (s : cstate) : outcome chart :=
    match next_cons s with
    | None => Exn IndexErr
    | Some c => predict_loop (find_rules ix (k_pred c) (length (k_args c))) (s_end s) ch
    end.

  (** EarleyParser.py 153-157 *)
  Definition scanned_rule (c : constituent) (word : string) (m : S) : rule :=
    new_rule (mkCons (k_pred c) (k_args c) (k_type c) false false)
             [mkCons word ["terminal"] PWord false false] m 0.
  (** EarleyParser.py 148-160 *)
  Definition add_scanned_state (ch : chart) (s : cstate) (c : constituent) (word : string) (m : S) : outcome chart :=
    let e := s_end s + String.length word in
    enqueue (mkState (scanned_rule c word m) 2 (s_end s) e) e ch.

  (** EarleyParser.py 130-134; [lens]: the numbers from 1 *)
  Fixpoint scan_prefixes (ch : chart) (s : cstate) (c : constituent) (word : string) (lens : list nat) : outcome chart :=
    match lens with
    | [] => Ok ch
    | n :: rest =>
        let sub := take n word in
        ch' <- add_scanned_state ch s c sub (scan_mean (Some sub)) ;;
        scan_prefixes ch' s c word rest
    end.
  (** EarleyParser.py 116-141, 197-204 *)
  Definition scan (ch : chart) (s : cstate) : outcome chart :=
    match next_cons s with
    | None => Exn IndexErr
    | Some c =>
        match k_type c with
        | PRegExp =>
            m <- re_match (k_pred c) (drop (s_end s) (ch_text ch)) ;;
            match m with
            | Some word => scan_prefixes ch s c word (seq 1 (String.length word))
            | None => Ok ch
            end
        | PWord =>
            if read_word (ch_text ch) (s_end s) (k_pred c)
            then add_scanned_state ch s c (k_pred c) (scan_mean None)
            else Ok ch
        | PRelation => Ok ch
        end
    end.

  (** EarleyParser.py 178-194: a loop over the keys of a dict, which raises an
      error when the dict grows.  When [completed] is empty (it starts where
      it ends) that is the dict that states are added to. *)
  Fixpoint complete_loop (waiting : list cstate) (completed : cstate) (ch : chart) : outcome chart :=
    match waiting with
    | [] => Ok ch
    | w :: rest =>
        match next_cons w with
        | Some c =>
            if String.eqb (k_pred c) (k_pred (g_ante (s_rule completed))) &&
               ptype_eqb (k_type c) (k_type (g_ante (s_rule completed))) then
              let advanced := mkState (s_rule w) (s_dot w + 1) (s_start w) (s_end completed) in
              ch' <- enqueue advanced (s_end completed) ch ;;
              if Nat.eqb (s_start completed) (s_end completed) &&
                 negb (state_in advanced (states_at ch (s_end completed)))
              then Exn RuntimeErr
              else complete_loop rest completed ch'
            else complete_loop rest completed ch
        | None => complete_loop rest completed ch
        end
    end.
  (** EarleyParser.py 163-194 *)
  Definition complete (ch : chart) (s : cstate) : outcome chart :=
    complete_loop (states_at ch (s_start s)) s (index_completed s ch).

  (** EarleyParser.py 78-93 *)
  Definition step (ix : gindex S) (i : nat) (ch : chart) (s : cstate) : outcome chart :=
    if is_complete s then complete ch s
    else
      ch' <- predict ix ch s ;;
      if Nat.ltb i (String.length (ch_text ch)) then scan ch' s else Ok ch'.

  (** EarleyParser.py 74-95 *)
  Fixpoint process_position (n : nat) (ix : gindex S) (i j : nat) (ch : chart) : outcome chart :=
    match n with
    | O => OutOfFuel
    | Datatypes.S n' =>
        match nth_error (states_at ch i) j with
        | None => Ok ch
        | Some s => ch' <- step ix i ch s ;; process_position n' ix i (j + 1) ch'
        end
    end.
  (** EarleyParser.py 72-95 *)
  Fixpoint process_positions (n : nat) (ix : gindex S) (positions : list nat) (ch : chart) : outcome chart :=
    match positions with
    | [] => Ok ch
    | i :: rest => ch' <- process_position n ix i 0 ch ;; process_positions n ix rest ch'
    end.

  (** EarleyParser.py 63-69 *)
  Definition delta_rule (c : nat) : rule :=
    new_rule (mkCons "delta" ["D"] PRelation false false)
             [mkCons "s" (map (fun j => append "P" (repr_Z (Z.of_nat j))) (seq 1 c)) PRelation false false] delta_mean 0.
  Definition add_delta_rules (ix : gindex S) : gindex S :=
    fold_left (fun ix c => add_rule ix (delta_rule c)) (find_argument_counts ix "s") ix.

  (** EarleyParser.py 48-97; the chart, for the grammar after the delta rules
      were added *)
  Definition build_chart (n : nat) (ix : gindex S) (text : string) : outcome chart :=
    ch <- enqueue incomplete_gamma 0 (empty_chart text) ;;
    process_positions n ix (seq 0 (String.length text + 1)) ch.

  (** ** /repo/richard/entity/ParseTreeNode.py 6-12 *)
  Inductive tree : Type := Node (category : string) (children : list tree) (form : string) (r : rule).

  (** ** tree_extract.py *)

  (** ChartState.py 32-35 *)
  Definition is_terminal (s : cstate) : outcome bool :=
    match g_cons (s_rule s) with
    | [] => Exn IndexErr
    | c :: _ => match k_args c with
                | [] => Ok false
                | a :: _ => Ok (String.eqb a "terminal")
                end
    end.

  (** tree_extract.py 51-69 *)
  Fixpoint find_sequences (ch : chart) (parent : cstate) (k : nat) (e : nat) {struct k} : outcome (list (list cstate)) :=
    if Nat.eqb e 0 then Ok []
    else
      match completed_get e (ch_completed ch) with
      | None => Exn KeyErr
      | Some states =>
          found <- omap (fun s =>
            match nth_error (g_cons (s_rule parent)) k with
            | None => Exn IndexErr
            | Some c =>
                if cons_equals (g_ante (s_rule s)) c then
                  match k with
                  | O => Ok (if Nat.eqb (s_start s) (s_start parent) then [[s]] else [])
                  | Datatypes.S k' =>
                      prevs <- find_sequences ch parent k' (s_start s) ;;
                      Ok (map (fun p => p ++ [s]) prevs)
                  end
                else Ok []
            end) states ;;
          Ok (concat found)
      end.

  (** tree_extract.py 79-84 *)
  Fixpoint product {A} (l : list (list A)) : list (list A) :=
    match l with
    | [] => [[]]
    | xs :: rest => flat_map (fun x => map (cons x) (product rest)) xs
    end.

  (** tree_extract.py 19-41, 44-48, 72-76 *)
  Fixpoint create_trees (n : nat) (ch : chart) (s : cstate) : outcome (list tree) :=
    match n with
    | O => OutOfFuel
    | Datatypes.S n' =>
        t <- is_terminal s ;;
        if (t : bool) then
          match g_cons (s_rule s) with
          | [] => Exn IndexErr
          | c :: _ => Ok [Node (k_pred (g_ante (s_rule s))) [] (k_pred c) (s_rule s)]
          end
        else
          seqs <- find_sequences ch s (length (g_cons (s_rule s)) - 1) (s_end s) ;;
          tss <- omap (fun states =>
                         per_state <- omap (create_trees n' ch) states ;;
                         Ok (map (fun children => Node (k_pred (g_ante (s_rule s))) children "" (s_rule s))
                                 (product per_state))) seqs ;;
          Ok (concat tss)
    end.

  (** tree_extract.py 16 *)
  Definition strip_root (t : tree) : outcome tree :=
    match t with
    | Node _ (Node _ (x :: _) _ _ :: _) _ _ => Ok x
    | _ => Exn IndexErr
    end.
  (** tree_extract.py 7-16 *)
  Definition extract_tree_roots (n : nat) (ch : chart) : outcome (list tree) :=
    let g := complete_gamma (ch_text ch) in
    match completed_get (s_end g) (ch_completed ch) with
    | None => Ok []
    | Some _ => ts <- create_trees n ch g ;; omap strip_root ts
    end.

  (** ** unknown_word.py 14-19: [last + 1] is the state of the loop, so that
      -1 is 0 *)
  Fixpoint last_understood_in (states : list cstate) (last1 : nat) : nat :=
    match states with
    | [] => last1
    | s :: rest =>
        last_understood_in rest
          (if is_complete s && Nat.leb last1 (s_end s) then s_end s else last1)
    end.
  Definition last_understood (ch : chart) : nat :=
    fold_left (fun last1 l => last_understood_in l last1) (rev (ch_states ch)) 0.
  (** unknown_word.py 21-26 *)
  Definition find_unknown_word (ch : chart) : string :=
    let l := last_understood ch in
    if Nat.ltb l (String.length (ch_text ch)) then append (take 9 (drop l (ch_text ch))) " ..." else "".

  (** ** ProcessResult.py *)
  Record presult (P : Type) : Type := mkPResult {
    pr_products : list P;
    pr_error : string;
    pr_args : list string
  }.
  Arguments mkPResult {P}.
  Arguments pr_products {P}.
  Arguments pr_error {P}.
  Arguments pr_args {P}.

  (** EarleyParser.py 20-45.  The state is the grammar, to which rules are
      added. *)
  Definition earley_parse (n : nat) (text : string) : M (gindex S) (presult tree) := fun ix =>
    let ix' := add_delta_rules ix in
    (ch <- build_chart n ix' text ;;
     roots <- extract_tree_roots n ch ;;
     Ok (match roots with
         | [] =>
             let next := find_unknown_word ch in
             if negb (String.eqb next "") then mkPResult roots "unknown_word" [next]
             else if Nat.eqb (String.length text) 0 then mkPResult roots "no_sentence" []
             else mkPResult roots "not_understood" []
         | _ => mkPResult roots "" []
         end),
     ix').

  (** ** tree_sort_heuristics/ *)

  (** SortByBoost.py 20-26 *)
  Fixpoint get_boost (t : tree) : Z :=
    match t with
    | Node _ children _ r => fold_left (fun b c => (b + get_boost c)%Z) children (g_boost r)
    end.
  (** SortByRegExpCount.py 21-29 *)
  Fixpoint count_tokens (t : tree) : Z :=
    match t with
    | Node _ children _ r =>
        fold_left (fun n c => (n + count_tokens c)%Z) children
          (if ptype_eqb (k_type (g_ante r)) PRegExp then 1%Z else 0%Z)
    end.
  (** SortByTreeDepth.py 20-26 *)
  Fixpoint get_depth (base : Z) (t : tree) : Z :=
    match t with
    | Node _ children _ _ =>
        fold_left (fun d c => Z.min d (get_depth (base - 1) c)) children (base - 1)%Z
    end.

  (** [results.sort(key=...)]: a stable sort *)
  Fixpoint sort_insert {A} (key : A -> Z) (x : A) (l : list A) : list A :=
    match l with
    | [] => [x]
    | y :: t => if (key x <=? key y)%Z then x :: l else y :: sort_insert key x t
    end.
  Fixpoint stable_sort {A} (key : A -> Z) (l : list A) : list A :=
    match l with [] => [] | x :: t => sort_insert key x (stable_sort key t) end.

  (** BasicParseTreeSortHeuristics.py 8-13, SortByTreeDepth.py 8-17,
      SortByRegExpCount.py 9-18, SortByBoost.py 8-17 *)
  Definition sort_trees (l : list tree) : list tree :=
    stable_sort (fun t => (- get_boost t)%Z) (stable_sort count_tokens (stable_sort (get_depth 0) l)).

  (** BasicParser.py 29-41.  The products are the trees themselves. *)
  Definition parser_process (n : nat) (text : string) : M (gindex S) (presult tree) := fun ix =>
    match earley_parse n (normalize text) ix with
    | (Ok r, ix') => (Ok (mkPResult (sort_trees (pr_products r)) (pr_error r) (pr_args r)), ix')
    | (Exn e, ix') => (Exn e, ix')
    | (OutOfFuel, ix') => (OutOfFuel, ix')
    end.
End Parser.
Arguments mkPResult {P}.
Arguments pr_products {P}.
Arguments pr_error {P}.
Arguments pr_args {P}.
Arguments mkState {S}.
Arguments Node {S}.
