(** * Models of /repo/richard/core/Logger.py, the [log] methods of the
      products, and the pipeline with a logger

    Not modelled: the statistics of the solver ([log_stats]); user-defined
    products.  The width of the terminal is a parameter. *)

From Coq Require Import ZArith String Ascii List Bool Arith.
From Verif Require Import Py Effects Grammar Earley Composer Solver ResultIterator Pipeline QuestionSystem.
Import ListNotations.
Local Open Scope string_scope.
Local Open Scope list_scope.

(** Logger.py 6-8 *)
Inductive tests_logged : Type := LogNone | LogLast | LogAll.

(** Logger.py 21-40; [lg_products]: [show_products] is ALL *)
Record logger : Type := mkLogger {
  lg_which : tests_logged;
  lg_last : bool;
  lg_products : bool;
  lg_processors : list nat;
  lg_entries : list string
}.
Definition new_logger : logger := mkLogger LogLast false false [] [].
(** Logger.py 133-134 *)
Definition null_logger : logger := mkLogger LogNone false false [] [].

(** Logger.py 43-53, 56-62, DialogTester.py 51 *)
Definition log_tests (t : tests_logged) (lg : logger) : logger :=
  mkLogger t (lg_last lg) (lg_products lg) (lg_processors lg) (lg_entries lg).
Definition set_last (b : bool) (lg : logger) : logger :=
  mkLogger (lg_which lg) b (lg_products lg) (lg_processors lg) (lg_entries lg).
Definition log_products (processors : list nat) (lg : logger) : logger :=
  mkLogger (lg_which lg) (lg_last lg) true processors (lg_entries lg).
Definition append_entry (s : string) (lg : logger) : logger :=
  mkLogger (lg_which lg) (lg_last lg) (lg_products lg) (lg_processors lg) (lg_entries lg ++ [s]).

(** Logger.py 72-76 *)
Definition is_active (lg : logger) : bool :=
  match lg_which lg with LogAll => true | LogLast => lg_last lg | LogNone => false end.

Definition lf : string := String (ascii_of_nat 10) "".
Definition color (code : string) : string := String (ascii_of_nat 27) ("[" ++ code ++ "m").
(** Logger.py 10-17 *)
Definition NO_COLOR := color "0".
Definition HEADER_COLOR := color "33".
Definition SUBHEADER_COLOR := color "36".
Definition VALUE_COLOR := color "37".
Definition SEPARATOR_COLOR := color "33".
Definition KEY_COLOR := color "34".
Definition ERROR_COLOR := color "31".
Definition COMMENT_COLOR := color "90".

Fixpoint repeat_text (n : nat) (s : string) : string :=
  match n with O => "" | S n' => s ++ repeat_text n' s end.
Definition nat_text (n : nat) : string := repr_Z (Z.of_nat n).

(** Logger.py 79-108, as the texts that are appended *)
Definition plain_entry (s : string) : string := s ++ lf.
Definition separator_entry (width number : nat) : string :=
  take (width + String.length SEPARATOR_COLOR + String.length VALUE_COLOR + String.length SEPARATOR_COLOR)
       (SEPARATOR_COLOR ++ "~~[" ++ VALUE_COLOR ++ " " ++ nat_text number ++ " " ++ SEPARATOR_COLOR ++ "]"
        ++ repeat_text width "~")%string
  ++ NO_COLOR ++ lf.
Definition key_value_entry (key value : string) : string :=
  (KEY_COLOR ++ "[" ++ key ++ "]" ++ NO_COLOR ++ " " ++ value ++ lf)%string.
Definition header_entry (s : string) : string := (HEADER_COLOR ++ s ++ NO_COLOR ++ lf)%string.
Definition subheader_entry (s : string) : string := (SUBHEADER_COLOR ++ s ++ NO_COLOR ++ lf)%string.
Definition comment_entry (s : string) : string := (COMMENT_COLOR ++ s ++ NO_COLOR ++ lf)%string.
Definition error_entry (s : string) : string := (ERROR_COLOR ++ s ++ NO_COLOR ++ lf)%string.

(** Logger.py 126-130 *)
Definition logger_str (lg : logger) : string := String.concat "" (map (fun e => (e ++ lf)%string) (lg_entries lg)).

(** ** texts of values and trees *)

(** /repo/richard/core/atoms.py 4-24 *)
Fixpoint format_value (indent : string) (v : value) : string :=
  match v with
  | VTuple l => (indent ++ "(" ++ join ", " (map (format_value (indent ++ "    ")) l) ++ ")")%string
  | VList l => (indent ++ "[" ++ String.concat "" (map (format_value (indent ++ "    ")) l) ++ indent ++ "]")%string
  | VStr s => ("'" ++ s ++ "'")%string
  | _ => py_str v
  end.

(** [str.strip()] *)
Fixpoint lstrip (s : string) : string :=
  match s with
  | String c s' => if is_space c then lstrip s' else s
  | EmptyString => ""
  end.
Fixpoint text_rev (s : string) (acc : string) : string :=
  match s with String c s' => text_rev s' (String c acc) | EmptyString => acc end.
Definition strip (s : string) : string := text_rev (lstrip (text_rev (lstrip s) "")) "".

(** /repo/richard/entity/ParseTreeNode.py 19-38 *)
Fixpoint tree_lines (indent : string) (t : ctree) : string :=
  match t with
  | Node _ children _ _ =>
      (fix lines (l : list ctree) : string :=
         match l with
         | [] => ""
         | Node cat cs form r as child :: rest =>
             (if String.eqb form "" then
                indent ++ "+- " ++ cat ++ lf ++
                tree_lines (indent ++ match rest with [] => "   " | _ => "|  " end) child
              else indent ++ "+- " ++ cat ++ " '" ++ form ++ "'" ++ lf)
             ++ lines rest
         end)%string children
  end.
Definition tree_str (t : ctree) : string :=
  match t with Node cat _ _ _ => (cat ++ lf ++ tree_lines "" t)%string end.

(** [str(d)] of a dict *)
Definition dict_str (b : binding) : string :=
  ("{" ++ join ", " (map (fun kv => repr_str (fst kv) ++ ": " ++ py_repr (snd kv)) b) ++ "}")%string.

(** ** what the products log *)

(** The products as Python objects: a [ResultIterator] among the results of
    the executor has a position, which changes when it is read. *)
Inductive lproduct : Type :=
| LTree (t : ctree)
| LComposed (c : Composer.product)
| LBindings (l : list binding)
| LIterator (it : result_iterator).

Definition embed (p : sproduct) : lproduct :=
  match p with
  | TreeProduct t => LTree t
  | ComposedProduct c => LComposed c
  | BindingsProduct (SList l) => LBindings l
  | BindingsProduct (SIter s n) => LIterator (new_iterator s (Z.of_nat n))
  end.
Definition erase (p : lproduct) : sproduct :=
  match p with
  | LTree t => TreeProduct t
  | LComposed c => ComposedProduct c
  | LBindings l => BindingsProduct (SList l)
  | LIterator it => BindingsProduct (SIter (it_single it) (Z.to_nat (it_number it)))
  end.

(** SemanticComposerProduct.py 30-35 *)
Fixpoint iteration_entries (prev : value) (l : list (string * value)) : list string :=
  match l with
  | [] => []
  | (description, v) :: rest =>
      (if py_eq v prev then [] else [subheader_entry description; plain_entry (strip (format_value lf v))])
      ++ iteration_entries (if py_eq v prev then prev else v) rest
  end.

(** The entries, and the product afterwards: BasicParserProduct.py 11-12,
    SemanticComposerProduct.py 22-35, AtomExecutorProduct.py 11-16 (without
    statistics).  A [ResultIterator] is read to its end. *)
Definition product_log (p : lproduct) : list string * lproduct :=
  match p with
  | LTree t => ([plain_entry (strip (tree_str t))], p)
  | LComposed c =>
      ([subheader_entry "Executable"; plain_entry (format_value lf (p_executable c));
        subheader_entry "Inferences"; plain_entry (format_value lf (VList (p_inferences c)));
        subheader_entry "Return variables"; plain_entry (join ", " (p_root_variables c))]
       ++ iteration_entries VNone (p_iterations c), p)
  | LBindings l => ([plain_entry (join lf (map dict_str l))], p)
  | LIterator it =>
      match it_list (S (S (Z.to_nat (it_number it - it_index it)))) it with
      | (Ok items, it') => ([plain_entry (join lf items)], LIterator it')
      | (_, it') => ([], LIterator it')
      end
  end.

(** ** the pipeline with a logger *)

Section Logged.
  Context {W P L : Type}.
  (** what is done with the result of a processor *)
  Variable on_result : nat -> presult P -> L -> presult P * L.

  (** SentenceRequest.py 43-47 *)
  Definition logged (p : @processor W P) : @processor (W * L) P :=
    mkProc (p_id p) (fun r s =>
      match p_process p r (fst s) with
      | (Ok res, w) => let '(res', l) := on_result (p_id p) res (snd s) in (Ok res', (w, l))
      | (Exn e, w) => (Exn e, (w, snd s))
      | (OutOfFuel, w) => (OutOfFuel, (w, snd s))
      end).
  Definition logged_block (b : @block W P) : @block (W * L) P := mkBlock (b_kind b) (logged (b_proc b)).
End Logged.

Section Results.
  Context {P : Type}.
  (** [get_name] of the processors, [log] of the products *)
  Variable name : nat -> string.
  Variable log : P -> list string * P.

  Definition result_entries (k : nat) (res : presult P) : list string :=
    header_entry (name k)
    :: (if String.eqb (pr_error res) "" then [] else [error_entry (pr_error res)])
    ++ flat_map (fun p => fst (log p)) (pr_products res).
  Definition logged_products (res : presult P) : presult P :=
    mkPResult (map (fun p => snd (log p)) (pr_products res)) (pr_error res) (pr_args res).

  Definition shows (lg : logger) (k : nat) : bool :=
    is_active lg && lg_products lg &&
    (match lg_processors lg with [] => true | _ => false end || existsb (Nat.eqb k) (lg_processors lg)).

  (** Logger.py 111-119 *)
  Definition add_process_result (k : nat) (res : presult P) (lg : logger) : presult P * logger :=
    if shows lg k
    then (logged_products res, fold_left (fun lg e => append_entry e lg) (result_entries k res) lg)
    else (res, lg).
End Results.

(** ** the system of QuestionSystem.v with a logger *)

(** a processor whose products are objects *)
Definition embed_request (r : request lproduct) : request sproduct :=
  mkRequest (rq_text r) (map (fun kp => (fst kp, erase (snd kp))) (rq_current r))
    (map (fun kl => (fst kl, map erase (snd kl))) (rq_alternatives r)).
Definition on_objects {W} (p : @processor W sproduct) : @processor W lproduct :=
  mkProc (p_id p) (fun r w =>
    match p_process p (embed_request r) w with
    | (Ok res, w') => (Ok (mkPResult (map embed (pr_products res)) (pr_error res) (pr_args res)), w')
    | (Exn e, w') => (Exn e, w')
    | (OutOfFuel, w') => (OutOfFuel, w')
    end).

(** BasicParser.py 25, SemanticComposer.py 33, AtomExecutor.py 26 *)
Definition system_name (k : nat) : string :=
  match k with 1 => "Parser" | 2 => "Composer" | _ => "Executor" end.

Inductive answer : Type := AList (l : list binding) | AIterator (it : result_iterator).
Definition object_output (p : lproduct) : option answer :=
  match p with LBindings l => Some (AList l) | LIterator it => Some (AIterator it) | _ => None end.

Section System.
  Context {V : Type}.
  Variable re_match : string -> string -> outcome (option string).

  (** [System.enter(SentenceRequest(text, logger))] *)
  Definition ask_logged (kp kc ke : bkind) fuel optimize sv (store : list value -> M V unit) (text : string)
      (s : world V * logger) : outcome (option (option answer)) * (world V * logger) :=
    let blocks := map (fun b => logged_block (add_process_result system_name product_log)
                                  (mkBlock (b_kind b) (on_objects (b_proc b))))
                      (question_blocks re_match kp kc ke fuel optimize sv) in
    let '(o, (s', _)) := enter lproduct (option answer) object_output
                           (fun l s => let '(o, w) := on_model (store l) (fst s) in (o, (w, snd s)))
                           blocks (s, mkRequest text [] []) in (o, s').
End System.
