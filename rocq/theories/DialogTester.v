(** * Model of /repo/richard/core/DialogTester.py

    Not modelled: the profiler.  The clock and the width of the terminal are
    parameters.  [assertEqual] fails just when its arguments are not equal. *)

From Coq Require Import ZArith String List Bool Arith.
From Verif Require Import Py Effects Grammar Earley Composer Solver ResultIterator Pipeline QuestionSystem Logger.
Import ListNotations.
Local Open Scope string_scope.
Local Open Scope list_scope.

(** what a run of the tests ends in *)
Inductive verdict : Type :=
| Passed
| AssertionFailed
| Raised (e : exn)
| NotFinished.

Section Tester.
  Context {W A : Type}.
  (** [self.system.enter(SentenceRequest(text, logger))] *)
  Variable enter : string -> W * logger -> outcome A * (W * logger).
  (** [self.system.read_output()], if the system has an output generator *)
  Variable read_output : option (W -> outcome value * W).
  Variable width : nat.
  (** for each of the tests, the time that it takes *)
  Variable msecs : nat -> nat.

  Definition test : Type := (string * value)%type.

  (** the system, the logger, and what is printed *)
  Record tester : Type := mkTester { ts_system : W; ts_logger : logger; ts_printed : list string }.

  (** [test == last] *)
  Definition same_test (t last : test) : bool := String.eqb (fst t) (fst last) && py_eq (snd t) (snd last).

  (** DialogTester.py 50 *)
  Definition log_this (lg : logger) (last t : test) : bool :=
    match lg_which lg with LogAll => true | LogLast => same_test t last | LogNone => false end.

  (** DialogTester.py 55-57 *)
  Definition announce (logs : bool) (number : nat) (question : string) (lg : logger) : logger :=
    if logs then append_entry (key_value_entry "Human" question) (append_entry (separator_entry width number) lg) else lg.
  (** DialogTester.py 72-74 *)
  Definition report (logs : bool) (i : nat) (output : value) (lg : logger) : logger :=
    if logs
    then append_entry (comment_entry (nat_text (msecs i) ++ " msecs")) (append_entry (key_value_entry "Computer" (py_str output)) lg)
    else lg.
  (** DialogTester.py 78-80 *)
  Definition stop (v : verdict) (w : W) (lg : logger) (printed : list string) : verdict * tester :=
    (v, mkTester w lg (printed ++ [(logger_str lg ++ lf)%string])).

  (** DialogTester.py 48-80, for one test *)
  Definition run_test (last : test) (i : nat) (t : test) (s : tester) : verdict * tester :=
    let logs := log_this (ts_logger s) last t in
    let lg1 := announce logs (S i) (fst t) (set_last logs (ts_logger s)) in
    match enter (fst t) (ts_system s, lg1) with
    | (Exn e, (w2, lg2)) => stop (Raised e) w2 lg2 (ts_printed s)
    | (OutOfFuel, (w2, lg2)) => (NotFinished, mkTester w2 lg2 (ts_printed s))
    | (Ok _, (w2, lg2)) =>
        let '(o, w3) := match read_output with Some read => read w2 | None => (Ok (VStr ""), w2) end in
        match o with
        | Exn e => stop (Raised e) w3 lg2 (ts_printed s)
        | OutOfFuel => (NotFinished, mkTester w3 lg2 (ts_printed s))
        | Ok output =>
            let equal := py_eq output (snd t) in
            let lg3 := report (logs || negb equal) i output lg2 in
            if equal then (Passed, mkTester w3 lg3 (ts_printed s)) else stop AssertionFailed w3 lg3 (ts_printed s)
        end
    end.

  Fixpoint run_tests (last : test) (i : nat) (tests : list test) (s : tester) : verdict * tester :=
    match tests with
    | [] => (Passed, s)
    | t :: rest =>
        match run_test last i t s with
        | (Passed, s') => run_tests last (S i) rest s'
        | stopped => stopped
        end
    end.

  (** DialogTester.py 44-80.  Without tests there is no last one, and nothing
      to compare it with. *)
  Definition do_run (tests : list test) (s : tester) : verdict * tester :=
    match rev tests with
    | [] => (Passed, s)
    | last :: _ => run_tests last 0 tests s
    end.
End Tester.
Arguments tester : clear implicits.
Arguments mkTester {W}.

(** the system of QuestionSystem.v, with a logger and an output generator *)
Section System.
  Context {V : Type}.
  Variable re_match : string -> string -> outcome (option string).
  Variables kp kc ke : bkind.
  Variable fuel : nat.
  Variable opt : option (list value -> list string -> outcome (list (string * value))).
  Variable sv : solver_if V.
  Variable store : list value -> M V unit.
  Variable generator : option (M V value).

  Definition reader : option (world V -> outcome value * world V) :=
    match generator with Some g => Some (on_model g) | None => None end.
  Definition test_dialog (width : nat) (msecs : nat -> nat) : list test -> tester (world V) -> verdict * tester (world V) :=
    do_run (ask_logged re_match kp kc ke fuel opt sv store)
      reader width msecs.
End System.
