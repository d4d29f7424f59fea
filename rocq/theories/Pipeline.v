(** * Models of /repo/richard/block/*.py, /repo/richard/core/System.py,
      /repo/richard/entity/SentenceRequest.py,
      /repo/richard/processor/language_selector/*.py and
      /repo/richard/processor/semantic_executor/AtomExecutor.py

    Processors are identified by a number (object identity in Python).  A
    processor is any function that may use and change the world; it reads the
    request, but does not change it.  The logger is in Logger.v. *)

From Coq Require Import ZArith String List Bool Arith.
From Verif Require Import Py Effects Solver.
Import ListNotations.
Local Open Scope string_scope.
Local Open Scope list_scope.
Local Open Scope monad_scope.

Section Pipeline.
  Context {W : Type}.
  (** products *)
  Variable P : Type.

  (** SentenceRequest.py 7-29 *)
  Record request : Type := mkRequest {
    rq_text : string;
    rq_current : list (nat * P);
    rq_alternatives : list (nat * list P)
  }.

  Section Dict.
    Context {A : Type}.
    Fixpoint dget (k : nat) (d : list (nat * A)) : option A :=
      match d with
      | [] => None
      | (k', a) :: rest => if Nat.eqb k k' then Some a else dget k rest
      end.
    Fixpoint dput (k : nat) (a : A) (d : list (nat * A)) : list (nat * A) :=
      match d with
      | [] => [(k, a)]
      | (k', a') :: rest => if Nat.eqb k k' then (k', a) :: rest else (k', a') :: dput k a rest
      end.
  End Dict.

  (** SentenceRequest.py 32-40, 50-58 *)
  Definition set_alternatives (k : nat) (l : list P) (r : request) : request :=
    mkRequest (rq_text r) (rq_current r) (dput k l (rq_alternatives r)).
  Definition get_alternatives (k : nat) (r : request) : list P :=
    match dget k (rq_alternatives r) with Some l => l | None => [] end.
  Definition set_current (k : nat) (p : P) (r : request) : request :=
    mkRequest (rq_text r) (dput k p (rq_current r)) (rq_alternatives r).
  Definition get_current (k : nat) (r : request) : option P := dget k (rq_current r).

  (** /repo/richard/entity/ProcessResult.py 5-9 *)
  Record presult : Type := mkPResult {
    pr_products : list P;
    pr_error : string;
    pr_args : list value
  }.

  Record processor : Type := mkProc {
    p_id : nat;
    p_process : request -> M W presult
  }.

  Inductive bkind : Type := FindOne | FindAll | TryFirst.
  Record block : Type := mkBlock { b_kind : bkind; b_proc : processor }.

  (** /repo/richard/entity/BlockResult.py 4-8 *)
  Record bresult : Type := mkBResult { br_error : string; br_args : list value }.
  Definition success : bresult := mkBResult "" [].
  Definition is_success (b : bresult) : bool := String.eqb (br_error b) "".

  (** the state: the world and the request *)
  Definition st : Type := (W * request)%type.

  Definition modify (f : request -> request) : M st unit := fun s => (Ok tt, (fst s, f (snd s))).

  (** SentenceRequest.py 43-47 *)
  Definition exec_process (p : processor) : M st presult := fun s =>
    let '(o, w) := p_process p (snd s) (fst s) in (o, (w, snd s)).

  Section Loops.
    (** [self.next_block.process(request)] *)
    Variable next : M st bresult.

    (** FindOne.py 23-35 *)
    Fixpoint find_one (k : nat) (products : list P) (err : bresult) : M st bresult :=
      match products with
      | [] => ret err
      | x :: rest =>
          modify (set_current k x) ;;;
          r <- next ;;
          if is_success r then ret success else find_one k rest r
      end.

    (** FindAll.py 24-38 *)
    Fixpoint find_all (k : nat) (products : list P) (ok : bool) (err : bresult) : M st bresult :=
      match products with
      | [] => ret (if ok then success else err)
      | x :: rest =>
          modify (set_current k x) ;;;
          r <- next ;;
          find_all k rest (ok || is_success r)
            (if negb (is_success r) && is_success err then r else err)
      end.

    (** TryFirst.py 20-35 *)
    Definition try_first (k : nat) (products : list P) : M st bresult :=
      match products with
      | [] => ret success
      | x :: _ =>
          modify (set_current k x) ;;;
          r <- next ;;
          ret r
      end.

    (** FindOne.py 12-21, FindAll.py 12-22, TryFirst.py 13-18 *)
    Definition process_block (b : block) : M st bresult :=
      let k := p_id (b_proc b) in
      result <- exec_process (b_proc b) ;;
      if String.eqb (pr_error result) "" then
        match b_kind b with
        | FindOne =>
            modify (set_alternatives k (pr_products result)) ;;;
            find_one k (pr_products result) success
        | FindAll =>
            modify (fun r => set_alternatives k (get_alternatives k r ++ pr_products result) r) ;;;
            find_all k (pr_products result) false success
        | TryFirst =>
            modify (set_alternatives k (pr_products result)) ;;;
            try_first k (pr_products result)
        end
      else ret (mkBResult (pr_error result) (pr_args result)).
  End Loops.

  (** System.py 29-34: each block is linked to the next one, the last one to
      [Succeed] (Succeed.py 11-12) *)
  Fixpoint process_blocks (bs : list block) : M st bresult :=
    match bs with
    | [] => ret success
    | b :: rest => process_block (process_blocks rest) b
    end.

  (** System.py 37-50.  [get_output] of a product, [store] is
      [Solver(self.model).solve([('store', ...)])].  A pipeline without
      blocks is an IndexError; a missing product ([None]) has no
      [get_output]. *)
  Variable O : Type.
  Variable get_output : P -> O.
  Variable store : list value -> M W unit.

  Definition error_atoms (b : bresult) : list value :=
    [ VTuple [VStr "output_type"; VStr (br_error b)];
      VTuple (VStr ("output_" ++ br_error b) :: br_args b) ].

  Definition last_id (bs : list block) : option nat :=
    match rev bs with [] => None | b :: _ => Some (p_id (b_proc b)) end.

  Definition enter (bs : list block) : M st (option O) :=
    match last_id bs with
    | None => throw IndexErr
    | Some k =>
        r <- process_blocks bs ;;
        if is_success r then
          s <- get ;;
          match get_current k (snd s) with
          | Some p => ret (Some (get_output p))
          | None => throw AttributeErr
          end
        else
          (fun s => let '(o, w) := store (error_atoms r) (fst s) in (o, (w, snd s))) ;;;
          ret None
    end.
End Pipeline.

Arguments mkRequest {P}.
Arguments rq_text {P}.
Arguments rq_current {P}.
Arguments rq_alternatives {P}.
Arguments get_current {P}.
Arguments set_current {P}.
Arguments get_alternatives {P}.
Arguments set_alternatives {P}.
Arguments mkPResult {P}.
Arguments pr_products {P}.
Arguments pr_error {P}.
Arguments pr_args {P}.
Arguments mkProc {W P}.
Arguments p_id {W P}.
Arguments p_process {W P}.
Arguments mkBlock {W P}.
Arguments b_kind {W P}.
Arguments b_proc {W P}.

(** ** the language processors *)
Section Language.
  Context {W : Type}.
  Variable P : Type.
  (** LanguageSelectorProduct.py 7-9 *)
  Variable locale_product : string -> P.
  Variable locale_of : P -> option string.

  (** LanguageSelector.py 24-26 *)
  Definition language_selector (k : nat) (locales : list string) : @processor W P :=
    mkProc k (fun _ => ret (mkPResult (map locale_product locales) "" [])).

  Fixpoint locale_get (l : string) (m : list (string * @processor W P)) : option (@processor W P) :=
    match m with
    | [] => None
    | (k, p) :: rest => if String.eqb l k then Some p else locale_get l rest
    end.

  (** Multilingual.py 27-34; a product without [locale] is an AttributeError *)
  Definition multilingual (k selector : nat) (m : list (string * @processor W P)) : @processor W P :=
    mkProc k (fun r =>
      match get_current selector r with
      | None => throw AttributeErr
      | Some p =>
          match locale_of p with
          | None => throw AttributeErr
          | Some l =>
              match locale_get l m with
              | None => throw (Raise "No processor available for locale")
              | Some q => p_process q r
              end
          end
      end).
End Language.

(** ** AtomExecutor *)
Section Executor.
  Context {W : Type}.
  Variable P : Type.
  (** what the composer's product holds: inferences, executable atoms and the
      semantics ([get_semantics_last_iteration]) *)
  Record composed : Type := mkComposed { co_inferences : list value; co_executable : value; co_semantics : value }.
  Variable composed_of : P -> option composed.
  Variable bindings_product : sres -> P.
  Variable sv : solver_if W.

  (** AtomExecutor.py 30-45.  Not modelled: statistics. *)
  Definition atom_executor (k composer : nat) : @processor W P :=
    mkProc k (fun r =>
      match get_current composer r with
      | None => throw AttributeErr
      | Some p =>
          match composed_of p with
          | None => throw AttributeErr
          | Some c =>
              foldM (fun _ a => sv_write sv a) tt (co_inferences c) ;;;
              sv_solve sv (co_executable c) [] ;;;
              bindings <- sv_solve sv (co_semantics c) [] ;;
              ret (mkPResult [bindings_product bindings] "" [])
          end
      end).
End Executor.

(** System.py 41-43: [Solver(self.model).solve([('store', [...])])] *)
Definition solver_store {W} (mods : list (modul W)) (n : nat) (atoms : list value) : M W unit :=
  solve mods n (VList [VTuple [VStr "store"; VList atoms]]) [] ;;;
  ret tt.
