(** * A system that answers questions: parser, composer and executor

    The pipelines of /repo/tests/integration/*/test.py: a block (FindOne,
    TryFirst) for each of the processors, put together from their models.  The
    world holds what they change: the grammar of the parser, the number of the
    variable generator and what the modules of the model work on. *)

From Coq Require Import ZArith String List Bool.
From Verif Require Import Py Effects Grammar Earley Composer Solver Pipeline.
Import ListNotations.
Local Open Scope string_scope.
Local Open Scope list_scope.
Local Open Scope monad_scope.

Section System.
  Context {V : Type}.

  Record world : Type := mkWorld { sw_grammar : gindex meaning; sw_number : nat; sw_model : V }.

  Definition on_grammar {A} (m : M (gindex meaning) A) : M world A := fun w =>
    let '(o, g) := m (sw_grammar w) in (o, mkWorld g (sw_number w) (sw_model w)).
  Definition on_number {A} (m : M nat A) : M world A := fun w =>
    let '(o, n) := m (sw_number w) in (o, mkWorld (sw_grammar w) n (sw_model w)).
  Definition on_model {A} (m : M V A) : M world A := fun w =>
    let '(o, v) := m (sw_model w) in (o, mkWorld (sw_grammar w) (sw_number w) v).

  (** BasicParserProduct.py, SemanticComposerProduct.py, AtomExecutorProduct.py *)
  Inductive sproduct : Type :=
  | TreeProduct (t : ctree)
  | ComposedProduct (c : Composer.product)
  | BindingsProduct (s : sres).

  Variable re_match : string -> string -> outcome (option string).

  (** BasicParser.py 29-41.  [fuel]: see [parser_process] *)
  Definition parser (k fuel : nat) : @processor world sproduct :=
    mkProc k (fun r =>
      res <- on_grammar (parser_process scanned delta_meaning gamma_meaning re_match fuel (rq_text r)) ;;
      ret (mkPResult (map TreeProduct (Earley.pr_products res)) (Earley.pr_error res)
                     (map VStr (Earley.pr_args res)))).

  (** SemanticComposer.py 37-56; a product that is no parse tree has no
      [parse_tree] *)
  Definition composer (optimize : option (list value -> list string -> outcome (list (string * value))))
      (k parser_id : nat) : @processor world sproduct :=
    mkProc k (fun r =>
      match get_current parser_id r with
      | Some (TreeProduct t) =>
          p <- on_number (process optimize t) ;;
          ret (mkPResult [ComposedProduct p] "" [])
      | _ => throw AttributeErr
      end).

  (** SemanticComposerProduct.py 14-18: the last value, or [None] *)
  Definition last_iteration (p : Composer.product) : value := last (map snd (p_iterations p)) VNone.
  Definition composed_of (p : sproduct) : option Pipeline.composed :=
    match p with
    | ComposedProduct c => Some (mkComposed (p_inferences c) (p_executable c) (last_iteration c))
    | _ => None
    end.

  Definition on_solver (sv : solver_if V) : solver_if world :=
    mkSolver (fun atoms b => on_model (sv_solve sv atoms b)) (fun a => on_model (sv_write sv a)).
  Definition executor (sv : solver_if V) (k composer_id : nat) : @processor world sproduct :=
    atom_executor sproduct composed_of BindingsProduct (on_solver sv) k composer_id.

  (** AtomExecutorProduct.py 20-21; the output of the other products is text
      that nobody asks for *)
  Definition sys_output (p : sproduct) : option sres :=
    match p with BindingsProduct s => Some s | _ => None end.

  Definition question_blocks (kp kc ke : bkind) fuel optimize sv : list (@block world sproduct) :=
    [mkBlock kp (parser 1 fuel); mkBlock kc (composer optimize 2 1); mkBlock ke (executor sv 3 2)].

  (** [System.enter] *)
  Definition ask (kp kc ke : bkind) fuel optimize sv (store : list value -> M V unit) (text : string) (w : world) :
      outcome (option (option sres)) * world :=
    let '(o, (w', _)) := enter sproduct (option sres) sys_output (fun l => on_model (store l))
                           (question_blocks kp kc ke fuel optimize sv) (w, mkRequest text [] []) in (o, w').
End System.
Arguments world : clear implicits.
Arguments mkWorld {V}.
