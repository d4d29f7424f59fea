(** * What a question answering system does, without the blocks *)

From Coq Require Import ZArith QArith String List Bool Arith Lia Permutation.
From Verif Require Import Py PyFacts Effects EffectsFacts Grammar Earley ParserSpec GrammarProofs EarleyProofs
  EarleyProofs3 EarleyProofs4 EarleyProofs5 EarleyProofs6 ParserFacts PropParser Composer ComposerSpec ComposerProofs ComposerProofs2 ComposerProofs3 ComposerProofs4
  Solver Pipeline PipelineSpec PipelineProofs QuestionSystem
  Optimizer OptimizerSpec OptimizerProofs OptimizerProofs2 OptimizerProofs3 OptimizerProofs5 OptimizerProofs6
  DatalogSpec DatalogProofs DatalogProofs2.
Import ListNotations.
Local Close Scope Q_scope.
Local Open Scope nat_scope.
Local Open Scope string_scope.
Local Open Scope list_scope.
Local Open Scope monad_scope.

Section Respond.
  Context {V : Type}.
  Variable re_match : string -> string -> outcome (option string).
  Variable fuel : nat.
  Variable opt : option (list value -> list string -> outcome (list (string * value))).
  Variable sv : solver_if V.
  Variable store : list value -> M V unit.

  Notation parse := (parser_process scanned delta_meaning gamma_meaning re_match fuel).

  (** writing the inferences, executing, answering *)
  Definition execute (c : Composer.product) : M V sres :=
    foldM (fun _ a => sv_write sv a) tt (p_inferences c) ;;;
    sv_solve sv (p_executable c) [] ;;;
    sv_solve sv (last_iteration c) [].

  Definition respond (text : string) : M (world V) (option (option sres)) :=
    res <- on_grammar (parse text) ;;
    if String.eqb (Earley.pr_error res) "" then
      match Earley.pr_products res with
      | [] => throw AttributeErr
      | t :: _ =>
          c <- on_number (process opt t) ;;
          s <- on_model (execute c) ;;
          ret (Some (Some s))
      end
    else
      on_model (store [VTuple [VStr "output_type"; VStr (Earley.pr_error res)];
                       VTuple (VStr (append "output_" (Earley.pr_error res)) :: map VStr (Earley.pr_args res))]) ;;;
      ret None.

  Lemma foldM_on_model (l : list value) : forall (w : world V),
    foldM (fun _ a => sv_write (on_solver sv) a) tt l w =
    on_model (foldM (fun _ a => sv_write sv a) tt l) w.
  Proof.
    induction l as [|a l IH]; intros w; cbn [foldM].
    - unfold on_model. cbn. destruct w; reflexivity.
    - unfold bind. cbn [sv_write on_solver]. unfold on_model.
      destruct (sv_write sv a (sw_model w)) as [[[]| |] v]; try reflexivity. rewrite IH. reflexivity.
  Qed.

  Lemma executor_run r w : p_process (executor sv 3 2) r w =
    match get_current 2 r with
    | Some (ComposedProduct c) =>
        match on_model (execute c) w with
        | (Ok s, w') => (Ok (mkPResult [BindingsProduct s] "" []), w')
        | (Exn e, w') => (Exn e, w')
        | (OutOfFuel, w') => (OutOfFuel, w')
        end
    | _ => (Exn AttributeErr, w)
    end.
  Proof.
    cbn [executor p_process atom_executor]. destruct (get_current 2 r) as [[t|c|s]|]; try reflexivity.
    cbn [composed_of co_inferences co_executable co_semantics].
    unfold bind at 1. rewrite foldM_on_model. unfold execute, on_model, bind.
    destruct (foldM _ tt (p_inferences c) (sw_model w)) as [[u| |] v]; try reflexivity.
    cbn [sv_solve on_solver]. unfold on_model. cbn [sw_model sw_grammar sw_number].
    destruct (sv_solve sv (p_executable c) [] v) as [[u'| |] v']; reflexivity.
  Qed.

  (** a block whose processor has one product and no error, before blocks that
      succeed or raise *)
  Lemma single_block {W P} (b : @block W P) nx w r x w1 o s :
    p_process (b_proc b) r w = (Ok (mkPResult [x] "" []), w1) ->
    nx (w1, set_current (p_id (b_proc b)) x (remember b [x] r)) = (o, s) ->
    (forall res, o = Ok res -> res = success) ->
    process_block P nx b (w, r) = (o, s).
  Proof.
    intros H Hn Ho. rewrite process_block_run, H. cbn [pr_error pr_products String.eqb]. unfold loop.
    destruct (b_kind b); cbn [find_one find_all try_first]; rewrite modify_run; unfold bind; rewrite Hn;
      destruct o as [res| |]; try reflexivity; rewrite (Ho res eq_refl); reflexivity.
  Qed.

  Variable ke kc kp : bkind.

  Lemma executor_block r w c : get_current 2 r = Some (ComposedProduct c) ->
    exists r', process_blocks sproduct [mkBlock ke (executor sv 3 2)] (w, r) =
      (match fst (on_model (execute c) w) with Ok _ => Ok success | Exn e => Exn e | OutOfFuel => OutOfFuel end,
       (snd (on_model (execute c) w), r')) /\
      forall s, fst (on_model (execute c) w) = Ok s -> get_current 3 r' = Some (BindingsProduct s).
  Proof.
    intros Hc. cbn [process_blocks]. pose proof (executor_run r w) as E. rewrite Hc in E.
    destruct (on_model (execute c) w) as [[s| |] w1] eqn:Ex; cbn [fst snd].
    - eexists. split; [eapply single_block; [exact E|reflexivity|now intros res [= <-]]|].
      intros s' [= <-]. now rewrite current_set.
    - exists r. split; [|discriminate]. rewrite process_block_run. cbn [b_proc]. now rewrite E.
    - exists r. split; [|discriminate]. rewrite process_block_run. cbn [b_proc]. now rewrite E.
  Qed.

  Definition understand (t : ctree) : M (world V) sres :=
    c <- on_number (process opt t) ;; on_model (execute c).

  Lemma composer_blocks r w t : get_current 1 r = Some (TreeProduct t) ->
    exists r', process_blocks sproduct [mkBlock kc (composer opt 2 1); mkBlock ke (executor sv 3 2)] (w, r) =
      (match fst (understand t w) with Ok _ => Ok success | Exn e => Exn e | OutOfFuel => OutOfFuel end,
       (snd (understand t w), r')) /\
      forall s, fst (understand t w) = Ok s -> get_current 3 r' = Some (BindingsProduct s).
  Proof.
    intros Ht. unfold understand, bind.
    change (process_blocks sproduct (?a :: ?l)) with (process_block sproduct (process_blocks sproduct l) a).
    destruct (on_number (process opt t) w) as [[c| |] w1] eqn:E; cbn [fst snd].
    - set (r1 := set_current 2 (ComposedProduct c) (remember (mkBlock kc (@composer V opt 2 1)) [ComposedProduct c] r)).
      destruct (executor_block r1 w1 c) as (r' & H1 & H2); [unfold r1; now rewrite current_set|].
      exists r'. split; [|exact H2]. eapply single_block; [|exact H1|].
      + cbn [b_proc composer p_process]. rewrite Ht. unfold bind. rewrite E. reflexivity.
      + destruct (fst (on_model (execute c) w1)); intros res; [now intros [= <-]|discriminate|discriminate].
    - exists r. split; [|discriminate]. rewrite process_block_run. cbn [b_proc composer p_process].
      rewrite Ht. unfold bind. now rewrite E.
    - exists r. split; [|discriminate]. rewrite process_block_run. cbn [b_proc composer p_process].
      rewrite Ht. unfold bind. now rewrite E.
  Qed.

  Lemma parser_loop r w t ts : kp <> FindAll ->
    exists r', loop (process_blocks sproduct [mkBlock kc (composer opt 2 1); mkBlock ke (executor sv 3 2)])
        (mkBlock kp (@parser V re_match 1 fuel)) (TreeProduct t :: ts) (w, r) =
      (match fst (understand t w) with Ok _ => Ok success | Exn e => Exn e | OutOfFuel => OutOfFuel end,
       (snd (understand t w), r')) /\
      forall s, fst (understand t w) = Ok s -> get_current 3 r' = Some (BindingsProduct s).
  Proof.
    intros Hk.
    destruct (composer_blocks (set_current 1 (TreeProduct t) r) w t) as (r' & H1 & H2); [now rewrite current_set|].
    exists r'. split; [|exact H2]. unfold loop. cbn [b_kind b_proc parser p_id].
    destruct kp; [|contradiction|]; cbn [find_one try_first]; rewrite modify_run; unfold bind; rewrite H1;
      destruct (fst (understand t w)); reflexivity.
  Qed.

  Lemma ask_respond text w : kp <> FindAll ->
    ask re_match kp kc ke fuel opt sv store text w = respond text w.
  Proof.
    intros Hk. unfold ask, enter, respond, question_blocks. cbn [last_id rev app b_proc p_id executor atom_executor].
    change (process_blocks sproduct (?a :: ?l)) with (process_block sproduct (process_blocks sproduct l) a).
    unfold bind at 1. rewrite process_block_run. cbn [b_proc parser p_process rq_text]. unfold bind at 1.
    match goal with |- _ = bind ?m ?f ?w =>
      change (bind m f w) with (match m w with (Ok a, w') => f a w' | (Exn e, w') => (Exn e, w') | (OutOfFuel, w') => (OutOfFuel, w') end)
    end.
    destruct (on_grammar (parse text) w) as [[res| |] w1]; try reflexivity.
    cbn [ret pr_error pr_products].
    destruct (String.eqb_spec (Earley.pr_error res) "") as [He|He].
    - destruct (Earley.pr_products res) as [|t ts]; cbn [map].
      + unfold loop. destruct kp; try contradiction; reflexivity.
      + destruct (parser_loop (remember (mkBlock kp (@parser V re_match 1 fuel)) (TreeProduct t :: map TreeProduct ts)
          (mkRequest text [] [])) w1 t (map TreeProduct ts) Hk) as (r' & E & Hc).
        unfold composer in E |- *. rewrite E. clear E.
        assert (U : (bind (on_number (process opt t)) (fun c => s <- on_model (execute c) ;; ret (Some (Some s)))) w1
                    = match understand t w1 with (Ok s, w') => (Ok (Some (Some s)), w') | (Exn e, w') => (Exn e, w') | (OutOfFuel, w') => (OutOfFuel, w') end).
        { unfold understand, bind. destruct (on_number (process opt t) w1) as [[c| |] w2]; try reflexivity. }
        rewrite U. destruct (understand t w1) as [[s| |] w2] eqn:Eu; cbn [fst snd] in *; try reflexivity.
        cbn [is_success success br_error String.eqb]. unfold bind. cbn [get snd].
        rewrite (Hc s eq_refl). reflexivity.
    - unfold is_success. cbn [br_error]. destruct (String.eqb_spec (Earley.pr_error res) "") as [|_]; [contradiction|].
      unfold bind. cbn [fst snd error_atoms br_error br_args]. unfold error_atoms. cbn [br_error br_args].
      destruct (on_model (store _) w1) as [[[]| |] w2]; reflexivity.
  Qed.
End Respond.
