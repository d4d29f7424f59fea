(** * C96, C98: meanings with their own variables, first-order questions *)

From Coq Require Import ZArith String Ascii List Bool Arith Lia.
From Verif Require Import Py PyFacts ReprProofs Effects EffectsFacts Grammar Earley ParserSpec GrammarProofs EarleyProofs
  EarleyProofs3 EarleyProofs4 EarleyProofs5 EarleyProofs6 ParserFacts PropParser Composer ComposerSpec
  ComposerProofs ComposerProofs2 ComposerProofs3 ComposerProofs4 ComposerScope PropComposer
  Solver SolverSpec SolverProofs SolverProofs2 CoreModule InferenceModule TableModule
  DatalogSpec DatalogProofs DatalogProofs2 FolSpec FolProofs FolProofs2 FolProofs3 FolProofs4 FolProofs5 ExampleWorld PropDatalog PropFol
  Pipeline PipelineSpec PipelineProofs QuestionSystem QuestionProofs QuestionProofs2 PropSystem.
Import ListNotations.
Local Open Scope nat_scope.
Local Open Scope string_scope.
Local Open Scope list_scope.

(** Types that relate the words of a phrase, the variables it speaks about and
    its meaning.  A rule respects them if it does so for meanings that have no
    variables in common but those the rule connects.  Then every parse tree is
    composed, and the type of a sentence relates its text and its meaning. *)
Theorem C96_texts_mean_what_the_rules_say :
  forall (T : string -> list string -> string -> value -> Prop) re_match delta_mean gamma_mean (rules : list crule) history fuel text r t,
    Forall proper_rule rules -> re_ok re_match ->
    (forall r, in_grammar rules r -> well_scoped T r /\ plain_rule r) ->
    fst (parser_process scanned delta_mean gamma_mean re_match fuel text
           (after_parses scanned delta_mean gamma_mean re_match history (grammar_rules rules))) = Ok r ->
    In t (Earley.pr_products r) ->
    forall n, exists p n' s, process None t n = (Ok p, n') /\ p_iterations p = [("Semantics", s)] /\
      T "s" (p_root_variables p) (spell t) s /\ NoDup (p_root_variables p) /\
      (forall y, occurs y s -> between n n' y) /\ lower (spell t) = lower (normalize text).
Proof.
  intros T re_match dm gm rules history fuel text r t Hp Hre HG H Ht n.
  destruct (C61_trees_are_derivations scanned dm gm re_match rules history fuel text r t Hp Hre H Ht) as ((c & Sc & Tc & D) & Sp).
  pose proof (proj1 (derives_shaped T re_match (in_grammar rules) (normalize text) HG) _ _ _ _ D) as Fi.
  specialize (Fi ltac:(intros E; rewrite E in Tc; discriminate)).
  assert (NL : ~ leaf t).
  { destruct Fi; try congruence. intros []. }
  destruct (process_scoped T t c Fi NL n) as (p & n' & s & E1 & E2 & E3 & E4 & _ & E5).
  rewrite Sc in E3. exists p, n', s. auto 10.
Qed.
Print Assumptions C96_texts_mean_what_the_rules_say.

(** a query that the system can evaluate *)
Definition answerable_query {W} (tables : W -> string -> option (list (list value))) arity rules (v : W) sig (q : list fol) : Prop :=
  wfs (flat_atom arity) [] [] q /\ (forall p, In p (preds q) -> has_relation tables rules v p) /\
  exists env, all_sorted sig env q.

(** Every grammar whose sentences have types that are first-order queries,
    every program and every text: without optimizer, with large enough limits,
    the system has no error, and the answers are those of the first tree. *)
Theorem C98_first_order_questions_are_answered_exactly :
  forall (W : Type) (L : lens W rulebase) tables arity rules (v : W) rank sig store
         (T : string -> list string -> string -> value -> Prop)
         re_match grules grank history text kp kc ke number,
    good_program L tables arity rules v -> hierarchical rank rules ->
    (forall r p, In r rules -> In p (preds (rl_body r)) -> has_relation tables rules v p) ->
    (forall p t, In t (db_of tables v p) -> Forall2 of_sort (sig p) t) ->
    (forall r, In r rules -> sorted_rule sig r) ->
    Forall proper_rule grules -> re_ok re_match -> patterns_ok re_match (in_grammar grules) ->
    acyclic_units grules grank ->
    (forall r, in_grammar grules r -> well_scoped T r /\ plain_rule r /\ solid r /\ quiet r) ->
    (forall roots w m, T "s" roots w m -> exists q, m = query_of q /\ answerable_query tables arity rules v sig q) ->
    kp <> FindAll ->
    let g := after_parses scanned delta_meaning gamma_meaning re_match history (grammar_rules grules) in
    exists ext, completed (db_of tables v) rules ext /\
    (forall ext', completed (db_of tables v) rules ext' -> forall p t, ext' p t <-> ext p t) /\
    exists N, forall fuel, N <= fuel ->
      exists res g', parse_with re_match fuel text g = (Ok res, g') /\
        exists N', forall limit, N' <= limit ->
        let answer := ask re_match kp kc ke fuel None (solver_at (model L tables) limit) store
                        text (mkWorld g number v) in
        match Earley.pr_products res with
        | [] => answer = with_world g' number (fun _ => None)
                  (store [VTuple [VStr "output_type"; VStr (Earley.pr_error res)];
                          VTuple (VStr (append "output_" (Earley.pr_error res)) :: map VStr (Earley.pr_args res))] v)
        | t :: _ =>
            exists q roots number' l,
              process None t number = (Ok (mkProduct [("Semantics", query_of q)] [] (VList []) roots), number') /\
              T "s" roots (spell t) (query_of q) /\ lower (spell t) = lower (normalize text) /\
              answerable_query tables arity rules v sig q /\
              answer = (Ok (Some (Some (SList l))), mkWorld g' number' v) /\ right_answers ext q [] l /\
              (forall q', query_of q' = query_of q -> answerable_query tables arity rules v sig q' -> right_answers ext q' [] l)
        end.
Proof.
  intros W L tables arity rules v rank sig store T re_match grules grank history text kp kc ke number
    Hgp Hrank Hkn Hdb Hsr Hp Hre Htot Hac HG HT Hk g.
  destruct (C44_rules_define_their_predicates (db_of tables v) rules rank Hrank) as (ext & He & Hu).
  exists ext. split; [exact He|]. split; [exact Hu|].
  destruct (C64_parsing_ends_without_unit_cycles scanned delta_meaning gamma_meaning re_match grules grank history text Hp Hre Htot)
    as (N & HN); auto.
  { intros r Hin. destruct (HG r Hin) as (_ & (P & _) & So & _). auto. }
  exists N. intros fuel Hfu. destruct (HN fuel Hfu) as (res & Hres). fold g in Hres.
  destruct (parse_with re_match fuel text g) as [o g'] eqn:Epar. cbn [fst] in Hres. subst o.
  exists res, g'. split; [reflexivity|].
  destruct (Earley.pr_products res) as [|t ts] eqn:Eprod.
  { exists 0. intros limit _.
    apply (C98_no_tree_no_effect_but_output W re_match fuel None (solver_at (model L tables) limit) store kp kc ke text
             (mkWorld g number v) g' res Hk Epar Eprod). }
  assert (HG' : forall r, in_grammar grules r -> well_scoped T r /\ plain_rule r) by (intros r Hin; split; apply (HG r Hin)).
  assert (Ein : In t (Earley.pr_products res)) by (rewrite Eprod; now left).
  assert (Hfst : fst (parse_with re_match fuel text g) = Ok res) by now rewrite Epar.
  destruct (C96_texts_mean_what_the_rules_say T re_match delta_meaning gamma_meaning grules history fuel text res t Hp Hre HG' Hfst Ein number)
    as (p & number' & s & Ep & Eit & HTs & _ & _ & Esp).
  destruct (C61_trees_are_derivations scanned delta_meaning gamma_meaning re_match grules history fuel text res t Hp Hre Hfst Ein)
    as ((c & Sc & Tc & D) & _).
  assert (Hquiet : quiet_tree t).
  { apply (proj1 (derives_quiet re_match (in_grammar grules) (normalize text) (fun r Hr => proj2 (proj2 (proj2 (HG r Hr))))) _ _ _ _ D). }
  destruct (C80_variables_are_shared_or_fresh None t number p number' Ep) as (sigma & s' & n1 & X & _).
  destruct (proj1 quiet_nothing _ _ _ _ X Hquiet) as (Einf & Eexe). cbn [fst snd] in Einf, Eexe.
  destruct (HT _ _ _ HTs) as (q & -> & Hq). pose proof Hq as (Hwf & Hpk & env & Hsq).
  destruct (C44_sorted_programs_are_answered W L tables arity rules v rank sig env q [] Hgp Hrank) as (ext0 & He0 & Hu0 & n0 & Hn0); auto.
  { split; auto. }
  { intros x y. discriminate. }
  { intros x y. discriminate. }
  destruct (Hn0 (S n0)) as (l & _); [lia|].
  (* the same answers for every limit *)
  exists (S n0). intros limit Hlim. cbn zeta.
  destruct (Hn0 limit) as (l1 & Hl1 & Hr1); [lia|].
  exists q, (p_root_variables p), number', l1. split.
  { rewrite Ep. destruct p as [its infs exe roots]. cbn in *. subst. reflexivity. }
  split; [exact HTs|]. split; [exact Esp|]. split; [exact Hq|]. split.
  - rewrite (C98_the_first_tree_is_final W re_match fuel _ (solver_at (model L tables) limit) store kp kc ke text
             (mkWorld g number v) g' res t ts Hk Epar Eprod).
    cbn [sw_number sw_model]. rewrite Ep. rewrite Einf, Eexe, Eit. cbn [foldM ret].
    destruct limit as [|limit]; [lia|]. unfold solve in Hl1.
    assert (Ee : sv_solve (solver_at (model L tables) (S limit)) (VList []) [] v = (Ok (SList [[]]), v)) by reflexivity.
    rewrite Ee. cbn [map snd last]. rewrite Hl1. reflexivity.
  - (* the interpretation is the same *)
    assert (G : forall q', query_of q' = query_of q -> answerable_query tables arity rules v sig q' -> right_answers ext q' [] l1).
    { intros q' Eq (Hwf' & _). destruct (C44_first_order_queries_exact W L tables arity rules v ext limit q' [] (SList l1) v Hgp He) as (_ & l2 & El & Hr2); auto.
      { intros x y. discriminate. }
      { rewrite Eq. exact Hl1. }
      injection El as <-. exact Hr2. }
    split; [now apply G|exact G].
Qed.
Print Assumptions C98_first_order_questions_are_answered_exactly.
