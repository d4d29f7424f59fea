(** * C98: first-order questions in a system with a query optimizer *)

From Coq Require Import ZArith QArith String Ascii List Bool Arith Lia.
From Verif Require Import Py PyFacts ReprProofs Effects EffectsFacts Grammar Earley ParserSpec GrammarProofs EarleyProofs
  EarleyProofs3 EarleyProofs4 EarleyProofs5 EarleyProofs6 ParserFacts PropParser Composer ComposerSpec
  ComposerProofs ComposerProofs2 ComposerProofs3 ComposerProofs4 ComposerScope PropComposer
  Solver SolverSpec SolverProofs SolverProofs2 CoreModule InferenceModule TableModule
  Optimizer OptimizerSpec OptimizerProofs5
  DatalogSpec DatalogProofs DatalogProofs2 FolSpec FolProofs FolProofs2 FolProofs3 FolProofs4 FolProofs5 ExampleWorld PropDatalog PropFol
  OptFolSpec PropOptFol
  Pipeline PipelineSpec PipelineProofs QuestionSystem QuestionProofs QuestionProofs2 PropSystem PropSystem2.
Import ListNotations.
Local Close Scope Q_scope.
Local Open Scope nat_scope.
Local Open Scope string_scope.
Local Open Scope list_scope.

(** The answers have, for the root variables that the query gives a value, the
    values that make the query true, and all of these. *)
Definition root_answer (roots : list string) (q : list fol) (s : assignment) (r : binding) : Prop :=
  forall k, In k roots -> (In k (binds q) -> bget k r = Some (s k)) /\ (~ In k (binds q) -> bget k r = None).
Definition right_roots (ext : string -> list value -> Prop) (q : list fol) (roots : list string) (l : list binding) : Prop :=
  (forall r, In r l -> exists s, const_assignment s /\ all_hold ext [] q s /\ root_answer roots q s r) /\
  (forall s, const_assignment s -> all_hold ext [] q s -> exists r, In r l /\ root_answer roots q s r).

Lemma right_roots_of ext q roots l l' : right_answers ext q [] l ->
  (forall x, In x l -> exists x', In x' l' /\ same_answer roots [] x x') ->
  (forall x', In x' l' -> exists x, In x l /\ same_answer roots [] x x') -> right_roots ext q roots l'.
Proof.
  intros (_ & Sound & Complete) H1 H2.
  assert (G : forall s x x', fol_answer ext q [] s x -> same_answer roots [] x x' -> root_answer roots q s x').
  { intros s x x' (_ & _ & _ & Hx) [Hr _] k Hk. destruct (Hx k) as (A1 & A2). rewrite Hr by now left. split.
    - intros Hb. apply A1. auto.
    - intros Hb. rewrite A2 by exact Hb. reflexivity. }
  split.
  - intros r Hr. destruct (H2 r Hr) as (x & Hx & Hs). destruct (Sound x Hx) as (s & Hf). exists s.
    pose proof Hf as (F1 & _ & F2 & _). split; auto. split; [exact F2|]. eapply G; eauto.
  - intros s Hs Hh. destruct (Complete s Hs) as (x & Hx & Hf); auto; [intros y z; discriminate|].
    destruct (H1 x Hx) as (x' & Hx' & Hsame). exists x'. split; auto. eapply G; eauto.
Qed.

Theorem C98_optimized_first_order_questions_are_answered_exactly :
  forall (W : Type) (L : lens W rulebase) tables arity rules (v : W) rank sig find store
         (T : string -> list string -> string -> value -> Prop)
         re_match grules grank history text kp kc ke number,
    good_program L tables arity rules v -> hierarchical rank rules ->
    (forall r p, In r rules -> In p (preds (rl_body r)) -> has_relation tables rules v p) ->
    (forall p t, In t (db_of tables v p) -> Forall2 of_sort (sig p) t) ->
    (forall r, In r rules -> sorted_rule sig r) ->
    good_sizes find -> (forall p r n, In r (find p) -> z_relation r = Some n -> length (z_arguments r) = arity p) ->
    Forall proper_rule grules -> re_ok re_match -> patterns_ok re_match (in_grammar grules) ->
    acyclic_units grules grank ->
    (forall r, in_grammar grules r -> well_scoped T r /\ plain_rule r /\ solid r /\ quiet r) ->
    (forall roots w m, T "s" roots w m ->
       exists q, m = query_of q /\ answerable_query tables arity rules v sig q /\ tidies (put_first find) [] [] q) ->
    kp <> FindAll ->
    let g := after_parses scanned delta_meaning gamma_meaning re_match history (grammar_rules grules) in
    exists ext, completed (db_of tables v) rules ext /\
    (forall ext', completed (db_of tables v) rules ext' -> forall p t, ext' p t <-> ext p t) /\
    exists N, forall fuel, N <= fuel ->
      exists res g', parse_with re_match fuel text g = (Ok res, g') /\
        exists N', forall limit, N' <= limit ->
        let answer := ask re_match kp kc ke fuel (Some (optimize find)) (solver_at (model L tables) limit) store
                        text (mkWorld g number v) in
        match Earley.pr_products res with
        | [] => answer = with_world g' number (fun _ => None)
                  (store [VTuple [VStr "output_type"; VStr (Earley.pr_error res)];
                          VTuple (VStr (append "output_" (Earley.pr_error res)) :: map VStr (Earley.pr_args res))] v)
        | t :: _ =>
            exists q roots number' l,
              process None t number = (Ok (mkProduct [("Semantics", query_of q)] [] (VList []) roots), number') /\
              T "s" roots (spell t) (query_of q) /\ lower (spell t) = lower (normalize text) /\
              answer = (Ok (Some (Some (SList l))), mkWorld g' number' v) /\ right_roots ext q roots l /\
              (forall q', query_of q' = query_of q -> answerable_query tables arity rules v sig q' ->
                 tidies (put_first find) [] [] q' -> right_roots ext q' roots l)
        end.
Proof.
  intros W L tables arity rules v rank sig find store T re_match grules grank history text kp kc ke number
    Hgp Hrank Hkn Hdb Hsr Hsz Hm Hp Hre Htot Hac HG HT Hk g.
  destruct (C44_rules_define_their_predicates (db_of tables v) rules rank Hrank) as (ext & He & Hu).
  exists ext. split; [exact He|]. split; [exact Hu|].
  destruct (C64_parsing_ends_without_unit_cycles scanned delta_meaning gamma_meaning re_match grules grank history text Hp Hre Htot)
    as (N & HN); auto.
  { intros r Hin. destruct (HG r Hin) as (_ & (P & _) & So & _). auto. }
  exists N. intros fuel Hfu. destruct (HN fuel Hfu) as (res & Hres). fold g in Hres.
  destruct (parse_with re_match fuel text g) as [o g'] eqn:Epar. cbn [fst] in Hres. subst o.
  exists res, g'. split; [reflexivity|].
  destruct (Earley.pr_products res) as [|t ts] eqn:Eprod.
  { exists 0. intros limit _.
    apply (C98_no_tree_no_effect_but_output W re_match fuel (Some (optimize find)) (solver_at (model L tables) limit) store kp kc ke text
             (mkWorld g number v) g' res Hk Epar Eprod). }
  assert (HG' : forall r, in_grammar grules r -> well_scoped T r /\ plain_rule r) by (intros r Hin; split; apply (HG r Hin)).
  assert (Ein : In t (Earley.pr_products res)) by (rewrite Eprod; now left).
  assert (Hfst : fst (parse_with re_match fuel text g) = Ok res) by now rewrite Epar.
  destruct (C96_texts_mean_what_the_rules_say T re_match delta_meaning gamma_meaning grules history fuel text res t Hp Hre HG' Hfst Ein number)
    as (p & number' & s & Ep & Eit & HTs & _ & _ & Esp).
  destruct (C61_trees_are_derivations scanned delta_meaning gamma_meaning re_match grules history fuel text res t Hp Hre Hfst Ein)
    as ((c & Sc & Tc & D) & _).
  assert (Hquiet : quiet_tree t).
  { apply (proj1 (derives_quiet re_match (in_grammar grules) (normalize text) (fun r Hr => proj2 (proj2 (proj2 (HG r Hr))))) _ _ _ _ D). }
  destruct (C80_variables_are_shared_or_fresh None t number p number' Ep) as (sigma & s' & n1 & X & _).
  destruct (proj1 quiet_nothing _ _ _ _ X Hquiet) as (Einf & Eexe). cbn [fst snd] in Einf, Eexe.
  destruct (HT _ _ _ HTs) as (q & -> & Hq & Ht). pose proof Hq as (Hwf & Hpk & env & Hsq).
  assert (Hb : const_binding []) by (intros x y; discriminate).
  destruct (C85_optimized_first_order_queries_are_answered W L tables arity rules v rank sig env find q (p_root_variables p) []
    Hgp Hrank (conj Hpk Hkn) Hdb Hsr Hsz Hm Hwf Ht Hb Hsq ltac:(intros; discriminate)) as (passes & r & Eo & Hin & n0 & Hn0).
  pose proof (process_optimized _ _ _ _ _ _ _ Ep Eit Eo) as Eop.
  assert (Er : last (map snd passes) VNone = r).
  { unfold optimize in Eo. destruct (front _) as [r1| |]; try discriminate. cbn [obind] in Eo.
    destruct (Optimizer.sort find r1) as [r2| |]; try discriminate. cbn [obind] in Eo.
    destruct (isolate r2 _) as [r3| |]; try discriminate. injection Eo as <-.
    cbn in Hin. destruct Hin as [E|[E|[E|[E|[]]]]]; try discriminate. now injection E as <-. }
  exists (S n0). intros limit Hlim. cbn zeta.
  destruct (Hn0 limit) as (l & l' & Hl & Hl' & _); [lia|].
  assert (G : forall q', query_of q' = query_of q -> answerable_query tables arity rules v sig q' ->
    tidies (put_first find) [] [] q' -> right_roots ext q' (p_root_variables p) l').
  { intros q' Eq (Hwf' & _) Ht'. injection Eq as Eq.
    destruct (C85_first_order_queries_keep_their_answers W L tables arity rules v ext find limit limit q' (p_root_variables p) [] passes r
      (SList l) v (SList l') v Hgp He Hsz Hwf' Ht' Hb) as (l1 & l1' & E1 & E1' & S1 & S2); auto.
    { now rewrite Eq. }
    { unfold query_of. rewrite Eq. exact Hl. }
    injection E1 as <-. injection E1' as <-.
    destruct (C44_first_order_queries_exact W L tables arity rules v ext limit q' [] (SList l) v Hgp He Hwf' Hb) as (_ & l2 & E2 & R).
    { unfold query_of. rewrite Eq. exact Hl. }
    injection E2 as <-. eapply right_roots_of; eauto. }
  exists q, (p_root_variables p), number', l'. split.
  { rewrite Ep. destruct p as [its infs exe roots]. cbn in *. subst. reflexivity. }
  split; [exact HTs|]. split; [exact Esp|]. split; [|split; [now apply G|exact G]].
  rewrite (C98_the_first_tree_is_final W re_match fuel _ (solver_at (model L tables) limit) store kp kc ke text
             (mkWorld g number v) g' res t ts Hk Epar Eprod).
  cbn [sw_number sw_model]. rewrite Eop. cbn [p_inferences p_executable p_iterations]. rewrite Einf, Eexe. cbn [foldM ret].
  destruct limit as [|limit]; [lia|]. unfold solve in Hl'.
  assert (Ee : sv_solve (solver_at (model L tables) (S limit)) (VList []) [] v = (Ok (SList [[]]), v)) by reflexivity.
  rewrite Ee, Er, Hl'. reflexivity.
Qed.
Print Assumptions C98_optimized_first_order_questions_are_answered_exactly.
