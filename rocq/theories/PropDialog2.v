(** * C47: dialog tests of a system that speaks a fragment of English *)

From Coq Require Import ZArith QArith String Ascii List Bool Arith Lia Sorted.
From Verif Require Import Py PyFacts ReprProofs Effects EffectsFacts Atoms Grammar Earley ParserSpec GrammarProofs EarleyProofs
  EarleyProofs3 EarleyProofs4 EarleyProofs5 EarleyProofs6 ParserFacts PropParser Composer ComposerSpec
  ComposerProofs ComposerProofs2 ComposerProofs3 ComposerProofs4 ComposerScope PropComposer
  Solver SolverSpec SolverProofs SolverProofs2 CoreModule CoreProofs InferenceModule TableModule SimpleDataSource Memory Generator
  DatalogSpec DatalogProofs DatalogProofs2 FolSpec FolProofs FolProofs2 FolProofs3 FolProofs4 FolProofs5 ExampleWorld PropDatalog PropFol
  Pipeline PipelineSpec PipelineProofs QuestionSystem QuestionProofs QuestionProofs2 PropSystem PropSystem2
  FragmentSpec FragmentModel FragmentProofs FragmentProofs2 FragmentProofs3 PropFragment
  Optimizer OptimizerSpec OptFolSpec OptFolProofs6 PropOptFol PropFragment2
  TalkSpec TalkModel TalkProofs TalkProofs2 TalkProofs3 TalkProofs4 TalkProofs5 TalkOpt PropTalk
  ResultIterator Logger PropLogger DialogTester PropDialog.
From Verif Require GrammarParser InferenceRuleParser.
Import ListNotations.
Local Close Scope Q_scope.
Local Open Scope nat_scope.
Local Open Scope string_scope.
Local Open Scope list_scope.

(** the text is a sentence with a right reply that is the one expected, or it
    has an unknown word and that is what is expected *)
Definition rightly_expected (lx : lexicon) (ext : string -> list value -> Prop) (t : test) : Prop :=
  (exists s value, sentence_in lx s /\ sentence_text s = lower (normalize (fst t)) /\
     (sentence_counts s -> reply ext s value) /\ py_eq value (snd t) = true) \/
  (no_sentence lx (fst t) /\ exists m, m < String.length (normalize (fst t)) /\
     py_eq (VStr ("Could not understand: " ++ take 9 (drop m (normalize (fst t))) ++ " ...")) (snd t) = true).

(** the text is a sentence, and every right reply to a sentence with this
    text is the one expected *)
Definition clearly_expected (lx : lexicon) (ext : string -> list value -> Prop) (t : test) : Prop :=
  (exists s, sentence_in lx s /\ sentence_text s = lower (normalize (fst t))) /\
  forall s, sentence_in lx s -> sentence_text s = lower (normalize (fst t)) ->
    sentence_counts s /\ forall value, reply ext s value -> py_eq value (snd t) = true.

Section Converse.
  Context {V : Type} (mods : list (modul V)) (LB : lens V sds_store) (format_table : list value -> M V value)
    (re_match : string -> string -> outcome (option string)) (kp kc ke : bkind)
    (opt : option (list value -> list string -> outcome (list (string * value)))) (fuel limit : nat).
  Notation speaker := (generate_output (grammar_rules (write_rules format_table)) (solve mods limit) LB limit).
  Notation expected_in := (as_expected re_match kp kc ke fuel opt (solver_at mods limit) (store_output mods limit) (Some speaker)).

  Definition replied (t : test) (r : outcome (option (option sres)) * outcome value) : Prop :=
    exists a value, r = (Ok a, Ok value) /\ py_eq value (snd t) = true.

  Lemma expected_converse : forall tests w rs w', converse mods LB format_table re_match kp kc ke opt fuel limit (map fst tests) w = (rs, w') ->
    (Forall2 replied tests rs -> expected_in tests w w') /\ forall w1, expected_in tests w w1 -> Forall2 replied tests rs.
  Proof.
    induction tests as [|[text expected] tests IH]; intros w rs w'; cbn [map fst converse].
    - intros [= <- <-]. split; [constructor|]. intros; constructor.
    - unfold exchange. destruct (ask _ _ _ _ _ _ _ _ _ _) as [o w1] eqn:Ea. unfold on_model. destruct (speaker (sw_model w1)) as [a v2] eqn:Eg.
      destruct (converse _ _ _ _ _ _ _ _ _ _ _ _) as [rs' w3] eqn:Ec. intros [= <- <-]. destruct (IH _ _ _ Ec) as (I1 & I2). split.
      + intros H. inversion H as [|x y xs ys (b & value & Er & Eq) H2]; subst. injection Er as -> ->. econstructor; [|exact Eq|apply I1; exact H2].
        eapply generated; eauto.
      + intros w2 H. inversion H as [|t e output ts w4 w5 w6 Hr Eq Hrest]; subst.
        inversion Hr as [| |c w5' E1 E2|c w6 g o' v' E1 E2 E3]; subst; try congruence.
        injection E2 as <-. rewrite Ea in E1. injection E1 as -> <-. rewrite Eg in E3. injection E3 as -> <-.
        constructor; [|eauto]. exists c, output. auto.
  Qed.
End Converse.

Lemma sentence_text_nonempty s : sentence_text s <> "".
Proof. destruct s; discriminate. Qed.

(** Every lexicon, database, rules and list of tests, as in C46.  A dialog test
    that passes expects right replies; and one that expects the right replies
    to unambiguous sentences passes. *)
Theorem C47_dialogs_in_english_expect_what_is_true :
  forall (V : Type) (LR : lens V rulebase) tables (LB : lens V sds_store) arity rules (v : V) rank sig lx
         format_table re_match kp kc ke opt history number tests width msecs lg printed,
    talking_program LR tables LB arity rules v -> hierarchical rank rules ->
    (forall r p, In r rules -> In p (preds (rl_body r)) -> has_relation tables rules v p) ->
    (forall p t, In t (db_of tables v p) -> Forall2 of_sort (sig p) t) ->
    (forall r, In r rules -> sorted_rule sig r) ->
    re_ok re_match -> good_lexicon tables arity rules v sig Text lx -> good_optimizer arity lx opt -> kp <> FindAll ->
    let g := after_parses scanned delta_meaning gamma_meaning re_match history (grammar_rules (talk lx)) in
    let mods := talk_mods LR tables LB in
    exists ext, completed (db_of tables v) rules ext /\
    (forall ext', completed (db_of tables v) rules ext' -> forall p t, ext' p t <-> ext p t) /\
    exists N, forall fuel, N <= fuel -> exists N', forall limit, N' <= limit ->
      let '(result, s) := test_dialog re_match kp kc ke fuel opt (solver_at mods limit) (store_output mods limit)
            (Some (generate_output (grammar_rules (write_rules format_table)) (solve mods limit) LB limit))
            width msecs tests (mkTester (mkWorld g number v) lg printed) in
      (result = Passed -> sw_model (ts_system s) = v /\ Forall (rightly_expected lx ext) tests) /\
      (Forall (clearly_expected lx ext) tests -> result = Passed) /\
      (forall text expected, In (text, expected) tests -> normalize text = "" -> result <> Passed).
Proof.
  intros V LR tables LB arity rules v rank sig lx format_table re_match kp kc ke opt history number tests width msecs lg printed
    Hp Hrank Hkn Hdb Hsr Hre Hlx Hopt Hk g mods.
  destruct (C46_a_conversation_is_answered_right V LR tables LB arity rules v rank sig lx format_table re_match kp kc ke opt history number (map fst tests)
    Hp Hrank Hkn Hdb Hsr Hre Hlx Hopt Hk) as (ext & He & Hu & N & HN).
  exists ext. split; [exact He|]. split; [exact Hu|]. exists N. intros fuel Hf. destruct (HN fuel Hf) as (N' & HN'). exists N'. intros limit Hl.
  specialize (HN' limit Hl). fold g in HN'. destruct (converse _ _ _ _ _ _ _ _ _ _ _ _) as [rs w'] eqn:Ec. destruct HN' as (Ev & Hrs). fold mods in Ec.
  destruct (expected_converse _ _ _ _ _ _ _ _ _ _ _ _ _ _ Ec) as (I1 & I2).
  pose proof (C47_tests_pass_when_the_replies_are_as_expected V re_match kp kc ke fuel opt (solver_at mods limit) (store_output mods limit)
    (Some (generate_output (grammar_rules (write_rules format_table)) (solve mods limit) LB limit)) width msecs tests (mkWorld g number v) lg printed) as H.
  destruct (test_dialog _ _ _ _ _ _ _ _ _ _ _ _ _) as [result s].
  assert (Fwd : result = Passed -> ts_system s = w' /\ Forall2 replied tests rs).
  { intros ->. destruct (H (ts_system s)) as (H1 & _). specialize (H1 (conj eq_refl eq_refl)). pose proof (I2 _ H1) as F. split; [|exact F].
    eapply as_expected_fun; [exact H1|]. now apply I1. }
  split; [|split].
  - intros Ep. destruct (Fwd Ep) as (-> & F). split; [exact Ev|]. clear -Hrs F. revert Hrs. induction F as [|t r tests rs (a & value & -> & Eq) F IH]; intros Hrs; [constructor|].
    inversion Hrs as [|x y xs ys Hx Hxs]; subst. constructor; [|now apply IH]. inversion Hx; subst.
    + left. eauto 8.
    + right. eauto.
  - intros Hc. apply (H w'). apply I1. clear -Hrs Hc. revert rs Hrs. induction Hc as [|t tests (Ht1 & Ht2) Hc IH]; intros rs Hrs; inversion Hrs as [|x r xs rs' Hx Hxs]; subst; constructor; auto.
    inversion Hx as [s value H1 H2 H3 H4|m H1 H2 H3|e H1 H2 H3|e H1 H2 H3]; subst; destruct Ht1 as (s0 & S1 & S2).
    2-4: exfalso; now apply (H1 s0 S1).
    destruct (Ht2 s H1 H2) as (C & E). eexists _, _. split; [reflexivity|]. auto.
  - intros text expected Hin En Ep. destruct (Fwd Ep) as (_ & F). clear -Hrs F Hin En. revert Hrs. induction F as [|t r tests rs (a & value & -> & Eq) F IH]; intros Hrs; [destruct Hin|].
    inversion Hrs as [|x y xs ys Hx Hxs]; subst. destruct Hin as [->|Hin]; [|now apply IH]. cbn [fst] in Hx. inversion Hx as [s v0 H1 H2 H3 H4|m H1 H2 H3| |]; subst.
    + rewrite En in H2. now apply sentence_text_nonempty in H2.
    + rewrite En in H2. cbn in H2. lia.
Qed.
Print Assumptions C47_dialogs_in_english_expect_what_is_true.

(** ** examples *)
Definition atlas_dialog (lg : logger) (tests : list test) : verdict * tester (world chat) :=
  let mods := talk_mods chat_rules chat_tables chat_buffer in
  test_dialog python_re FindOne TryFirst TryFirst 200 (Some (optimize atlas_sizes)) (solver_at mods 30) (store_output mods 30)
    (Some (generate_output (grammar_rules (write_rules (fun _ => throw TypeErr))) (solve mods 30) chat_buffer 30)) 4 (fun i => i) tests
    (mkTester (mkWorld (grammar_rules (talk atlas_words)) 0 chat_atlas) lg []).
Definition summary (r : verdict * tester (world chat)) : verdict * list string * nat :=
  (fst r, lg_entries (ts_logger (snd r)), length (ts_printed (snd r))).

Definition two_tests : list test :=
  [("which country borders every sea?", S_ "bor"); ("does every country border a sea?", S_ "no"); ("which country borders every sea?", S_ "bor")].
Example C47_passing_example : summary (atlas_dialog (log_tests LogNone new_logger) two_tests) = (Passed, [], 0).
Proof. vm_compute. reflexivity. Qed.

Example C47_failing_example :
  summary (atlas_dialog (log_tests LogAll new_logger) [("which country borders every sea?", S_ "bor"); ("is there a landlocked sea?", S_ "yes"); ("how many seas are there?", S_ "")])
  = (AssertionFailed,
     [separator_entry 4 1; key_value_entry "Human" "which country borders every sea?"; key_value_entry "Computer" "bor"; comment_entry "0 msecs";
      separator_entry 4 2; key_value_entry "Human" "is there a landlocked sea?"; key_value_entry "Computer" "no"; comment_entry "1 msecs"], 1).
Proof. vm_compute. reflexivity. Qed.

(** Deviations: a test that is the same as the last one is logged as if it were
    the last; and the log of a test that fails, when only others are logged, has
    the reply but not the question. *)
Theorem C47_only_the_last_test_is_logged_refuted :
  exists tests lg, lg_which lg = LogLast /\
    fst (atlas_dialog lg tests) = Passed /\
    In (separator_entry 4 1) (lg_entries (ts_logger (snd (atlas_dialog lg tests)))) /\ length tests = 3.
Proof.
  exists two_tests, new_logger. split; [reflexivity|]. split; [vm_compute; reflexivity|]. split; [vm_compute; auto|reflexivity].
Qed.
Print Assumptions C47_only_the_last_test_is_logged_refuted.

Theorem C47_the_failing_question_is_printed_refuted :
  summary (atlas_dialog new_logger [("is there a landlocked sea?", S_ "yes"); ("which country borders every sea?", S_ "bor")])
  = (AssertionFailed, [key_value_entry "Computer" "no"; comment_entry "0 msecs"], 1).
Proof. vm_compute. reflexivity. Qed.
Print Assumptions C47_the_failing_question_is_printed_refuted.
