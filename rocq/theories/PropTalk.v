(** * C46: a conversation in a fragment of English *)

From Coq Require Import ZArith QArith String Ascii List Bool Arith Lia Sorted.
From Verif Require Import Py PyFacts ReprProofs Effects EffectsFacts Atoms Grammar Earley ParserSpec GrammarProofs EarleyProofs
  EarleyProofs3 EarleyProofs4 EarleyProofs5 EarleyProofs6 ParserFacts PropParser Composer ComposerSpec
  ComposerProofs ComposerProofs2 ComposerProofs3 ComposerProofs4 ComposerScope PropComposer
  Solver SolverSpec SolverProofs SolverProofs2 CoreModule CoreProofs InferenceModule TableModule SimpleDataSource Memory Generator
  DatalogSpec DatalogProofs DatalogProofs2 FolSpec FolProofs FolProofs2 FolProofs3 FolProofs4 FolProofs5 ExampleWorld PropDatalog PropFol
  Pipeline PipelineSpec PipelineProofs QuestionSystem QuestionProofs QuestionProofs2 PropSystem PropSystem2
  FragmentSpec FragmentModel FragmentProofs FragmentProofs2 FragmentProofs3 PropFragment
  Optimizer OptimizerSpec OptFolSpec OptFolProofs6 PropOptFol PropFragment2
  TalkSpec TalkModel TalkProofs TalkProofs2 TalkProofs3 TalkProofs4 TalkProofs5 TalkOpt.
From Verif Require GrammarParser InferenceRuleParser.
Import ListNotations.
Local Close Scope Q_scope.
Local Open Scope nat_scope.
Local Open Scope string_scope.
Local Open Scope list_scope.

(** A model to talk about: tables and rules, the rules of the intents behind
    them, an empty output buffer that is apart from both. *)
Record talking_program {V} (LR : lens V rulebase) (tables : V -> string -> option (list (list value))) (LB : lens V sds_store)
    (arity : string -> nat) (rules : list folrule) (v : V) : Prop := {
  tp_lens : lens_ok LB;
  tp_rules_apart : forall s w, lget LR (lset LB s w) = lget LR w;
  tp_tables_apart : forall s w p, tables (lset LB s w) p = tables w p;
  tp_rules : lget LR v = stored_rules rules ++ intent_rules;
  tp_empty : lget LB v = [];
  tp_tables : good_tables tables arity v;
  tp_names : forall p, tables v p <> None -> user_pred p;
  tp_good : forall r, In r rules -> good_rule (flat_atom arity) r;
  tp_reserved : forall p, has_relation tables rules v p -> ~ In p reserved
}.

Definition no_sentence (lx : lexicon) (text : string) : Prop :=
  forall s, sentence_in lx s -> sentence_text s <> lower (normalize text).

(** Without the query optimizer, or with it: it knows the sizes of tables, not
    those of the library or of the intents, and no word is the name of the
    predicate that it treats apart. *)
Inductive good_optimizer (arity : string -> nat) (lx : lexicon) : optimizer -> Prop :=
| no_optimizer : good_optimizer arity lx None
| with_optimizer find : good_sizes find ->
    (forall p r n, In r (find p) -> z_relation r = Some n -> length (z_arguments r) = arity p) ->
    (forall p r, In p ["intent_list"; "intent_yn"; "intent_value"] -> In r (find p) -> z_relation r = None) ->
    ~ lexical lx "resolve_name" ->
    good_optimizer arity lx (Some (optimize find)).

(** what [enter] does, and what [read_output] then gives *)
Inductive right_exchange (lx : lexicon) (ext : string -> list value -> Prop) (text : string)
    : outcome (option (option sres)) * outcome value -> Prop :=
| answered s value : sentence_in lx s -> sentence_text s = lower (normalize text) ->
    (sentence_counts s -> reply ext s value) ->
    right_exchange lx ext text (Ok (Some (Some (SList [[]]))), Ok value)
| unknown_words m : no_sentence lx text -> m < String.length (normalize text) ->
    right_exchange lx ext text
      (Ok None, Ok (VStr ("Could not understand: " ++ take 9 (drop m (normalize text)) ++ " ...")))
| nothing_said e : no_sentence lx text -> normalize text = "" ->
    right_exchange lx ext text (Exn e, Ok (VStr "No sentence given"))
| not_understood e : no_sentence lx text -> normalize text <> "" ->
    right_exchange lx ext text (Exn e, Ok (VStr "Sorry, I don't understand")).

Section Exchange.
  Context {V : Type} (LR : lens V rulebase) (tables : V -> string -> option (list (list value))) (LB : lens V sds_store)
    (arity : string -> nat) (rules : list folrule) (v : V) (rank : string -> nat) (sig : string -> list FolSpec.sort)
    (lx : lexicon) (format_table : list value -> M V value) (re_match : string -> string -> outcome (option string)) (kp kc ke : bkind).
  Hypothesis Hp : talking_program LR tables LB arity rules v.
  Hypothesis Hrank : hierarchical rank rules.
  Hypothesis Hkn : forall r p, In r rules -> In p (preds (rl_body r)) -> has_relation tables rules v p.
  Hypothesis Hdb : forall p t, In t (db_of tables v p) -> Forall2 of_sort (sig p) t.
  Hypothesis Hsr : forall r, In r rules -> sorted_rule sig r.
  Hypothesis Hre : re_ok re_match.
  Hypothesis Hlx : good_lexicon tables arity rules v sig Text lx.
  Hypothesis Hk : kp <> FindAll.
  Variable opt : optimizer.
  Hypothesis Hopt : good_optimizer arity lx opt.
  Variable ext : string -> list value -> Prop.
  Hypothesis Hext : completed (db_of tables v) rules ext.

  Notation mods := (talk_mods LR tables LB).
  Let Hw := gl_words _ _ _ _ _ _ _ Hlx.
  Let Htok := gl_tokens _ _ _ _ _ _ _ Hlx.
  Let HG : forall r, In r (talk lx) -> shape r /\ unit_ok r := talk_shape lx Hw.
  Notation past history := (after_parses scanned delta_meaning gamma_meaning re_match history (grammar_rules (talk lx))).

  Lemma unknown_output p st : In p ["output_no_sentence"; "output_not_understood"] -> find_relations mods (buffered LB v st) p = [].
  Proof.
    intros H. destruct Hp as [A1 A2 A3 A4 A5 A6 A7 A8 A9].
    assert (Np : ~ has_relation tables rules v p).
    { intros F. apply (A9 p F). unfold reserved. rewrite !in_app_iff. auto. }
    destruct (not_related LR tables LB v rules A2 A3 A4 p st Np) as (E1 & E2).
    unfold find_relations, talk_mods. cbn [find_relations_in]. unfold inference_module, table_module. rewrite E1, E2.
    cbn [In] in H. destruct H as [<-|[<-|[]]]; reflexivity.
  Qed.

  (** the errors of the parser, stored *)
  Lemma store_unknown n u : store_output mods (S (S n)) [VTuple [VStr "output_type"; VStr "unknown_word"]; VTuple [VStr "output_unknown_word"; VStr u]] v
    = (Ok tt, buffered LB v (saying "unknown_word" "output_unknown_word" "word" (VStr u))).
  Proof.
    pose proof Hp as [A1 A2 A3 A4 A5 A6 A7 A8 A9]. pose proof (buffered_nothing LB v A1 A5) as Ev.
    pose proof (store_two LR tables LB v arity rules A1 A2 A3 A4 A7 A8 A9 n "output_type" ["type"] [VStr "unknown_word"]
      "output_unknown_word" ["word"] [VStr u] [] []) as E. unfold store_of, out in E. rewrite Ev in E.
    unfold store_output, bind. rewrite E; [reflexivity|cbn; auto 10|cbn; auto 10].
  Qed.
  Lemma store_failure n t : In t ["no_sentence"; "not_understood"] ->
    exists e, store_output mods (S (S n)) [VTuple [VStr "output_type"; VStr t]; VTuple [VStr (append "output_" t)]] v = (Exn e, buffered LB v (typed t)).
  Proof.
    intros Ht. pose proof Hp as [A1 A2 A3 A4 A5 A6 A7 A8 A9]. pose proof (buffered_nothing LB v A1 A5) as Ev.
    assert (E : exists e, solve mods (S (S n)) (VList [VTuple [VStr "store"; VList [VTuple [VStr "output_type"; VStr t]; VTuple [VStr (append "output_" t)]]]]) [] (buffered LB v [])
      = (Exn e, buffered LB v (typed t))).
    { rewrite (core_solve mods (S n) "store" q_store _ [] (buffered LB v []));
        [|apply (core_alone LR tables LB v arity rules A2 A3 A4 A7 A8); left; cbn; auto|reflexivity|discriminate].
      unfold q_store, item. unfold bind at 1 2. cbn [db_values map db_value nth_error ret c_binding bind_variables foldM].
      pose proof (write_output LR tables LB v rules A1 A2 A3 A4 A9 n "output_type" ["type"] [VStr t] []) as Wr.
      unfold bind at 1 2. rewrite Wr by (cbn; auto). unfold bind at 1. cbn [solver_at sv_write]. unfold write_F. unfold bind at 1. cbn [atom_parts ret].
      unfold bind at 1, get. rewrite unknown_output.
      - eexists. reflexivity.
      - cbn [In] in *. destruct Ht as [<-|[<-|[]]]; auto. }
    destruct E as (e & E). rewrite Ev in E. exists e. unfold store_output, bind. rewrite E. reflexivity.
  Qed.

  (** what the solver is given instead of the meaning of a sentence *)
  Lemma sentence_served xs s m t number p number' : sentence_in lx s -> sentence_means xs s m -> (forall y, occurs y m -> dollar y) ->
    process None t number = (Ok p, number') -> p_iterations p = [("Semantics", m)] ->
    exists its m', process opt t number = (Ok (mkProduct its (p_inferences p) (p_executable p) (p_root_variables p)), number') /\
      last (map snd its) VNone = m' /\
      replies LR tables LB v ext format_table s m'.
  Proof.
    intros Hs Hm Hd Ep Eit. pose proof Hp as [A1 A2 A3 A4 A5 A6 A7 A8 A9]. destruct Hopt as [|find [Hsane Hcore] Hmatch Hint Hres].
    - destruct (sentence_replies LR tables LB v arity rules A1 A2 A3 A4 A5 A6 A7 A8 A9 rank sig Hrank Hkn Hdb Hsr ext Hext lx Hlx format_table
        (fun _ => True) (fun _ _ _ _ _ => I) (fun _ _ _ _ _ _ _ _ => I) (fun _ _ _ _ _ _ => I) xs s m Hs Hm Hd)
        as (name & args & q & -> & _ & _ & An & _ & Hr).
      exists (p_iterations p). eexists. split; [destruct p; exact Ep|]. rewrite Eit. split; [reflexivity|]. apply Hr. now apply equivalent_refl.
    - assert (R : forall p, In p (map snd (lx_nouns lx ++ lx_adjectives lx ++ lx_verbs lx)) -> p <> "resolve_name").
      { intros p0 Hp0 ->. apply in_map_iff in Hp0 as (n & E & Hn). apply Hres. exists n. auto. }
      destruct (sentence_replies LR tables LB v arity rules A1 A2 A3 A4 A5 A6 A7 A8 A9 rank sig Hrank Hkn Hdb Hsr ext Hext lx Hlx format_table
        (tidies (put_first find) [] []) (phrase_tidy _ lx R) (subject_tidy _ lx R) (count_tidy _ lx R) xs s m Hs Hm Hd)
        as (name & args & q & -> & Hn & Ha & An & T & Hr).
      destruct (optimize_intent find arity Hsane Hcore) with (p := name) (args := args) (q := q) (roots := p_root_variables p) (B := @nil string)
        as (passes & q' & Eo & El & Hq); auto.
      + intros p0 x n Hx En. apply in_map_iff in Hx as (z & <- & Hz). now apply (Hmatch p0 z n).
      + intros ->. cbn in Hn. intuition discriminate.
      + intros r. now apply Hint.
      + apply An.
      + exists passes. eexists. split; [apply (process_optimized _ _ _ _ _ _ _ Ep Eit Eo)|]. rewrite El. split; [reflexivity|].
        apply Hr. now apply (arranged_equivalent tables arity rules v sig ext (put_first find)).
  Qed.

  Lemma one_exchange text : exists N, forall fuel, N <= fuel -> forall history number, exists number' N', forall limit, N' <= limit ->
    exists r, exchange mods LB format_table re_match kp kc ke opt fuel limit text (mkWorld (past history) number v)
      = (r, mkWorld (past (history ++ [(fuel, text)])) number' v) /\ right_exchange lx ext text r.
  Proof.
    pose proof Hp as [A1 A2 A3 A4 A5 A6 A7 A8 A9].
    assert (Hproper : Forall proper_rule (talk lx)) by exact (rules_proper (talk lx) HG).
    assert (Htot : patterns_ok re_match (in_grammar (talk lx))) by exact (rules_patterns (talk lx) HG re_match).
    assert (Hgood : forall r, in_grammar (talk lx) r -> well_scoped (talks lx) r /\ plain_rule r /\ solid r /\ quiet r).
    { intros r Hr. apply (rules_good (talk lx) HG (talks lx)); auto. intros r0 Hr0. now apply talk_scoped. }
    assert (Hsol : forall r, in_grammar (talk lx) r -> solid r /\ k_type (g_ante r) = PRelation).
    { intros r Hr. destruct (Hgood r Hr) as (_ & (P & _) & So & _). auto. }
    destruct (C64_parsing_ends_without_unit_cycles scanned delta_meaning gamma_meaning re_match (talk lx) unit_rank [] text Hproper Hre Htot Hsol
      (rules_acyclic (talk lx) HG)) as (N & HN).
    exists N. intros fuel Hfu history number. set (g := past history).
    destruct (HN fuel Hfu) as (res & Hres). cbn [after_parses fold_left] in Hres.
    assert (Hfst : fst (parse_with re_match fuel text g) = Ok res).
    { rewrite <- Hres. apply (C65_earlier_parses_do_not_matter scanned delta_meaning gamma_meaning re_match history fuel text (grammar_rules (talk lx))). }
    assert (Epar : parse_with re_match fuel text g = (Ok res, past (history ++ [(fuel, text)]))).
    { destruct (parse_with re_match fuel text g) as [o g'] eqn:E. cbn in Hfst. subst o. f_equal.
      unfold after_parses. rewrite fold_left_app. change (g' = snd (parse_with re_match fuel text g)). now rewrite E. }
    destruct (Earley.pr_products res) as [|t ts] eqn:Eprod.
    - (* not a sentence *)
      exists number, 2. intros limit Hl. destruct limit as [|[|limit]]; try lia.
      destruct (C98_no_tree_no_effect_but_output V re_match fuel opt (solver_at mods (S (S limit))) (store_output mods (S (S limit))) kp kc ke text
             (mkWorld g number v) _ res Hk Epar Eprod) as (_ & Ea).
      assert (Hno : no_sentence lx text).
      { intros s Hs Es. destruct (sentence_derives lx Hw re_match (normalize text) s Hs Es) as (t & Ht).
        destruct (C62_every_derivation_is_found scanned delta_meaning gamma_meaning re_match (talk lx) history fuel text res
          (phrase "s" ["E1"]) t Hproper Hre Hsol Hfst eq_refl eq_refl Ht) as (t' & Ht' & _). rewrite Eprod in Ht'. destruct Ht'. }
      destruct (C66_errors_classify_the_failure scanned delta_meaning gamma_meaning re_match fuel text g res Hfst) as (_ & C).
      destruct (C Eprod) as (ch & m & _ & _ & C1 & C2 & C3). unfold exchange. rewrite Ea. cbn [sw_model sw_number].
      destruct (Nat.lt_ge_cases m (String.length (normalize text))) as [Hm|Hm].
      + destruct (C1 Hm) as (-> & ->). cbn [map]. change (append "output_" "unknown_word") with "output_unknown_word".
        rewrite store_unknown. cbn [with_world]. unfold on_model. cbn [sw_model sw_grammar sw_number].
        rewrite (read_word LR tables LB v rules A1 A2 A3 A4 A5 A9 format_table (S limit)). eexists. split; [reflexivity|]. now apply unknown_words.
      + destruct (string_dec (normalize text) "") as [E|E].
        * destruct (C2 Hm E) as (-> & ->). cbn [map]. destruct (store_failure limit "no_sentence") as (e & Es); [cbn; auto|]. rewrite Es.
          cbn [with_world]. unfold on_model. cbn [sw_model sw_grammar sw_number].
          rewrite (read_type LR tables LB v rules A1 A2 A3 A4 A5 A9 format_table (S limit) "no_sentence" "No sentence given") by (cbn; auto).
          eexists. split; [reflexivity|]. now apply nothing_said.
        * destruct (C3 Hm E) as (-> & ->). cbn [map]. destruct (store_failure limit "not_understood") as (e & Es); [cbn; auto|]. rewrite Es.
          cbn [with_world]. unfold on_model. cbn [sw_model sw_grammar sw_number].
          rewrite (read_type LR tables LB v rules A1 A2 A3 A4 A5 A9 format_table (S limit) "not_understood" "Sorry, I don't understand") by (cbn; auto).
          eexists. split; [reflexivity|]. now apply not_understood.
    - (* a sentence *)
      assert (Ein : In t (Earley.pr_products res)) by (rewrite Eprod; now left).
      assert (HG' : forall r, in_grammar (talk lx) r -> well_scoped (talks lx) r /\ plain_rule r) by (intros r Hin; split; apply (Hgood r Hin)).
      destruct (C96_texts_mean_what_the_rules_say (talks lx) re_match delta_meaning gamma_meaning (talk lx) history fuel text res t Hproper Hre HG' Hfst Ein number)
        as (p & number' & m & Ep & Eit & HTs & _ & Occ & Esp).
      destruct (C61_trees_are_derivations scanned delta_meaning gamma_meaning re_match (talk lx) history fuel text res t Hproper Hre Hfst Ein)
        as ((c & Sc & Tc & D) & _).
      assert (Hquiet : quiet_tree t).
      { apply (proj1 (derives_quiet re_match (in_grammar (talk lx)) (normalize text) (fun r Hr => proj2 (proj2 (proj2 (Hgood r Hr))))) _ _ _ _ D). }
      destruct (C80_variables_are_shared_or_fresh None t number p number' Ep) as (sigma & s' & n1 & X & _).
      destruct (proj1 quiet_nothing _ _ _ _ X Hquiet) as (Einf & Eexe). cbn [fst snd] in Einf, Eexe.
      destruct HTs as (s & Hs & Et & Hm).
      assert (Dol : forall y, occurs y m -> dollar y).
      { intros y Hy. destruct (Occ y Hy) as (k & _ & ->). apply var_name_dollar. }
      destruct (sentence_served _ s m t number p number' Hs Hm Dol Ep Eit) as (its & m' & Ep' & Em' & n0 & Hn0).
      exists number', (S n0). intros limit Hl. destruct limit as [|limit]; [lia|].
      destruct (Hn0 (S limit)) as (st & value & Es & Er & Hr); [lia|].
      exists (Ok (Some (Some (SList [[]]))), Ok value). split.
      + unfold exchange.
        rewrite (C98_the_first_tree_is_final V re_match fuel _ (solver_at mods (S limit)) (store_output mods (S limit)) kp kc ke text
             (mkWorld g number v) _ res t ts Hk Epar Eprod).
        cbn [sw_number sw_model]. rewrite Ep'. cbn [p_inferences p_executable p_iterations]. rewrite Einf, Eexe, Em'. cbn [foldM ret].
        assert (Ee : sv_solve (solver_at mods (S limit)) (VList []) [] v = (Ok (SList [[]]), v)) by reflexivity.
        rewrite Ee. unfold solve in Es. rewrite Es. cbn [with_world]. unfold on_model. cbn [sw_model sw_grammar sw_number].
        rewrite Er. reflexivity.
      + apply (answered lx ext text s); auto. rewrite <- Esp, Et. symmetry. now apply (sentence_lower lx Hw).
  Qed.

  Lemma conversation texts : exists N, forall fuel, N <= fuel -> forall history number, exists number' N', forall limit, N' <= limit ->
    exists rs, converse mods LB format_table re_match kp kc ke opt fuel limit texts (mkWorld (past history) number v)
      = (rs, mkWorld (past (history ++ map (pair fuel) texts)) number' v) /\ Forall2 (right_exchange lx ext) texts rs.
  Proof.
    induction texts as [|text texts (N2 & IH)].
    - exists 0. intros fuel _ history number. exists number, 0. intros limit _. exists []. cbn. rewrite app_nil_r. split; [reflexivity|constructor].
    - destruct (one_exchange text) as (N1 & H1). exists (N1 + N2). intros fuel Hf history number.
      destruct (H1 fuel ltac:(lia) history number) as (number1 & M1 & E1).
      destruct (IH fuel ltac:(lia) (history ++ [(fuel, text)]) number1) as (number2 & M2 & E2).
      exists number2, (M1 + M2). intros limit Hl. destruct (E1 limit ltac:(lia)) as (r & Er & Hr). destruct (E2 limit ltac:(lia)) as (rs & Ers & Hrs).
      exists (r :: rs). split; [|now constructor]. cbn [converse]. rewrite Er, Ers. cbn [map]. now rewrite <- app_assoc.
  Qed.
End Exchange.

(** Every lexicon, database, rules and list of texts, with or without the query
    optimizer, in any state of the grammar and with any number of variables used before.  With large enough
    limits each text that is a sentence is answered, and the reply is right for
    a sentence with this text; every other text is reported; and the model is
    afterwards what it was. *)
Theorem C46_a_conversation_is_answered_right :
  forall (V : Type) (LR : lens V rulebase) tables (LB : lens V sds_store) arity rules (v : V) rank sig lx
         format_table re_match kp kc ke opt history number texts,
    talking_program LR tables LB arity rules v -> hierarchical rank rules ->
    (forall r p, In r rules -> In p (preds (rl_body r)) -> has_relation tables rules v p) ->
    (forall p t, In t (db_of tables v p) -> Forall2 of_sort (sig p) t) ->
    (forall r, In r rules -> sorted_rule sig r) ->
    re_ok re_match -> good_lexicon tables arity rules v sig Text lx -> good_optimizer arity lx opt -> kp <> FindAll ->
    let g := after_parses scanned delta_meaning gamma_meaning re_match history (grammar_rules (talk lx)) in
    exists ext, completed (db_of tables v) rules ext /\
    (forall ext', completed (db_of tables v) rules ext' -> forall p t, ext' p t <-> ext p t) /\
    exists N, forall fuel, N <= fuel -> exists N', forall limit, N' <= limit ->
      let '(replies, w) := converse (talk_mods LR tables LB) LB format_table re_match kp kc ke opt fuel limit texts (mkWorld g number v) in
      sw_model w = v /\ Forall2 (right_exchange lx ext) texts replies.
Proof.
  intros V LR tables LB arity rules v rank sig lx format_table re_match kp kc ke opt history number texts Hp Hrank Hkn Hdb Hsr Hre Hlx Hopt Hk g.
  destruct (C44_rules_define_their_predicates (db_of tables v) rules rank Hrank) as (ext & He & Hu).
  exists ext. split; [exact He|]. split; [exact Hu|].
  destruct (conversation LR tables LB arity rules v rank sig lx format_table re_match kp kc ke Hp Hrank Hkn Hdb Hsr Hre Hlx Hk opt Hopt ext He texts) as (N & HN).
  exists N. intros fuel Hf. destruct (HN fuel Hf history number) as (number' & N' & HN'). exists N'. intros limit Hl.
  destruct (HN' limit Hl) as (rs & E & Hrs). fold g in E. rewrite E. auto.
Qed.
Print Assumptions C46_a_conversation_is_answered_right.

(** ** a conversation about the atlas *)

Definition sentence_rules_as_written : Prop :=
  written "s(E1) -> 'which' nbar(E1) vp(E1) + '?'" s_which_q /\
  written "s(E1) -> 'what' nbar(E1) 'are' 'there' + '?'" s_what /\
  written "s(E1) -> 'does' np(E1) vp(E1) + '?'" s_does /\
  written "s(E1) -> 'is' 'there' np(E1) + '?'" s_is_there /\
  written "s(E1) -> 'how' 'many' nbar(E2) vp(E2) + '?'" s_how_many.
Example C46_sentences_as_written : sentence_rules_as_written.
Proof. unfold sentence_rules_as_written, written. repeat split; vm_compute; reflexivity. Qed.

(** the write grammar, as in en_us_write.py and write_grammar.py *)
Example C46_replies_as_written :
  map (fun r => Ok (g_ante r, g_cons r)) (@write_rules unit (fun _ => throw TypeErr)) =
  map (GrammarParser.parse_syntax false)
    [ "s() -> 'Sorry, I don\'t understand'"; "s() -> 'No sentence given'"; "s() -> 'Could not understand:' text(E1)";
      "s() -> 'OK'"; "s() -> 'yes'"; "s() -> 'no'"; "s() -> value(E1)"; "s() -> text(E1) text(E2)";
      "s() -> format(E1)"; "s() -> format(E1, E2)"; "s() -> 'Cheerio.'" ].
Proof. vm_compute. reflexivity. Qed.

(** intents.pl *)
Definition intents_pl : string :=
"# intent predicates

intent_list(E1, Sem) :-
    find_all(E1, Sem, Elements),
    store(output_type('list'), output_list(Elements)).

intent_table(Variables, Units, Body) :-
    find_all(Variables, Body, Results),
    store(output_type('table'), output_table(Results, Units)).

intent_yn(Body) :- (
    scoped(Body),  store(output_type('yes'))
;   store(output_type('no'))
).

intent_value(Variable, Sem) :-
    find_one(Variable, Sem, Result),
    store(output_type('value'), output_value(Result)).

intent_value_with_unit(Variable, Unit, Sem) :-
    find_one(Variable, Sem, Result),
    store(output_type('value_with_unit'), output_value_with_unit(Result, Unit)).

intent_close_conversation() :-
    store(output_type('close_conversation')).
".
Example C46_intents_as_written :
  InferenceRuleParser.import_rules (mkLens (fun w => w) (fun s _ => s)) 2000 intents_pl (stored_rules [landlocked_rule])
  = (Ok tt, stored_rules [landlocked_rule] ++ intent_rules).
Proof. vm_compute. reflexivity. Qed.

Definition chat : Type := (ex_world * sds_store)%type.
Definition chat_rules : lens chat rulebase := mkLens (fun w => fst (fst w)) (fun s w => ((s, snd (fst w)), snd w)).
Definition chat_tables (w : chat) : string -> option (list (list value)) := ex_tables (fst w).
Definition chat_buffer : lens chat sds_store := mkLens snd (fun s w => (fst w, s)).
Definition chat_atlas : chat := ((stored_rules [landlocked_rule] ++ intent_rules, snd atlas), []).

Lemma chat_program : talking_program chat_rules chat_tables chat_buffer atlas_arity [landlocked_rule] chat_atlas.
Proof.
  destruct atlas_good_program as (H1 & H2 & H3 & H4). constructor; try reflexivity; auto.
  - constructor; [intros [] ?; reflexivity|intros [] ; reflexivity|intros [] ? ?; reflexivity].
  - intros p [H|(r & [<-|[]] & <-)].
    + unfold chat_tables, chat_atlas, ex_tables, atlas in H. cbn [fst snd ex_lookup] in H.
      destruct (String.eqb p "country") eqn:E; [apply String.eqb_eq in E; subst p; vm_compute; intuition discriminate|].
      destruct (String.eqb p "sea") eqn:E2; [apply String.eqb_eq in E2; subst p; vm_compute; intuition discriminate|].
      destruct (String.eqb p "borders") eqn:E3; [apply String.eqb_eq in E3; subst p; vm_compute; intuition discriminate|]. congruence.
    + vm_compute. intuition discriminate.
Qed.

Example C46_hypotheses :
  talking_program chat_rules chat_tables chat_buffer atlas_arity [landlocked_rule] chat_atlas /\
  hierarchical atlas_rank [landlocked_rule] /\
  (forall r p, In r [landlocked_rule] -> In p (preds (rl_body r)) -> has_relation chat_tables [landlocked_rule] chat_atlas p) /\
  (forall p t, In t (db_of chat_tables chat_atlas p) -> Forall2 of_sort (atlas_sig p) t) /\
  (forall r, In r [landlocked_rule] -> sorted_rule atlas_sig r) /\
  re_ok python_re /\ good_lexicon chat_tables atlas_arity [landlocked_rule] chat_atlas atlas_sig Text atlas_words /\
  good_optimizer atlas_arity atlas_words (Some (optimize atlas_sizes)) /\ FindOne <> FindAll.
Proof.
  destruct C88_english_hypotheses as (_ & H2 & H3 & H4 & H5 & H6 & H7 & H8).
  split; [exact chat_program|]. repeat (split; [first [exact H2|exact H3|exact H4|exact H5|exact H6]|]). split; [|split; [|exact H8]].
  - destruct H7 as [G1 G2 G3 G4 G5]. constructor; assumption.
  - destruct C88_optimized_hypotheses as (O1 & O2 & O3). constructor; auto.
    intros p r [<-|[<-|[<-|[]]]] [<-|[]]; reflexivity.
Qed.

Definition chat_with opt (texts : list string) : list (outcome value) * chat :=
  let '(rs, w) := converse (talk_mods chat_rules chat_tables chat_buffer) chat_buffer (fun _ => throw TypeErr) python_re
                    FindOne TryFirst TryFirst opt 200 30 texts (mkWorld (grammar_rules (talk atlas_words)) 0 chat_atlas) in
  (map snd rs, sw_model w).

Example C46_conversation_example :
  forall opt, In opt [None; Some (optimize atlas_sizes)] ->
  chat_with opt ["What countries are there?"; "Which country  borders a sea?"; "which country borders every sea?";
             "which countries border two seas?"; "which sea is bordered by a landlocked country?";
             "does every country border a sea?"; "does a landlocked country border a country?";
             "is there a country that does not border a sea?"; "is there a landlocked sea?"; "how many countries border a country?";
             "how many countries border the sea?"; "how many seas border a country?"; "which country borders Atlantis?"; ""; "which country borders a"]
  = ([Ok (S_ "ant, bor, cal, dur"); Ok (S_ "bor, cal, dur"); Ok (S_ "bor"); Ok (S_ "bor"); Ok (S_ "");
      Ok (S_ "no"); Ok (S_ "yes"); Ok (S_ "yes"); Ok (S_ "no"); Ok (VInt 6); Ok (VInt 4); Ok (VInt 0);
      Ok (S_ "Could not understand: tlantis? ..."); Ok (S_ "No sentence given"); Ok (S_ "Sorry, I don't understand")], chat_atlas).
Proof. intros opt [<-|[<-|[]]]; vm_compute; reflexivity. Qed.

(** The condition on numbers is needed: "how many" counts the ways in which
    something is true of a country, not the countries it is true of. *)
Definition countries_that_border_a_country : sentence :=
  SHowMany (Noun ("countries", "country")) (Active ("border", "borders") (Det (Some_ "a") (Noun ("country", "country")))).
Theorem C46_how_many_counts_combinations_refuted :
  let s := countries_that_border_a_country in
  sentence_in atlas_words s /\ ~ sentence_counts s /\
  sentence_text s = "how many countries border a country?" /\
  fst (chat_with None [sentence_text s]) = [Ok (VInt 6)] /\
  forall ext, completed (db_of chat_tables chat_atlas) [landlocked_rule] ext -> ~ reply ext s (VInt 6).
Proof.
  cbn zeta. split; [cbn; tauto|]. split; [cbn; tauto|]. split; [reflexivity|]. split; [vm_compute; reflexivity|].
  intros ext He H. inversion H as [| | | | | |b v n (l & Hnd & Hn & Hl) E1 E2].
  assert (Hincl : incl l [S_ "ant"; S_ "bor"; S_ "cal"; S_ "dur"]).
  { intros c Hc. apply Hl in Hc as (_ & Hc & _). cbn [nbar_true snd] in Hc. apply He in Hc as [Hc|(r & s & [<-|[]] & _ & _ & E & _)]; [|discriminate E].
    cbn in Hc. cbn. intuition congruence. }
  apply (NoDup_incl_length Hnd) in Hincl. cbn in Hincl. lia.
Qed.
Print Assumptions C46_how_many_counts_combinations_refuted.
