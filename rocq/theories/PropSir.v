(** * C59: being taught, and answering *)

From Coq Require Import ZArith QArith String Ascii List Bool Arith Lia Relations.
From Verif Require Import Py Effects Solver Grammar Earley ParserSpec GrammarParser Composer Sql SqliteDataSource SimpleDataSource Memory InferenceModule Generator
  FragmentModel RegexProofs2 Optimizer Pipeline QuestionSystem PropSystem TalkModel SirModel SirSpec SirProofs2 SirProofs3 SirProofs4 SirProofs5 SirProofs6 SirProofs7.
Import ListNotations.
Local Close Scope Q_scope.
Local Open Scope nat_scope.
Local Open Scope string_scope.
Local Open Scope list_scope.

(** the system when these facts have been told: they are in the table isa, in this
    order; the other tables and the output buffer are empty *)
Definition knows (facts : list (string * string)) : sir :=
  mkSir (mkConn sir_tables (("isa", mkTbl ["entity"; "type"] [] (map (fun f => [VStr (fst f); VStr (snd f)]) facts)) :: tl sir_tables))
    sir_rules [] (mkConn dialog_tables dialog_tables).
(** no query optimizer, or one that does not know the sizes of the relations,
    as here, where no relation has a size *)
Definition no_sizes (opt : option opt_fun) : Prop :=
  opt = None \/ exists find, opt = Some (optimize find) /\ forall q r, In r (find q) -> z_relation r = None.
(** a reply, or none before the recursion limit is reached *)
Definition reply_of (r : option string) : outcome value := match r with Some t => Ok (VStr t) | None => OutOfFuel end.

Lemma no_sizes_leaves opt : no_sizes opt -> leaves_intents opt.
Proof. intros [->|(find & -> & H)]; [exact I|]. now apply optimizer_leaves. Qed.

Lemma asks_run facts limit x y :
  solve sir_mods limit (asks x y) [] (knows facts) =
  match answer facts (limit - 3) x y with
  | None => (OutOfFuel, knows facts)
  | Some t => (Ok (SList [[]]), state (rows_of facts) (typed t))
  end.
Proof.
  change (knows facts) with (state (rows_of facts) []).
  destruct limit as [|[|[|n]]]; [reflexivity| | |].
  3:{ replace (S (S (S n)) - 3) with n by lia. exact (run_asks facts n x y). }
  - unfold asks. rewrite (inferred 0 "intent_isa" [rule_at "intent_isa" 0]); [|reflexivity|discriminate|reflexivity].
    unfold bind at 1. rewrite rule_rows_fold. cbn [fold_rules]. unfold bind at 1. erewrite rule_fuel; reflexivity.
  - unfold asks. rewrite (inferred 1 "intent_isa" [rule_at "intent_isa" 0]); [|reflexivity|discriminate|reflexivity].
    unfold bind at 1. rewrite rule_rows_fold. cbn [fold_rules]. unfold bind at 1. erewrite rule_fuel; reflexivity.
Qed.

(** what is replied to a type of answer *)
Definition said (t : string) : string :=
  if String.eqb t "yes" then "Yes" else if String.eqb t "sometimes" then "Sometimes" else "Insufficient information".

Section Dialog.
  Variables kp kc ke : bkind.
  Variable opt : option opt_fun.
  Hypothesis Hk : kp <> FindAll.
  Hypothesis Ho : leaves_intents opt.

  (** one sentence, with any limit of the solver *)
  Lemma one_sentence text s : worded s (normalize text) -> exists N, forall fuel, N <= fuel -> forall facts limit history number, exists r v,
    sir_exchange kp kc ke opt fuel limit text (mkWorld (past history) number (knows facts)) = (r, mkWorld (past (history ++ [(fuel, text)])) number v) /\
    match s with
    | Told x y => 19 <= limit -> r = Ok (VStr "I understand") /\ v = knows (facts ++ [(x, y)])
    | Asked x y => r = match answer facts (limit - 3) x y with Some t => Ok (VStr (said t)) | None => OutOfFuel end /\ v = knows facts
    end.
  Proof.
    intros Hw. destruct (sentence_parsed text s Hw) as (N & HN). exists N. intros fuel Hf facts limit history number.
    destruct (HN fuel Hf history) as (res & t & ts & Epar & Eprod & Hd).
    destruct (processed_opt opt (normalize text) s t Ho Hw Hd) as (sem & Hm & its & El & Ep).
    unfold sir_exchange.
    rewrite (C98_the_first_tree_is_final sir py_match fuel opt (solver_at sir_mods limit) (store_output sir_mods limit) kp kc ke text
             (mkWorld (past history) number (knows facts)) _ res t ts Hk Epar Eprod).
    cbn [sw_number sw_model]. rewrite Ep. cbn [p_inferences p_executable p_iterations]. rewrite El. cbn [foldM ret].
    destruct limit as [|limit].
    { eexists _, _. split; [reflexivity|]. destruct s; [lia|]. split; reflexivity. }
    assert (Ee : sv_solve (solver_at sir_mods (S limit)) (VList []) [] (knows facts) = (Ok (SList [[]]), knows facts)) by reflexivity.
    rewrite Ee. fold (solve sir_mods (S limit)). destruct s as [x y|x y].
    - destruct (le_lt_dec 19 (S limit)) as [Hl|Hl].
      2:{ unfold with_world. destruct (sv_solve (solver_at sir_mods (S limit)) sem [] (knows facts)) as [[o|e|] v1].
          - unfold on_model. cbn [sw_model sw_grammar sw_number]. destruct (generate_output _ _ _ _ v1) as [o2 v2]. eexists _, _. split; [reflexivity|lia].
          - eexists _, _. split; [reflexivity|lia].
          - eexists _, _. split; [reflexivity|lia]. }
      assert (Es : sv_solve (solver_at sir_mods (S limit)) sem [] (knows facts) = (Ok (SList [[]]), state (rows_of facts ++ [[VStr x; VStr y]]) (typed "understand"))).
      { destruct Hm as [-> | ->].
        - replace (S limit) with (10 + (S limit - 10)) by lia. apply (run_teach (S limit - 10) (rows_of facts) x y).
        - replace (S limit) with (19 + (S limit - 19)) by lia. apply (run_claim (S limit - 19) (rows_of facts) x y). }
      rewrite Es. cbn [with_world]. unfold on_model. cbn [sw_model sw_grammar sw_number].
      assert (Er : generate_output (grammar_rules sir_replies) (solve sir_mods (S limit)) out_lens (S limit) (state (rows_of facts ++ [[VStr x; VStr y]]) (typed "understand"))
        = (Ok (VStr "I understand"), state (rows_of facts ++ [[VStr x; VStr y]]) [])).
      { replace (S limit) with (4 + (S limit - 4)) by lia. apply read_reply. now left. }
      rewrite Er. eexists _, _. split; [reflexivity|]. intros _. split; [reflexivity|]. unfold knows, state, rows_of. now rewrite map_app.
    - cbn in Hm. subst sem. pose proof (asks_run facts (S limit) x y) as Es. unfold solve in Es. rewrite Es. clear Es.
      destruct (answer facts (S limit - 3) x y) as [ty|] eqn:Ea.
      2:{ cbn [with_world]. eexists _, _. split; [reflexivity|]. split; reflexivity. }
      cbn [with_world]. unfold on_model. cbn [sw_model sw_grammar sw_number].
      assert (Hl : 4 <= S limit).
      { destruct limit as [|[|[|limit]]]; try discriminate Ea. lia. }
      assert (Er : generate_output (grammar_rules sir_replies) (solve sir_mods (S limit)) out_lens (S limit) (state (rows_of facts) (typed ty))
        = (Ok (VStr (said ty)), state (rows_of facts) [])).
      { replace (S limit) with (4 + (S limit - 4)) by lia. apply read_reply. destruct (answer_sound _ _ _ _ _ Ea) as ([]& _); cbn; tauto. }
      rewrite Er. eexists _, _. split; [reflexivity|]. split; reflexivity.
  Qed.

  Lemma dialog texts ss : Forall2 (fun t s => worded s (normalize t)) texts ss -> exists N, forall fuel, N <= fuel ->
    forall facts limit history number, 20 + length facts + length texts <= limit -> exists rs,
      sir_dialog kp kc ke opt fuel limit texts (mkWorld (past history) number (knows facts)) =
        (map reply_of rs, mkWorld (past (history ++ map (pair fuel) texts)) number (knows (facts ++ flat_map told ss))) /\
      answers facts ss rs.
  Proof.
    induction 1 as [|text s texts ss Hw _ (N2 & IH)].
    - exists 0. intros fuel _ facts limit history number _. exists []. cbn. rewrite !app_nil_r. split; [reflexivity|constructor].
    - destruct (one_sentence text s Hw) as (N1 & H1). exists (N1 + N2). intros fuel Hf facts limit history number Hl. cbn [length] in Hl.
      destruct (H1 fuel ltac:(lia) facts limit history number) as (r & v & E & Hr).
      cbn [sir_dialog]. rewrite E. clear E.
      assert (Hv : v = knows (facts ++ told s)).
      { destruct s as [x y|x y]; cbn [told]; [apply Hr; lia|]. rewrite app_nil_r. apply Hr. }
      subst v. assert (Hlen : length (facts ++ told s) <= S (length facts)).
      { rewrite app_length. destruct s; cbn; lia. }
      destruct (IH fuel ltac:(lia) (facts ++ told s) limit (history ++ [(fuel, text)]) number ltac:(lia)) as (rs & E & Hrs).
      rewrite E. cbn [flat_map map]. rewrite <- !app_assoc. cbn [app]. destruct s as [x y|x y].
      + destruct Hr as (-> & _); [lia|]. exists (Some "I understand" :: rs). split; [reflexivity|]. constructor; [exact I|constructor|exact Hrs].
      + destruct Hr as (-> & _). destruct (answer facts (limit - 3) x y) as [t|] eqn:Ea.
        * destruct (answer_sound _ _ _ _ _ Ea) as (Ht & Ha). exists (Some (said t) :: rs). split; [reflexivity|]. constructor; [exact Ha| |exact Hrs].
          destruct Ht; now constructor.
        * exists (None :: rs). split; [reflexivity|]. apply answers_lost; [|exact Hrs]. apply (answer_none facts x y (limit - 3)); [lia|exact Ea].
  Qed.
End Dialog.

(** Every dialog: any texts that are wordings of sentences, after any earlier
    parses, with or without the query optimizer.  With enough of both limits each
    statement is noted, each question that does not lead into a circle of facts
    gets the right reply given what was told before it, and the other questions
    run into the recursion limit.  Afterwards the facts told are known, in
    this order, and nothing else has changed. *)
Theorem C59_dialogs_are_answered_right :
  forall texts ss kp kc ke opt, Forall2 (fun t s => worded s (normalize t)) texts ss -> kp <> FindAll -> no_sizes opt ->
  exists N, forall fuel, N <= fuel -> forall limit, 20 + length texts <= limit -> forall history number, exists rs,
    sir_dialog kp kc ke opt fuel limit texts (mkWorld (past history) number sir_start) =
      (map reply_of rs, mkWorld (past (history ++ map (pair fuel) texts)) number (knows (flat_map told ss))) /\
    answers [] ss rs.
Proof.
  intros texts ss kp kc ke opt Hw Hk Ho. destruct (dialog kp kc ke opt Hk (no_sizes_leaves opt Ho) texts ss Hw) as (N & HN).
  exists N. intros fuel Hf limit Hl history number. destruct (HN fuel Hf [] limit history number) as (rs & E & Hr); [cbn; lia|].
  exists rs. split; [exact E|exact Hr].
Qed.
Print Assumptions C59_dialogs_are_answered_right.

Lemma chain_more facts more a b : chain facts a b -> chain (facts ++ more) a b.
Proof. induction 1 as [a b H|a b c _ IH1 _ IH2]; [apply t_step, in_app_iff; now left|now apply t_trans with b]. Qed.
Lemma all_answered facts ss rs : answers facts ss rs -> acyclic (facts ++ flat_map told ss) -> exists rs', rs = map Some rs' /\ right_replies facts ss rs'.
Proof.
  induction 1 as [facts|facts s ss r rs Ha Hr _ IH|facts s ss rs Ha _ IH]; intros Hac.
  - exists []. split; [reflexivity|constructor].
  - cbn [flat_map] in Hac. rewrite app_assoc in Hac. destruct (IH Hac) as (rs' & -> & H). exists (r :: rs'). split; [reflexivity|now constructor].
  - exfalso. apply Ha. destruct s as [x y|x y]; [exact I|].
    assert (Hc : forall u, ~ circular facts u).
    { intros u (z & _ & Hz). apply (Hac z). now apply chain_more. }
    split; [apply Hc|]. right. right. apply Hc.
Qed.

(** If the facts told have no circles, every sentence is answered. *)
Theorem C59_without_circles_all_is_answered :
  forall texts ss kp kc ke opt, Forall2 (fun t s => worded s (normalize t)) texts ss -> kp <> FindAll -> no_sizes opt ->
  acyclic (flat_map told ss) ->
  exists N, forall fuel, N <= fuel -> forall limit, 20 + length texts <= limit -> forall history number, exists rs,
    sir_dialog kp kc ke opt fuel limit texts (mkWorld (past history) number sir_start) =
      (map (fun r => Ok (VStr r)) rs, mkWorld (past (history ++ map (pair fuel) texts)) number (knows (flat_map told ss))) /\
    right_replies [] ss rs.
Proof.
  intros texts ss kp kc ke opt Hw Hk Ho Hac. destruct (C59_dialogs_are_answered_right texts ss kp kc ke opt Hw Hk Ho) as (N & HN).
  exists N. intros fuel Hf limit Hl history number. destruct (HN fuel Hf limit Hl history number) as (rs & E & Hr).
  destruct (all_answered [] ss rs Hr Hac) as (rs' & -> & H).
  exists rs'. rewrite E, map_map. split; [reflexivity|exact H].
Qed.
Print Assumptions C59_without_circles_all_is_answered.

(** Whatever the limit of the solver: a question is answered right, or it runs
    into that limit; and if it leads into a circle, it does so with every limit. *)
Theorem C59_circles_are_never_answered :
  forall text x y kp kc ke opt facts, worded (Asked x y) (normalize text) -> kp <> FindAll -> no_sizes opt ->
  exists N, forall fuel, N <= fuel -> forall limit history number, exists r,
    sir_exchange kp kc ke opt fuel limit text (mkWorld (past history) number (knows facts)) =
      (reply_of r, mkWorld (past (history ++ [(fuel, text)])) number (knows facts)) /\
    (forall t, r = Some t -> right_reply facts (Asked x y) t) /\
    (~ answerable facts (Asked x y) -> r = None).
Proof.
  intros text x y kp kc ke opt facts Hw Hk Ho. destruct (one_sentence kp kc ke opt Hk (no_sizes_leaves opt Ho) text (Asked x y) Hw) as (N & HN).
  exists N. intros fuel Hf limit history number. destruct (HN fuel Hf facts limit history number) as (r & v & E & -> & ->).
  rewrite E. destruct (answer facts (limit - 3) x y) as [t|] eqn:Ea.
  - destruct (answer_sound _ _ _ _ _ Ea) as (Ht & Ha). exists (Some (said t)). split; [reflexivity|]. split.
    + intros t' [= <-]. destruct Ht; now constructor.
    + contradiction.
  - exists None. split; [reflexivity|]. split; [discriminate|reflexivity].
Qed.
Print Assumptions C59_circles_are_never_answered.

(** ** the example of the test *)

Definition sir_world : world sir := mkWorld (grammar_rules sir_grammar) 0 sir_start.
Definition first_lines : list string :=
  [ "Every keypunch-operator is a girl"; "Any girl is an example of a person"; "Is a keypunch-operator a person?";
    "Is a person a person?"; "Is a person a girl?"; "Is a monkey a keypunch-operator?" ].
Definition first_replies : list string := ["I understand"; "I understand"; "Yes"; "Yes"; "Sometimes"; "Insufficient information"].
Definition first_sentences : list sentence :=
  [ Told "keypunch-operator" "girl"; Told "girl" "person"; Asked "keypunch-operator" "person"; Asked "person" "person"; Asked "person" "girl";
    Asked "monkey" "keypunch-operator" ].
(** they are wordings of sentences *)
Lemma noun_of w groups : 2 <= String.length w -> all_word w = true -> forallb (fun g => negb (String.eqb g "") && all_word g)%bool groups = true ->
  (forall u, append w (hyphened groups) <> append u "s" /\ append w (hyphened groups) <> append u "S") -> noun (append w (hyphened groups)).
Proof.
  intros H1 H2 H3 H4. split; [|exact H4]. exists w, groups. split; [reflexivity|]. split; [exact H1|]. split; [exact H2|]. intros g Hg.
  rewrite forallb_forall in H3. specialize (H3 g Hg). apply andb_prop in H3 as (H3 & H5). split; [|exact H5]. intros ->. discriminate.
Qed.
Fixpoint final (x : string) : ascii := match x with "" => " "%char | String c "" => c | String _ x' => final x' end.
Lemma final_app u c : final (append u (String c "")) = c.
Proof. induction u as [|a [|b u] IH]; [reflexivity|reflexivity|exact IH]. Qed.
Lemma no_plural x : final x <> "s"%char -> final x <> "S"%char -> forall u, x <> append u "s" /\ x <> append u "S".
Proof. intros H1 H2 u. split; intros ->; rewrite final_app in *; congruence. Qed.
Ltac is_noun w gs := apply (noun_of w gs); [cbn; lia|reflexivity|reflexivity|apply no_plural; discriminate].
Example C59_first_sentences : Forall2 (fun t s => worded s (normalize t)) first_lines first_sentences.
Proof.
  assert (K : noun "keypunch-operator") by is_noun "keypunch" ["operator"]. assert (G : noun "girl") by is_noun "girl" (@nil string).
  assert (P : noun "person") by is_noun "person" (@nil string). assert (M : noun "monkey") by is_noun "monkey" (@nil string).
  assert (A : article "a") by (now left).
  repeat constructor.
  - apply (every_is_a "Every" "keypunch-operator" "is" "a" "girl"); auto.
  - apply (any_is_an_example "Any" "girl" "is" "an" "example" "of" "a" "person"); auto.
  - apply (is_a_a "Is" "a" "keypunch-operator" "a" "person" "?"); auto.
  - apply (is_a_a "Is" "a" "person" "a" "person" "?"); auto.
  - apply (is_a_a "Is" "a" "person" "a" "girl" "?"); auto.
  - apply (is_a_a "Is" "a" "monkey" "a" "keypunch-operator" "?"); auto.
Qed.
Example C59_first_facts : acyclic (flat_map told first_sentences).
Proof.
  assert (H : forall x y, chain (flat_map told first_sentences) x y -> (x = "keypunch-operator" /\ (y = "girl" \/ y = "person")) \/ (x = "girl" /\ y = "person")).
  { induction 1 as [x y H|x y z _ IH1 _ IH2].
    - cbn in H. destruct H as [[= <- <-]|[[= <- <-]|[]]]; auto.
    - destruct IH1 as [(-> & [->| ->])|(-> & ->)], IH2 as [(E & F)|(E & F)]; try discriminate E; auto. }
  intros x Hx. destruct (H x x Hx) as [(-> & [E|E])|(-> & E)]; discriminate E.
Qed.
Example C59_first_lines :
  fst (sir_dialog TryFirst TryFirst TryFirst None 400 30 first_lines sir_world) = map (fun r => Ok (VStr r)) first_replies.
Proof. vm_compute. reflexivity. Qed.
(** with an optimizer that knows no sizes *)
Example C59_first_lines_optimized :
  fst (sir_dialog TryFirst TryFirst TryFirst (Some (optimize (fun _ => [mkSizes None []]))) 400 30 first_lines sir_world) = map (fun r => Ok (VStr r)) first_replies.
Proof. vm_compute. reflexivity. Qed.

(** ** where the system does not do what one expects *)

(** A question need not be answered: when a cat is a mammal and a mammal is a cat,
    no limit is enough to tell whether a cat is a bird. *)
Theorem C59_every_question_is_answered_refuted :
  exists texts ss text x y, Forall2 (fun t s => worded s (normalize t)) texts ss /\ worded (Asked x y) (normalize text) /\
    forall kp kc ke opt, kp <> FindAll -> no_sizes opt -> exists N, forall fuel, N <= fuel -> forall limit history number,
      fst (sir_exchange kp kc ke opt fuel limit text (mkWorld (past history) number (knows (flat_map told ss)))) = OutOfFuel.
Proof.
  exists ["a cat is a mammal"; "a mammal is a cat"], [Told "cat" "mammal"; Told "mammal" "cat"], "is a cat a bird?", "cat", "bird".
  assert (C : noun "cat") by is_noun "cat" (@nil string). assert (M : noun "mammal") by is_noun "mammal" (@nil string).
  assert (B : noun "bird") by is_noun "bird" (@nil string). assert (A : article "a") by (now left).
  split; [|split].
  - repeat constructor; [apply (a_is_a "a" "cat" "is" "a" "mammal")|apply (a_is_a "a" "mammal" "is" "a" "cat")]; auto.
  - apply (is_a_a "is" "a" "cat" "a" "bird" "?"); auto.
  - intros kp kc ke opt Hk Ho.
    destruct (C59_circles_are_never_answered "is a cat a bird?" "cat" "bird" kp kc ke opt (flat_map told [Told "cat" "mammal"; Told "mammal" "cat"])) as (N & HN); auto.
    { apply (is_a_a "is" "a" "cat" "a" "bird" "?"); auto. }
    exists N. intros fuel Hf limit history number. destruct (HN fuel Hf limit history number) as (r & E & _ & Hn). rewrite E.
    rewrite Hn; [reflexivity|]. intros (H & _). apply H.
    assert (L : chain (flat_map told [Told "cat" "mammal"; Told "mammal" "cat"]) "cat" "cat") by (apply t_trans with "mammal"; apply t_step; cbn; auto).
    exists "cat". split; exact L.
Qed.
Print Assumptions C59_every_question_is_answered_refuted.

(** A noun that ends in an s is taken for a plural: a bus is a bu. *)
Theorem C59_nouns_are_kept_as_they_are_refuted :
  exists fuel limit, fst (sir_dialog TryFirst TryFirst TryFirst None fuel limit ["A bus is a vehicle"; "Is a bu a vehicle?"] sir_world) =
    [Ok (VStr "I understand"); Ok (VStr "Yes")].
Proof. exists 400, 30. vm_compute. reflexivity. Qed.
Print Assumptions C59_nouns_are_kept_as_they_are_refuted.

(** ** the files *)

(** intents.pl and inferences.pl are read without an error, and the rules are the ones used *)
Example C59_rules_as_written : imported = (Ok tt, sir_rules).
Proof. vm_compute. reflexivity. Qed.
(** read_grammar.py *)
Example C59_sentences_as_written :
  map (GrammarParser.parse_syntax false)
    [ "s() -> statement()"; "statement() -> 'every' common_noun_name() 'is' a() common_noun_name()";
      "statement() -> 'any' common_noun_name() 'is' 'an' 'example' 'of' a() common_noun_name()";
      "statement() -> a() common_noun_name() 'is' a() common_noun_name()";
      "s() -> 'is' a() common_noun_name() a() common_noun_name()~'?'"; "a() -> 'a'"; "a() -> 'an'"; "common_noun_name() -> name()";
      "common_noun_name() -> common_noun_name()+'s'"; "name() -> /\w[\w\d]+(-[\w\d]+)*/" ] =
  map (fun r => Ok (g_ante r, g_cons r)) sir_grammar.
Proof. vm_compute. reflexivity. Qed.
(** en_us_write.py and write_grammar.py *)
Example C59_replies_as_written :
  map (GrammarParser.parse_syntax false)
    [ "s() -> 'Sorry, I don\'t understand'"; "s() -> 'No sentence given'"; "s() -> 'Could not understand:' text(E1)";
      "s() -> 'I understand'"; "s() -> 'Insufficient information'"; "s() -> 'No, they are the same'"; "s() -> 'No, part means proper subpart'";
      "s() -> 'No, but the reverse is sometimes true'"; "s() -> 'Sometimes'"; "s() -> 'Yes'"; "s() -> 'No'"; "s() -> 'The above statement is impossible'" ] =
  map (fun r => Ok (g_ante r, g_cons r)) sir_replies.
Proof. vm_compute. reflexivity. Qed.
