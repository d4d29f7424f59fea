(** * Property C104: places of birth, looked up in Wikidata *)

From Coq Require Import ZArith String Ascii List Bool Arith Lia Permutation.
From Verif Require Import Py Effects Solver Grammar Earley ParserSpec Composer Sparql SparqlEngine SparqlEngineProofs PropSparql SimpleDataSource Memory InferenceModule Generator
  FragmentModel RegexProofs2 Pipeline QuestionSystem PropSystem TalkModel SirModel SirSpec CooperModel WikidataModel WikidataSpec WikidataProofs WikidataProofs2 WikidataProofs3.
Import ListNotations.
Local Open Scope nat_scope.
Local Open Scope string_scope.
Local Open Scope list_scope.

(** the names that the rules use for what is in the graph *)
Definition speaks (expand : string -> option term) (V : vocabulary) : Prop :=
  expand "rdfs:label" = Some (v_label V) /\ expand "wdt:P31" = Some (v_instance V) /\
  expand "wdt:P19" = Some (v_birth V) /\ expand "wd:Q5" = Some (v_human V).

(** the system with an endpoint in state [e], when these reports have not been read *)
Definition left_with {E} (e : E) (reports_left : list string) : wiki E :=
  mkWiki e wiki_rules
    match reports_left with
    | [] => []
    | _ => [("output_type", map (fun _ => [("type", VStr "report")]) reports_left); ("output_report", map (fun l => [("report", VStr l)]) reports_left)]
    end.

Section Turn.
  Context {E : Type}.
  Variable ask : string -> M E response.
  Variable expand : string -> option term.
  Variable V : vocabulary.
  Variable graph : list triple.
  Hypothesis Hserves : serves expand graph ask.
  Hypothesis Hspeaks : speaks expand V.
  Hypothesis Horderly : orderly V graph.

  Lemma one_question text n : person_name n -> asks_for n (normalize text) -> exists N, forall fuel, N <= fuel ->
    forall limit history number e pending, 3 <= limit -> exists o e' pending',
      wiki_exchange ask fuel limit text (mkWorld (past history) number (left_with e pending)) =
        (o, mkWorld (past (history ++ [(fuel, text)])) (S (S number)) (left_with e' pending')) /\ turn V graph n pending o pending'.
  Proof.
    intros Hn Ha. destruct Hspeaks as (H1 & H2 & H3 & H4). destruct (question_parsed text n Hn Ha) as (N & HN). exists N. intros fuel Hf limit history number e pending Hl.
    destruct (HN fuel Hf history) as (res & t & ts & Epar & Eprod & Hd).
    destruct (question_processed n (normalize text) t Hn Ha Hd number) as (k1 & k2 & Hk & root & Ep).
    unfold wiki_exchange.
    rewrite (C98_the_first_tree_is_final (wiki E) py_match fuel None (solver_at (wiki_mods E ask) limit) (store_output (wiki_mods E ask) limit) FindOne TryFirst TryFirst text
             (mkWorld (past history) number (left_with e pending)) _ res t ts ltac:(discriminate) Epar Eprod).
    cbn [sw_number sw_model]. rewrite Ep.
    cbn [p_inferences p_executable p_iterations map snd last foldM ret].
    destruct limit as [|[|[|k]]]; [lia|lia|lia|].
    assert (Ee : sv_solve (solver_at (wiki_mods E ask) (S (S (S k)))) (VList []) [] (left_with e pending) = (Ok (SList [[]]), left_with e pending)) by reflexivity.
    rewrite Ee.
    destruct (solve_goal ask expand V graph Hserves H1 H2 H3 H4 Horderly k1 k2 Hk k n e pending Hn) as (ls & e' & Hls & [((i & Hi) & Hall & Hlab & bs & Es)|[(Hno & Es)|((i & p & Hi & Hh & Hb & Hu) & Es)]]);
      change (st e (reports pending)) with (left_with e pending) in Es; change (st e' (reports (pending ++ ls))) with (left_with e' (pending ++ ls)) in Es;
      unfold solve in Es; change (3 + k) with (S (S (S k))) in Es; rewrite Es; cbn [with_world].
    - unfold on_model. cbn [sw_model sw_grammar sw_number].
      pose proof (reply_run ask (S (S k)) e' (pending ++ ls)) as Er. change (st e' (reports (pending ++ ls))) with (left_with e' (pending ++ ls)) in Er. rewrite Er.
      eexists _, e', []. split; [reflexivity|]. unfold replied. destruct (pending ++ ls) as [|l more] eqn:El.
      + apply app_eq_nil in El as (-> & ->). apply turn_nothing with i; [exact Hi|exact Hlab|]. intros q Hq. exact (Hall q Hq).
      + apply turn_told with ls more i; [exact Hi|exact Hlab| |exact El]. intros q. split; [apply Hls|apply Hall].
    - exists (Exn (Raise (append "Name not found: " n))), e', pending. replace (pending ++ ls) with pending; [split; [reflexivity|now constructor]|].
      destruct ls as [|l ls]; [now rewrite app_nil_r|]. destruct (Hls l (or_introl eq_refl)) as (i & Hi & _). elim (Hno i Hi).
    - exists (Exn AttributeErr), e', (pending ++ ls). split; [reflexivity|]. now apply turn_unlabelled with i p.
  Qed.

  Lemma questions texts ns : Forall2 (fun t n => person_name n /\ asks_for n (normalize t)) texts ns -> exists N, forall fuel, N <= fuel ->
    forall limit history number e pending, 3 <= limit -> exists os e' pending',
      wiki_dialog ask fuel limit texts (mkWorld (past history) number (left_with e pending)) =
        (os, mkWorld (past (history ++ map (pair fuel) texts)) (2 * length texts + number) (left_with e' pending')) /\ turns V graph ns pending os pending'.
  Proof.
    induction 1 as [|text n texts ns (Hn & Ha) _ (N2 & IH)].
    - exists 0. intros fuel _ limit history number e pending _. exists [], e, pending. cbn. rewrite app_nil_r. split; [reflexivity|constructor].
    - destruct (one_question text n Hn Ha) as (N1 & H1). exists (N1 + N2). intros fuel Hf limit history number e pending Hl.
      destruct (H1 fuel ltac:(lia) limit history number e pending Hl) as (o & e1 & p1 & E1 & Ht). cbn [wiki_dialog]. rewrite E1.
      destruct (IH fuel ltac:(lia) limit (history ++ [(fuel, text)]) (S (S number)) e1 p1 Hl) as (os & e2 & p2 & E2 & Hts). rewrite E2.
      exists (o :: os), e2, p2. cbn [map length]. rewrite <- app_assoc. cbn [app]. replace (2 * S (length texts) + number) with (2 * length texts + S (S number)) by lia.
      split; [reflexivity|]. now apply turns_go_on with p1.
  Qed.
End Turn.

(** without reports left from before, a question is answered right *)
Lemma turn_right V graph n o left : turn V graph n [] o left -> right_answer V graph n o.
Proof.
  intros H. inversion H as [left' places l more i Hi Hlab Hp El|i Hi Hlab Hp|left' Hno|left' places i p Hi Hh Hb Hu Hp]; subst.
  - cbn in El. subst places. destruct (proj1 (Hp l) (or_introl eq_refl)) as (j & Hj & Hh & p & Hb & Hl). now apply the_place with j p.
  - apply no_place_known with i; [exact Hi|]. intros j p Hj Hh Hb. apply (Hlab j p Hj Hh Hb). intros l Hl. apply (Hp l). exists j. split; [exact Hj|]. split; [exact Hh|]. now exists p.
  - now constructor.
  - now apply place_without_label with i p.
Qed.
(** reports are left only by a question that ended with an error about a place without a label *)
Lemma turn_leaves V graph n o left : turn V graph n [] o left -> o <> Exn AttributeErr -> left = [].
Proof. intros H. now inversion H. Qed.
Lemma turns_right V graph ns left os left' : turns V graph ns left os left' -> left = [] -> forall k n o, nth_error ns k = Some n -> nth_error os k = Some o ->
  (forall j, j < k -> nth_error os j <> Some (Exn AttributeErr)) -> right_answer V graph n o.
Proof.
  induction 1 as [left|n ns left o left1 os left2 Ht _ IH]; intros -> k m r Hm Hr Hj; [now destruct k|].
  destruct k as [|k].
  - injection Hm as <-. injection Hr as <-. now apply turn_right with left1.
  - cbn in Hm, Hr. apply (IH (turn_leaves _ _ _ _ _ Ht ltac:(intros ->; now apply (Hj 0 ltac:(lia)))) k m r Hm Hr).
    intros j Hlt. apply (Hj (S j)). lia.
Qed.

(** Every endpoint that answers queries from a graph, in any order; every graph
    in which labels are texts of resources and places of birth are resources;
    every question about a name of plain word characters, in any case and spacing,
    after any earlier parses and with any reports that have not been read.  With
    enough of the parser's limit, and a solver's limit of three: the name of a place where a
    person of that name was born is told, or it is said that nothing has that name,
    or that there is nothing to tell, or that a place has no label; and the
    reports that were left come first. *)
Theorem C104_each_question :
  forall E (ask : string -> M E response) expand V graph, serves expand graph ask -> speaks expand V -> orderly V graph ->
  forall text n, person_name n -> asks_for n (normalize text) ->
  exists N, forall fuel, N <= fuel -> forall limit history number e reports_left, 3 <= limit -> exists o e' reports_left',
    wiki_exchange ask fuel limit text (mkWorld (past history) number (left_with e reports_left)) =
      (o, mkWorld (past (history ++ [(fuel, text)])) (S (S number)) (left_with e' reports_left')) /\
    turn V graph n reports_left o reports_left'.
Proof. intros E ask expand V graph Hs Hv Ho text n Hn Ha. exact (one_question ask expand V graph Hs Hv Ho text n Hn Ha). Qed.
Print Assumptions C104_each_question.

(** Every dialog with a new system: each question gets the right answer, up to
    the first one that ends with the error about a place without a label; and
    what happens afterwards is what the turns say. *)
Theorem C104_dialogs_are_answered_right :
  forall E (ask : string -> M E response) expand V graph, serves expand graph ask -> speaks expand V -> orderly V graph ->
  forall texts ns, Forall2 (fun t n => person_name n /\ asks_for n (normalize t)) texts ns ->
  exists N, forall fuel, N <= fuel -> forall limit history number e, 3 <= limit -> exists os e' reports_left,
    wiki_dialog ask fuel limit texts (mkWorld (past history) number (wiki_start e)) =
      (os, mkWorld (past (history ++ map (pair fuel) texts)) (2 * length texts + number) (left_with e' reports_left)) /\
    turns V graph ns [] os reports_left /\
    forall k n o, nth_error ns k = Some n -> nth_error os k = Some o -> (forall j, j < k -> nth_error os j <> Some (Exn AttributeErr)) ->
      right_answer V graph n o.
Proof.
  intros E ask expand V graph Hs Hv Ho texts ns H. destruct (questions ask expand V graph Hs Hv Ho texts ns H) as (N & HN). exists N.
  intros fuel Hf limit history number e Hl. destruct (HN fuel Hf limit history number e [] Hl) as (os & e' & p & E1 & Ht).
  exists os, e', p. split; [exact E1|]. split; [exact Ht|]. apply (turns_right V graph ns [] os p Ht eq_refl).
Qed.
Print Assumptions C104_dialogs_are_answered_right.

(** When every place of birth has a label, every question of a dialog is answered right. *)
Theorem C104_with_labels_all_is_answered_right :
  forall E (ask : string -> M E response) expand V graph, serves expand graph ask -> speaks expand V -> orderly V graph ->
  (forall i p, born_in V graph i p -> exists l, labelled V graph p l) ->
  forall texts ns, Forall2 (fun t n => person_name n /\ asks_for n (normalize t)) texts ns ->
  exists N, forall fuel, N <= fuel -> forall limit history number e, 3 <= limit -> exists os e',
    wiki_dialog ask fuel limit texts (mkWorld (past history) number (wiki_start e)) =
      (os, mkWorld (past (history ++ map (pair fuel) texts)) (2 * length texts + number) (wiki_start e')) /\
    Forall2 (right_answer V graph) ns os.
Proof.
  intros E ask expand V graph Hs Hv Ho Hl texts ns H. destruct (questions ask expand V graph Hs Hv Ho texts ns H) as (N & HN). exists N.
  intros fuel Hf limit history number e Hlim. destruct (HN fuel Hf limit history number e [] Hlim) as (os & e' & p & E1 & Ht).
  assert (Hall : p = [] /\ Forall2 (right_answer V graph) ns os).
  { clear E1 HN H. remember [] as left eqn:El in Ht. induction Ht as [left|n ms left o left1 os left2 H1 H2 IH]; [split; [exact El|constructor]|].
    subst left. assert (Hn : o <> Exn AttributeErr).
    { intros ->. inversion H1 as [| | |left' places i q Hi Hh Hb Hu Hp]. destruct (Hl i q Hb) as (l & Hlab). exact (Hu l Hlab). }
    pose proof (turn_leaves _ _ _ _ _ H1 Hn) as El. destruct (IH El) as (Hp & Hr).
    split; [exact Hp|]. constructor; [|exact Hr]. now apply turn_right with left1. }
  destruct Hall as (-> & Hr). exists os, e'. split; [exact E1|exact Hr].
Qed.
Print Assumptions C104_with_labels_all_is_answered_right.

(** ** An endpoint *)

Definition vocab : vocabulary := mkVocabulary (Iri "label") (Iri "P31") (Iri "P19") (Iri "Q5").
Definition known (w : string) : option term :=
  if String.eqb w "rdfs:label" then Some (v_label vocab)
  else if String.eqb w "wdt:P31" then Some (v_instance vocab)
  else if String.eqb w "wdt:P19" then Some (v_birth vocab)
  else if String.eqb w "wd:Q5" then Some (v_human vocab) else None.
Definition endpoint (graph : list triple) (text : string) : M unit response :=
  match query_of_text known text with
  | Some q => ret (RData (map json (SparqlEngine.answers graph q)))
  | None => ret (RStatus 400)
  end.
Lemma endpoint_serves graph : serves known graph (endpoint graph).
Proof.
  intros text []. exists tt. unfold endpoint. destruct (query_of_text known text) as [q|]; [|reflexivity].
  eexists. split; [reflexivity|]. apply Permutation_refl.
Qed.
Lemma known_speaks : speaks known vocab.
Proof. now repeat split. Qed.

Definition name_of (i n : string) : triple := mkTriple (Iri i) (v_label vocab) (Text n "en").
Definition person (i : string) : triple := mkTriple (Iri i) (v_instance vocab) (v_human vocab).
Definition birth (i p : string) : triple := mkTriple (Iri i) (v_birth vocab) (Iri p).
Definition well_made (t : triple) : bool :=
  match t with
  | mkTriple (Iri i) (Iri p) (Text n l) => (forallb is_iri_char (list_ascii_of_string i) && negb (String.eqb p "P19"))%bool
  | mkTriple (Iri i) (Iri p) (Iri q) => (forallb is_iri_char (list_ascii_of_string q) && negb (String.eqb p "label"))%bool
  | _ => false
  end.
Lemma resource_of i : forallb is_iri_char (list_ascii_of_string i) = true -> resource i.
Proof. induction i as [|c i IH]; [exact (fun _ => I)|]. cbn. rewrite andb_true_iff. intros (H & Hi). split; [exact H|now apply IH]. Qed.
Lemma orderly_of graph : forallb well_made graph = true -> orderly vocab graph.
Proof.
  intros H t Ht. rewrite forallb_forall in H. specialize (H t Ht). destruct t as [[i|? ?] [p|? ?] [q|n l]]; try discriminate H; cbn in H.
  - apply andb_true_iff in H as (Hr & Hp). cbn. split; [|intros _; exists i, q; split; [reflexivity|]; split; [reflexivity|now apply resource_of]].
    intros [= ->]. discriminate Hp.
  - apply andb_true_iff in H as (Hr & Hp). cbn. split; [intros _; exists i, n, l; split; [reflexivity|]; split; [now apply resource_of|reflexivity]|].
    intros [= ->]. discriminate Hp.
Qed.

Definition said_of (graph : list triple) (texts : list string) : list (outcome value) :=
  fst (wiki_dialog (endpoint graph) 200 5 texts (mkWorld (grammar_rules wiki_grammar) 1 (wiki_start tt))).
Definition stars : list triple :=
  [ name_of "e:1" "Madonna"; name_of "e:3" "Madonna"; name_of "e:2" "Bay City"; person "e:1"; birth "e:1" "e:2";
    name_of "e:4" "Plato"; person "e:4" ].

Example C104_example :
  serves known stars (endpoint stars) /\ speaks known vocab /\ orderly vocab stars /\
  (forall i p, born_in vocab stars i p -> exists l, labelled vocab stars p l) /\
  Forall2 (fun t n => person_name n /\ asks_for n (normalize t))
    ["Where was madonna born?"; "where was  Plato born?"; "Where was Xyz born?"] ["madonna"; "Plato"; "Xyz"] /\
  said_of stars ["Where was madonna born?"; "where was  Plato born?"; "Where was Xyz born?"] =
    [Ok (VStr "Bay City"); Exn (Raise "No rule found"); Exn (Raise "Name not found: Xyz")].
Proof.
  split; [apply endpoint_serves|]. split; [exact known_speaks|]. split; [now apply orderly_of|]. split.
  { unfold born_in, stars. cbn [In]. intros i p H. repeat (destruct H as [H|H]; [try discriminate H; injection H as <- <-; exists "Bay City"; unfold labelled; cbn; tauto|]). contradiction. }
  split; [|vm_compute; reflexivity].
  assert (P : forall n, n <> "" -> all_word n = true -> forallb (fun c => Nat.ltb (nat_of_ascii c) 128) (list_ascii_of_string n) = true -> person_name n).
  { intros n H1 H2 H3. split; [exact H1|]. split; [exact H2|]. clear H1 H2. induction n as [|c n IH]; [exact I|].
    cbn [list_ascii_of_string forallb] in H3. apply andb_true_iff in H3 as (Hc & H3). split; [now apply Nat.ltb_lt|now apply IH]. }
  constructor; [split; [now apply P|]|constructor; [split; [now apply P|]|constructor; [split; [now apply P|]|constructor]]].
  - change (normalize "Where was madonna born?") with (append (spaced ["Where"; "was"; "madonna"; "born"]) "?"). now constructor.
  - change (normalize "where was  Plato born?") with (append (spaced ["where"; "was"; "Plato"; "born"]) "?"). now constructor.
  - change (normalize "Where was Xyz born?") with (append (spaced ["Where"; "was"; "Xyz"; "born"]) "?"). now constructor.
Qed.

(** Something that is no person hides the person with the same name in capitals:
    a song with the label in small letters, and the question is no longer answered. *)
Theorem C104_the_case_of_a_name_refuted :
  (exists i p, is_human vocab (name_of "e:9" "madonna" :: stars) i /\ labelled vocab (name_of "e:9" "madonna" :: stars) i "Madonna" /\
     born_in vocab (name_of "e:9" "madonna" :: stars) i p /\ labelled vocab (name_of "e:9" "madonna" :: stars) p "Bay City") /\
  said_of stars ["Where was madonna born?"] = [Ok (VStr "Bay City")] /\
  said_of (name_of "e:9" "madonna" :: stars) ["Where was madonna born?"] = [Exn (Raise "No rule found")].
Proof.
  split; [exists "e:1", "e:2"; cbn; unfold is_human, labelled, born_in; cbn; tauto|]. split; vm_compute; reflexivity.
Qed.
Print Assumptions C104_the_case_of_a_name_refuted.

(** Two people of the same name: only one place is told. *)
Definition two_people : list triple :=
  [ name_of "e:1" "Paris"; person "e:1"; birth "e:1" "e:2"; name_of "e:2" "Troy"; name_of "e:3" "Paris"; person "e:3"; birth "e:3" "e:4"; name_of "e:4" "Los Angeles" ].
Theorem C104_all_places_refuted :
  orderly vocab two_people /\ birthplace vocab two_people "Paris" "Troy" /\ birthplace vocab two_people "Paris" "Los Angeles" /\
  said_of two_people ["Where was Paris born?"; "Where was Paris born?"] = [Ok (VStr "Troy"); Ok (VStr "Troy")].
Proof.
  split; [now apply orderly_of|].
  split; [exists "e:1"; split; [left|]; unfold labelled, is_human, born_in; cbn; [tauto|]; split; [tauto|exists "e:2"; tauto]|].
  split; [exists "e:3"; split; [left|]; unfold labelled, is_human, born_in; cbn; [tauto|]; split; [tauto|exists "e:4"; tauto]|].
  vm_compute; reflexivity.
Qed.
Print Assumptions C104_all_places_refuted.

(** A place without a label: an error, and the report about someone else of that
    name is left.  The next question, about a person born elsewhere, is answered with it. *)
Definition unfinished : list triple :=
  [ name_of "e:1" "Paris"; person "e:1"; birth "e:1" "e:2"; name_of "e:2" "Troy"; name_of "e:3" "Paris"; person "e:3"; birth "e:3" "e:4";
    name_of "e:5" "Plato"; person "e:5"; birth "e:5" "e:6"; name_of "e:6" "Athens" ].
Theorem C104_left_reports_refuted :
  orderly vocab unfinished /\ (forall l, birthplace vocab unfinished "Plato" l -> l = "Athens") /\
  said_of unfinished ["Where was Paris born?"; "Where was Plato born?"; "Where was Plato born?"] = [Exn AttributeErr; Ok (VStr "Troy"); Ok (VStr "Athens")].
Proof.
  split; [now apply orderly_of|]. split; [|vm_compute; reflexivity].
  assert (Hl : forall i l, labelled vocab unfinished i l -> In (i, l) [("e:1", "Paris"); ("e:2", "Troy"); ("e:3", "Paris"); ("e:5", "Plato"); ("e:6", "Athens")]).
  { unfold labelled, unfinished. cbn [In]. intros i l H. repeat (destruct H as [H|H]; [try discriminate H; injection H as <- <-; cbn; tauto|]). contradiction. }
  assert (Hb : forall i p, born_in vocab unfinished i p -> In (i, p) [("e:1", "e:2"); ("e:3", "e:4"); ("e:5", "e:6")]).
  { unfold born_in, unfinished. cbn [In]. intros i l H. repeat (destruct H as [H|H]; [try discriminate H; injection H as <- <-; cbn; tauto|]). contradiction. }
  intros l (i & [Hi|(Hno & _)] & _ & p & Hp & Hpl).
  - apply Hl in Hi. apply Hb in Hp. apply Hl in Hpl. cbn in Hi, Hp, Hpl.
    repeat (destruct Hi as [Hi|Hi]; [try discriminate Hi|]); try contradiction. injection Hi as <-.
    repeat (destruct Hp as [Hp|Hp]; [try discriminate Hp|]); try contradiction. injection Hp as <-.
    repeat (destruct Hpl as [Hpl|Hpl]; [try discriminate Hpl|]); try contradiction. now injection Hpl as <-.
  - elim (Hno "e:5"). unfold labelled. cbn. tauto.
Qed.
Print Assumptions C104_left_reports_refuted.
