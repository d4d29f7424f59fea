(** * Reading a question about a place of birth *)

From Coq Require Import ZArith String Ascii List Bool Arith Lia.
From Verif Require Import Py Effects Grammar Earley ParserSpec GrammarProofs EarleyProofs EarleyProofs3 EarleyProofs4 EarleyProofs5 EarleyProofs6 PropParser
  Composer ComposerProofs ComposerProofs2 QuestionProofs2
  InferenceModule FragmentModel CooperModel Regex RegexProofs RegexProofs2 PropRegex RuleParserProofs3 Pipeline QuestionSystem PropSystem SirModel SirSpec SirProofs SirProofs2 WikidataModel WikidataSpec WikidataProofs2.
Import ListNotations.
Local Open Scope nat_scope.
Local Open Scope string_scope.
Local Open Scope list_scope.

(** ** the rules *)
Definition wiki_variants : list crule := flat_map create_rule_variants wiki_grammar.
Definition no_rule : crule := new_rule (quoted "") [] (scanned None) 0.
Definition s_wiki : crule := nth 0 wiki_variants no_rule.
Definition nbar_wiki : crule := nth 1 wiki_variants no_rule.
Definition np_wiki : crule := nth 2 wiki_variants no_rule.
Definition noun_wiki : crule := nth 3 wiki_variants no_rule.
Definition proper_wiki : crule := nth 4 wiki_variants no_rule.
Lemma variants_listed : wiki_variants = [s_wiki; nbar_wiki; np_wiki; noun_wiki; proper_wiki].
Proof. vm_compute. reflexivity. Qed.
Definition word_pattern : string := "\w+".
Notation token := (mkCons word_pattern [] PRegExp false false).
Lemma s_parts : g_ante s_wiki = phrase "s" ["E2"] /\ g_cons s_wiki = [quoted "where"; space; quoted "was"; space; phrase "np" ["E1"]; space; quoted "born"; quoted "?"].
Proof. vm_compute. auto. Qed.
Lemma nbar_parts : g_ante nbar_wiki = phrase "nbar" ["E1"] /\ g_cons nbar_wiki = [phrase "noun" ["E1"]].
Proof. vm_compute. auto. Qed.
Lemma np_parts : g_ante np_wiki = phrase "np" ["E1"] /\ g_cons np_wiki = [phrase "nbar" ["E1"]].
Proof. vm_compute. auto. Qed.
Lemma noun_parts : g_ante noun_wiki = phrase "noun" ["E1"] /\ g_cons noun_wiki = [phrase "proper_noun" ["E1"]].
Proof. vm_compute. auto. Qed.
Lemma proper_parts : g_ante proper_wiki = phrase "proper_noun" ["E1"] /\ g_cons proper_wiki = [token].
Proof. vm_compute. auto. Qed.

Lemma grammar_listed : wiki_grammar = [s_wiki; nbar_wiki; np_wiki; noun_wiki; proper_wiki].
Proof. vm_compute. reflexivity. Qed.
Definition s_means : list value -> outcome value :=
  fn1 (fun np => obind (apply np [VList []]) (fun l => plus l (VList [at_ "place_of_birth" [E1; E2]; at_ "intent_report" [E2]]))).
Definition np_means : list value -> outcome value := fn1 (fun nbar => obind (plus nbar Body) template1).
Definition name_means : list value -> outcome value := fn1 (fun token => Ok (VList [at_ "resolve_name" [token; E1]])).
Definition plainly (f : list value -> outcome value) : meaning := Composer.mkMeaning (Some f) None (DAtoms []).
Lemma rules_mean : g_mean s_wiki = plainly s_means /\ g_mean nbar_wiki = plainly (fn1 Ok) /\ g_mean np_wiki = plainly np_means /\
  g_mean noun_wiki = plainly (fn1 Ok) /\ g_mean proper_wiki = plainly name_means.
Proof. vm_compute. auto 10. Qed.

Global Opaque s_wiki nbar_wiki np_wiki noun_wiki proper_wiki wiki_grammar.
Lemma rule_listed r : in_grammar wiki_grammar r <-> In r wiki_variants.
Proof.
  unfold in_grammar, wiki_variants. rewrite in_flat_map. split; intros (r0 & H0 & V); exists r0; split; auto; now apply (proj1 (variants_spec r0)).
Qed.
Global Opaque wiki_variants.
Lemma rule_cases r : in_grammar wiki_grammar r -> r = s_wiki \/ r = nbar_wiki \/ r = np_wiki \/ r = noun_wiki \/ r = proper_wiki.
Proof. intros H. apply (proj1 (rule_listed r)) in H. rewrite variants_listed in H. destruct H as [<-|[<-|[<-|[<-|[<-|[]]]]]]; auto 10. Qed.
Lemma rule_in r : In r [s_wiki; nbar_wiki; np_wiki; noun_wiki; proper_wiki] -> in_grammar wiki_grammar r.
Proof. intros H. apply (proj2 (rule_listed r)). rewrite variants_listed. exact H. Qed.


(** ** the pattern *)
Notation words_re := (RSeq (RClass false [IWord]) (RStar (RClass false [IWord]))).
Lemma word_compiled : compile word_pattern = Some words_re.
Proof. vm_compute. reflexivity. Qed.
Lemma word_matched x r : x <> "" -> all_word x = true -> not_word r -> py_match word_pattern (append x r) = Ok (Some x).
Proof.
  intros Nx Hx Hr. unfold py_match. rewrite word_compiled. destruct x as [|c x]; [congruence|]. cbn in Hx. apply andb_true_iff in Hx as (Hc & Hx). rewrite all_word_every in Hx.
  assert (H : matches_first words_re (append (String c x) r) (1 + String.length x)).
  { apply first_seq.
    - exists []. rewrite single_one_word. cbn. now rewrite Hc.
    - cbn [append drop]. rewrite <- (run_all word_char x r) by auto. apply first_star_single, single_one_word. }
  destruct H as (l & E). unfold re_match. rewrite E. cbn [hd_error option_map]. change (1 + String.length x) with (String.length (String c x)). now rewrite take_app.
Qed.
Lemma matched_word s m : py_match word_pattern s = Ok (Some m) -> every_char word_char m = true /\ exists rest, s = append m rest.
Proof.
  intros H. split; [|now apply py_match_prefix in H]. unfold py_match in H. rewrite word_compiled in H. unfold re_match in H.
  destruct (matches words_re s) as [|n l] eqn:E; [discriminate|]. cbn in H. injection H as <-.
  assert (Hi : inside word_char words_re) by (apply inside_seq; [|apply inside_star]; apply (inside_single _ _ _ single_one_word); auto).
  apply Hi. rewrite E. now left.
Qed.

(** ** the grammar is fit for the parser *)
Ltac parts := repeat match goal with
  | H : context [g_cons s_wiki] |- _ => rewrite (proj2 s_parts) in H
  | H : context [g_cons nbar_wiki] |- _ => rewrite (proj2 nbar_parts) in H
  | H : context [g_cons np_wiki] |- _ => rewrite (proj2 np_parts) in H
  | H : context [g_cons noun_wiki] |- _ => rewrite (proj2 noun_parts) in H
  | H : context [g_cons proper_wiki] |- _ => rewrite (proj2 proper_parts) in H
  | H : context [g_ante s_wiki] |- _ => rewrite (proj1 s_parts) in H
  | H : context [g_ante nbar_wiki] |- _ => rewrite (proj1 nbar_parts) in H
  | H : context [g_ante np_wiki] |- _ => rewrite (proj1 np_parts) in H
  | H : context [g_ante noun_wiki] |- _ => rewrite (proj1 noun_parts) in H
  | H : context [g_ante proper_wiki] |- _ => rewrite (proj1 proper_parts) in H
  end; rewrite ?(proj2 s_parts), ?(proj2 nbar_parts), ?(proj2 np_parts), ?(proj2 noun_parts), ?(proj2 proper_parts),
    ?(proj1 s_parts), ?(proj1 nbar_parts), ?(proj1 np_parts), ?(proj1 noun_parts), ?(proj1 proper_parts).
Lemma wiki_proper : Forall proper_rule wiki_grammar.
Proof.
  rewrite grammar_listed.
  repeat (apply Forall_cons; [constructor; parts; [split; discriminate|];
    intros c Hc; cbn [In] in Hc; repeat (destruct Hc as [<-|Hc]; [split; [|discriminate]; intros T; first [discriminate T|split; discriminate]|]); destruct Hc|]). apply Forall_nil.
Qed.
Lemma wiki_solid r : in_grammar wiki_grammar r -> solid r /\ k_type (g_ante r) = PRelation.
Proof.
  intros Hr. unfold solid. destruct (rule_cases r Hr) as [->|[->|[->|[->| ->]]]]; parts; (split; [split; [discriminate|]|reflexivity]);
    intros c Hc; cbn [In] in Hc; repeat (destruct Hc as [<-|Hc]; [intros T; first [discriminate T|discriminate]|]); destruct Hc.
Qed.
Lemma wiki_patterns : patterns_ok py_match (in_grammar wiki_grammar).
Proof.
  intros r c Hr Hc T s. destruct (rule_cases r Hr) as [->|[->|[->|[->| ->]]]]; parts; cbn [In] in Hc;
    repeat (destruct Hc as [<-|Hc]; [first [discriminate T|cbn [k_pred]; unfold py_match; rewrite word_compiled; eauto]|]); destruct Hc.
Qed.
Definition wiki_rank (p : string) (n : nat) : nat :=
  if String.eqb p "np" then 3 else if String.eqb p "nbar" then 2 else if String.eqb p "noun" then 1 else 0.
Lemma wiki_acyclic : acyclic_units wiki_grammar wiki_rank.
Proof.
  intros r c Hr Hc T. destruct (rule_cases r Hr) as [->|[->|[->|[->| ->]]]]; parts; first [discriminate Hc|injection Hc as <-; first [discriminate T|cbn; lia]].
Qed.

(** ** the trees of a question *)
Definition tree_of (cat : string) (r1 r2 r3 r4 r5 r6 r7 r8 : crule) (n : string) : ctree :=
  Node cat [Node "where" [] "where" r1; Node " " [] " " r2; Node "was" [] "was" r3; Node " " [] " " r4;
    Node "np" [Node "nbar" [Node "noun" [Node "proper_noun" [Node word_pattern [] n r5] "" proper_wiki] "" noun_wiki] "" nbar_wiki] "" np_wiki;
    Node " " [] " " r6; Node "born" [] "born" r7; Node "?" [] "?" r8] "" s_wiki.

Ltac records := repeat match goal with
  | r : crule |- _ => let a := fresh "a" in let c := fresh "c" in let m := fresh "m" in let b := fresh "b" in let h := fresh "h" in destruct r as [a c m b h]
  end; cbn [g_mean g_ante g_cons] in *; subst.

(** the name with what is behind it *)
Lemma np_composed rnp rnbar rnoun rproper r5 n x k : n <> "" ->
  g_ante rnp = phrase "np" ["E1"] -> g_cons rnp = [phrase "nbar" ["E1"]] -> g_mean rnp = plainly np_means ->
  g_ante rnbar = phrase "nbar" ["E1"] -> g_cons rnbar = [phrase "noun" ["E1"]] -> g_mean rnbar = plainly (fn1 Ok) ->
  g_ante rnoun = phrase "noun" ["E1"] -> g_cons rnoun = [phrase "proper_noun" ["E1"]] -> g_mean rnoun = plainly (fn1 Ok) ->
  g_ante rproper = phrase "proper_noun" ["E1"] -> g_cons rproper = [token] -> g_mean rproper = plainly name_means ->
  g_mean r5 = scanned (Some n) ->
  compose (Node "np" [Node "nbar" [Node "noun" [Node "proper_noun" [Node word_pattern [] n r5] "" rproper] "" rnoun] "" rnbar] "" rnp) [String "$" x] k =
  (Ok (VTmpl [Body] [at_ "resolve_name" [VStr n; VVar (String "$" x)]; VStr body_token], [], VList []), k).
Proof. intros. records. destruct x; reflexivity. Qed.

Lemma s_applied n x : n <> body_token ->
  s_means [VTmpl [Body] [at_ "resolve_name" [VStr n; VVar x]; VStr body_token]] = Ok (VList [at_ "resolve_name" [VStr n; VVar x]; at_ "place_of_birth" [E1; E2]; at_ "intent_report" [E2]]).
Proof.
  intros N. apply String.eqb_neq in N.
  assert (Er : replace (VStr body_token) [] [at_ "resolve_name" [VStr n; VVar x]; VStr body_token] = [at_ "resolve_name" [VStr n; VVar x]]).
  { unfold replace. cbn [flat_map]. change (replace_one (VStr body_token) [] (VStr body_token)) with (@nil value).
    assert (Eo : replace_one (VStr body_token) [] (at_ "resolve_name" [VStr n; VVar x]) = [at_ "resolve_name" [VStr n; VVar x]]); [|now rewrite Eo].
    change (replace_one (VStr body_token) [] (at_ "resolve_name" [VStr n; VVar x])) with [VTuple (VStr "resolve_name" :: (if String.eqb n body_token then [] else [VStr n]) ++ [VVar x])].
    rewrite N. reflexivity. }
  change (obind (Ok (VList (replace (VStr body_token) [] [at_ "resolve_name" [VStr n; VVar x]; VStr body_token])))
    (fun l => plus l (VList [at_ "place_of_birth" [E1; E2]; at_ "intent_report" [E2]])) = Ok (VList [at_ "resolve_name" [VStr n; VVar x]; at_ "place_of_birth" [E1; E2]; at_ "intent_report" [E2]])).
  rewrite Er. reflexivity.
Qed.

Lemma tree_means cat r1 r2 r3 r4 r5 r6 r7 r8 n k : n <> "" -> all_word n = true ->
  g_mean r1 = scanned None -> g_mean r2 = scanned None -> g_mean r3 = scanned None -> g_mean r4 = scanned None -> g_mean r6 = scanned None -> g_mean r7 = scanned None -> g_mean r8 = scanned None ->
  g_mean r5 = scanned (Some n) ->
  exists k1 k2, k1 <> k2 /\ exists root, process None (tree_of cat r1 r2 r3 r4 r5 r6 r7 r8 n) k = (Ok (mkProduct [("Semantics", VList (goal k1 k2 n))] [] (VList []) root), S (S k)).
Proof.
  intros Nn Hw H1 H2 H3 H4 H6 H7 H8 H5.
  destruct rules_mean as (Ms & Mnbar & Mnp & Mnoun & Mproper).
  destruct s_parts as (As & Cs). destruct nbar_parts as (Anbar & Cnbar). destruct np_parts as (Anp & Cnp). destruct noun_parts as (Anoun & Cnoun). destruct proper_parts as (Aproper & Cproper).
  assert (Nb : n <> body_token) by (intros ->; discriminate Hw).
  set (k1 := repr_Z (Z.of_nat (S (S k)))). set (k2 := repr_Z (Z.of_nat (S k))).
  exists k1, k2. split; [intros E; apply ReprProofs.repr_Z_inj in E; lia|]. exists [String "$" k2].
  unfold tree_of, process. unfold bind at 1.
  match goal with |- context [check_for_sem ?t k] => assert (Ec : check_for_sem t k = (Ok tt, k)) end.
  { clear As Cs Anbar Cnbar Anp Cnp Anoun Cnoun Aproper Cproper. generalize dependent s_wiki. generalize dependent np_wiki. generalize dependent nbar_wiki. generalize dependent noun_wiki. generalize dependent proper_wiki.
    intros. clear H1 H2 H3 H4 H6 H7 H8 H5. records. destruct n; [congruence|]. reflexivity. }
  rewrite Ec. clear Ec. rewrite As. cbn [k_args phrase next_for].
  unfold bind at 1. change ((v <- next;; vs <- ret [];; ret (v :: vs))%monad k) with (@Ok (list string) [String "$" k2], S k).
  unfold bind at 1. rewrite compose_eq. unfold bind at 1.
  set (m := [("E1", String "$" k1); ("E2", String "$" k2)]).
  assert (Em : create_map s_wiki [String "$" k2] (S k) = (Ok m, S (S k))).
  { unfold create_map. rewrite As, Cs. reflexivity. }
  rewrite Em. unfold bind at 1. rewrite Cs.
  match goal with |- context [children_loop m ?l ?c [] [] [] (S (S k))] =>
    assert (El : children_loop m l c [] [] [] (S (S k)) = (Ok ([VTmpl [Body] [at_ "resolve_name" [VStr n; VVar (String "$" k1)]; VStr body_token]], [], []), S (S k))) end.
  { cbn [children_loop]. fold (children_loop m). rewrite H1, H2, H3, H4. cbn [scanned m_sem].
    unfold bind at 1. change (lookup_all m (k_args (phrase "np" ["E1"])) (S (S k))) with (@Ok (list string) [String "$" k1], S (S k)).
    unfold bind at 1. rewrite (np_composed np_wiki nbar_wiki noun_wiki proper_wiki r5 n k1 (S (S k))) by assumption.
    unfold bind at 1. cbn [extend Composer.elements ret fst snd app]. rewrite H6, H7, H8. reflexivity. }
  rewrite El. clear El. cbn [fst snd]. unfold compose_node, call_sem. rewrite Ms. cbn [plainly m_sem m_exec m_dialog].
  unfold bind at 1. unfold call. rewrite (s_applied n (String "$" k1) Nb). unfold bind at 1. cbn [ret]. unfold bind at 1. cbn [ret app].
  clearbody k1 k2. subst m. destruct k1, k2; reflexivity.
Qed.

(** ** reading *)
Section Text.
  Variable text : string.
  Notation deriv := (derives scanned py_match (in_grammar wiki_grammar) text).
  Notation deriv_all := (derives_all scanned py_match (in_grammar wiki_grammar) text).
  Notation span := (span text).

  Lemma no_more i j ts : deriv_all [] i j ts -> ts = [] /\ i = j.
  Proof. intros D. inversion D; auto. Qed.
  Lemma one_more c cs i k ts : deriv_all (c :: cs) i k ts -> exists j t ts', ts = t :: ts' /\ deriv c i j t /\ deriv_all cs j k ts'.
  Proof. intros D. inversion D; subst. eauto 10. Qed.

  Lemma rule_category r c : in_grammar wiki_grammar r -> same_kind (g_ante r) c -> k_type c = PRelation.
  Proof. intros Hr (_ & _ & Ht). rewrite <- Ht. now apply wiki_solid. Qed.
  Lemma derived_word w b i j t : deriv (mkCons w [] PWord false b) i j t ->
    exists v r, lower v = w /\ span i j v /\ t = Node w [] w r /\ g_mean r = scanned None.
  Proof.
    intros D. inversion D as [c i' v r T St Lw Le|c i' m v r T|c i' j' r ts Hr Sk]; subst;
      try discriminate T; try (apply rule_category in Sk; auto; discriminate Sk).
    exists v, r. split; [exact Lw|]. split; [now apply stands_span|]. split; [reflexivity|]. destruct Le as (_ & E & _). exact E.
  Qed.
  Lemma derived_token i j t : deriv token i j t ->
    exists w r, w <> "" /\ every_char word_char w = true /\ span i j w /\ t = Node word_pattern [] w r /\ g_mean r = scanned (Some w).
  Proof.
    intros D. inversion D as [c i' v r T St Lw Le|c i' m v r T Hm (rest & Em) Nv Le|c i' j' r ts Hr Sk]; subst; try discriminate T;
      try (apply rule_category in Sk; auto; discriminate Sk).
    exists v, r. split; [exact Nv|]. cbn [k_pred] in Hm. destruct (matched_word _ _ Hm) as (Hn & rest' & Es). rewrite every_app in Hn. apply andb_true_iff in Hn as (Hn & _).
    split; [exact Hn|]. split.
    - unfold SirProofs.span. rewrite <- drop_drop, Es, app_assoc_s, drop_app. reflexivity.
    - split; [reflexivity|]. apply Le.
  Qed.
  Lemma derived_phrase c i j t : k_type c = PRelation -> deriv c i j t -> exists r ts, in_grammar wiki_grammar r /\ k_pred (g_ante r) = k_pred c /\
    t = Node (k_pred c) ts "" r /\ deriv_all (g_cons r) i j ts.
  Proof.
    intros Hc D. inversion D as [c' i' v r T|c' i' m v r T|c' i' j' r ts Hr Sk Da]; subst; try congruence.
    exists r, ts. split; [exact Hr|]. split; [apply Sk|]. auto.
  Qed.
  Ltac the_rule D Da := let r := fresh "r" in let Hr := fresh "Hr" in let Hp := fresh "Hp" in
    apply derived_phrase in D as (r & ? & Hr & Hp & -> & Da); [|reflexivity];
    destruct (rule_cases r Hr) as [->|[->|[->|[->| ->]]]]; parts; try discriminate Hp; clear Hr Hp.
  Ltac alone Da D := apply one_more in Da as (? & ? & ? & -> & D & Da); apply no_more in Da as (-> & ->).
  Lemma read_np a i j t : deriv (phrase "np" a) i j t -> exists w r5, w <> "" /\ every_char word_char w = true /\ span i j w /\ g_mean r5 = scanned (Some w) /\
    t = Node "np" [Node "nbar" [Node "noun" [Node "proper_noun" [Node word_pattern [] w r5] "" proper_wiki] "" noun_wiki] "" nbar_wiki] "" np_wiki.
  Proof.
    intros D. the_rule D Da. alone Da D. the_rule D Da. alone Da D. the_rule D Da. alone Da D. the_rule D Da. alone Da D.
    destruct (derived_token _ _ _ D) as (w & r & Nw & Hw & Hs & -> & Hm). exists w, r. auto 10.
  Qed.
  Ltac word Da v H S := let D := fresh "D" in let r := fresh "r" in apply one_more in Da as (? & ? & ? & -> & D & Da);
    apply derived_word in D as (v & r & H & S & -> & ?).
  Lemma read_question c i j t : k_pred c = "s" -> k_type c = PRelation -> deriv c i j t -> exists w1 w2 n w3 r1 r2 r3 r4 r5 r6 r7 r8,
    t = tree_of "s" r1 r2 r3 r4 r5 r6 r7 r8 n /\ lower w1 = "where" /\ lower w2 = "was" /\ lower w3 = "born" /\ n <> "" /\ every_char word_char n = true /\
    g_mean r1 = scanned None /\ g_mean r2 = scanned None /\ g_mean r3 = scanned None /\ g_mean r4 = scanned None /\ g_mean r6 = scanned None /\ g_mean r7 = scanned None /\ g_mean r8 = scanned None /\
    g_mean r5 = scanned (Some n) /\ span i j (append w1 (append " " (append w2 (append " " (append n (append " " (append w3 "?"))))))).
  Proof.
    intros Hc Ht D. apply derived_phrase in D as (r & ts & Hr & Hp & -> & Da); [|exact Ht]. rewrite Hc in *.
    destruct (rule_cases r Hr) as [->|[->|[->|[->| ->]]]]; parts; try discriminate Hp. clear Hr Hp.
    word Da w1 L1 S1. word Da sp1 L2 S2. word Da w2 L3 S3. word Da sp2 L4 S4.
    apply one_more in Da as (? & ? & ? & -> & D & Da). apply read_np in D as (n & r5 & Nn & Hn & Sn & Hm & ->).
    word Da sp3 L5 S5. word Da w3 L6 S6. word Da q L7 S7. apply no_more in Da as (-> & ->).
    apply space_form in L2, L4, L5. apply mark_form in L7. subst.
    exists w1, w2, n, w3, r, r0, r1, r2, r5, r3, r4, r6. split; [reflexivity|]. do 13 (split; [assumption|]).
    repeat (eapply span_app; [eassumption|]). assumption.
  Qed.
End Text.

Lemma word_chars n : every_char word_char n = true -> every_char name_char n = true.
Proof. apply every_weaken. intros c H. unfold name_char. now rewrite H. Qed.
(** the name is what is between the words *)
Lemma one_reading w1 w2 n w3 v1 v2 n' v3 : lower w1 = "where" -> lower w2 = "was" -> lower w3 = "born" -> every_char word_char n = true ->
  lower v1 = "where" -> lower v2 = "was" -> lower v3 = "born" -> every_char word_char n' = true ->
  append w1 (append " " (append w2 (append " " (append n (append " " (append w3 "?")))))) = append v1 (append " " (append v2 (append " " (append n' (append " " (append v3 "?")))))) -> n = n'.
Proof.
  intros. apply word_chars in H2, H6.
  apply app_same in H7 as (_ & H7); [|now apply (word_names _ _ H)|now apply (word_names _ _ H3)|reflexivity|reflexivity]. cbn [append] in H7. injection H7 as H7.
  apply app_same in H7 as (_ & H7); [|now apply (word_names _ _ H0)|now apply (word_names _ _ H4)|reflexivity|reflexivity]. cbn [append] in H7. injection H7 as H7.
  apply app_same in H7 as (H7 & _); [exact H7|assumption|assumption|reflexivity|reflexivity].
Qed.
Lemma asks_text n text : asks_for n text -> exists w1 w2 w3, lower w1 = "where" /\ lower w2 = "was" /\ lower w3 = "born" /\
  text = append w1 (append " " (append w2 (append " " (append n (append " " (append w3 "?")))))).
Proof.
  intros [w1 w2 w3 H1 H2 H3]. exists w1, w2, w3. do 3 (split; [assumption|]). cbn [spaced String.concat]. repeat (rewrite app_assoc_s; cbn [append]). reflexivity.
Qed.
Lemma question_processed n text t : person_name n -> asks_for n text ->
  (exists c, k_pred c = "s" /\ k_type c = PRelation /\ derives scanned py_match (in_grammar wiki_grammar) text c 0 (String.length text) t) ->
  forall k, exists k1 k2, k1 <> k2 /\ exists root, process None t k = (Ok (mkProduct [("Semantics", VList (goal k1 k2 n))] [] (VList []) root), S (S k)).
Proof.
  intros (Nn & Hw & _) Ha (c & Hc & Ht & D) k. rewrite all_word_every in Hw.
  destruct (read_question text c 0 _ t Hc Ht D) as (w1 & w2 & n' & w3 & r1 & r2 & r3 & r4 & r5 & r6 & r7 & r8 & -> & L1 & L2 & L3 & Nn' & Hw' & M1 & M2 & M3 & M4 & M6 & M7 & M8 & M5 & Hs).
  unfold span in Hs. cbn [drop] in Hs. assert (El : drop (String.length text) text = "") by (rewrite <- (app_nil_s text) at 2; apply drop_app).
  rewrite El, app_nil_s in Hs. destruct (asks_text n text Ha) as (v1 & v2 & v3 & K1 & K2 & K3 & Et). rewrite Et in Hs at 1.
  assert (En : n = n') by (eapply one_reading; [exact K1|exact K2|exact K3|exact Hw|exact L1|exact L2|exact L3|exact Hw'|exact Hs]). subst n'.
  rewrite <- all_word_every in Hw. now apply tree_means.
Qed.

(** ** every question has a tree *)
Section Found.
  Variable text : string.
  Notation deriv := (derives scanned py_match (in_grammar wiki_grammar) text).
  Notation deriv_all := (derives_all scanned py_match (in_grammar wiki_grammar) text).

  Definition derivable (c : constituent) (w rest : string) : Prop :=
    forall i, drop i text = append w rest -> exists t, deriv c i (i + String.length w) t.
  Fixpoint all_derivable (l : list (constituent * string)) (rest : string) : Prop :=
    match l with [] => True | (c, w) :: l' => derivable c w (append (joined l') rest) /\ all_derivable l' rest end.
  Lemma derive_all l rest : all_derivable l rest -> forall i, drop i text = append (joined l) rest ->
    exists ts, deriv_all (map fst l) i (i + String.length (joined l)) ts.
  Proof.
    induction l as [|(c & w) l IH]; intros H i E.
    - exists []. cbn. rewrite Nat.add_0_r. constructor.
    - destruct H as (Hc & H). cbn [joined] in *. rewrite app_assoc_s in E. destruct (Hc i E) as (t & Ht).
      destruct (IH H (i + String.length w)) as (ts & Hts).
      + rewrite <- drop_drop, E, drop_app. reflexivity.
      + exists (t :: ts). cbn [map fst]. rewrite len_app, Nat.add_assoc. econstructor; eassumption.
  Qed.
  Lemma derive_rule r c l rest : In r [s_wiki; nbar_wiki; np_wiki; noun_wiki; proper_wiki] -> same_kind (g_ante r) c -> map fst l = g_cons r -> all_derivable l rest ->
    derivable c (joined l) rest.
  Proof.
    intros Hv Hk Hl Ha i E. destruct (derive_all l rest Ha i E) as (ts & Hts). rewrite Hl in Hts. eexists. apply derives_rule with (r := r); [now apply rule_in|exact Hk|exact Hts].
  Qed.
  Lemma derive_word w b v rest : lower v = w -> derivable (mkCons w [] PWord false b) v rest.
  Proof.
    intros Lw i E. eexists. apply (derives_word scanned py_match _ text (mkCons w [] PWord false b) i v (new_rule (mkCons w [] PWord false b) [quoted w] (scanned None) 0)).
    - reflexivity.
    - unfold stands_at. rewrite E. apply take_app.
    - exact Lw.
    - repeat split.
  Qed.
  Lemma derive_unit r c d w rest : In r [s_wiki; nbar_wiki; np_wiki; noun_wiki; proper_wiki] -> same_kind (g_ante r) c -> g_cons r = [d] ->
    derivable d w rest -> derivable c w rest.
  Proof. intros H1 H2 H3 H. rewrite <- (app_nil_s w). apply (derive_rule r c [(d, w)]); auto. split; [exact H|exact I]. Qed.
  Lemma derive_np n rest : n <> "" -> all_word n = true -> not_word rest -> derivable (phrase "np" ["E1"]) n rest.
  Proof.
    intros Nn Hn Hr.
    apply (derive_unit np_wiki _ (phrase "nbar" ["E1"])); [cbn; tauto|parts; repeat split|now parts|].
    apply (derive_unit nbar_wiki _ (phrase "noun" ["E1"])); [cbn; tauto|parts; repeat split|now parts|].
    apply (derive_unit noun_wiki _ (phrase "proper_noun" ["E1"])); [cbn; tauto|parts; repeat split|now parts|].
    apply (derive_unit proper_wiki _ token); [cbn; tauto|parts; repeat split|now parts|].
    intros i E. exists (Node word_pattern [] n (new_rule token [quoted n] (scanned (Some n)) 0)).
    apply (derives_regexp scanned py_match _ text token i n n).
    - reflexivity.
    - cbn [k_pred]. rewrite E. now apply word_matched.
    - exists "". now rewrite app_nil_s.
    - exact Nn.
    - repeat split.
  Qed.
  Lemma question_found n : person_name n -> asks_for n text -> exists t, deriv (phrase "s" ["E2"]) 0 (String.length text) t.
  Proof.
    intros (Nn & Hw & _) Ha. destruct (asks_text n text Ha) as (w1 & w2 & w3 & L1 & L2 & L3 & Et).
    set (sp := (space, " ") : constituent * string).
    set (l := [(quoted "where", w1); sp; (quoted "was", w2); sp; (phrase "np" ["E1"], n); sp; (quoted "born", w3); (quoted "?", "?")]).
    assert (El : joined l = text) by (rewrite Et; cbn; reflexivity).
    assert (H : derivable (phrase "s" ["E2"]) (joined l) "").
    { apply (derive_rule s_wiki); [cbn; tauto|parts; repeat split|now parts|].
      split; [now apply derive_word|]. split; [now apply derive_word|]. split; [now apply derive_word|]. split; [now apply derive_word|].
      split; [apply derive_np; [exact Nn|exact Hw|reflexivity]|]. split; [now apply derive_word|]. split; [now apply derive_word|]. split; [now apply derive_word|]. exact I. }
    destruct (H 0) as (t & Ht); [cbn [drop]; now rewrite El, app_nil_s|]. rewrite El in Ht. now exists t.
  Qed.
End Found.

Notation past history := (after_parses scanned delta_meaning gamma_meaning py_match history (grammar_rules wiki_grammar)).

Lemma question_parsed text n : person_name n -> asks_for n (normalize text) -> exists N, forall fuel, N <= fuel -> forall history, exists res t ts,
  parse_with py_match fuel text (past history) = (Ok res, past (history ++ [(fuel, text)])) /\ Earley.pr_products res = t :: ts /\
  exists c, k_pred c = "s" /\ k_type c = PRelation /\
    derives scanned py_match (in_grammar wiki_grammar) (normalize text) c 0 (String.length (normalize text)) t.
Proof.
  intros Hn Hw. destruct C79_patterns_in_grammar_rules as (Hre & _).
  destruct (C64_parsing_ends_without_unit_cycles scanned delta_meaning gamma_meaning py_match wiki_grammar wiki_rank [] text wiki_proper Hre wiki_patterns wiki_solid wiki_acyclic) as (N & HN).
  exists N. intros fuel Hf history. set (g := past history). destruct (HN fuel Hf) as (res & Hres). cbn [after_parses fold_left] in Hres.
  assert (Hfst : fst (parse_with py_match fuel text g) = Ok res).
  { rewrite <- Hres. apply (C65_earlier_parses_do_not_matter scanned delta_meaning gamma_meaning py_match history fuel text (grammar_rules wiki_grammar)). }
  assert (Epar : parse_with py_match fuel text g = (Ok res, past (history ++ [(fuel, text)]))).
  { destruct (parse_with py_match fuel text g) as [o g'] eqn:E. cbn in Hfst. subst o. f_equal.
    unfold after_parses. rewrite fold_left_app. change (g' = snd (parse_with py_match fuel text g)). now rewrite E. }
  destruct (question_found (normalize text) n Hn Hw) as (t0 & Ht0).
  destruct (C62_every_derivation_is_found scanned delta_meaning gamma_meaning py_match wiki_grammar history fuel text res
          (phrase "s" ["E2"]) t0 wiki_proper Hre wiki_solid Hfst eq_refl eq_refl Ht0) as (t' & Ht' & _).
  destruct (Earley.pr_products res) as [|t ts] eqn:Eprod; [destruct Ht'|]. exists res, t, ts. split; [exact Epar|]. split; [exact Eprod|].
  apply (C61_trees_are_derivations scanned delta_meaning gamma_meaning py_match wiki_grammar history fuel text res t wiki_proper Hre Hfst).
  rewrite Eprod. now left.
Qed.
