(** * C88: questions in a fragment of English *)

From Coq Require Import ZArith String Ascii List Bool Arith Lia.
From Verif Require Import Py PyFacts ReprProofs Effects EffectsFacts Grammar Earley ParserSpec GrammarProofs EarleyProofs
  EarleyProofs3 EarleyProofs4 EarleyProofs5 EarleyProofs6 ParserFacts PropParser Composer ComposerSpec
  ComposerProofs ComposerProofs2 ComposerProofs3 ComposerProofs4 ComposerScope PropComposer
  Solver SolverSpec SolverProofs SolverProofs2 CoreModule InferenceModule TableModule
  DatalogSpec DatalogProofs DatalogProofs2 FolSpec FolProofs FolProofs2 FolProofs3 FolProofs4 FolProofs5 ExampleWorld PropDatalog PropFol
  Pipeline PipelineSpec PipelineProofs QuestionSystem QuestionProofs QuestionProofs2 PropSystem PropSystem2
  FragmentSpec FragmentModel FragmentProofs FragmentProofs2 FragmentProofs3.
From Verif Require GrammarParser.
Import ListNotations.
Local Open Scope nat_scope.
Local Open Scope string_scope.
Local Open Scope list_scope.

(** A lexicon for a database and its rules: lower-case words, predicates that
    exist, with one argument (nouns, adjectives) or two (verbs), all about
    things of one sort. *)
Record good_lexicon {W} (tables : W -> string -> option (list (list value))) (arity : string -> nat)
    (rules : list folrule) (v : W) (sig : string -> list sort) (s : sort) (lx : lexicon) : Prop := {
  gl_words : good_words lx;
  gl_tokens : forall p, lexical lx p -> p <> range_token /\ p <> body_token;
  gl_preds : forall p, lexical lx p -> user_pred p /\ has_relation tables rules v p;
  gl_unary : forall n, In n (lx_nouns lx ++ lx_adjectives lx) -> arity (snd n) = 1 /\ sig (snd n) = [s];
  gl_binary : forall n, In n (lx_verbs lx) -> arity (snd n) = 2 /\ sig (snd n) = [s; s]
}.

Lemma sentence_inv lx roots w m : means lx "s" roots w m -> exists x b vp q1 q2, roots = [x] /\ w = question_text (Which b vp) /\
  m = query_of (q1 ++ q2) /\ nbar_in lx b /\ vp_in lx vp /\ nbar_fol x b q1 /\ vp_fol x vp q2 /\ only x q1 q2.
Proof. intros M. inversion M. subst. eauto 15. Qed.

Section Good.
  Context {W : Type} (tables : W -> string -> option (list (list value))) (arity : string -> nat)
    (rules : list folrule) (v : W) (sig : string -> list sort) (s : sort) (lx : lexicon).
  Hypothesis H : good_lexicon tables arity rules v sig s lx.

  Lemma gl_noun n x : In n (lx_nouns lx) -> flat_atom arity (mkAtom (snd n) [VVar x]).
  Proof.
    intros Hn. split; [|split]; cbn.
    - apply (gl_preds _ _ _ _ _ _ _ H). now apply lex_noun.
    - symmetry. apply (gl_unary _ _ _ _ _ _ _ H). apply in_or_app. auto.
    - intros y [<-|[]]. left. eexists. reflexivity.
  Qed.
  Lemma gl_adj n x : In n (lx_adjectives lx) -> flat_atom arity (mkAtom (snd n) [VVar x]).
  Proof.
    intros Hn. split; [|split]; cbn.
    - apply (gl_preds _ _ _ _ _ _ _ H). now apply lex_adj.
    - symmetry. apply (gl_unary _ _ _ _ _ _ _ H). apply in_or_app. auto.
    - intros y [<-|[]]. left. eexists. reflexivity.
  Qed.
  Lemma gl_verb n x y : In n (lx_verbs lx) -> flat_atom arity (mkAtom (snd n) [VVar x; VVar y]).
  Proof.
    intros Hn. split; [|split]; cbn.
    - apply (gl_preds _ _ _ _ _ _ _ H). now apply lex_verb.
    - symmetry. now apply (gl_binary _ _ _ _ _ _ _ H).
    - intros z [<-|[<-|[]]]; left; eexists; reflexivity.
  Qed.

  Lemma sentence_query_answerable x b vp q1 q2 : nbar_in lx b -> vp_in lx vp -> nbar_fol x b q1 -> vp_fol x vp q2 -> only x q1 q2 ->
    answerable_query tables arity rules v sig (q1 ++ q2).
  Proof.
    intros Hb Hv Hq1 Hq2 On.
    assert (N : nbar_fol x (Rel b (That vp)) (q1 ++ q2)) by (constructor; auto; now constructor).
    assert (I : nbar_in lx (Rel b (That vp))) by (split; auto).
    split; [|split].
    - apply (proj1 (fragment_wf (flat_atom arity) lx gl_noun gl_adj gl_verb) _ _ _ N I []). intros z _ [].
    - intros p Hp. apply (gl_preds _ _ _ _ _ _ _ H). apply (proj1 (fragment_preds lx) _ _ _ N I p Hp).
    - exists (fun _ => s). apply (proj1 (fragment_sorted lx sig s
        (fun n Hn => proj2 (gl_unary _ _ _ _ _ _ _ H n (in_or_app _ _ _ (or_introl Hn))))
        (fun n Hn => proj2 (gl_unary _ _ _ _ _ _ _ H n (in_or_app _ _ _ (or_intror Hn))))
        (fun n Hn => proj2 (gl_binary _ _ _ _ _ _ _ H n Hn))) _ _ _ N I).
  Qed.
  Lemma sentence_answerable roots w m : means lx "s" roots w m -> exists q, m = query_of q /\ answerable_query tables arity rules v sig q.
  Proof.
    intros M. destruct (sentence_inv _ _ _ _ M) as (x & b & vp & q1 & q2 & -> & -> & -> & Hb & Hv & Hq1 & Hq2 & On).
    exists (q1 ++ q2). split; [reflexivity|]. now apply (sentence_query_answerable x b vp).
  Qed.

  (** the answers to the query of a question *)
  Lemma sentence_answers ext x b vp q1 q2 l : nbar_in lx b -> vp_in lx vp -> nbar_fol x b q1 -> vp_fol x vp q2 -> only x q1 q2 ->
    question_counts (Which b vp) -> right_answers ext (q1 ++ q2) [] l ->
    forall c, (exists r, In r l /\ bget x r = Some c) <-> question_true ext (Which b vp) c.
  Proof.
    intros Hb Hv Hq1 Hq2 On (Cb & Cv) (_ & Sound & Complete) c.
    assert (N : nbar_fol x (Rel b (That vp)) (q1 ++ q2)) by (constructor; auto; now constructor).
    assert (I : nbar_in lx (Rel b (That vp))) by (split; auto).
    assert (Sa : says ext x (q1 ++ q2) (nbar_true ext (Rel b (That vp)))).
    { apply (proj1 (fragment_true (flat_atom arity) lx gl_noun gl_adj gl_verb ext) _ _ _ N I). split; auto. }
    assert (Bx : In x (binds (q1 ++ q2))).
    { destruct (nbar_head _ _ _ N) as (p & q' & E). rewrite E. now left. }
    pose (s0 := fun _ : string => VInt 0).
    assert (Hs0 : const_assignment s0) by (intros y; reflexivity).
    pose proof (says_range (flat_atom arity) lx gl_noun gl_adj gl_verb ext x (Rel b (That vp)) (q1 ++ q2) _ [] s0 c N I Sa Hs0 (fun z _ F => F)) as R.
    change (question_true ext (Which b vp) c) with (individual c /\ nbar_true ext (Rel b (That vp)) c). rewrite <- R. split.
    - intros (r & Hr & Er). destruct (Sound r Hr) as (s' & Hs' & _ & Hh & Hx). exists s'. split; auto. split; [intros z []|].
      destruct (Hx x) as (Hx1 & _). specialize (Hx1 Bx). split; [congruence|exact Hh].
    - intros (s' & Hs' & _ & <- & Hh). destruct (Complete s' Hs') as (r & Hr & _ & _ & _ & Hx); auto; [intros z y Hz; discriminate|].
      exists r. split; auto. now apply Hx.
  Qed.
End Good.

(** Every lexicon, database, rules and text.  If the text is a question of the
    fragment, the system understands it as a question with this text, and the
    answers give the variable the sentence is about (its root variable)
    exactly the individuals of which the question is true.  Any other text is
    reported as not understood. *)
Theorem C88_english_questions_are_answered_exactly :
  forall (W : Type) (L : lens W rulebase) tables arity rules (v : W) rank sig s store lx
         re_match history text kp kc ke number,
    good_program L tables arity rules v -> hierarchical rank rules ->
    (forall r p, In r rules -> In p (preds (rl_body r)) -> has_relation tables rules v p) ->
    (forall p t, In t (db_of tables v p) -> Forall2 of_sort (sig p) t) ->
    (forall r, In r rules -> sorted_rule sig r) ->
    re_ok re_match -> good_lexicon tables arity rules v sig s lx -> kp <> FindAll ->
    let g := after_parses scanned delta_meaning gamma_meaning re_match history (grammar_rules (fragment lx)) in
    exists ext, completed (db_of tables v) rules ext /\
    (forall ext', completed (db_of tables v) rules ext' -> forall p t, ext' p t <-> ext p t) /\
    exists N, forall fuel, N <= fuel -> exists N', forall limit, N' <= limit ->
      let answer := ask re_match kp kc ke fuel None (solver_at (model L tables) limit) store text (mkWorld g number v) in
      ((forall q, question_in lx q -> question_text q <> lower (normalize text)) /\
       exists g' error args,
       answer = with_world g' number (fun _ => None)
                  (store [VTuple [VStr "output_type"; VStr error]; VTuple (VStr (append "output_" error) :: map VStr args)] v))
      \/
      exists q x g' number' l res t m,
        question_in lx q /\ question_text q = lower (normalize text) /\
        parse_with re_match fuel text g = (Ok res, g') /\ In t (Earley.pr_products res) /\
        process None t number = (Ok (mkProduct [("Semantics", m)] [] (VList []) [x]), number') /\
        answer = (Ok (Some (Some (SList l))), mkWorld g' number' v) /\
        (question_counts q -> forall c, (exists r, In r l /\ bget x r = Some c) <-> question_true ext q c).
Proof.
  intros W L tables arity rules v rank sig s store lx re_match history text kp kc ke number Hgp Hrank Hkn Hdb Hsr Hre Hlx Hk g.
  pose proof (gl_words _ _ _ _ _ _ _ Hlx) as Hw.
  destruct (C98_first_order_questions_are_answered_exactly W L tables arity rules v rank sig store (means lx) re_match (fragment lx)
    unit_rank history text kp kc ke number Hgp Hrank Hkn Hdb Hsr (fragment_proper lx Hw) Hre (fragment_patterns lx Hw re_match)
    (fragment_acyclic lx Hw) (fun r => fragment_good lx Hw r (gl_tokens _ _ _ _ _ _ _ Hlx))
    (sentence_answerable tables arity rules v sig s lx Hlx) Hk) as (ext & He & Hu & N & HN).
  exists ext. split; [exact He|]. split; [exact Hu|]. exists N. intros fuel Hf.
  destruct (HN fuel Hf) as (res & g' & Epar & N' & HN'). exists N'. intros limit Hl. cbn zeta. specialize (HN' limit Hl).
  cbn zeta in HN'. destruct (Earley.pr_products res) as [|t ts] eqn:Eprod.
  - left. split.
    + intros q Hq Eq. destruct (question_derivable lx Hw re_match (normalize text) q Hq Eq) as (t & Ht).
      destruct (C62_every_derivation_is_found scanned delta_meaning gamma_meaning re_match (fragment lx) history fuel text res
        (phrase "s" ["E1"]) t) as (t' & Ht' & _); auto.
      * now apply fragment_proper.
      * intros r Hr. destruct (fragment_good lx Hw r (gl_tokens _ _ _ _ _ _ _ Hlx) Hr) as (_ & (P & _) & So & _). auto.
      * exact (f_equal fst Epar).
      * rewrite Eprod in Ht'. destruct Ht'.
    + exists g', (Earley.pr_error res), (Earley.pr_args res). exact HN'.
  - right. destruct HN' as (q & roots & number' & l & Epr & M & Sp & _ & Ans & Right).
    destruct (sentence_inv _ _ _ _ M) as (x & b & vp & q1 & q2 & -> & Et & Eq & Hb & Hv & Hq1 & Hq2 & On).
    assert (Hr : right_answers ext (q1 ++ q2) [] l).
    { apply Right; [now symmetry|]. apply (sentence_query_answerable tables arity rules v sig s lx Hlx x b vp); auto. }
    exists (Which b vp), x, g', number', l, res, t, (query_of q). split; [split; auto|]. split.
    + rewrite <- Sp, Et. symmetry. apply (question_lower lx Hw). split; auto.
    + split; [exact Epar|]. split; [rewrite Eprod; now left|]. split; [exact Epr|]. split; [exact Ans|]. intros Hc. eapply (sentence_answers tables arity rules v sig s lx Hlx); eauto.
Qed.
Print Assumptions C88_english_questions_are_answered_exactly.

(** ** a small world *)

(** the rules of the grammar are written as in read_grammar.py *)
Definition written (syntax : string) (r : crule) : Prop :=
  GrammarParser.parse_syntax false syntax = Ok (g_ante r, g_cons r).
Example C88_rules_as_written :
  written "s(E1) -> 'which' nbar(E1) vp(E1)" s_which /\
  written "vp(E1) -> tv(E1, E2) np(E2)" vp_active /\
  written "vp(E1) -> 'is' tv(E2, E1) 'by' np(E2)" vp_passive /\
  written "vp(E1) -> 'does' 'not' vp(E1)" vp_not /\
  written "nbar(E1) -> noun(E1)" nbar_noun /\
  written "nbar(E1) -> adj(E1) nbar(E1)" nbar_adj /\
  written "nbar(E1) -> nbar(E1) rcl(E1)" nbar_rel /\
  written "rcl(E1) -> 'that' vp(E1)" rcl_that /\
  written "rcl(E1) -> rcl(E1) 'and' rcl(E1)" rcl_and /\
  written "np(E1) -> nbar(E1)" np_bare /\
  written "np(E1) -> det(E1) nbar(E1)" np_det /\
  written "det(E1) -> 'a'" (det_some "a") /\
  written "det(E1) -> 'no'" det_no /\
  written "det(E1) -> 'every'" det_every /\
  written "det(E1) -> number(E1)" det_number /\
  written "det(E1) -> 'more' 'than' number(E1)" det_more /\
  written "noun(E1) -> 'river'" (noun_word ("river", "river")) /\
  written "adj(E1) -> 'european'" (adj_word ("european", "european")) /\
  written "tv(E1, E2) -> 'borders'" (verb_word ("borders", "borders")) /\
  written "number(E1) -> 'two'" (number_word ("two", 2%Z)).
Proof. unfold written. repeat split; vm_compute; reflexivity. Qed.

Definition atlas_words : lexicon := mkLexicon
  [("country", "country"); ("countries", "country"); ("sea", "sea"); ("seas", "sea")] [("landlocked", "landlocked")]
  [("borders", "borders"); ("border", "borders"); ("bordered", "borders")] ["a"; "the"; "some"; "any"]
  [("one", 1%Z); ("two", 2%Z); ("three", 3%Z)].

(** a country is landlocked if it borders no sea *)
Definition landlocked_rule : folrule :=
  mkFolRule (mkAtom "landlocked" [V "X"])
    [ FAtom (mkAtom "country" [V "X"]);
      FNot true [FAtom (mkAtom "borders" [V "X"; V "Y"]); FAtom (mkAtom "sea" [V "Y"])] ].
Definition atlas : ex_world :=
  (stored_rules [landlocked_rule],
   [ ("country", [[S_ "ant"]; [S_ "bor"]; [S_ "cal"]; [S_ "dur"]]);
     ("sea", [[S_ "north"]; [S_ "south"]]);
     ("borders", [[S_ "ant"; S_ "bor"]; [S_ "bor"; S_ "ant"]; [S_ "ant"; S_ "cal"]; [S_ "cal"; S_ "ant"];
                  [S_ "bor"; S_ "north"]; [S_ "bor"; S_ "south"]; [S_ "cal"; S_ "north"]; [S_ "dur"; S_ "south"];
                  [S_ "dur"; S_ "bor"]; [S_ "bor"; S_ "dur"]]) ]).
Definition atlas_arity (p : string) : nat := if String.eqb p "borders" then 2 else 1.
Definition atlas_sig (p : string) : list sort := if String.eqb p "borders" then [Text; Text] else [Text].
Definition atlas_rank (p : string) : nat := if String.eqb p "landlocked" then 1 else 0.

Definition atlas_ask (text : string) : option (list binding) :=
  match fst (ask python_re FindOne TryFirst TryFirst 200 None (solver_at (model ex_lens ex_tables) 20)
               (fun _ => ret tt) text (mkWorld (grammar_rules (fragment atlas_words)) 0 atlas)) with
  | Ok (Some (Some (SList l))) => Some l
  | _ => None
  end.
Definition named (x : string) (r : binding) : option value := bget x r.
Definition atlas_answers (text : string) : option (list (option value)) := option_map (map (named "$1")) (atlas_ask text).

Lemma atlas_good_program : good_program ex_lens ex_tables atlas_arity [landlocked_rule] atlas.
Proof.
  split; [|split; [|split]].
  - intros p rows H t Ht. unfold ex_tables, atlas in H. simpl in H. unfold atlas_arity.
    destruct (String.eqb_spec p "country") as [->|]; [|destruct (String.eqb_spec p "sea") as [->|]; [|destruct (String.eqb_spec p "borders") as [->|]]];
      try discriminate; injection H as <-; simpl in Ht; repeat (destruct Ht as [<-|Ht]; [split; reflexivity|]); destruct Ht.
  - intros p H. unfold ex_tables, atlas in H. simpl in H.
    destruct (String.eqb p "country") eqn:E; [apply String.eqb_eq in E; subst p; form|].
    destruct (String.eqb p "sea") eqn:E2; [apply String.eqb_eq in E2; subst p; form|].
    destruct (String.eqb p "borders") eqn:E3; [apply String.eqb_eq in E3; subst p; form|]. congruence.
  - reflexivity.
  - intros r [<-|[]]. split; [form|split; [simpl; form|form]].
Qed.
Lemma atlas_good_lexicon : good_lexicon ex_tables atlas_arity [landlocked_rule] atlas atlas_sig Text atlas_words.
Proof.
  constructor.
  - intros w [H|[(n & H & <-)|(k & H)]]; cbn in H; repeat (destruct H as [H|H]; [subst; try (injection H as <- <-); split; [discriminate|reflexivity]|]); destruct H.
  - intros p (n & H & <-). cbn in H. repeat (destruct H as [<-|H]; [split; discriminate|]). destruct H.
  - intros p (n & H & <-). cbn in H.
    repeat (destruct H as [<-|H]; [split; [form|first [left; discriminate|right; exists landlocked_rule; split; [now left|reflexivity]]]|]). destruct H.
  - intros n H. cbn in H. repeat (destruct H as [<-|H]; [split; reflexivity|]). destruct H.
  - intros n H. cbn in H. repeat (destruct H as [<-|H]; [split; reflexivity|]). destruct H.
Qed.

Example C88_english_hypotheses :
  good_program ex_lens ex_tables atlas_arity [landlocked_rule] atlas /\
  hierarchical atlas_rank [landlocked_rule] /\
  (forall r p, In r [landlocked_rule] -> In p (preds (rl_body r)) -> has_relation ex_tables [landlocked_rule] atlas p) /\
  (forall p t, In t (db_of ex_tables atlas p) -> Forall2 of_sort (atlas_sig p) t) /\
  (forall r, In r [landlocked_rule] -> sorted_rule atlas_sig r) /\
  re_ok python_re /\ good_lexicon ex_tables atlas_arity [landlocked_rule] atlas atlas_sig Text atlas_words /\ FindOne <> FindAll.
Proof.
  split; [exact atlas_good_program|]. split.
  { intros r [<-|[]] p Hp; simpl in Hp; repeat (destruct Hp as [<-|Hp]; [vm_compute; lia|]); destruct Hp. }
  split.
  { intros r p [<-|[]] Hp; simpl in Hp; repeat (destruct Hp as [<-|Hp]; [left; discriminate|]); destruct Hp. }
  split.
  { intros p t Ht. unfold db_of, ex_tables, atlas in Ht. simpl in Ht. unfold atlas_sig.
    destruct (String.eqb_spec p "country") as [->|]; [|destruct (String.eqb_spec p "sea") as [->|]; [|destruct (String.eqb_spec p "borders") as [->|]; [|destruct Ht]]];
      simpl in Ht; repeat (destruct Ht as [<-|Ht]; [repeat constructor|]); destruct Ht. }
  split; [intros r [<-|[]]; exists (fun _ => Text); sorts|].
  split; [exact RegexProofs2.py_match_prefix|]. split; [exact atlas_good_lexicon|discriminate].
Qed.

Example C88_english_example :
  atlas_answers "Which country  borders no sea" = Some [Some (S_ "ant")] /\
  atlas_answers "which country borders every sea" = Some [Some (S_ "bor"); Some (S_ "bor")] /\
  atlas_answers "which country borders one sea" = Some [Some (S_ "cal"); Some (S_ "dur")] /\
  atlas_answers "which sea is bordered by two countries" = Some [Some (S_ "north"); Some (S_ "south")] /\
  atlas_answers "which country that does not border a sea borders more than one country" = Some [Some (S_ "ant")] /\
  atlas_answers "which sea is bordered by a country that borders a landlocked country and that borders every sea"
    = Some [Some (S_ "north"); Some (S_ "north"); Some (S_ "south"); Some (S_ "south")] /\
  atlas_answers "which borders country" = None.
Proof. repeat split; vm_compute; reflexivity. Qed.

(** [question_counts] is needed: a number counts all combinations of values.
    "two countries that border a sea" are one country and two seas. *)
Definition two_countries_that_border_a_sea : question :=
  Which (Noun ("country", "country")) (Active ("borders", "borders")
    (Det (Number "two" 2) (Rel (Noun ("countries", "country")) (That (Active ("border", "borders") (Det (Some_ "a") (Noun ("sea", "sea")))))))).

Theorem C88_numbers_count_combinations_refuted :
  let q := two_countries_that_border_a_sea in
  question_in atlas_words q /\ ~ question_counts q /\
  question_text q = "which country borders two countries that border a sea" /\
  atlas_ask (question_text q) = Some [[("$1", S_ "dur")]] /\
  forall ext, completed (db_of ex_tables atlas) [landlocked_rule] ext ->
    question_true ext q (S_ "ant") /\ ~ question_true ext q (S_ "dur").
Proof.
  cbn zeta. split; [cbn; tauto|]. split; [cbn; tauto|]. split; [reflexivity|]. split; [vm_compute; reflexivity|].
  intros ext He.
  assert (D : forall p t, p <> "landlocked" -> (ext p t <-> In t (db_of ex_tables atlas p))).
  { intros p t Hp. rewrite (He p t). split; [|now left]. intros [H|(r & s & [<-|[]] & _ & _ & E & _)]; auto.
    exfalso. apply Hp. symmetry. exact E. }
  set (A := fun c => ext "country" [c] /\ exists d, individual d /\ ext "sea" [d] /\ ext "borders" [c; d]).
  assert (HA : forall c, A c <-> In c [S_ "bor"; S_ "cal"; S_ "dur"]).
  { intros c. unfold A. split.
    - intros (Hc & d & _ & Hs & Hb). rewrite D in Hs, Hb by discriminate. cbn in Hs, Hb.
      destruct Hs as [E|[E|[]]]; injection E as <-;
        repeat (destruct Hb as [Hb|Hb]; [first [discriminate Hb|injection Hb as <-; cbn; auto]|]); destruct Hb.
    - intros Hc. rewrite D by discriminate. split.
      + cbn in *. destruct Hc as [<-|[<-|[<-|[]]]]; auto.
      + destruct Hc as [<-|[<-|[<-|[]]]]; [exists (S_ "north")|exists (S_ "north")|exists (S_ "south")];
          (split; [reflexivity|rewrite !D by discriminate; cbn; tauto]). }
  cbn [question_true two_countries_that_border_a_sea vp_true np_true quant nbar_true rcl_true snd fst]. split.
  - split; [reflexivity|]. split; [apply D; [discriminate|cbn; auto]|].
    exists 2. split; [|reflexivity]. exists [S_ "bor"; S_ "cal"]. split; [|split; [reflexivity|]].
    + constructor; [cbn; intros [E|[]]; discriminate E|]. constructor; [intros []|constructor].
    + intros c. change (ext "country" [c] /\ exists c0, individual c0 /\ ext "sea" [c0] /\ ext "borders" [c; c0]) with (A c).
      rewrite HA. rewrite (D "borders") by discriminate. cbn. split.
      * intros [<-|[<-|[]]]; (split; [reflexivity|]); split; auto 10.
      * intros (_ & [<-|[<-|[<-|[]]]] & Hb); auto.
        repeat (destruct Hb as [Hb|Hb]; [discriminate Hb|]). destruct Hb.
  - intros (_ & _ & n & (l & Nd & Hl & Hin) & Hn).
    assert (n = 2) by lia. subst n.
    assert (I : incl l [S_ "bor"]).
    { intros c Hc. apply Hin in Hc as (_ & Hc & Hb). change (A c) in Hc. rewrite HA in Hc.
      rewrite D in Hb by discriminate. cbn in Hb.
      repeat (destruct Hb as [Hb|Hb]; [first [discriminate Hb|injection Hb as <-; cbn in *; intuition discriminate]|]). destruct Hb. }
    apply (NoDup_incl_length Nd) in I. cbn in I. lia.
Qed.
Print Assumptions C88_numbers_count_combinations_refuted.
