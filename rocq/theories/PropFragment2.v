(** * C88: questions in a fragment of English, with the query optimizer *)

From Coq Require Import ZArith QArith String Ascii List Bool Arith Lia.
From Verif Require Import Py PyFacts ReprProofs Effects EffectsFacts Grammar Earley ParserSpec GrammarProofs EarleyProofs
  EarleyProofs3 EarleyProofs4 EarleyProofs5 EarleyProofs6 ParserFacts PropParser Composer ComposerSpec
  ComposerProofs ComposerProofs2 ComposerProofs3 ComposerProofs4 ComposerScope PropComposer
  Solver SolverSpec SolverProofs SolverProofs2 CoreModule InferenceModule TableModule
  Optimizer OptimizerSpec OptimizerProofs5
  DatalogSpec DatalogProofs DatalogProofs2 FolSpec FolProofs FolProofs2 FolProofs3 FolProofs4 FolProofs5 ExampleWorld PropDatalog PropFol
  OptFolSpec PropOptFol
  Pipeline PipelineSpec PipelineProofs QuestionSystem QuestionProofs QuestionProofs2 PropSystem PropSystem2 PropSystem3
  FragmentSpec FragmentModel FragmentProofs FragmentProofs2 FragmentProofs3 FragmentTidy PropFragment.
Import ListNotations.
Local Close Scope Q_scope.
Local Open Scope nat_scope.
Local Open Scope string_scope.
Local Open Scope list_scope.

Section Good.
  Context {W : Type} (tables : W -> string -> option (list (list value))) (arity : string -> nat)
    (rules : list folrule) (v : W) (sig : string -> list FolSpec.sort) (s : FolSpec.sort) (lx : lexicon).
  Hypothesis H : good_lexicon tables arity rules v sig s lx.
  Hypothesis Hres : ~ lexical lx "resolve_name".

  Lemma sentence_tidy moved x b vp q1 q2 : nbar_in lx b -> vp_in lx vp -> nbar_fol x b q1 -> vp_fol x vp q2 -> only x q1 q2 ->
    tidies moved [] [] (q1 ++ q2).
  Proof.
    intros Hb Hv Hq1 Hq2 On.
    assert (N : nbar_fol x (Rel b (That vp)) (q1 ++ q2)) by (constructor; auto; now constructor).
    assert (I : nbar_in lx (Rel b (That vp))) by (split; auto).
    assert (R : forall p, In p (map snd (lx_nouns lx ++ lx_adjectives lx ++ lx_verbs lx)) -> p <> "resolve_name").
    { intros p Hp ->. apply in_map_iff in Hp as (n & E & Hn). apply Hres. exists n. auto. }
    apply (proj1 (fragment_tidy moved lx R) _ _ _ N I); intros z; [intros _ []|intros []].
  Qed.

  Lemma sentence_ready moved roots w m : means lx "s" roots w m ->
    exists q, m = query_of q /\ answerable_query tables arity rules v sig q /\ tidies moved [] [] q.
  Proof.
    intros M. destruct (sentence_inv _ _ _ _ M) as (x & b & vp & q1 & q2 & -> & -> & -> & Hb & Hv & Hq1 & Hq2 & On).
    exists (q1 ++ q2). split; [reflexivity|]. split; [now apply (sentence_query_answerable tables arity rules v sig s lx H x b vp)|].
    now apply (sentence_tidy moved x b vp).
  Qed.

  (** the values of the root variable *)
  Lemma sentence_root_answers ext x b vp q1 q2 l : nbar_in lx b -> vp_in lx vp -> nbar_fol x b q1 -> vp_fol x vp q2 -> only x q1 q2 ->
    question_counts (Which b vp) -> right_roots ext (q1 ++ q2) [x] l ->
    forall c, (exists r, In r l /\ bget x r = Some c) <-> question_true ext (Which b vp) c.
  Proof.
    intros Hb Hv Hq1 Hq2 On (Cb & Cv) (Sound & Complete) c.
    assert (N : nbar_fol x (Rel b (That vp)) (q1 ++ q2)) by (constructor; auto; now constructor).
    assert (I : nbar_in lx (Rel b (That vp))) by (split; auto).
    pose proof (gl_noun _ _ _ _ _ _ _ H) as Gn. pose proof (gl_adj _ _ _ _ _ _ _ H) as Ga. pose proof (gl_verb _ _ _ _ _ _ _ H) as Gv.
    assert (Sa : says ext x (q1 ++ q2) (nbar_true ext (Rel b (That vp)))).
    { apply (proj1 (fragment_true (flat_atom arity) lx Gn Ga Gv ext) _ _ _ N I). split; auto. }
    assert (Bx : In x (binds (q1 ++ q2))).
    { destruct (nbar_head _ _ _ N) as (p & q' & E). rewrite E. now left. }
    pose (s0 := fun _ : string => VInt 0).
    assert (Hs0 : const_assignment s0) by (intros y; reflexivity).
    pose proof (says_range (flat_atom arity) lx Gn Ga Gv ext x (Rel b (That vp)) (q1 ++ q2) _ [] s0 c N I Sa Hs0 (fun z _ F => F)) as R.
    change (question_true ext (Which b vp) c) with (individual c /\ nbar_true ext (Rel b (That vp)) c). rewrite <- R. split.
    - intros (r & Hr & Er). destruct (Sound r Hr) as (s' & Hs' & Hh & Hx). exists s'. split; auto. split; [intros z []|].
      destruct (Hx x) as (Hx1 & _); [now left|]. specialize (Hx1 Bx). split; [congruence|exact Hh].
    - intros (s' & Hs' & _ & <- & Hh). destruct (Complete s' Hs' Hh) as (r & Hr & Hx).
      exists r. split; auto. apply Hx; [now left|exact Bx].
  Qed.
End Good.

(** The same with the query optimizer, whatever sizes of tables it knows. *)
Theorem C88_optimized_english_questions_are_answered_exactly :
  forall (W : Type) (L : lens W rulebase) tables arity rules (v : W) rank sig s find store lx
         re_match history text kp kc ke number,
    good_program L tables arity rules v -> hierarchical rank rules ->
    (forall r p, In r rules -> In p (preds (rl_body r)) -> has_relation tables rules v p) ->
    (forall p t, In t (db_of tables v p) -> Forall2 of_sort (sig p) t) ->
    (forall r, In r rules -> sorted_rule sig r) ->
    good_sizes find -> (forall p r n, In r (find p) -> z_relation r = Some n -> length (z_arguments r) = arity p) ->
    re_ok re_match -> good_lexicon tables arity rules v sig s lx -> ~ lexical lx "resolve_name" -> kp <> FindAll ->
    let g := after_parses scanned delta_meaning gamma_meaning re_match history (grammar_rules (fragment lx)) in
    exists ext, completed (db_of tables v) rules ext /\
    (forall ext', completed (db_of tables v) rules ext' -> forall p t, ext' p t <-> ext p t) /\
    exists N, forall fuel, N <= fuel -> exists N', forall limit, N' <= limit ->
      let answer := ask re_match kp kc ke fuel (Some (optimize find)) (solver_at (model L tables) limit) store text (mkWorld g number v) in
      ((forall q, question_in lx q -> question_text q <> lower (normalize text)) /\
       exists g' error args,
       answer = with_world g' number (fun _ => None)
                  (store [VTuple [VStr "output_type"; VStr error]; VTuple (VStr (append "output_" error) :: map VStr args)] v))
      \/
      exists q x g' number' l res t m,
        question_in lx q /\ question_text q = lower (normalize text) /\
        parse_with re_match fuel text g = (Ok res, g') /\ In t (Earley.pr_products res) /\
        process None t number = (Ok (mkProduct [("Semantics", m)] [] (VList []) [x]), number') /\
        answer = (Ok (Some (Some (SList l))), mkWorld g' number' v) /\
        (question_counts q -> forall c, (exists r, In r l /\ bget x r = Some c) <-> question_true ext q c).
Proof.
  intros W L tables arity rules v rank sig s find store lx re_match history text kp kc ke number Hgp Hrank Hkn Hdb Hsr Hsz Hm Hre Hlx Hres Hk g.
  pose proof (gl_words _ _ _ _ _ _ _ Hlx) as Hw.
  destruct (C98_optimized_first_order_questions_are_answered_exactly W L tables arity rules v rank sig find store (means lx) re_match (fragment lx)
    unit_rank history text kp kc ke number Hgp Hrank Hkn Hdb Hsr Hsz Hm (fragment_proper lx Hw) Hre (fragment_patterns lx Hw re_match)
    (fragment_acyclic lx Hw) (fun r => fragment_good lx Hw r (gl_tokens _ _ _ _ _ _ _ Hlx))
    (sentence_ready tables arity rules v sig s lx Hlx Hres (put_first find)) Hk) as (ext & He & Hu & N & HN).
  exists ext. split; [exact He|]. split; [exact Hu|]. exists N. intros fuel Hf.
  destruct (HN fuel Hf) as (res & g' & Epar & N' & HN'). exists N'. intros limit Hl. cbn zeta. specialize (HN' limit Hl).
  cbn zeta in HN'. destruct (Earley.pr_products res) as [|t ts] eqn:Eprod.
  - left. split.
    + intros q Hq Eq. destruct (question_derivable lx Hw re_match (normalize text) q Hq Eq) as (t & Ht).
      destruct (C62_every_derivation_is_found scanned delta_meaning gamma_meaning re_match (fragment lx) history fuel text res
        (phrase "s" ["E1"]) t) as (t' & Ht' & _); auto.
      * now apply fragment_proper.
      * intros r Hr. destruct (fragment_good lx Hw r (gl_tokens _ _ _ _ _ _ _ Hlx) Hr) as (_ & (P & _) & So & _). auto.
      * exact (f_equal fst Epar).
      * rewrite Eprod in Ht'. destruct Ht'.
    + exists g', (Earley.pr_error res), (Earley.pr_args res). exact HN'.
  - right. destruct HN' as (q & roots & number' & l & Epr & M & Sp & Ans & _ & Right).
    destruct (sentence_inv _ _ _ _ M) as (x & b & vp & q1 & q2 & -> & Et & Eq & Hb & Hv & Hq1 & Hq2 & On).
    assert (Hr : right_roots ext (q1 ++ q2) [x] l).
    { apply Right; [now symmetry| |].
      - apply (sentence_query_answerable tables arity rules v sig s lx Hlx x b vp); auto.
      - apply (sentence_tidy lx Hres (put_first find) x b vp); auto. }
    exists (Which b vp), x, g', number', l, res, t, (query_of q). split; [split; auto|]. split.
    + rewrite <- Sp, Et. symmetry. apply (question_lower lx Hw). split; auto.
    + split; [exact Epar|]. split; [rewrite Eprod; now left|]. split; [exact Epr|]. split; [exact Ans|]. intros Hc.
      eapply (sentence_root_answers tables arity rules v sig s lx Hlx); eauto.
Qed.
Print Assumptions C88_optimized_english_questions_are_answered_exactly.

(** *** the atlas; "landlocked" has no size *)
Definition atlas_sizes (p : string) : list sizes :=
  if String.eqb p "country" then [mkSizes (Some 4%Q) [Some 4%Q]]
  else if String.eqb p "sea" then [mkSizes (Some 2%Q) [Some 2%Q]]
  else if String.eqb p "borders" then [mkSizes (Some 10%Q) [Some 4%Q; Some 6%Q]]
  else [mkSizes None []].
Definition atlas_optimized (text : string) : option (list binding) :=
  match fst (ask python_re FindOne TryFirst TryFirst 200 (Some (optimize atlas_sizes)) (solver_at (model ex_lens ex_tables) 20)
               (fun _ => ret tt) text (mkWorld (grammar_rules (fragment atlas_words)) 0 atlas)) with
  | Ok (Some (Some (SList l))) => Some l
  | _ => None
  end.

Example C88_optimized_hypotheses :
  good_sizes atlas_sizes /\ (forall p r n, In r (atlas_sizes p) -> z_relation r = Some n -> length (z_arguments r) = atlas_arity p) /\
  ~ lexical atlas_words "resolve_name".
Proof.
  split; [|split].
  - split.
    + intros p r n Hr. unfold atlas_sizes in Hr.
      destruct (String.eqb p "country"); [|destruct (String.eqb p "sea"); [|destruct (String.eqb p "borders")]]; destruct Hr as [<-|[]]; cbn [fst snd]; intros E; try discriminate;
        injection E as <-; (split; [discriminate|]); (split; [reflexivity|]); intros m; cbn; intros Hm;
        repeat (destruct Hm as [E|Hm]; [injection E as <-; discriminate|]); destruct Hm.
    + intros p Hp. repeat (destruct Hp as [<-|Hp]; [split; [discriminate|intros r [<-|[]]; reflexivity]|]). destruct Hp.
  - intros p r n Hr. unfold atlas_sizes in Hr. unfold atlas_arity.
    destruct (String.eqb_spec p "country") as [->|]; [|destruct (String.eqb_spec p "sea") as [->|]; [|destruct (String.eqb_spec p "borders") as [->|]]];
      destruct Hr as [<-|[]]; cbn; try discriminate; reflexivity.
  - intros (n & Hn & E). cbn in Hn. repeat (destruct Hn as [<-|Hn]; [discriminate E|]). destruct Hn.
Qed.

(** each sea comes once in the answers to the third question: the country is
    not a root variable, what is about it has become a nested query *)
Example C88_optimized_example :
  option_map (map (named "$1")) (atlas_optimized "Which country  borders no sea") = Some [Some (S_ "ant")] /\
  atlas_ask "which country borders a landlocked country" <> None /\
  option_map (map (named "$1")) (atlas_optimized "which sea is bordered by a country that borders a landlocked country and that borders every sea")
    = Some [Some (S_ "north"); Some (S_ "south")] /\
  option_map (map (named "$1")) (atlas_optimized "which country that does not border a sea borders more than one country") = Some [Some (S_ "ant")] /\
  atlas_optimized "which borders country" = None.
Proof. repeat split; vm_compute; try reflexivity; discriminate. Qed.
