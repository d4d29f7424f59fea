(** * C98: a system that answers questions, from the text to the answers *)

From Coq Require Import ZArith QArith String Ascii List Bool Arith Lia Permutation Sorted.
From Verif Require Import Py PyFacts ReprProofs Effects EffectsFacts Grammar Earley ParserSpec GrammarProofs EarleyProofs
  EarleyProofs3 EarleyProofs4 EarleyProofs5 EarleyProofs6 ParserFacts PropParser Atoms AtomsFacts Composer ComposerSpec
  ComposerProofs ComposerProofs2 ComposerProofs3 ComposerProofs4 PropComposer
  Solver SolverSpec SolverProofs SolverProofs2 MatchProofs CoreModule CoreSpec CoreProofs InferenceModule TableModule
  DatalogSpec DatalogProofs DatalogProofs2 DatalogThms ExampleWorld PropDatalog PropFrame
  Pipeline PipelineSpec PipelineProofs QuestionSystem QuestionProofs QuestionProofs2
  Optimizer OptimizerSpec OptimizerProofs OptimizerProofs2 OptimizerProofs3 OptimizerProofs4 OptimizerProofs5
  OptimizerProofs6 PropOptimizer.
From Verif Require RegexProofs2.
Import ListNotations.
Local Close Scope Q_scope.
Local Open Scope nat_scope.
Local Open Scope string_scope.
Local Open Scope list_scope.

Notation parse_with := (parser_process scanned delta_meaning gamma_meaning).

(** what is left of a call that changed the model only *)
Definition with_world {V A B} (g : gindex meaning) (n : nat) (f : A -> B) (r : outcome A * V) : outcome B * world V :=
  match r with
  | (Ok a, v) => (Ok (f a), mkWorld g n v)
  | (Exn e, v) => (Exn e, mkWorld g n v)
  | (OutOfFuel, v) => (OutOfFuel, mkWorld g n v)
  end.

(** Whatever happens to the first tree is what the system does: the inferences
    of its meaning are written, its executable atoms are solved, and the
    answers are those of its meaning, also when there are none.  The other
    trees do not count. *)
Theorem C98_the_first_tree_is_final :
  forall (V : Type) re_match fuel opt (sv : solver_if V) store kp kc ke text (w : world V) g res t ts,
    kp <> FindAll ->
    parse_with re_match fuel text (sw_grammar w) = (Ok res, g) -> Earley.pr_products res = t :: ts ->
    ask re_match kp kc ke fuel opt sv store text w =
    match process opt t (sw_number w) with
    | (Ok c, n) =>
        match foldM (fun _ a => sv_write sv a) tt (p_inferences c) (sw_model w) with
        | (Ok tt, v1) =>
            match sv_solve sv (p_executable c) [] v1 with
            | (Ok _, v2) => with_world g n (fun s => Some (Some s))
                              (sv_solve sv (last (map snd (p_iterations c)) VNone) [] v2)
            | (Exn e, v2) => (Exn e, mkWorld g n v2)
            | (OutOfFuel, v2) => (OutOfFuel, mkWorld g n v2)
            end
        | (Exn e, v1) => (Exn e, mkWorld g n v1)
        | (OutOfFuel, v1) => (OutOfFuel, mkWorld g n v1)
        end
    | (Exn e, n) => (Exn e, mkWorld g n (sw_model w))
    | (OutOfFuel, n) => (OutOfFuel, mkWorld g n (sw_model w))
    end.
Proof.
  intros V re_match fuel opt sv store kp kc ke text w g res t ts Hk Hp Ht.
  assert (He : Earley.pr_error res = "").
  { destruct (C66_errors_classify_the_failure scanned delta_meaning gamma_meaning re_match fuel text (sw_grammar w) res) as (H & _);
      [now rewrite Hp|]. apply H. rewrite Ht. discriminate. }
  rewrite ask_respond by exact Hk. unfold respond, bind at 1, on_grammar. rewrite Hp, He, Ht. cbn [String.eqb].
  unfold bind at 1, on_number. cbn [sw_number sw_grammar sw_model].
  destruct (process opt t (sw_number w)) as [[c| |] n]; try reflexivity.
  unfold bind at 1, on_model. cbn [sw_number sw_grammar sw_model]. unfold execute, bind, last_iteration.
  destruct (foldM _ tt (p_inferences c) (sw_model w)) as [[[]| |] v1]; try reflexivity.
  destruct (sv_solve sv (p_executable c) [] v1) as [[x| |] v2]; try reflexivity.
  destruct (sv_solve sv _ [] v2) as [[s| |] v3]; reflexivity.
Qed.
Print Assumptions C98_the_first_tree_is_final.

(** No trees: only the output is stored, and nothing is composed or executed. *)
Theorem C98_no_tree_no_effect_but_output :
  forall (V : Type) re_match fuel opt (sv : solver_if V) store kp kc ke text (w : world V) g res,
    kp <> FindAll ->
    parse_with re_match fuel text (sw_grammar w) = (Ok res, g) -> Earley.pr_products res = [] ->
    (Earley.pr_error res = "unknown_word" \/ Earley.pr_error res = "no_sentence" \/ Earley.pr_error res = "not_understood") /\
    ask re_match kp kc ke fuel opt sv store text w =
    with_world g (sw_number w) (fun _ => None)
      (store [VTuple [VStr "output_type"; VStr (Earley.pr_error res)];
              VTuple (VStr (append "output_" (Earley.pr_error res)) :: map VStr (Earley.pr_args res))] (sw_model w)).
Proof.
  intros V re_match fuel opt sv store kp kc ke text w g res Hk Hp Ht.
  assert (He : Earley.pr_error res = "unknown_word" \/ Earley.pr_error res = "no_sentence" \/ Earley.pr_error res = "not_understood").
  { destruct (C66_errors_classify_the_failure scanned delta_meaning gamma_meaning re_match fuel text (sw_grammar w) res) as (_ & H);
      [now rewrite Hp|]. destruct (H Ht) as (ch & m & _ & _ & H1 & H2 & H3).
    destruct (Nat.lt_ge_cases m (String.length (normalize text))) as [Hm|Hm]; [left; now apply H1|]. right.
    destruct (string_dec (normalize text) "") as [E|E]; [left; now apply H2|right; now apply H3]. }
  split; [exact He|].
  rewrite ask_respond by exact Hk. unfold respond, bind at 1, on_grammar. rewrite Hp.
  assert (Hn : String.eqb (Earley.pr_error res) "" = false) by (destruct He as [->|[->| ->]]; reflexivity).
  rewrite Hn. unfold bind, on_model. cbn [sw_model sw_grammar sw_number].
  destruct (store _ (sw_model w)) as [[[]| |] v]; reflexivity.
Qed.
Print Assumptions C98_no_tree_no_effect_but_output.

(** ** conjunctive questions *)

(** the values that an answer has for the root variables *)
Definition root_values (roots : list string) (q : list fatom) (s : DatalogSpec.assignment) (x : binding) : Prop :=
  forall k, In k roots -> (fvars k q -> bget k x = Some (s k)) /\ (~ fvars k q -> bget k x = None).

Lemma fvars_dec k q : fvars k q \/ ~ fvars k q.
Proof.
  destruct (existsb (fun a => existsb (fun v => match v with VVar y => String.eqb y k | _ => false end) (fa_args a)) q) eqn:E.
  - left. apply existsb_exists in E as (a & Ha & E). apply existsb_exists in E as (v & Hv & E).
    destruct v; try discriminate. apply String.eqb_eq in E. subst. exists a. split; auto.
  - right. intros (a & Ha & Hv). rewrite <- not_true_iff_false in E. apply E.
    apply existsb_exists. exists a. split; auto. apply existsb_exists. exists (VVar k). split; auto. apply String.eqb_refl.
Qed.

Section Conjunctive.
  Context {W : Type}.
  Variable L : lens W rulebase.
  Variable tables : W -> string -> option (list (list value)).
  Variable arity : string -> nat.
  Variable rules : list frule.
  Variable v : W.
  Variable rank : string -> nat.
  Variable n : nat.
  Variable find : string -> list sizes.

  (** an atom the system can answer: flat, of a predicate that has a table or
      rules, with sizes that fit *)
  Definition answerable (p : string) (args : list value) : Prop :=
    flat_atom arity (mkAtom p args) /\ no_list_args (mkAtom p args) /\
    (forall r, In r (find p) -> sizes_fit r args) /\
    rank p <= n /\ DatalogProofs2.known tables rules v p.

  Lemma constant_rename f x : constant x = true -> constant (rename f x) = true.
  Proof.
    induction x using value_ind'; intros Hc; try discriminate; auto; cbn [rename constant] in *.
    - rewrite forallb_forall in *. intros y Hy. apply in_map_iff in Hy as (z & <- & Hz).
      rewrite Forall_forall in H. apply H; auto.
    - rewrite forallb_forall in *. intros y Hy. apply in_map_iff in Hy as (z & <- & Hz).
      rewrite Forall_forall in H. apply H; auto.
  Qed.

  Lemma answerable_rename p args f : answerable p args -> answerable p (map (rename f) args).
  Proof.
    intros ((U & A & F) & N & S & R & K). split; [|split; [|split; [|auto]]].
    - split; [exact U|]. split; [cbn; now rewrite map_length|].
      cbn. intros x Hx. apply in_map_iff in Hx as (y & <- & Hy). destruct (F y Hy) as [(z & ->)|Hc].
      + left. cbn. destruct (f z); eauto.
      + right. now apply constant_rename.
    - intros x Hx l E. cbn in Hx. apply in_map_iff in Hx as (y & Ey & Hy).
      destruct y; cbn in Ey; try (destruct (f _) in Ey); subst; try discriminate.
      exact (N _ Hy _ eq_refl).
    - intros r Hr. unfold sizes_fit. rewrite map_length. now apply S.
  Qed.

  Hypothesis Htab : good_tables tables arity v.
  Hypothesis Hrules : lget L v = rulebase_of rules.
  Hypothesis Hflat : forall r, In r rules -> flat_rule arity r /\ range_restricted r.
  Hypothesis Hrank : hierarchical tables rules v rank.
  Hypothesis Hscoped : tables v "scoped" = None.

  Lemma optimized_answers q roots : (forall a, In a q -> answerable (fa_pred a) (fa_args a)) ->
    exists passes l,
      optimize find (map atom_value q) roots = Ok passes /\
      (forall m, S (n + length q) <= m ->
         solve (model L tables) m (last (map snd passes) VNone) [] v = (Ok (SList l), v)) /\
      (forall x, In x l -> exists s, const_assignment s /\ satisfies (db_of tables v) rules s q /\ root_values roots q s x) /\
      (forall s, const_assignment s -> satisfies (db_of tables v) rules s q ->
         exists x, In x l /\ root_values roots q s x).
  Proof.
    intros Hq.
    assert (Hf : flat_atoms arity q) by (intros a Ha; destruct a; apply (Hq _ Ha)).
    assert (Hn : forall a, In a q -> no_list_args a) by (intros a Ha; destruct a; apply (Hq _ Ha)).
    assert (Hk : forall a, In a q -> rank (fa_pred a) <= n /\ DatalogProofs2.known tables rules v (fa_pred a))
      by (intros a Ha; apply (Hq _ Ha)).
    assert (Hs : Forall (sized find) (map atom_value q)).
    { apply Forall_forall. intros y Hy. apply in_map_iff in Hy as (a & <- & Ha). constructor.
      - apply (Hq _ Ha).
      - intros t b a' Ht Hb _. exfalso. inversion Hb; subst. exact (Hn a Ha _ Ht _ eq_refl). }
    destruct (front (map atom_value q)) as [r1| |] eqn:E1.
    2: { rewrite front_spec in E1. assert (Hno : no_empty_atom (VList (map atom_value q)) = true).
         { cbn [no_empty_atom]. apply forallb_forall. intros y Hy. apply in_map_iff in Hy as (a & <- & Ha).
           destruct (plain_atom a (Hn a Ha)) as (_ & _ & ->). cbn. apply orb_true_r. }
         rewrite Hno in E1. discriminate. }
    2: { rewrite front_spec in E1. destruct (no_empty_atom _); discriminate. }
    assert (P1 := front_plain q r1 Hn E1).
    destruct (sort_total find r1) as (r2 & E2); [rewrite <- P1; exact Hs|].
    destruct (isolate_total r2 roots) as (r3 & E3).
    assert (Eo : optimize find (map atom_value q) roots =
      Ok [("Semantics", VList (map atom_value q)); ("Names resolved", VList r1);
          ("Sorted by cost", VList r2); ("Isolated", VList r3)]).
    { unfold optimize. rewrite E1. cbn [obind]. rewrite E2. cbn [obind]. rewrite E3. reflexivity. }
    assert (Hb : const_binding []) by (intros x y; discriminate).
    pose proof (C85_optimizer_preserves_answers W L tables arity rules v rank find n q roots [] _ (VList r3)
      Htab Hrules Hflat Hrank Hscoped Hf Hn Hk Hb Eo) as H85.
    destruct H85 as (l & l' & H1 & H2 & H3 & H4); [cbn; auto|].
    eexists _, l'. split; [exact Eo|]. split.
    { intros m Hm. cbn [map snd last].
      apply (C27_limit_irrelevant_for_rules W L tables (S (n + length q)) m); auto. discriminate. }
    destruct (C29_hierarchical_rules_terminate_exactly W L tables arity rules rank v (n + length q) q [] Htab Hrules Hflat Hrank Hf)
      as (l0 & G1 & _ & G2 & G3).
    { intros x y. discriminate. }
    { intros a Ha. destruct (Hk a Ha). split; auto. lia. }
    rewrite H1 in G1. injection G1 as <-.
    assert (RV : forall s x x', answer_of s [] q x -> same_answer roots [] x x' -> root_values roots q s x').
    { intros s x x' Ha [Hr _] k Hkr. destruct (Ha k) as (A1 & A2). rewrite Hr by now left.
      split; [intros; apply A1; now right|intros; now apply A2]. }
    split.
    - intros x' Hx'. destruct (H4 x' Hx') as (x & Hx & Hsa). destruct (G2 x Hx) as (s & S1 & _ & S2 & S3).
      exists s. split; auto. split; auto. eapply RV; eauto.
    - intros s S1 S2. destruct (G3 s S1) as (x & Hx & Hax); auto; [intros y z; discriminate|].
      destruct (H3 x Hx) as (x' & Hx' & Hsa). exists x'. split; auto. eapply RV; eauto.
  Qed.
End Conjunctive.

(** Every grammar whose phrases mean conjunctions of answerable atoms, every
    text and every database: with large enough limits the system has no error.
    If the text has no parse tree, the output is stored.  Otherwise the answer
    of the first one, the best, has exactly the values for the root variables
    that make its meaning [q] true in the database, and the database is not
    changed. *)
Theorem C98_conjunctive_questions_are_answered_exactly :
  forall (W : Type) (L : lens W rulebase) tables arity rules (v : W) rank n find store
         re_match grules grank history text kp kc ke number,
    good_tables tables arity v -> lget L v = rulebase_of rules ->
    (forall r, In r rules -> flat_rule arity r /\ range_restricted r) ->
    hierarchical tables rules v rank -> tables v "scoped" = None ->
    Forall proper_rule grules -> re_ok re_match -> patterns_ok re_match (in_grammar grules) ->
    acyclic_units grules grank ->
    (forall r, in_grammar grules r ->
       well_typed (conj_type (answerable tables arity rules v rank n find)) r /\ plain_rule r /\ solid r /\ quiet r) ->
    kp <> FindAll ->
    let g := after_parses scanned delta_meaning gamma_meaning re_match history (grammar_rules grules) in
    exists N, forall fuel, N <= fuel ->
      exists res g', parse_with re_match fuel text g = (Ok res, g') /\
        exists N', forall limit, N' <= limit ->
        let answer := ask re_match kp kc ke fuel (Some (optimize find)) (solver_at (model L tables) limit) store
                        text (mkWorld g number v) in
        match Earley.pr_products res with
        | [] => answer = with_world g' number (fun _ => None)
                  (store [VTuple [VStr "output_type"; VStr (Earley.pr_error res)];
                          VTuple (VStr (append "output_" (Earley.pr_error res)) :: map VStr (Earley.pr_args res))] v)
        | t :: _ =>
            exists q roots number' l,
              process None t number = (Ok (mkProduct [("Semantics", atoms_of q)] [] (VList []) roots), number') /\
              answer = (Ok (Some (Some (SList l))), mkWorld g' number' v) /\
              (forall x, In x l -> exists s, const_assignment s /\ satisfies (db_of tables v) rules s q /\ root_values roots q s x) /\
              (forall s, const_assignment s -> satisfies (db_of tables v) rules s q -> exists x, In x l /\ root_values roots q s x)
        end.
Proof.
  intros W L tables arity rules v rank n find store re_match grules grank history text kp kc ke number
    Ht Hr Hf Hh Hs Hp Hre Htot Hac HG Hk g.
  destruct (C64_parsing_ends_without_unit_cycles scanned delta_meaning gamma_meaning re_match grules grank history text Hp Hre Htot)
    as (N & HN); auto.
  { intros r Hin. destruct (HG r Hin) as (_ & (P & _) & So & _). auto. }
  exists N. intros fuel Hfu. destruct (HN fuel Hfu) as (res & Hres). fold g in Hres.
  destruct (parse_with re_match fuel text g) as [o g'] eqn:Epar. cbn [fst] in Hres. subst o.
  exists res, g'. split; [reflexivity|].
  destruct (Earley.pr_products res) as [|t ts] eqn:Eprod.
  { exists 0. intros limit _.
    apply (C98_no_tree_no_effect_but_output W re_match fuel (Some (optimize find)) (solver_at (model L tables) limit) store kp kc ke text
             (mkWorld g number v) g' res Hk Epar Eprod). }
  set (T := conj_type (answerable tables arity rules v rank n find)).
  assert (TY : type_ok T) by (apply conj_type_ok; intros p args f; apply answerable_rename).
  assert (HG' : forall r, in_grammar grules r -> well_typed T r /\ plain_rule r) by (intros r Hin; split; apply (HG r Hin)).
  assert (Ein : In t (Earley.pr_products res)) by (rewrite Eprod; now left).
  assert (Hfst : fst (parse_with re_match fuel text g) = Ok res) by now rewrite Epar.
  destruct (C96_parse_trees_are_composed T re_match delta_meaning gamma_meaning grules history fuel text res t Hp Hre TY HG' Hfst Ein number)
    as (p & number' & s & Ep & Eit & HT & _).
  destruct (C61_trees_are_derivations scanned delta_meaning gamma_meaning re_match grules history fuel text res t Hp Hre Hfst Ein)
    as ((c & Sc & Tc & D) & _).
  assert (Hquiet : quiet_tree t).
  { apply (proj1 (derives_quiet re_match (in_grammar grules) (normalize text) (fun r Hr => proj2 (proj2 (proj2 (HG r Hr))))) _ _ _ _ D). }
  destruct (C80_variables_are_shared_or_fresh None t number p number' Ep) as (sigma & s' & n1 & X & _).
  destruct (proj1 quiet_nothing _ _ _ _ X Hquiet) as (Einf & Eexe). cbn [fst snd] in Einf, Eexe.
  assert (Kt : k_type (g_ante (rule_of t)) = PRelation).
  { inversion D as [? ? ? ? K|? ? ? ? ? K|? ? ? r0 ? Gr K _]; subst; try congruence.
    cbn. destruct K as (_ & _ & ->). exact Tc. }
  unfold T, conj_type, spoken in HT. rewrite Kt in HT. cbn in HT. destruct HT as (q & -> & Hq).
  destruct (optimized_answers L tables arity rules v rank n find Ht Hr Hf Hh Hs q (p_root_variables p) Hq)
    as (passes & l & Eo & Hsol & Hsound & Hcomp).
  pose proof (process_optimized _ _ _ _ _ _ _ Ep Eit Eo) as Eop.
  exists (S (n + length q)). intros limit Hlim. cbn zeta.
  exists q, (p_root_variables p), number', l. split.
  { rewrite Ep. destruct p as [its infs exe roots]. cbn in *. subst. reflexivity. }
  split; [|split; [exact Hsound|exact Hcomp]].
  rewrite (C98_the_first_tree_is_final W re_match fuel _ (solver_at (model L tables) limit) store kp kc ke text
             (mkWorld g number v) g' res t ts Hk Epar Eprod).
  cbn [sw_number sw_model]. rewrite Eop. cbn [p_inferences p_executable p_iterations]. rewrite Einf, Eexe. cbn [foldM ret].
  destruct limit as [|limit]; [lia|]. unfold solve in Hsol.
  assert (Ee : sv_solve (solver_at (model L tables) (S limit)) (VList []) [] v = (Ok (SList [[]]), v)) by reflexivity.
  rewrite Ee, (Hsol (S limit) Hlim). reflexivity.
Qed.
Print Assumptions C98_conjunctive_questions_are_answered_exactly.

(** ** an example *)
Definition grandparent_rule : frule :=
  mkFRule (mkAtom "grandparent" [V "X"; V "Z"]) [mkAtom "parent" [V "X"; V "Y"]; mkAtom "parent" [V "Y"; V "Z"]].
Definition relatives : ex_world := (rulebase_of [grandparent_rule], snd family).
Definition relatives_rank (p : string) : nat := if String.eqb p "grandparent" then 1 else 0.
Definition relatives_sizes (p : string) : list sizes :=
  if String.eqb p "parent" then [mkSizes (Some 3%Q) [Some 2%Q; Some 3%Q]] else [mkSizes None []].

(** s(E1) -> 'who is ' np(E1); np(E1) -> 'a ' rel(E1, E2);
    np(E1) -> 'a ' rel(E1, E2) ' of ' np(E2); rel(E1, E2) -> 'parent' *)
Definition noun_rule (w : string) : crule := sem_rule (rel "rel" ["E1"; "E2"]) [word w]
  (fun args => match args with [] => Ok (VList [at_ w [VVar "E1"; VVar "E2"]]) | _ => Exn TypeErr end).
Definition who_grammar : list crule := [
  sem_rule (rel "s" ["E1"]) [word "who is "; rel "np" ["E1"]]
    (fun args => match args with [VList np] => Ok (VList np) | _ => Exn TypeErr end);
  sem_rule (rel "np" ["E1"]) [word "a "; rel "rel" ["E1"; "E2"]]
    (fun args => match args with [VList r] => Ok (VList r) | _ => Exn TypeErr end);
  sem_rule (rel "np" ["E1"]) [word "a "; rel "rel" ["E1"; "E2"]; word " of "; rel "np" ["E2"]]
    (fun args => match args with [VList r; VList np] => Ok (VList (r ++ np)) | _ => Exn TypeErr end);
  noun_rule "parent"; noun_rule "grandparent" ].

Notation who_type := (conj_type (answerable ex_tables ex_arity [grandparent_rule] relatives relatives_rank 1 relatives_sizes)).

Lemma conj_iterable q atoms : VList (map atom_value q) = VList atoms -> Forall iterable atoms.
Proof.
  intros [= <-]. apply Forall_forall. intros y Hy. apply in_map_iff in Hy as (a & <- & _). eexists. reflexivity.
Qed.
Lemma who_answerable w : w = "parent" \/ w = "grandparent" ->
  answerable ex_tables ex_arity [grandparent_rule] relatives relatives_rank 1 relatives_sizes w [V "E1"; V "E2"].
Proof.
  intros H. split; [destruct H as [->| ->]; flat|]. split; [intros x [<-|[<-|[]]] l; discriminate|].
  split; [|split].
  - intros r Hr. destruct H as [->| ->]; destruct Hr as [<-|[]]; [right|left; reflexivity].
    split; [reflexivity|]. intros m [[= <-]|[[= <-]|[]]]; discriminate.
  - destruct H as [->| ->]; unfold relatives_rank; cbn; lia.
  - destruct H as [->| ->]; [left; discriminate|right; eexists; split; [now left|reflexivity]].
Qed.
Lemma who_typed r : in_grammar who_grammar r -> well_typed who_type r /\ plain_rule r /\ solid r /\ quiet r.
Proof.
  assert (All : forall r, In r who_grammar -> (well_typed who_type r /\ plain_rule r /\ solid r /\ quiet r) /\
                  forall c, In c (g_cons r) -> k_optional c = false).
  { assert (Noun : forall w, w = "parent" \/ w = "grandparent" -> well_typed who_type (noun_rule w)).
    { intros w Hw. constructor; [|discriminate|discriminate]. eexists. split; [reflexivity|].
      intros args F. cbn in F. inversion F; subst. eexists. split; [reflexivity|]. split.
      - cbn. exists [mkAtom w [V "E1"; V "E2"]]. split; [reflexivity|]. intros a [<-|[]]. now apply who_answerable.
      - intros atoms. apply (conj_iterable [mkAtom w [V "E1"; V "E2"]]). }
    assert (Rest : forall r, In r who_grammar -> plain_rule r /\ solid r /\ quiet r /\ forall c, In c (g_cons r) -> k_optional c = false).
    { intros r0 H. cbn in H. repeat (destruct H as [<-|H]; [split; [|split; [|split]]; cbn;
        [split; [reflexivity|split; [discriminate|]]|split; [discriminate|]|split; reflexivity|];
        intros c Hc; cbn in Hc; repeat (destruct Hc as [<-|Hc]; [try discriminate; reflexivity|]); destruct Hc|]). destruct H. }
    intros r0 H. destruct (Rest r0 H) as (R1 & R2 & R3 & R4). split; [split; [|auto]|exact R4].
    destruct H as [<-|[<-|[<-|[<-|[<-|[]]]]]]; [| | |apply Noun; auto|apply Noun; auto].
    - constructor; [|discriminate|discriminate]. eexists. split; [reflexivity|]. intros args F. cbn in F.
      inversion F as [|? v1 ? l1 T1 F1]; subst. inversion F1; subst. cbn in T1. destruct T1 as (q1 & -> & Q1).
      eexists. split; [reflexivity|]. split; [cbn; eauto|]. intros atoms. apply conj_iterable.
    - constructor; [|discriminate|discriminate]. eexists. split; [reflexivity|]. intros args F. cbn in F.
      inversion F as [|? v1 ? l1 T1 F1]; subst. inversion F1; subst. cbn in T1. destruct T1 as (q1 & -> & Q1).
      eexists. split; [reflexivity|]. split; [cbn; eauto|]. intros atoms. apply conj_iterable.
    - constructor; [|discriminate|discriminate]. eexists. split; [reflexivity|]. intros args F. cbn in F.
      inversion F as [|? v1 ? l1 T1 F1]; subst. inversion F1 as [|? v2 ? l2 T2 F2]; subst. inversion F2; subst.
      cbn in T1, T2. destruct T1 as (q1 & -> & Q1), T2 as (q2 & -> & Q2).
      eexists. split; [reflexivity|]. split.
      + cbn. exists (q1 ++ q2). rewrite map_app. split; auto. intros a Ha. apply in_app_iff in Ha as [Ha|Ha]; auto.
      + intros atoms. rewrite <- map_app. apply conj_iterable. }
  intros (r0 & H0 & Va). destruct (All r0 H0) as (([W1 W2 W3] & (P1 & P2 & P3) & (S1 & S2) & (Q1 & Q2)) & No).
  destruct (same_variant _ _ No Va) as (Ea & Em & Ec). split; [|split; [|split]].
  - constructor; rewrite ?Ea, ?Em, ?Ec; auto.
  - unfold plain_rule. rewrite Ea, Ec. auto.
  - unfold solid. rewrite Ec. auto.
  - unfold quiet. rewrite Em. auto.
Qed.
Lemma who_proper : Forall proper_rule who_grammar.
Proof.
  unfold who_grammar. repeat match goal with |- Forall _ (_ :: _) => constructor | |- Forall _ [] => constructor end;
  constructor; try (split; cbn; discriminate); intros c H; cbn in H;
  repeat (destruct H as [<-|H]; [split; [intros T; cbn in T |- *; try discriminate T; split; discriminate|cbn; discriminate]|]); destruct H.
Qed.
Lemma who_acyclic : acyclic_units who_grammar (fun _ _ => 0).
Proof.
  intros r c (r0 & H0 & Va) Hc Ht. exfalso.
  assert (No : forall c, In c (g_cons r0) -> k_optional c = false).
  { intros c0 H. cbn in H0. repeat (destruct H0 as [<-|H0]; [cbn in H; repeat (destruct H as [<-|H]; [reflexivity|]); destruct H|]). destruct H0. }
  destruct (same_variant _ _ No Va) as (_ & _ & Ec). rewrite Ec in Hc.
  destruct H0 as [<-|[<-|[<-|[<-|[<-|[]]]]]]; try discriminate; injection Hc as <-; discriminate.
Qed.
Lemma relatives_good : good_tables ex_tables ex_arity relatives /\ lget ex_lens relatives = rulebase_of [grandparent_rule] /\
  (forall r, In r [grandparent_rule] -> flat_rule ex_arity r /\ range_restricted r) /\
  hierarchical ex_tables [grandparent_rule] relatives relatives_rank /\ ex_tables relatives "scoped" = None.
Proof.
  split; [exact ex_good_tables|]. split; [reflexivity|]. split.
  - intros r [<-|[]]. split; [split; [flat|]|].
    + intros a [<-|[<-|[]]]; flat.
    + intros x [E|[E|[]]]; injection E as <-; [exists (mkAtom "parent" [V "X"; V "Y"])|exists (mkAtom "parent" [V "Y"; V "Z"])];
        (split; [cbn; auto|cbn; unfold fvar; cbn; auto]).
  - split; [|reflexivity]. intros r [<-|[]] a [<-|[<-|[]]]; (split; [unfold relatives_rank; cbn; lia|left; discriminate]).
Qed.

Definition python_re : string -> string -> outcome (option string) := RegexProofs2.py_match.
Lemma who_patterns : patterns_ok python_re (in_grammar who_grammar).
Proof.
  intros r c (r0 & H0 & Va) Hc Ek. exfalso.
  assert (No : forall c, In c (g_cons r0) -> k_optional c = false).
  { intros c0 H. cbn in H0. repeat (destruct H0 as [<-|H0]; [cbn in H; repeat (destruct H as [<-|H]; [reflexivity|]); destruct H|]). destruct H0. }
  destruct (same_variant _ _ No Va) as (_ & _ & Ec). rewrite Ec in Hc.
  cbn in H0. repeat (destruct H0 as [<-|H0]; [cbn in Hc; repeat (destruct Hc as [<-|Hc]; [discriminate Ek|]); destruct Hc|]). destruct H0.
Qed.
Definition who_ask (text : string) :=
  ask python_re FindOne TryFirst TryFirst 200 (Some (optimize relatives_sizes)) (solver_at (model ex_lens ex_tables) 10)
    (fun _ => ret tt) text (mkWorld (grammar_rules who_grammar) 0 relatives).

Example C98_hypotheses :
  Forall proper_rule who_grammar /\ re_ok python_re /\ patterns_ok python_re (in_grammar who_grammar) /\ acyclic_units who_grammar (fun _ _ => 0) /\
  (forall r, in_grammar who_grammar r -> well_typed who_type r /\ plain_rule r /\ solid r /\ quiet r) /\
  FindOne <> FindAll.
Proof.
  split; [apply who_proper|]. split; [exact RegexProofs2.py_match_prefix|]. split; [exact who_patterns|].
  split; [apply who_acyclic|]. split; [apply who_typed|discriminate].
Qed.

Example C98_example :
  fst (who_ask "Who is a parent  of a parent") = Ok (Some (Some (SList [[("$1", S_ "ann"); ("$2", S_ "bob")]]))) /\
  fst (who_ask "who is a grandparent") = Ok (Some (Some (SList [[("$1", S_ "ann"); ("$2", S_ "cid")]]))) /\
  fst (who_ask "who is a grandparent of a grandparent") = Ok (Some (Some (SList []))) /\
  fst (who_ask "who is a uncle") = Ok None.
Proof. repeat split; vm_compute; reflexivity. Qed.
