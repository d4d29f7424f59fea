(** * Reading the sentences of SIR: what the parser, the composer and the
      optimizer make of a text *)

From Coq Require Import ZArith QArith String Ascii List Bool Arith Lia.
From Verif Require Import Py Effects Grammar Earley ParserSpec GrammarProofs EarleyProofs EarleyProofs3 EarleyProofs4 EarleyProofs5 EarleyProofs6 PropParser
  Composer ComposerProofs ComposerProofs2 QuestionProofs2
  InferenceModule FragmentModel Regex RegexProofs RegexProofs2 PropRegex Optimizer Pipeline QuestionSystem PropSystem SirModel SirSpec SirProofs SirProofs2.
Import ListNotations.
Local Close Scope Q_scope.
Local Open Scope nat_scope.
Local Open Scope string_scope.
Local Open Scope list_scope.

(** ** the grammar is fit for the parser *)
Lemma sir_proper : Forall proper_rule sir_grammar.
Proof.
  repeat (apply Forall_cons; [constructor; [split; discriminate|]; cbn [g_cons rule_of new_rule s_statement st_every st_any st_a s_is a_rule cnn_name cnn_plural name_rule In];
    intros c Hc; repeat (destruct Hc as [<-|Hc]; [split; [|discriminate]; intros T; first [discriminate T|split; discriminate]|]); destruct Hc|]). apply Forall_nil.
Qed.
Lemma sir_solid r : in_grammar sir_grammar r -> solid r /\ k_type (g_ante r) = PRelation.
Proof.
  intros Hr. apply rule_view in Hr. unfold views, view in Hr. cbn [map app In] in Hr. unfold solid.
  repeat (destruct Hr as [Hr|Hr]; [injection Hr as E1 E2 _; rewrite <- E1, <- E2; split; [split; [discriminate|]|reflexivity];
    cbn [g_cons rule_of new_rule s_statement st_every st_any st_a s_is a_rule cnn_name cnn_plural name_rule In];
    intros c Hc; repeat (destruct Hc as [<-|Hc]; [intros T; first [discriminate T|discriminate]|]); destruct Hc|]). destruct Hr.
Qed.
Lemma sir_patterns : patterns_ok py_match (in_grammar sir_grammar).
Proof.
  intros r c Hr Hc T s. apply rule_view in Hr. unfold views, view in Hr. cbn [map app In] in Hr.
  repeat (destruct Hr as [Hr|Hr]; [injection Hr as E1 E2 _; rewrite <- E2 in Hc;
    cbn [g_cons rule_of new_rule s_statement st_every st_any st_a s_is a_rule cnn_name cnn_plural name_rule In] in Hc;
    repeat (destruct Hc as [<-|Hc]; [first [discriminate T|cbn [k_pred]; unfold py_match; rewrite name_compiled; eauto]|]); destruct Hc|]). destruct Hr.
Qed.
Definition sir_rank (p : string) (n : nat) : nat :=
  if String.eqb p "s" then 2 else if String.eqb p "name" then 0 else 1.
Lemma sir_acyclic : acyclic_units sir_grammar sir_rank.
Proof.
  intros r c Hr Hc T. apply rule_view in Hr. unfold views, view in Hr. cbn [map app In] in Hr.
  repeat (destruct Hr as [Hr|Hr]; [injection Hr as E1 E2 _; rewrite <- E1; rewrite <- E2 in Hc; first [discriminate Hc|injection Hc as <-; first [discriminate T|cbn; lia]]|]). destruct Hr.
Qed.

(** ** the optimizer *)

Definition opt_fun : Type := list value -> list string -> outcome (list (string * value)).
(** no optimizer, or one that leaves a single intent as it is *)
Definition leaves_intents (o : option opt_fun) : Prop :=
  match o with
  | None => True
  | Some f => forall x y v, v = teaches x y \/ v = claims x y \/ v = asks x y -> exists l its, v = VList l /\ f l [] = Ok its /\ last (map snd its) VNone = v
  end.

Lemma cost_found find bound p args : (forall q r, In r (find q) -> z_relation r = None) ->
  exists c, calculate_cost find bound (VTuple (VStr p :: args)) = Ok c.
Proof.
  intros Hz. unfold calculate_cost. cbn [first obind relations_of Composer.elements tl].
  assert (E : exists cs, omap (relation_cost bound args) (find p) = Ok cs).
  { generalize (fun r => Hz p r). generalize (find p) as rs. induction rs as [|r rs IH]; intros H; cbn; [eauto|].
    unfold relation_cost at 1. rewrite (H r (or_introl eq_refl)). cbn. destruct IH as (cs & ->); [intros r' Hr'; apply H; now right|]. cbn. eauto. }
  cbn. destruct E as (cs & ->). cbn. destruct cs; eauto.
Qed.
Lemma rank_one find bound p args : (forall q r, In r (find q) -> z_relation r = None) ->
  rank find bound [VTuple (VStr p :: args)] = Ok [VTuple (VStr p :: args)].
Proof. intros Hz. destruct (cost_found find bound p args Hz) as (c & E). unfold rank. cbn [omap]. rewrite E. reflexivity. Qed.

(** BasicQueryOptimizer, when the sizes of relations are not known *)
Lemma optimizer_leaves find : (forall q r, In r (find q) -> z_relation r = None) -> leaves_intents (Some (optimize find)).
Proof.
  intros Hz x y v Hv.
  assert (Hi : forall p, p = "intent_teach" \/ p = "intent_claim" -> exists its, optimize find [VTuple [VStr p; VList [isa_atom (VStr x) (VStr y)]]] [] = Ok its /\
    last (map snd its) VNone = VList [VTuple [VStr p; VList [isa_atom (VStr x) (VStr y)]]]).
  { intros p Hp. unfold optimize.
    assert (Ef : front [VTuple [VStr p; VList [isa_atom (VStr x) (VStr y)]]] = Ok [VTuple [VStr p; VList [isa_atom (VStr x) (VStr y)]]]) by
      (destruct Hp as [-> | ->]; reflexivity).
    rewrite Ef. cbn [obind].
    assert (Es : sort find [VTuple [VStr p; VList [isa_atom (VStr x) (VStr y)]]] = Ok [VTuple [VStr p; VList [isa_atom (VStr x) (VStr y)]]]).
    { unfold sort. cbn [depth fold_right isa_atom Nat.max sort_depth length]. cbn [sort_rest]. rewrite rank_one by auto. cbn [obind sort_arguments omap sort_argument is_body].
      cbn [sort_depth length sort_rest]. unfold isa_atom. rewrite rank_one by auto. reflexivity. }
    rewrite Es. cbn [obind]. eexists. split; reflexivity. }
  destruct Hv as [->|[->| ->]].
  - destruct (Hi "intent_teach" (or_introl eq_refl)) as (its & E1 & E2). eexists _, its. split; [reflexivity|]. auto.
  - destruct (Hi "intent_claim" (or_intror eq_refl)) as (its & E1 & E2). eexists _, its. split; [reflexivity|]. auto.
  - assert (Es : sort find [VTuple [VStr "intent_isa"; VStr x; VStr y]] = Ok [VTuple [VStr "intent_isa"; VStr x; VStr y]]).
    { unfold sort. cbn [depth fold_right Nat.max sort_depth length]. cbn [sort_rest]. rewrite rank_one by auto. reflexivity. }
    assert (Ef : front [VTuple [VStr "intent_isa"; VStr x; VStr y]] = Ok [VTuple [VStr "intent_isa"; VStr x; VStr y]]) by reflexivity.
    eexists _, _. split; [reflexivity|]. unfold optimize. rewrite Ef. cbn [obind]. rewrite Es. split; reflexivity.
Qed.

(** ** reading *)
Lemma processed text s t : worded s text ->
  (exists c, k_pred c = "s" /\ k_type c = PRelation /\ derives scanned py_match (in_grammar sir_grammar) text c 0 (String.length text) t) ->
  exists sem, means s sem /\ (exists x y, sem = teaches x y \/ sem = claims x y \/ sem = asks x y) /\
    forall n, process None t n = (Ok (mkProduct [("Semantics", sem)] [] (VList []) []), n).
Proof.
  intros Hw (c & Hc & Ht & D).
  assert (D' : derives scanned py_match (in_grammar sir_grammar) text (phrase "s" []) 0 (String.length text) t).
  { inversion D as [c' i w r T|c' i w m r T|c' i j r ts Hr Sk Da]; subst; try congruence. rewrite Hc.
    apply (derives_rule scanned py_match _ text (phrase "s" [])) with (r := r); auto.
    destruct Sk as (Ek & _ & Et). rewrite Hc in Ek. apply rule_view in Hr. unfold views, view in Hr. cbn [map app In] in Hr.
    repeat (destruct Hr as [Hr|Hr]; [injection Hr as E1 E2 _; rewrite <- E1 in Ek |- *; first [discriminate Ek|repeat split]|]). destruct Hr. }
  destruct (sentence_read text 0 _ t D') as (cs & m & v & vss & f & x & y & Hv & Hf & Hs & Hm & sem & Ef & Hxy & Hp).
  assert (Ev : v = text).
  { unfold span in Hs. cbn in Hs. assert (El : drop (String.length text) text = "") by (rewrite <- (app_nil_s text) at 2; apply drop_app).
    rewrite El, app_nil_s in Hs. auto. }
  subst v. exists sem. split; [apply (unique_meaning s text cs m vss f sem); auto|]. split; [eauto|]. intros n.
  destruct (derived_rule text "s" 0 _ t D') as (r & ts & cs' & m' & _ & -> & Ea & _).
  inversion Hp as [? ? ? Nf|? ? ? ? Nf|? c1 cs1 ? ? ? (H1 & H2)]; try congruence. subst. unfold process. unfold bind at 1. rewrite H1.
  rewrite Ea. cbn [k_args phrase next_for]. unfold bind at 1. cbn [ret]. unfold bind at 1. rewrite H2. reflexivity.
Qed.
Lemma processed_opt opt text s t : leaves_intents opt -> worded s text ->
  (exists c, k_pred c = "s" /\ k_type c = PRelation /\ derives scanned py_match (in_grammar sir_grammar) text c 0 (String.length text) t) ->
  exists sem, means s sem /\ exists its, last (map snd its) VNone = sem /\
    forall n, process opt t n = (Ok (mkProduct its [] (VList []) []), n).
Proof.
  intros Ho Hw D. destruct (processed text s t Hw D) as (sem & Hs & (x & y & Hxy) & E). exists sem. split; [exact Hs|]. destruct opt as [o|].
  - destruct (Ho x y sem Hxy) as (l & its & -> & Eo & El). exists its. split; [exact El|]. intros n.
    apply (process_optimized o t n _ n l its (E n) eq_refl Eo).
  - exists [("Semantics", sem)]. auto.
Qed.

Notation past history := (after_parses scanned delta_meaning gamma_meaning py_match history (grammar_rules sir_grammar)).

Lemma sentence_parsed text s : worded s (normalize text) -> exists N, forall fuel, N <= fuel -> forall history, exists res t ts,
  parse_with py_match fuel text (past history) = (Ok res, past (history ++ [(fuel, text)])) /\ Earley.pr_products res = t :: ts /\
  exists c, k_pred c = "s" /\ k_type c = PRelation /\
    derives scanned py_match (in_grammar sir_grammar) (normalize text) c 0 (String.length (normalize text)) t.
Proof.
  intros Hw. destruct C79_patterns_in_grammar_rules as (Hre & _).
  destruct (C64_parsing_ends_without_unit_cycles scanned delta_meaning gamma_meaning py_match sir_grammar sir_rank [] text sir_proper Hre sir_patterns sir_solid sir_acyclic) as (N & HN).
  exists N. intros fuel Hf history. set (g := past history). destruct (HN fuel Hf) as (res & Hres). cbn [after_parses fold_left] in Hres.
  assert (Hfst : fst (parse_with py_match fuel text g) = Ok res).
  { rewrite <- Hres. apply (C65_earlier_parses_do_not_matter scanned delta_meaning gamma_meaning py_match history fuel text (grammar_rules sir_grammar)). }
  assert (Epar : parse_with py_match fuel text g = (Ok res, past (history ++ [(fuel, text)]))).
  { destruct (parse_with py_match fuel text g) as [o g'] eqn:E. cbn in Hfst. subst o. f_equal.
    unfold after_parses. rewrite fold_left_app. change (g' = snd (parse_with py_match fuel text g)). now rewrite E. }
  destruct (sentence_found (normalize text) s Hw) as (t0 & Ht0).
  destruct (C62_every_derivation_is_found scanned delta_meaning gamma_meaning py_match sir_grammar history fuel text res
          (phrase "s" []) t0 sir_proper Hre sir_solid Hfst eq_refl eq_refl Ht0) as (t' & Ht' & _).
  destruct (Earley.pr_products res) as [|t ts] eqn:Eprod; [destruct Ht'|]. exists res, t, ts. split; [exact Epar|]. split; [exact Eprod|].
  apply (C61_trees_are_derivations scanned delta_meaning gamma_meaning py_match sir_grammar history fuel text res t sir_proper Hre Hfst).
  rewrite Eprod. now left.
Qed.
