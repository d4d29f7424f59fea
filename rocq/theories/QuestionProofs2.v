(** * Grammars whose phrases mean conjunctions of atoms *)

From Coq Require Import ZArith QArith String List Bool Arith Lia Permutation.
From Verif Require Import Py PyFacts Effects EffectsFacts Grammar Earley ParserSpec GrammarProofs EarleyProofs
  EarleyProofs3 EarleyProofs4 EarleyProofs5 EarleyProofs6 ParserFacts PropParser Composer ComposerSpec ComposerProofs ComposerProofs2 ComposerProofs3 ComposerProofs4
  Solver Pipeline PipelineSpec PipelineProofs QuestionSystem QuestionProofs
  Optimizer OptimizerSpec OptimizerProofs OptimizerProofs2 OptimizerProofs3 OptimizerProofs5 OptimizerProofs6
  DatalogSpec DatalogProofs DatalogProofs2.
Import ListNotations.
Local Close Scope Q_scope.
Local Open Scope nat_scope.
Local Open Scope string_scope.
Local Open Scope list_scope.

Scheme explains_mut := Minimality for explains Sort Prop
  with explain_children_mut := Minimality for explain_children Sort Prop.
Combined Scheme explains_both from explains_mut, explain_children_mut.

(** rules that only have a meaning *)
Definition quiet (r : crule) : Prop := m_exec (g_mean r) = None /\ m_dialog (g_mean r) = DAtoms [].
Inductive quiet_tree : ctree -> Prop :=
| quiet_node cat ts form r : quiet r -> (forall t, In t ts -> quiet_tree t) -> quiet_tree (Node cat ts form r).

Lemma quiet_nothing :
  (forall sigma t vars p, explains sigma t vars p -> quiet_tree t -> snd (fst p) = [] /\ snd p = VList []) /\
  (forall a tau ts conss sems infs exe, explain_children a tau ts conss sems infs exe ->
     (forall t, In t ts -> quiet_tree t) -> infs = [] /\ exe = []).
Proof.
  apply explains_both.
  - intros sigma cat children form r incoming sems infs exe f s x d _ IH Ef Es Hx Hd _ _ Q.
    inversion Q as [? ? ? ? (Q1 & Q2) Qs]; subst. destruct (IH Qs) as (-> & ->).
    inversion Hx; [|congruence]. inversion Hd; [|congruence]. subst. cbn.
    assert (d = []) by congruence. subst. auto.
  - auto.
  - auto.
  - intros a tau cat form r ts c conss sems infs exe _ _ IH Q. apply IH. intros t Ht. apply Q. now right.
  - intros a tau cat form r ts c conss f v sems infs exe _ _ _ IH Q. apply IH. intros t Ht. apply Q. now right.
  - intros a tau cat t1 ts1 form r ts c conss vars s i x xs sems infs exe _ _ IH1 Ex _ IH2 Q.
    destruct IH1 as (E1 & E2); [apply Q; now left|]. cbn in E1, E2. subst.
    destruct IH2 as (-> & ->); [intros t Ht; apply Q; now right|]. cbn in Ex. injection Ex as <-. auto.
Qed.

Lemma derives_quiet re_match (G : crule -> Prop) text : (forall r, G r -> quiet r) ->
  (forall c i j t, derives scanned re_match G text c i j t -> quiet_tree t) /\
  (forall cs i j ts, derives_all scanned re_match G text cs i j ts -> forall t, In t ts -> quiet_tree t).
Proof.
  intros HG. apply derives_both.
  - intros c i w r _ _ _ (_ & Em & _). constructor; [|intros t []]. unfold quiet. rewrite Em. auto.
  - intros c i m w r _ _ _ _ (_ & Em & _). constructor; [|intros t []]. unfold quiet. rewrite Em. auto.
  - intros c i j r ts Gr _ _ IH. constructor; auto.
  - intros i t [].
  - intros c cs i j k t ts _ IH1 _ IH2 t' [<-|H]; auto.
Qed.

(** composing with an optimizer *)
Lemma process_optimized o t n p n' atoms its :
  process None t n = (Ok p, n') -> p_iterations p = [("Semantics", VList atoms)] ->
  o atoms (p_root_variables p) = Ok its ->
  process (Some o) t n = (Ok (mkProduct its (p_inferences p) (p_executable p) (p_root_variables p)), n').
Proof.
  unfold process, bind. destruct (check_for_sem t n) as [[u| |] n1]; try discriminate.
  destruct (match t with Node _ _ _ r => next_for (k_args (g_ante r)) end n1) as [[root| |] n2]; try discriminate.
  destruct (compose t root n2) as [[c| |] n3]; try discriminate. cbn [ret].
  intros [= <- <-]. cbn [p_iterations p_root_variables p_inferences p_executable].
  intros [= ->] ->. reflexivity.
Qed.

(** atoms a system can answer: flat, without lists, with sizes that fit *)
Section Conj.
  Variable good : string -> list value -> Prop.
  Definition good_atom (a : fatom) : Prop := good (fa_pred a) (fa_args a).
  Hypothesis good_rename : forall p args f, good p args -> good p (map (rename f) args).

  Definition conj_type (c : constituent) (v : value) : Prop :=
    if spoken c then
      match k_type c with
      | PRegExp => exists w, v = VStr w
      | _ => exists q, v = VList (map atom_value q) /\ forall a, In a q -> good_atom a
      end
    else True.

  Lemma conj_type_ok : type_ok conj_type.
  Proof.
    unfold conj_type, spoken. constructor.
    - intros c c' v (_ & _ & E). rewrite E. auto.
    - intros c f v. destruct (k_type c); cbn; auto.
      + intros (q & -> & H). exists (map (fun a => mkAtom (fa_pred a) (map (rename f) (fa_args a))) q).
        cbn. rewrite !map_map. split; [reflexivity|]. intros a Ha. apply in_map_iff in Ha as (a0 & <- & Ha).
        unfold good_atom. cbn. apply good_rename. now apply H.
      + intros (w & ->). exists w. reflexivity.
    - intros c w E. rewrite E. cbn. exists w. reflexivity.
  Qed.
End Conj.
