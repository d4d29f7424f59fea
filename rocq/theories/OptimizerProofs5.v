(** * The whole optimizer keeps the answers of conjunctive queries *)

From Coq Require Import ZArith QArith String List Bool Permutation Lia Arith.
From Verif Require Import Py PyFacts ReprProofs Effects EffectsFacts Solver SolverSpec SolverProofs SolverProofs2
  MatchProofs Atoms AtomsFacts CoreModule CoreSpec CoreProofs InferenceModule TableModule
  DatalogSpec DatalogProofs DatalogProofs2 DatalogThms Earley Composer
  Optimizer OptimizerSpec OptimizerProofs OptimizerProofs2 OptimizerProofs3 OptimizerProofs4.
Import ListNotations.
Local Close Scope Q_scope.
Local Open Scope nat_scope.
Local Open Scope string_scope.
Local Open Scope list_scope.

(** no argument of the atom is a list *)
Definition no_list_args (a : fatom) : Prop := forall v, In v (fa_args a) -> forall l, v <> VList l.

Lemma plain_atom a : no_list_args a ->
  resolvers (atom_value a) = [] /\ without_resolvers (atom_value a) = atom_value a /\
  no_empty_atom (atom_value a) = true.
Proof.
  intros H. unfold atom_value. cbn [resolvers without_resolvers no_empty_atom flat_map map forallb app andb].
  unfold no_list_args in H. induction (fa_args a) as [|v l IH]; [auto|].
  destruct IH as (H1 & H2 & H3); [intros u Hu; apply H; now right|].
  assert (Hv : forall m, v <> VList m) by (apply H; now left).
  cbn [flat_map map forallb]. injection H2 as H2.
  destruct v; try (exfalso; now apply (Hv l0)); cbn [app andb]; rewrite H2; auto.
Qed.

Lemma front_plain q r : (forall a, In a q -> no_list_args a) -> front (map atom_value q) = Ok r ->
  Permutation (map atom_value q) r.
Proof.
  intros Hq. rewrite front_spec. destruct (no_empty_atom _); [|discriminate]. intros E. inversion E; subst. clear E.
  unfold others. cbn [resolvers].
  induction q as [|a q IH]; [constructor|]. cbn [map flat_map].
  destruct (plain_atom a) as (H1 & H2 & _); [apply Hq; now left|]. rewrite H1, H2.
  assert (IH' := IH (fun a' H => Hq a' (or_intror H))).
  destruct (is_resolver (atom_value a)); cbn [app]; [now constructor|].
  now apply Permutation_cons_app.
Qed.

Lemma reordered_plain : forall l m, reordered l m ->
  (forall v, In v l -> exists a, no_list_args a /\ v = atom_value a) -> Permutation l m.
Proof.
  intros l m H Hl. destruct H as [l m m' Hp Hm].
  assert (Hin : forall v, In v m -> exists a, no_list_args a /\ v = atom_value a).
  { intros v Hv. apply Hl. now apply (Permutation_in _ (Permutation_sym Hp)). }
  assert (Hargs : forall args args', reordered_arguments args args' ->
            (forall v, In v args -> forall l, v <> VList l) -> args' = args).
  { induction 1; intros Hv; auto.
    - f_equal. apply IHreordered_arguments. intros; apply Hv; now right.
    - exfalso. inversion H; subst. eapply (Hv _ (or_introl eq_refl)). reflexivity. }
  assert (m' = m); [|now subst].
  clear Hp Hl. induction Hm as [|a a' l0 l' Ha _ IH]; auto. f_equal; [|apply IH; intros; apply Hin; now right].
  destruct Ha as [a|a args args' Ha Hr]; auto.
  destruct (Hin a (or_introl eq_refl)) as (f & Hf & ->).
  destruct Ha as [Ha|Ha]; [|discriminate]. unfold atom_value in *. injection Ha as <-. f_equal.
  apply (Hargs _ _ Hr). intros v [<-|Hv] l1; [discriminate|now apply Hf].
Qed.

Lemma front_sort_plain find q r1 r2 : (forall a, In a q -> no_list_args a) ->
  front (map atom_value q) = Ok r1 -> sort find r1 = Ok r2 ->
  exists q', r2 = map atom_value q' /\ Permutation q q'.
Proof.
  intros Hq H1 H2. apply front_plain in H1; auto. apply sort_ok in H2.
  apply (cheapest_reordered_all find) in H2. apply reordered_plain in H2.
  - assert (Hp : Permutation r2 (map atom_value q)) by (symmetry; eapply perm_trans; eauto).
    apply Permutation_map_inv in Hp as (q' & E & Hp). eauto.
  - intros v Hv. apply (Permutation_in _ (Permutation_sym H1)) in Hv. apply in_map_iff in Hv as (a & <- & Ha). eauto.
Qed.

(** [x'] has the values of [x] for the variables of [b] and the root
    variables, and no values that [x] has not *)
Record same_answer (roots : list string) (b x x' : binding) : Prop := {
  sa_roots : forall k, In k roots \/ bget k b <> None -> bget k x' = bget k x;
  sa_part : keeps_entries x' x
}.

Section Answers.
  Context {W : Type}.
  Variable L : lens W rulebase.
  Variable tables : W -> string -> option (list (list value)).
  Variable arity : string -> nat.
  Variable rules : list frule.
  Variable w : W.
  Hypothesis Htab : good_tables tables arity w.
  Hypothesis Hrules : lget L w = rulebase_of rules.
  Hypothesis Hflat : forall r, In r rules -> flat_rule arity r /\ range_restricted r.
  Variable rank : string -> nat.
  Hypothesis Hrank : hierarchical tables rules w rank.
  Hypothesis Hscoped : tables w "scoped" = None.

  Notation mods := (dl_mods L tables).

  Lemma isolated_answers n q q' roots r b :
    Permutation q q' -> flat_atoms arity q ->
    (forall a, In a q -> rank (fa_pred a) <= n /\ DatalogProofs2.known tables rules w (fa_pred a)) ->
    const_binding b -> isolate (map atom_value q') roots = Ok r ->
    exists l l',
      solve mods (S (n + length q)) (VList (map atom_value q)) b w = (Ok (SList l), w) /\
      solve mods (S (n + length q)) (VList r) b w = (Ok (SList l'), w) /\
      (forall x, In x l -> exists x', In x' l' /\ same_answer roots b x x') /\
      (forall x', In x' l' -> exists x, In x l /\ same_answer roots b x x').
  Proof.
    intros Hp Hf Hk Hb Hi.
    assert (Hin : forall a, In a q <-> In a q') by (intros a; split; apply Permutation_in; [|symmetry]; auto).
    assert (Hv : forall x, fvars x q <-> fvars x q').
    { intros x; split; intros (a & Ha & Hx); exists a; (split; [apply Hin|]); auto. }
    assert (Hfl : forall r, In r rules -> flat_rule arity r) by (intros r0 Hr0; now apply Hflat).
    unfold isolate in Hi. rewrite map_length, <- (Permutation_length Hp) in Hi.
    destruct (isolate_computes L tables arity rules w Htab Hrules Hflat rank Hrank Hscoped (length q) q' roots r (n + length q) n)
      as (D & HD & HR & HC); auto.
    { intros a Ha. apply Hf. now apply Hin. }
    { intros a Ha. apply Hk. now apply Hin. }
    destruct (HC (fun x => bget x b <> None) b Hb) as (l' & Hl' & [A1 A2 A3 A4 A5 A6]); [reflexivity|].
    destruct (datalog_terminates L tables arity rules w Htab Hrules Hfl rank (n + length q) q b) as (l & Hl); auto.
    { intros a Ha. destruct (Hk a Ha). split; auto. lia. }
    exists l, l'. split; auto. split; auto.
    pose proof Hl as Hs. apply (solver_sound L tables arity rules w Htab Hrules Hfl) in Hs as (_ & l0 & [= <-] & G); auto.
    assert (SA : forall x x', good_result tables rules w q b x -> In x' l' -> keeps_entries x' x -> same_answer roots b x x').
    { intros x x' Gx Hx' He. split; auto. intros k Hkk.
      destruct (bget k x') eqn:E; [now rewrite (He _ _ E)|]. symmetry.
      assert (Hbk : bget k b = None).
      { destruct (bget k b) eqn:Eb; auto. rewrite (A2 x' Hx' _ _ Eb) in E. discriminate. }
      destruct Hkk as [Hkk|Hkk]; [|congruence].
      destruct (bget k x) eqn:Ex; auto. exfalso.
      destruct (gr_dom _ _ _ _ _ _ Gx k) as [Hd|Hd]; [congruence|congruence|].
      apply Hv in Hd. apply (A3 x' k Hx'); auto. }
    split.
    - intros x Hx. specialize (G x Hx). pose proof G as [G1 G2 G3 G4 G5].
      destruct (A6 (asg x)) as (x' & Hx' & Ha).
      + now apply asg_const.
      + intros k v Hkv. unfold asg. now rewrite (G2 _ _ Hkv).
      + exists (asg x). split; [now apply asg_const|]. split; [intros y _; reflexivity|].
        intros a Ha. apply G5. now apply Hin.
      + exists x'. split; auto. apply SA; auto. intros k v Hkv.
        pose proof (Ha k v Hkv) as E. unfold asg in E.
        destruct (bget k x) eqn:Ex; [now subst|]. exfalso.
        destruct (A4 x' k Hx') as [Hd|Hd]; [congruence| |].
        * destruct (bget k b) eqn:Eb; [|congruence]. rewrite (G2 _ _ Eb) in Ex. discriminate.
        * apply (G3 k); auto. now apply Hv, HD.
    - intros x' Hx'. destruct (A5 x' Hx') as (s & C & S & Q).
      assert (Hag : agrees s b).
      { intros k v Hkv. rewrite S by (left; congruence). unfold asg. now rewrite (A2 x' Hx' _ _ Hkv). }
      destruct (datalog_complete L tables arity rules w Htab Hrules Hfl (Datatypes.S (n + length q)) q b l w) with (s := s)
        as (x & Hx & Han); auto.
      { intros r0 Hr0. now apply Hflat. }
      { intros a Ha. apply Q. now apply Hin. }
      exists x. split; auto. apply SA; auto. intros k v Hkv.
      assert (Hd : bget k b <> None \/ D k) by (apply (A4 x' k Hx'); congruence).
      destruct (Han k) as [H1 _]. rewrite H1.
      + rewrite S by exact Hd. unfold asg. now rewrite Hkv.
      + destruct Hd as [Hd|Hd]; auto. right. now apply Hv, HD.
  Qed.
End Answers.
