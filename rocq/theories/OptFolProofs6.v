(** * The optimizer on first-order queries *)

From Coq Require Import ZArith QArith String List Bool Lia Lqa Arith Permutation.
From Verif Require Import Py PyFacts Effects Solver Atoms Earley Composer Optimizer OptimizerSpec OptimizerProofs OptimizerProofs2
  OptimizerProofs3 OptimizerProofs5 OptimizerProofs6 AtomsFacts DatalogSpec DatalogProofs FolSpec FolProofs FolProofs2 FolProofs4 FolProofs5
  OptFolSpec OptFolProofs OptFolProofs2 OptFolProofs3 OptFolProofs4 OptFolProofs5.
From Verif Require Import PropFol.
Import ListNotations.
Local Close Scope Q_scope.
Local Open Scope nat_scope.
Local Open Scope string_scope.
Local Open Scope list_scope.

Section Optimized.
  Variable find : string -> list sizes.
  Variable arity : string -> nat.
  Notation rels := (relations find).
  Notation moved := (sized_pred rels).
  Notation wf := (well_formed (flat_atom arity) []).
  Notation wfs := (FolSpec.wfs (flat_atom arity) []).
  Hypothesis Hsane : sane_sizes rels INFINITE.
  Hypothesis Hcore : core_unsized rels.

  (** what the optimizer makes of a query is a query *)
  Lemma optimized_query q roots passes r B : wfs B q -> tidies moved [] B q ->
    optimize find (map fol_value q) roots = Ok passes -> In ("Isolated", r) passes ->
    exists q1 q2, r = query_of q2 /\ arrq moved q q1 /\ iso roots q1 q2.
  Proof.
    intros Hw Ht H Hin. pose proof (tidies_simple arity moved q [] B Hw Ht) as S.
    unfold optimize in H. rewrite (front_same q S) in H. cbn [obind] in H.
    destruct (Optimizer.sort find (map fol_value q)) as [r2| |] eqn:E2; cbn [obind] in H; try discriminate.
    destruct (isolate r2 roots) as [r3| |] eqn:E3; cbn [obind] in H; try discriminate.
    injection H as <-. destruct Hin as [E|[E|[E|[E|[]]]]]; try discriminate. injection E as <-.
    apply sort_ok in E2. destruct (sorted_arranged find Hsane Hcore) as (G & _ & _).
    destruct (G [] _ _ E2 q eq_refl S) as (q1 & -> & Ha).
    destruct (arranged_meaning moved (fun _ _ => True) (flat_atom arity)) as (_ & _ & M).
    destruct (M q q1 Ha B Hw Ht) as (W1 & T1 & _).
    unfold isolate in E3. apply isolated_iso in E3 as (q2 & -> & Hi); [|eapply tidies_simple; eauto].
    exists q1, q2. auto.
  Qed.

  Section Meaning.
    Variable ext : string -> list value -> Prop.
    Variables (B roots : list string) (q q1 q2 : list fol).
    Hypothesis Hw : wfs B q.
    Hypothesis Ht : tidies moved [] B q.
    Hypothesis Ha : arrq moved q q1.
    Hypothesis Hi : iso roots q1 q2.

    Lemma optimized_ok : iso_ok ext (flat_atom arity) roots B q q2.
    Proof.
      destruct (arranged_meaning moved ext (flat_atom arity)) as (_ & _ & M). destruct (M q q1 Ha B Hw Ht) as (W1 & T1 & H1).
      destruct (arranged_names moved) as (_ & _ & N). destruct (N q q1 Ha) as (N1 & N2 & _).
      destruct (isolation_ok ext (flat_atom arity) moved) as [I1 _]. destruct (I1 roots q1 q2 Hi B W1 T1) as [A1 A2 A3 A4 A5 A6].
      constructor; auto.
      - intros x. now rewrite (N2 x).
      - intros x Hx. apply N1. now apply A3.
      - intros x Hr Hx. apply A4; auto. now apply N1.
      - intros s Hs H. apply A5; auto. now apply H1.
      - intros s Hs H. destruct (A6 s Hs H) as (s' & C1 & C2 & C3). exists s'. split; auto. split; auto. now apply H1.
    Qed.
    Lemma optimized_preds : incl (preds q2) (preds q).
    Proof.
      destruct (arranged_names moved) as (_ & _ & N). destruct (N q q1 Ha) as (_ & _ & N3).
      destruct isolation_preds as [P _]. intros x Hx. apply N3. now apply (P roots q1 q2 Hi).
    Qed.
    Lemma optimized_sorted sig env : all_sorted sig env q -> all_sorted sig env q2.
    Proof.
      intros H. destruct (arranged_sorted moved sig env) as (_ & _ & N). destruct (isolation_sorted sig env) as [P _].
      apply (P roots q1 q2 Hi). now apply (N q q1 Ha).
    Qed.
  End Meaning.

  Lemma optimized_answers ext roots q q2 b l l' : iso_ok ext (flat_atom arity) roots (keys b) q q2 ->
    right_answers ext q b l -> right_answers ext q2 b l' ->
    (forall x, In x l -> exists x', In x' l' /\ same_answer roots b x x') /\
    (forall x', In x' l' -> exists x, In x l /\ same_answer roots b x x').
  Proof.
    intros [_ _ I3 I4 I5 I6] (_ & R1 & R2) (_ & R1' & R2').
    assert (K : forall s s' x x', (forall k, In k (keys b ++ binds q2 ++ roots) -> s k = s' k) ->
      fol_answer ext q b s x -> fol_answer ext q2 b s' x' -> same_answer roots b x x').
    { intros s s' x x' Hss (_ & _ & _ & Hx) (_ & _ & _ & Hx'). constructor.
      - intros k Hk.
        destruct (in_dec string_dec k (keys b ++ binds q2)) as [Hin|Hin].
        + rewrite (proj1 (Hx' k) Hin), (proj1 (Hx k)).
          * f_equal. symmetry. apply Hss. rewrite app_assoc. apply in_or_app. now left.
          * apply in_app_or in Hin as [Hin|Hin]; apply in_or_app; auto.
        + rewrite (proj2 (Hx' k) Hin), (proj2 (Hx k)); auto. intros F. apply Hin. apply in_app_or in F as [F|F]; apply in_or_app; auto.
          destruct Hk as [Hk|Hk]; [destruct (I4 k Hk F); auto|]. left. now apply bget_In_keys.
      - intros k v Hk. destruct (in_dec string_dec k (keys b ++ binds q2)) as [Hin|Hin].
        + rewrite (proj1 (Hx' k) Hin) in Hk. injection Hk as <-. rewrite (proj1 (Hx k)).
          * f_equal. apply Hss. rewrite app_assoc. apply in_or_app. now left.
          * apply in_app_or in Hin as [Hin|Hin]; apply in_or_app; auto.
        + rewrite (proj2 (Hx' k) Hin) in Hk. discriminate. }
    split.
    - intros x Hx. destruct (R1 x Hx) as (s & Hs). pose proof Hs as (S1 & S2 & S3 & _).
      destruct (R2' s S1 S2 (I5 s S1 S3)) as (x' & Hx' & Hs'). exists x'. split; auto. apply (K s s); auto.
    - intros x' Hx'. destruct (R1' x' Hx') as (s & Hs). pose proof Hs as (S1 & S2 & S3 & _).
      destruct (I6 s S1 S3) as (s' & T1 & T2 & T3).
      destruct (R2 s' T1) as (x & Hx & Hs'); auto.
      { intros k v Hk. rewrite <- (T2 k); auto. apply in_or_app. left. apply bget_In_keys. congruence. }
      exists x. split; auto. apply (K s' s); auto. intros k Hk. symmetry. now apply T2.
  Qed.

  (** ** the optimizer always returns *)
  Hypothesis Hmatch : sizes_match rels arity.

  Lemma fits p args : length args = arity p -> forall r, In r (find p) -> sizes_fit r args.
  Proof.
    intros Hl r Hr. destruct (z_relation r) as [n|] eqn:E; [right|now left].
    assert (Hin : In (z_relation r, z_arguments r) (rels p)) by (apply in_map_iff; exists r; auto).
    rewrite E in Hin. split.
    - rewrite Hl. apply (Hmatch p _ n Hin eq_refl).
    - intros m Hm F. destruct (Hsane p _ n Hin eq_refl) as (_ & _ & H). specialize (H m Hm). rewrite F in H. now apply H.
  Qed.
  Lemma fits_core p args : In p ["equals"; "less_than"; "greater_than"; "not"; "none"; "scoped"; "all"; "count";
      "det_equals"; "det_less_than"; "det_greater_than"] -> forall r, In r (find p) -> sizes_fit r args.
  Proof.
    intros Hp r Hr. left. destruct (Hcore p Hp) as [_ H]. apply (H (z_relation r, z_arguments r)).
    apply in_map_iff. exists r. auto.
  Qed.

  Lemma sized_fol f : forall B, wf B f -> tidy moved B f -> sized find (fol_value f).
  Proof.
    assert (N : forall v, no_list v -> forall b, ~ body v b) by (intros v Hv b Hb; inversion Hb; subst; destruct Hv).
    assert (L : forall q, Forall (fun f => forall B, wf B f -> tidy moved B f -> sized find (fol_value f)) q ->
      forall before B, wfs B q -> tidies moved before B q ->
      forall b a, body (VList (map fol_value q)) b -> In a b -> sized find a).
    { intros q Hq before B W T b a Hb Ha. apply fol_body in Hb. subst b. revert before B W T a Ha.
      induction Hq as [|f0 q Hf Hq IH]; intros before B W T a Ha; [destruct Ha|]. destruct W as [W1 W2], T as (T1 & T2 & T3), Ha as [<-|Ha]; eauto. }
    induction f as [a|t u|l t u|n q IH|q IH|alts IH|x range bd IHr IHb|x q IH|c k q IH] using fol_ind'; intros B W T; cbn [fol_value];
      unfold atom_value; constructor.
    - destruct W as (_ & W2 & _). now apply fits.
    - intros v b a' Hv Hb. destruct T as [_ T]. rewrite Forall_forall in T. now apply N in Hb; [|apply T].
    - apply fits_core. simpl. auto.
    - intros v b a' [<-|[<-|[]]] Hb; destruct T as [T1 T2]; now apply N in Hb.
    - apply fits_core. destruct l; simpl; auto.
    - intros v b a' [<-|[<-|[]]] Hb; destruct T as [T1 T2]; now apply N in Hb.
    - apply fits_core. destruct n; simpl; auto 8.
    - destruct W as [_ W]. intros v b a' [<-|[]] Hb. eapply L; [exact IH|exact W|exact T|exact Hb].
    - apply fits_core. simpl; auto 9.
    - destruct W as [_ W]. intros v b a' [<-|[]] Hb. eapply L; [exact IH|exact W|exact T|exact Hb].
    - destruct T.
    - destruct T.
    - apply fits_core. simpl; auto 10.
    - rewrite wf_all in W. destruct W as (_ & _ & _ & _ & W1 & _ & W2), T as [T1 T2].
      intros v b a' [<-|[<-|[<-|[]]]] Hb; [inversion Hb|eapply L; [exact IHr|exact W1|exact T1|exact Hb]|eapply L; [exact IHb|exact W2|exact T2|exact Hb]].
    - apply fits_core. simpl; auto 11.
    - rewrite wf_count in W. destruct W as (_ & _ & _ & _ & W).
      intros v b a' [<-|[<-|[]]] Hb; [inversion Hb|]. eapply L; [exact IH|exact W|exact T|exact Hb].
    - apply fits_core. destruct c; simpl; auto 14.
    - destruct W as [_ W]. intros v b a' [<-|[<-|[]]] Hb; [|inversion Hb]. eapply L; [exact IH|exact W|exact T|exact Hb].
  Qed.
  Lemma sized_fols q : forall before B, wfs B q -> tidies moved before B q -> Forall (sized find) (map fol_value q).
  Proof.
    induction q as [|f q IH]; intros before B W T; constructor.
    - destruct W as [W _], T as [T _]. eapply sized_fol; eauto.
    - destruct W as [_ W], T as (_ & _ & T). eapply IH; eauto.
  Qed.

  Lemma optimize_total q roots B : wfs B q -> tidies moved [] B q ->
    exists passes r, optimize find (map fol_value q) roots = Ok passes /\ In ("Isolated", r) passes.
  Proof.
    intros W T. unfold optimize. rewrite (front_same q) by (eapply tidies_simple; eauto). cbn [obind].
    destruct (sort_total find (map fol_value q)) as (r2 & ->); [eapply sized_fols; eauto|]. cbn [obind].
    destruct (isolate_total r2 roots) as (r3 & ->). cbn [obind]. do 2 eexists. split; [reflexivity|]. simpl. auto.
  Qed.
End Optimized.
