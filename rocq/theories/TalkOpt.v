(** * Sentences: what the query optimizer makes of them *)

From Coq Require Import ZArith QArith String List Bool Lia Arith Permutation.
From Verif Require Import Py PyFacts Effects Solver Atoms Earley Composer Optimizer OptimizerSpec OptimizerProofs OptimizerProofs2
  OptimizerProofs3 OptimizerProofs5 OptimizerProofs6 DatalogSpec DatalogProofs FolSpec FolProofs FolProofs2 FolProofs4 FolProofs5
  OptFolSpec OptFolProofs OptFolProofs2 OptFolProofs3 OptFolProofs4 OptFolProofs5 OptFolProofs6
  PropFol PropSystem2 FragmentSpec FragmentModel FragmentProofs FragmentProofs2 FragmentTidy TalkSpec TalkModel TalkProofs TalkProofs5.
Import ListNotations.
Local Close Scope Q_scope.
Local Open Scope nat_scope.
Local Open Scope string_scope.
Local Open Scope list_scope.

(** ** the queries of sentences can be reordered *)
Section Tidy.
  Variable moved : string -> bool.
  Variable lx : lexicon.
  Hypothesis no_resolver : forall p, In p (map snd (lx_nouns lx ++ lx_adjectives lx ++ lx_verbs lx)) -> p <> "resolve_name".
  Notation tidies := (tidies moved).

  Lemma phrase_tidy x b q : nbar_fol x b q -> nbar_in lx b -> tidies [] [] q.
  Proof. intros N I. apply (proj1 (fragment_tidy moved lx no_resolver) _ _ _ N I); intros z; [intros _ []|intros []]. Qed.

  Lemma alone f : tidy moved [] f -> tidies [] [] [f].
  Proof. intros H. cbn. split; auto. split; auto. intros _ x Hx. split; [intros _ []|]. intros _. right. split; intros []. Qed.

  Lemma said_tidy x b r q : nbar_fol x b r -> nbar_in lx b -> (q = [] \/ exists u, vp_fol x u q /\ vp_in lx u) -> only x r q ->
    tidies [] [] (r ++ q) /\ tidies [] [] r /\ tidies [] [x] q.
  Proof.
    intros N I Q On. pose proof (proj1 (fragment_tidy moved lx no_resolver) _ _ _ N I) as Tr.
    destruct (Tr [] []) as (T1 & K1); [intros z _ []|intros z []|].
    destruct Q as [->|(u & Hu & Iu)]; [rewrite app_nil_r; split; auto; split; auto; exact Logic.I|].
    pose proof (proj1 (proj2 (proj2 (fragment_tidy moved lx no_resolver))) _ _ _ Hu Iu) as Tu. split; [|split; auto].
    - eapply only_tidies; eauto. apply Tu.
      + intros z Hz Hb. apply in_ctx in Hb as [Hb|[]]. apply On; auto. now apply binds_vars.
      + intros z Hz Hv. rewrite app_nil_r in Hz. now apply On.
      + apply in_ctx. left. apply (nbar_var _ _ _ N).
    - apply Tu; [|intros z []|now left]. intros z _ [<-|[]]. reflexivity.
  Qed.

  Lemma subject_tidy x o r q : nbar_fol x (np_nbar o) r -> np_in lx o ->
    (q = [] \/ exists u, vp_fol x u q /\ vp_in lx u) -> only x r q -> tidies [] [] (np_query o x r q).
  Proof.
    intros N Io Q On. pose proof (np_in_nbar _ _ Io) as I. destruct (said_tidy x _ r q N I Q On) as (T & Tr & Tq).
    destruct o as [b|d b]; [exact T|]. destruct d; cbn [np_query det_fol]; [exact T| | | |]; apply alone; try exact T. split; [exact Tr|exact Tq].
  Qed.

  Lemma count_tidy x y b q : nbar_fol y b q -> nbar_in lx b -> tidies [] [] [FCount x q].
  Proof. intros N I. apply alone. cbn. now apply (phrase_tidy y b). Qed.
End Tidy.

(** ** a single atom with a query in it *)
Section Intent.
  Variable find : string -> list sizes.
  Variable arity : string -> nat.
  Notation rels := (relations find).
  Notation moved := (sized_pred rels).
  Hypothesis Hsane : sane_sizes rels INFINITE.
  Hypothesis Hcore : core_unsized rels.
  Hypothesis Hmatch : sizes_match rels arity.

  Definition no_lists (args : list value) : Prop := args = [] \/ exists x, args = [VStr x].
  Notation atom p args q := (VTuple (VStr p :: args ++ [VList (map fol_value q)])).

  Lemma front_intent p args q : p <> "resolve_name" -> no_lists args -> (forall f, In f q -> simple f) ->
    front [atom p args q] = Ok [atom p args q].
  Proof.
    intros Hp Ha S. rewrite front_spec.
    assert (G : resolvers (VList (map fol_value q)) = [] /\ without_resolvers (VList (map fol_value q)) = VList (map fol_value q) /\
      no_empty_atom (VList (map fol_value q)) = true).
    { clear Ha. induction q as [|f q IH]; [auto|]. destruct IH as (C1 & C2 & C3); [intros; apply S; now right|].
      destruct (simple_clean f (S f (or_introl eq_refl))) as (A1 & A2 & A3 & A4).
      cbn [resolvers without_resolvers no_empty_atom map flat_map forallb] in *. injection C2 as C2. rewrite A1, A2, A3, A4, C1, C2, C3.
      repeat split. destruct f; reflexivity. }
    destruct G as (G1 & G2 & G3). apply String.eqb_neq in Hp.
    destruct Ha as [->|(x & ->)]; unfold others; cbn [resolvers without_resolvers no_empty_atom flat_map map forallb is_resolver app] in *;
      rewrite Hp, G1, G2, G3; reflexivity.
  Qed.

  Lemma sort_intent p args q r : no_lists args -> (forall f, In f q -> simple f) ->
    Optimizer.sort find [atom p args q] = Ok r -> exists q', r = [atom p args q'] /\ arrq moved q q'.
  Proof.
    intros Ha S H. apply sort_ok in H. destruct (sorted_arranged find Hsane Hcore) as (_ & _ & G).
    inversion H as [|bound bound' f todo a a' rest result _ (Hp & _) Hat _ Hrest]; subst.
    apply Permutation_length_1_inv in Hp. injection Hp as -> ->.
    inversion Hrest as [|? ? ? ? ? ? ? ? _ (Hp2 & _)]; subst; [|apply Permutation_nil in Hp2; discriminate].
    assert (NB : forall t, In t (VStr p :: args) -> forall b, ~ body t b).
    { intros t Ht b Hb. destruct Ha as [->|(x & ->)]; cbn in Ht; intuition (subst; inversion Hb). }
    inversion Hat as [? ? Hn|? ? l l' t b Hl Ht Hb Hargs]; subst.
    - exists q. split; [reflexivity|].
      assert (q = []) as ->; [|apply arrq_nil]. apply (fol_bodies q). intros b. apply (Hn (VStr p :: args ++ [VList (map fol_value q)])); [now left|].
      right. apply in_or_app. right. now left.
    - destruct Hl as [Hl|Hl]; [|discriminate]. injection Hl as <-. apply G in Hargs.
      + change (VStr p :: args ++ [VList (map fol_value q)]) with ((VStr p :: args) ++ [VList (map fol_value q)]) in Hargs.
        apply Forall2_app_inv_l in Hargs as (l1 & l2 & F1 & F2 & ->).
        inversion F2 as [|? t' ? l3 F3 F4]; subst. inversion F4; subst.
        destruct (arg_moves_body find q t' S F3) as (q' & -> & Hq).
        assert (l1 = VStr p :: args) as ->.
        { clear - F1 NB. revert NB. induction F1 as [|u u' l l' Hu F IH]; intros NB; [reflexivity|]. f_equal.
          - destruct Hu as [(-> & _)|(q0 & q1 & -> & -> & _ & Hq)]; [reflexivity|].
            assert (q0 = []) as -> by (apply fol_bodies; apply NB; now left).
            inversion Hq as [? ? c Hs Hc]; subst. inversion Hs; subst. cbn in Hc. apply Permutation_nil in Hc. subst. reflexivity.
          - apply IH. intros t Ht. apply NB. now right. }
        exists q'. split; auto.
      + intros t0 Ht0. rewrite app_comm_cons in Ht0. apply in_app_or in Ht0 as [Ht0|[<-|[]]]; [left; now apply NB|right; eauto].
  Qed.

  Lemma optimize_intent p args q roots B : p <> "resolve_name" -> no_lists args ->
    (forall r, In r (find p) -> z_relation r = None) ->
    wfs (flat_atom arity) [] B q -> tidies moved [] B q ->
    exists passes q', optimize find [atom p args q] roots = Ok passes /\ last (map snd passes) VNone = VList [atom p args q'] /\ arrq moved q q'.
  Proof.
    intros Hp Ha Hz W T. pose proof (tidies_simple arity moved q [] B W T) as S.
    unfold optimize. rewrite (front_intent p args q Hp Ha S). cbn [obind].
    destruct (sort_total find [atom p args q]) as (r & E).
    { constructor; [|constructor]. constructor.
      - intros r Hr. left. now apply Hz.
      - intros t b a Ht Hb Hin. apply in_app_or in Ht as [Ht|[<-|[]]].
        + destruct Ha as [->|(x & ->)]; cbn in Ht; intuition (subst; inversion Hb).
        + apply fol_body in Hb as ->. pose proof (sized_fols find arity Hsane Hcore Hmatch q [] B W T) as F. rewrite Forall_forall in F. now apply F. }
    rewrite E. cbn [obind]. destruct (sort_intent p args q r Ha S E) as (q' & -> & Hq).
    exists [("Semantics", VList [atom p args q]); ("Names resolved", VList [atom p args q]);
            ("Sorted by cost", VList [atom p args q']); ("Isolated", VList [atom p args q'])], q'.
    split; [reflexivity|]. split; [reflexivity|exact Hq].
  Qed.
End Intent.

(** ** the same answers *)
Lemma arranged_equivalent {W} (tables : W -> string -> option (list (list value))) arity rules (v : W) sig ext moved q q' :
  answerable_query tables arity rules v sig q -> tidies moved [] [] q -> arrq moved q q' ->
  equivalent tables v arity rules sig ext q q'.
Proof.
  intros (W0 & P & env & So) T A.
  destruct (proj2 (proj2 (arranged_meaning moved ext (flat_atom arity))) q q' A [] W0 T) as (W1 & _ & M).
  destruct (proj2 (proj2 (arranged_names moved)) q q' A) as (Eb & Ev & Ep).
  split; [split; [exact W1|split]|split].
  - intros p Hp. apply P. now apply Ep.
  - exists env. now apply (proj2 (proj2 (arranged_sorted moved sig env)) q q' A).
  - intros y Hy. now apply Ev.
  - intros l [E1 E2 E3]. constructor; [| |exact E3].
    + intros r Hr. destruct (E1 r Hr) as (C1 & C2 & C3 & C4). split; auto. split; auto. split.
      * intros x. rewrite <- C3. rewrite !in_app_iff. now rewrite (Eb x).
      * apply M; [now apply asg_const|exact C4].
    + intros s Hs Hag Hh. destruct (E2 s Hs Hag) as (r & Hr & Hx); [now apply M|]. exists r. split; auto. intros x Hx0. apply Hx.
      rewrite in_app_iff in *. now rewrite <- (Eb x).
Qed.
