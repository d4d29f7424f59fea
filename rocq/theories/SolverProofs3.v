(** * C03: a conjunction runs its atoms depth first, and what it yields *)
From Coq Require Import ZArith String List Bool Lia Arith.
From Verif Require Import Py PyFacts ReprProofs Effects EffectsFacts Solver SolverSpec SolverProofs SolverProofs2.
Import ListNotations.
Local Open Scope list_scope.

Scheme runs_ind' := Induction for runs Sort Prop with runs_each_ind' := Induction for runs_each Sort Prop.
Combined Scheme runs_mutind from runs_ind', runs_each_ind'.

Lemma dict_in_mem r l : dict_in r l = true <-> mem r l.
Proof. unfold mem, dict_in. rewrite existsb_exists. reflexivity. Qed.

Lemma different_fold all : forall seen kept, different seen all kept <-> fold_left add_binding all seen = seen ++ kept.
Proof.
  induction all as [|r all IH]; intros seen kept; cbn [fold_left].
  - split; [intros H; inversion H; subst; now rewrite app_nil_r|]. intros H. replace kept with (@nil binding); [constructor|].
    rewrite <- (app_nil_r seen) in H at 1. apply app_inv_head in H. auto.
  - unfold add_binding at 2. destruct (dict_in r seen) eqn:E.
    + split.
      * intros H. inversion H as [|? ? ? ? Hm Hd|? ? ? ? Hm Hd]; subst; [now apply IH|]. apply dict_in_mem in E. contradiction.
      * intros H. apply different_skip; [now apply dict_in_mem|now apply IH].
    + assert (Nm : ~ mem r seen) by (rewrite <- dict_in_mem; congruence). split.
      * intros H. inversion H as [|? ? ? ? Hm Hd|? ? ? k' Hm Hd]; subst; [contradiction|]. apply IH in Hd. rewrite Hd, <- app_assoc. reflexivity.
      * intros H. assert (exists k, fold_left add_binding all (seen ++ [r]) = (seen ++ [r]) ++ k) as (k & Ek).
        { clear. generalize (seen ++ [r]). induction all as [|x all IH]; intros s; [exists []; now rewrite app_nil_r|]. cbn.
          unfold add_binding at 2. destruct (dict_in x s); [apply IH|]. destruct (IH (s ++ [x])) as (k & ->). exists (x :: k). now rewrite <- app_assoc. }
        rewrite Ek, <- app_assoc in H. apply app_inv_head in H. subst kept. apply different_keep; [exact Nm|]. now apply IH.
Qed.

Lemma fold_add_fold rs : forall s acc,
  fold_left add_binding (fold_left add_binding rs s) acc = fold_left add_binding rs (fold_left add_binding s acc).
Proof.
  induction rs as [|r rs IH]; intros s acc; [reflexivity|]. cbn [fold_left]. rewrite IH. f_equal.
  unfold add_binding at 2. destruct (dict_in r s) eqn:E.
  - unfold add_binding at 2. destruct (dict_in r (fold_left add_binding s acc)) eqn:E2; [reflexivity|].
    exfalso. assert (H : ~ mem r (fold_left add_binding s acc)) by (rewrite <- dict_in_mem; congruence). apply H.
    apply fold_add_binding_mem. right. now apply dict_in_mem.
  - rewrite fold_left_app. reflexivity.
Qed.

Section Runs.
  Context {W : Type}.
  Variable mods : list (modul W).
  Variable sv : solver_if W.

  Definition one_step (a : value) (b : binding) (w : W) (l : list binding) (w' : W) : Prop :=
    exists r, solve_single mods sv a b w = (Ok r, w') /\ (r = SList l \/ (l = [] /\ exists s, r = SIter s 0)).
  Definition one_stop (a : value) (b : binding) (w : W) (e : exn) (w' : W) : Prop :=
    solve_single mods sv a b w = (Exn e, w').

  Lemma items_of (l : list binding) r (w : W) : (r = SList l \/ (l = [] /\ exists s, r = SIter s 0)) -> sres_items r w = (Ok l, w).
  Proof. intros [->|(-> & s & ->)]; reflexivity. Qed.

  (** what one round of the loop adds *)
  Definition adds (atoms : list value) (b : binding) (w : W) (l : list binding) (w' : W) : Prop :=
    forall acc, conj_step mods sv atoms acc b w = (Ok (fold_left add_binding l acc), w').

  Lemma runs_adds :
    (forall atoms b w l w', runs one_step atoms b w l w' -> adds atoms b w l w') /\
    (forall atoms bs w l w', runs_each one_step atoms bs w l w' ->
       forall acc, foldM (conj_step mods sv atoms) acc bs w = (Ok (fold_left add_binding l acc), w')).
  Proof.
    apply (runs_mutind W one_step (fun atoms b w l w' _ => adds atoms b w l w')
      (fun atoms bs w l w' _ => forall acc, foldM (conj_step mods sv atoms) acc bs w = (Ok (fold_left add_binding l acc), w'))).
    - intros b w acc. reflexivity.
    - intros a rest b w l1 w1 l w2 (r & Hs & Hr) _ IH acc. unfold conj_step. destruct rest as [|a2 rest].
      + cbn [solve_atoms]. erewrite bind_ok_intro by exact Hs. erewrite bind_ok_intro by (exact (items_of _ _ _ Hr)).
        specialize (IH acc). clear -IH. revert acc IH. 
        assert (G : forall acc, foldM (conj_step mods sv []) acc l1 w1 = (Ok (fold_left add_binding l1 acc), w1)).
        { induction l1 as [|x l1 IHl]; intros acc; [reflexivity|]. cbn [foldM]. erewrite bind_ok_intro by reflexivity. apply IHl. }
        intros acc IH. rewrite G in IH. exact IH.
      + rewrite solve_atoms_cons. erewrite bind_ok_intro.
        2:{ erewrite bind_ok_intro by exact Hs. erewrite bind_ok_intro by (exact (items_of _ _ _ Hr)). erewrite bind_ok_intro by (apply IH). reflexivity. }
        cbn [sres_items]. erewrite bind_ok_intro by reflexivity. rewrite fold_add_fold. reflexivity.
    - intros rest w acc. reflexivity.
    - intros rest b bs w l w1 ls w2 _ IH1 _ IH2 acc. cbn [foldM]. erewrite bind_ok_intro by apply IH1. rewrite IH2, fold_left_app. reflexivity.
  Qed.

  Lemma into_stops atoms b w e w' : runs_into one_step one_stop atoms b w e w' -> solve_atoms mods sv atoms b w = (Exn e, w').
  Proof.
    intros H. induction H as [a rest b w e w1 H|a rest b w done b' later w1 l w2 e w3 (r & Hs & Hr) He _ IH].
    - destruct rest as [|a2 rest]; [exact H|]. rewrite solve_atoms_cons. unfold bind. now rewrite H.
    - destruct rest as [|a2 rest]; [discriminate|]. rewrite solve_atoms_cons.
      erewrite bind_ok_intro by exact Hs. erewrite bind_ok_intro by (exact (items_of _ _ _ Hr)).
      assert (G : forall acc, foldM (conj_step mods sv (a2 :: rest)) acc (done ++ b' :: later) w1 = (Exn e, w3)).
      { intros acc. pose proof (proj2 runs_adds _ _ _ _ _ He acc) as Hd. clear -Hd IH. remember (fold_left add_binding l acc) as out eqn:Eo. clear Eo. revert w1 acc Hd. induction done as [|x done IHd]; intros w1 acc Hd; cbn [app foldM] in *.
        - apply ret_ok in Hd as [_ ->]. unfold conj_step, bind. now rewrite IH.
        - apply bind_ok in Hd as (acc' & w4 & H1 & H2). erewrite bind_ok_intro by exact H1. eapply IHd. exact H2. }
      unfold bind. rewrite G. reflexivity.
  Qed.

  Lemma adds_runs atoms : forall b w r w', solve_atoms mods sv atoms b w = (Ok r, w') ->
    forall rs, sres_items r w' = (Ok rs, w') ->
    exists l, runs one_step atoms b w l w' /\ (forall acc, fold_left add_binding rs acc = fold_left add_binding l acc) /\
      (2 <= length atoms -> rs = fold_left add_binding l []).
  Proof.
    induction atoms as [|a rest IH]; intros b w r w' H rs Hrs.
    - cbn in H. injection H as <- <-. cbn in Hrs. injection Hrs as <-. exists [b]. split; [constructor|]. split; [reflexivity|cbn; lia].
    - destruct rest as [|a2 rest].
      + cbn [solve_atoms] in H. exists rs. split; [|split; [reflexivity|cbn; lia]].
        assert (G : forall bs w, runs_each one_step [] bs w bs w).
        { induction bs as [|x bs IHb]; intros v; [constructor|]. change (x :: bs) with ([x] ++ bs) at 2. econstructor; [constructor|apply IHb]. }
        econstructor; [|apply G]. exists r. split; [exact H|]. apply sres_items_ok in Hrs as [_ [-> | [-> (s & Es)]]]; eauto.
      + apply solve_atoms_cons_ok in H as (r1 & bs & w1 & result & H1 & H2 & H3 & ->). cbn in Hrs. injection Hrs as <-.
        assert (G : exists ls, runs_each one_step (a2 :: rest) bs w1 ls w' /\ result = fold_left add_binding ls []).
        { clear H1 H2. revert w1 H3.
          assert (K : forall w1 acc, foldM (conj_step mods sv (a2 :: rest)) acc bs w1 = (Ok result, w') ->
             exists ls, runs_each one_step (a2 :: rest) bs w1 ls w' /\ result = fold_left add_binding ls acc).
          { induction bs as [|x bs IHb]; intros v acc Hf; cbn [foldM] in Hf.
            - apply ret_ok in Hf as [-> ->]. exists []. split; [constructor|reflexivity].
            - apply bind_ok in Hf as (acc' & v1 & F1 & F2). apply conj_step_ok in F1 as (rr & rs & E1 & E2 & ->).
              destruct (IH _ _ _ _ E1 _ E2) as (l1 & R1 & A1 & _). destruct (IHb _ _ F2) as (ls & R2 & ->).
              exists (l1 ++ ls). split; [econstructor; eassumption|]. now rewrite fold_left_app, A1. }
          intros w1 H3. exact (K _ _ H3). }
        destruct G as (ls & R & ->). exists ls. split.
        * econstructor; [|exact R]. exists r1. split; [exact H1|]. apply sres_items_ok in H2 as [_ [-> | [-> (s & Es)]]]; eauto.
        * split; [|reflexivity]. intros acc. apply fold_add_fold.
  Qed.
End Runs.

Lemma runs_imp {W} (s1 s2 : value -> binding -> W -> list binding -> W -> Prop) :
  (forall a b w l w', s1 a b w l w' -> s2 a b w l w') ->
  (forall atoms b w l w', runs s1 atoms b w l w' -> runs s2 atoms b w l w') /\
  (forall atoms bs w l w', runs_each s1 atoms bs w l w' -> runs_each s2 atoms bs w l w').
Proof.
  intros H. apply (runs_mutind W s1 (fun atoms b w l w' _ => runs s2 atoms b w l w') (fun atoms bs w l w' _ => runs_each s2 atoms bs w l w'));
    intros; econstructor; eauto.
Qed.

Lemma into_imp {W} (s1 s2 : value -> binding -> W -> list binding -> W -> Prop) (t1 t2 : value -> binding -> W -> exn -> W -> Prop) :
  (forall a b w l w', s1 a b w l w' -> s2 a b w l w') -> (forall a b w e w', t1 a b w e w' -> t2 a b w e w') ->
  forall atoms b w e w', runs_into s1 t1 atoms b w e w' -> runs_into s2 t2 atoms b w e w'.
Proof.
  intros Hs Ht atoms b w e w' H. induction H; [apply into_first; auto|].
  eapply into_later; [apply Hs; eassumption| |eassumption]. eapply runs_imp; eassumption.
Qed.

Section Solve.
  Context {W : Type}.
  Variable mods : list (modul W).
  Variable n : nat.

  Definition yields (a : value) (b : binding) (w : W) (l : list binding) (w' : W) : Prop :=
    solve mods n (VList [a]) b w = (Ok (SList l), w') \/
    (l = [] /\ exists s, solve mods n (VList [a]) b w = (Ok (SIter s 0), w')).
  Definition raises (a : value) (b : binding) (w : W) (e : exn) (w' : W) : Prop :=
    solve mods n (VList [a]) b w = (Exn e, w').

  Lemma solve_runs a1 a2 rest b w :
    let atoms := a1 :: a2 :: rest in
    (forall all kept w', runs yields atoms b w all w' -> different [] all kept ->
       solve mods n (VList atoms) b w = (Ok (SList kept), w')) /\
    (forall l w', solve mods n (VList atoms) b w = (Ok l, w') ->
       exists all kept, l = SList kept /\ runs yields atoms b w all w' /\ different [] all kept) /\
    (forall e w', runs_into yields raises atoms b w e w' ->
       solve mods n (VList atoms) b w = (Exn e, w')).
  Proof.
    intros atoms. unfold yields, raises. destruct n as [|m].
    - split; [|split].
      + intros all kept w' H. exfalso. inversion H as [|? ? ? ? ? ? ? ? [Hs|(_ & s & Hs)] _]; subst; discriminate Hs.
      + intros l w' H. discriminate H.
      + intros e w' H. exfalso. inversion H as [? ? ? ? ? ? Hs|? ? ? ? ? ? ? ? ? ? ? ? [Hs|(_ & s & Hs)] _ _]; subst; discriminate Hs.
    - set (sv := solver_at mods m).
      assert (E : forall atoms b w, solve mods (S m) (VList atoms) b w = solve_atoms mods sv atoms b w) by reflexivity.
      assert (E1 : forall a b w, solve mods (S m) (VList [a]) b w = solve_single mods sv a b w) by reflexivity.
      set (ys := fun a b (w : W) l w' => _ \/ _).
      assert (Y : forall a b w l w', ys a b w l w' -> one_step mods sv a b w l w').
      { intros a b' v l w' [H|(-> & s & H)]; rewrite E1 in H; eexists; (split; [exact H|]); eauto. }
      assert (Y' : forall a b w l w', one_step mods sv a b w l w' -> ys a b w l w').
      { intros a b' v l w' (r & H & [-> | (-> & s & ->)]); [left|right]; rewrite ?E1; eauto. }
      split; [|split].
      + intros all kept w' H D. apply (proj1 (runs_imp _ _ Y)) in H. apply different_fold in D. cbn in D. rewrite E.
        inversion H as [|? ? ? ? l1 w1 ? ? (r & Hs & Hr) He]; subst. unfold atoms. rewrite solve_atoms_cons.
        erewrite bind_ok_intro by exact Hs. erewrite bind_ok_intro by (exact (items_of _ _ _ Hr)).
        erewrite bind_ok_intro by (apply (proj2 (runs_adds mods sv) _ _ _ _ _ He)). reflexivity.
      + intros l w' H. rewrite E in H. destruct (solve_atoms_cons_ok mods sv a1 a2 rest b w l w' H) as (r1 & bs & w1 & result & _ & _ & _ & ->).
        destruct (adds_runs mods sv atoms b w _ w' H result eq_refl) as (all & R & _ & F).
        exists all, result. split; [reflexivity|]. split; [now apply (proj1 (runs_imp _ _ Y'))|]. apply different_fold. cbn.
        symmetry. apply F. cbn. lia.
      + intros e w' H. rewrite E. apply into_stops. revert H. apply into_imp; [exact Y|]. intros a b' v x v' Hx. exact Hx.
  Qed.
End Solve.
