(** * More fuel does not change an answer *)

From Coq Require Import ZArith QArith String List Bool Lia Arith.
From Verif Require Import Py PyFacts Effects EffectsFacts Solver Atoms CoreModule InferenceModule TableModule.
Import ListNotations.
Local Close Scope Q_scope.
Local Open Scope nat_scope.
Local Open Scope list_scope.

Section Fuel.
  Context {W : Type}.

  Definition sv_refines (sv sv' : solver_if W) : Prop :=
    (forall a b, refines (sv_solve sv a b) (sv_solve sv' a b)) /\
    (forall a, refines (sv_write sv a) (sv_write sv' a)).

  (** the query and write functions use the solver only by calling it *)
  Definition mono_relation (rel : relation W) : Prop :=
    forall sv sv' vals c, sv_refines sv sv' ->
      refines (r_query rel sv vals c) (r_query rel sv' vals c) /\
      forall f, r_write rel = Some f -> refines (f sv vals c) (f sv' vals c).
  Definition mono_module (m : modul W) : Prop := forall w p rel, m w p = Some rel -> mono_relation rel.

  Ltac mono H :=
    repeat first
      [ apply refines_refl
      | apply (proj1 H)
      | apply (proj2 H)
      | apply refines_bind; [|intros ?]
      | apply refines_foldM; intros
      | match goal with
        | |- refines (match ?x with _ => _ end) _ => destruct x
        | |- refines (if ?x then _ else _) _ => destruct x
        | |- refines (let '(_, _) := ?x in _) _ => destruct x
        end ].

  Lemma core_mono : mono_module (@core_module W).
  Proof.
    intros w p rel. unfold core_module.
    destruct (table_get p core_table) as [q|] eqn:E; [|discriminate]. intros [= <-].
    intros sv sv' vals c H. cbn [r_query r_write]. split; [|discriminate].
    assert (Hq : forall q0, In q0 (map snd (@core_table W)) -> refines (q0 sv vals c) (q0 sv' vals c)).
    { intros q0 Hin. cbn [core_table map snd In] in Hin.
      repeat (destruct Hin as [<-|Hin];
        [unfold q_equals, q_greater_than, q_less_than, q_multiply, q_arg_min, q_arg_max, q_arg, q_sum, q_avg,
           q_percentage, q_count, q_not, q_let, q_det_equals, q_det_greater_than, q_det_less_than, q_det,
           q_all, q_none, q_scoped, q_store, q_destructure, q_find_all, q_find_one, find_values, all_step; mono H|]).
      destruct Hin. }
    apply Hq. clear -E. induction core_table as [|[k q1] t IH]; simpl in *; [discriminate|].
    destruct (String.eqb p k); [injection E as <-; auto|auto].
  Qed.

  Lemma inference_mono (L : lens W rulebase) : mono_module (inference_module L).
  Proof.
    intros w p rel. unfold inference_module. destruct (rules_get p (lget L w)) eqn:E.
    - intros [= <-] sv sv' vals c H. cbn [r_query r_write]. split; [|discriminate].
      unfold handle_rule, solve_rule. mono H.
    - destruct (String.eqb p "learn_rule"); [|discriminate].
      intros [= <-] sv sv' vals c H. cbn [r_query r_write]. split; [|discriminate].
      unfold learn_rule. mono H.
  Qed.

  Lemma table_mono tables : mono_module (@table_module W tables).
  Proof.
    intros w p rel. unfold table_module. destruct (tables w p); [|discriminate].
    intros [= <-] sv sv' vals c H. cbn [r_query r_write]. split; [|discriminate]. apply refines_refl.
  Qed.

  Variable mods : list (modul W).
  Hypothesis Hmods : forall m, In m mods -> mono_module m.

  Lemma find_relations_mono w p rel : In rel (find_relations mods w p) -> mono_relation rel.
  Proof.
    unfold find_relations. revert Hmods. induction mods as [|m ms IH]; simpl; intros Hm; [intros []|].
    destruct (m w p) eqn:E.
    - intros [<-|Hr]; [|apply IH; auto]. eapply Hm; eauto.
    - intros Hr. apply IH; auto.
  Qed.

  Lemma refines_at {A} (m m' : M W A) :
    (forall w, refines (fun _ => m w) (fun _ => m' w)) -> refines m m'.
  Proof. intros H w. apply (H w w). Qed.

  Lemma refines_get {A} (f f' : W -> M W A) :
    (forall w, fst (f w w) <> OutOfFuel -> f' w w = f w w) -> refines (bind get f) (bind get f').
  Proof. intros H w. unfold bind, get. apply H. Qed.

  Lemma collect_mono sv sv' many rels vals args b : sv_refines sv sv' ->
    (forall rel, In rel rels -> mono_relation rel) ->
    forall rows, refines (collect_rows sv many rels vals args b rows) (collect_rows sv' many rels vals args b rows).
  Proof.
    intros H. induction rels as [|rel rels IH]; intros Hr rows; simpl; [apply refines_refl|].
    apply refines_bind.
    - eapply Hr; [now left|exact H].
    - intros [rs|s k|]; try apply refines_refl. apply IH. intros; apply Hr. now right.
  Qed.

  Lemma write_rels_mono sv sv' rels args : sv_refines sv sv' ->
    (forall rel, In rel rels -> mono_relation rel) ->
    refines (write_rels sv rels args) (write_rels sv' rels args).
  Proof.
    intros H. induction rels as [|rel rels IH]; intros Hr; simpl; [apply refines_refl|].
    apply refines_bind.
    - destruct (r_write rel) eqn:E; [|apply refines_refl]. eapply Hr; [now left|exact H|exact E].
    - intros _. apply IH. intros; apply Hr. now right.
  Qed.

  Lemma disjuncts_mono sv sv' ds b : sv_refines sv sv' ->
    refines (solve_disjuncts sv ds b) (solve_disjuncts sv' ds b).
  Proof.
    intros H. induction ds as [|d ds IH]; simpl; [apply refines_refl|].
    apply refines_bind; [apply H|]. intros r. destruct (sres_len r); [exact IH|apply refines_refl].
  Qed.

  Lemma single_mono sv sv' atom b : sv_refines sv sv' ->
    refines (solve_single mods sv atom b) (solve_single mods sv' atom b).
  Proof.
    intros H. unfold solve_single. apply refines_bind; [apply refines_refl|]. intros [p args].
    destruct p; try apply refines_refl. destruct (String.eqb s DISJUNCTION).
    - destruct args as [|ds args]; [apply refines_refl|]. unfold solve_disjunction.
      destruct ds; try apply refines_refl; now apply disjuncts_mono.
    - unfold solve_relation. apply refines_bind; [|intros; apply refines_refl].
      unfold find_relation_values. apply refines_get. intros w.
      destruct (find_relations mods w s) eqn:E; [intros; reflexivity|]. rewrite <- E.
      apply collect_mono; auto. intros rel. apply find_relations_mono.
  Qed.

  Lemma atoms_mono sv sv' atoms : sv_refines sv sv' ->
    forall b, refines (solve_atoms mods sv atoms b) (solve_atoms mods sv' atoms b).
  Proof.
    intros H. induction atoms as [|a atoms IH]; intros b; [apply refines_refl|].
    destruct atoms as [|a2 atoms].
    - now apply single_mono.
    - change (solve_atoms mods sv (a :: a2 :: atoms) b) with
        (bind (solve_single mods sv a b) (fun r => bind (sres_items r) (fun bindings =>
         bind (foldM (fun acc b' => bind (solve_atoms mods sv (a2 :: atoms) b') (fun rr =>
                bind (sres_items rr) (fun rs => ret (fold_left add_binding rs acc)))) [] bindings)
              (fun result => ret (SList result))))).
      change (solve_atoms mods sv' (a :: a2 :: atoms) b) with
        (bind (solve_single mods sv' a b) (fun r => bind (sres_items r) (fun bindings =>
         bind (foldM (fun acc b' => bind (solve_atoms mods sv' (a2 :: atoms) b') (fun rr =>
                bind (sres_items rr) (fun rs => ret (fold_left add_binding rs acc)))) [] bindings)
              (fun result => ret (SList result))))).
      apply refines_bind; [now apply single_mono|]. intros r.
      apply refines_bind; [apply refines_refl|]. intros bs.
      apply refines_bind; [|intros; apply refines_refl].
      apply refines_foldM. intros acc x _. apply refines_bind; [apply IH|intros; apply refines_refl].
  Qed.

  Lemma step_mono sv sv' : sv_refines sv sv' ->
    sv_refines (mkSolver (solve_F mods sv) (write_F mods sv)) (mkSolver (solve_F mods sv') (write_F mods sv')).
  Proof.
    intros H. split; cbn [sv_solve sv_write].
    - intros a b. destruct a; try apply refines_refl. now apply atoms_mono.
    - intros a. unfold write_F. apply refines_bind; [apply refines_refl|]. intros [p args].
      destruct p; try apply refines_refl. apply refines_get. intros w.
      destruct (find_relations mods w s) eqn:E; [intros; reflexivity|]. rewrite <- E.
      apply write_rels_mono; auto. intros rel. apply find_relations_mono.
  Qed.

  Lemma solver_mono n : forall m, n <= m -> sv_refines (solver_at mods n) (solver_at mods m).
  Proof.
    induction n as [|n IH]; intros m Hm.
    - split; intros; apply refines_no_fuel.
    - destruct m as [|m]; [lia|]. simpl. apply step_mono. apply IH. lia.
  Qed.
End Fuel.
