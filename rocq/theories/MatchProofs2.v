(** * Single atoms: order of the solutions, values received *)

From Coq Require Import ZArith String List Bool Lia Arith.
From Verif Require Import Py PyFacts ReprProofs Effects EffectsFacts Solver SolverSpec
  SolverProofs SolverProofs2 MatchProofs.
Import ListNotations.
Local Open Scope string_scope.
Local Open Scope list_scope.

Lemma received_db_values b args : Forall2 (received b) args (db_values b args).
Proof.
  unfold db_values. induction args as [|a args IH]; simpl; constructor; auto.
  destruct a; simpl; try (apply rec_const; discriminate).
  destruct (bget name b) eqn:E; [now apply rec_bound|now apply rec_unbound].
Qed.

Lemma received_fun b a v v' : received b a v -> received b a v' -> v = v'.
Proof. intros H H'; inversion H; inversion H'; subst; try congruence; exfalso; eapply H0 + eapply H1; eauto. Qed.

Lemma received_unique b args vals : Forall2 (received b) args vals -> vals = db_values b args.
Proof.
  intros H. pose proof (received_db_values b args) as H'. revert H'. generalize (db_values b args).
  induction H; intros m H'; inversion H'; subst; auto. f_equal; auto. eapply received_fun; eauto.
Qed.

Lemma add_row_firsts ar outs : forall acc kept,
  good_rows ar acc -> good_rows ar outs ->
  firsts (rev acc) outs kept -> fold_left add_row outs acc = acc ++ kept.
Proof.
  induction outs as [|x outs IH]; intros acc kept Ha Ho H; inversion H; subst; simpl.
  - now rewrite app_nil_r.
  - assert (E : add_row acc x = acc).
    { unfold add_row. assert (existsb (fun r => String.eqb (py_str r) (py_str x)) acc = true) as ->; auto.
      apply existsb_exists. exists x. split; [now apply in_rev|apply String.eqb_refl]. }
    rewrite E. apply IH; auto. intros y Hy. apply Ho. now right.
  - assert (E : add_row acc x = acc ++ [x]).
    { unfold add_row. destruct (existsb (fun r => String.eqb (py_str r) (py_str x)) acc) eqn:E; auto.
      exfalso. apply existsb_exists in E as (y & Hy & Ey). apply String.eqb_eq in Ey.
      apply H3. rewrite <- in_rev.
      destruct (Ha y Hy) as (iy & -> & _ & Dy). destruct (Ho x (or_introl eq_refl)) as (ix & -> & _ & Dx).
      replace (VList ix) with (VList iy); auto. apply repr_injective; auto. }
    rewrite E. erewrite IH with (kept := kept0).
    + now rewrite <- app_assoc.
    + intros y Hy. apply in_app_or in Hy as [Hy|[<-|[]]]; auto. apply Ho. now left.
    + intros y Hy. apply Ho. now right.
    + rewrite rev_app_distr. exact H5.
Qed.

Section Ordered.
  Context {W : Type}.

  Definition row_image (b : binding) (args : list value) (v : value) (r : binding) : Prop :=
    exists row, v = VList row /\ row_fits b args row r.

  Lemma create_results_images b args rows : forall (w : W),
    good_rows (length args) rows ->
    exists l, create_results rows b args w = (Ok l, w) /\ images (row_image b args) rows l.
  Proof.
    unfold create_results. intros w.
    assert (G : forall rows acc, good_rows (length args) rows ->
      exists l,
      foldM (fun (results : list binding) (v : value) =>
         bind (match_args v b 0 args b false)
           (fun rc => let '(result, conflict) := rc in
            if conflict then ret results else ret (results ++ [result]))) acc rows w = (Ok (acc ++ l), w)
      /\ images (row_image b args) rows l).
    { clear rows. induction rows as [|v rows IH]; intros acc Hg.
      - exists []. split; [now rewrite app_nil_r|constructor].
      - destruct (Hg v (or_introl eq_refl)) as (row & -> & Hlen & _).
        destruct (match_args_total row b args 0 b false w) as (r & c & Hm); [lia|].
        cbn [foldM]. destruct c.
        + destruct (IH acc) as (l & Hl & Him); [intros x Hx; apply Hg; now right|].
          exists l. split.
          * erewrite bind_ok_intro; [exact Hl|]. erewrite bind_ok_intro by exact Hm. reflexivity.
          * apply im_none; auto. intros y (row' & [= <-] & Hy).
            pose proof (fits_match _ _ _ _ _ _ _ _ Hm Hy). discriminate.
        + destruct (IH (acc ++ [r])) as (l & Hl & Him); [intros x Hx; apply Hg; now right|].
          exists (r :: l). split.
          * erewrite bind_ok_intro.
            2:{ erewrite bind_ok_intro by exact Hm. reflexivity. }
            rewrite Hl, <- app_assoc. reflexivity.
          * apply im_some; auto. exists row. split; auto. eapply match_fits; eauto. }
    intros Hg. destruct (G rows [] Hg) as (l & Hl & Him). exists l. auto.
  Qed.

  Variable mods : list (modul W).

  (** the solutions of a single atom, in order *)
  Theorem single_atom_ordered n p args b vals (w : W) outs kept w' :
    p <> DISJUNCTION -> find_relations mods w p <> [] ->
    Forall2 (received b) args vals ->
    queries_return (solver_at mods n) vals args b (find_relations mods w p) w outs w' ->
    good_rows (length args) outs -> firsts [] outs kept ->
    exists l, solve mods (S n) (VList [VTuple (VStr p :: args)]) b w = (Ok (SList l), w') /\
      images (row_image b args) kept l.
  Proof.
    intros Hp Hne Hv Hq Hg Hk. apply received_unique in Hv. subst vals.
    assert (Hrows : fold_left add_row outs [] = kept).
    { rewrite (add_row_firsts (length args) outs [] kept); auto. intros ? []. }
    assert (Hgk : good_rows (length args) kept).
    { rewrite <- Hrows. intros x Hx. apply fold_add_row_incl in Hx as [[]|Hx]. auto. }
    destruct (create_results_images b args kept w' Hgk) as (l & El & Hl).
    exists l. split; auto.
    unfold solve. simpl. unfold solve_single. unfold bind at 1. simpl.
    destruct (String.eqb_spec p DISJUNCTION); [contradiction|].
    unfold solve_relation. unfold bind at 1.
    assert (Hf : find_relation_values mods (solver_at mods n) p args b w = (Ok (QRows kept), w')).
    { unfold find_relation_values, bind, get.
      destruct (find_relations mods w p) as [|rel rels]; [congruence|].
      rewrite <- Hrows. apply collect_rows_spec. assumption. }
    rewrite Hf. unfold bind at 1.
    assert (Hc : check_first_row kept args w' = (Ok tt, w')).
    { unfold check_first_row. destruct kept as [|r0 rs]; [reflexivity|].
      destruct (Hgk r0 (or_introl eq_refl)) as (items & -> & Hlen & _).
      now rewrite Hlen, Nat.eqb_refl. }
    rewrite Hc. unfold bind. rewrite El. reflexivity.
  Qed.

  (** C06 *)
  Theorem query_receives n p args b (w : W) rel :
    p <> DISJUNCTION -> find_relations mods w p = [rel] ->
    exists vals, Forall2 (received b) args vals /\
      snd (solve mods (S n) (VList [VTuple (VStr p :: args)]) b w) =
      snd (r_query rel (solver_at mods n) vals (mkCtx (r_pred rel) (r_cols rel) args b) w) /\
      (forall e, fst (r_query rel (solver_at mods n) vals (mkCtx (r_pred rel) (r_cols rel) args b) w) = Exn e ->
         fst (solve mods (S n) (VList [VTuple (VStr p :: args)]) b w) = Exn e).
  Proof.
    intros Hp Hrel. exists (db_values b args). split; [apply received_db_values|].
    assert (E : solve mods (S n) (VList [VTuple (VStr p :: args)]) b w =
      bind (collect_rows (solver_at mods n) false [rel] (db_values b args) args b [])
       (fun values => match values with
        | QIter s n => ret (SIter s n)
        | QNotIterable => throw TypeErr
        | QRows rows => bind (check_first_row rows args) (fun _ =>
            bind (create_results rows b args) (fun results => ret (SList results))) end) w).
    { unfold solve. simpl. unfold solve_single. unfold bind at 1. simpl.
      destruct (String.eqb_spec p DISJUNCTION); [contradiction|].
      unfold solve_relation, find_relation_values, get. unfold bind at 1 2. rewrite Hrel. reflexivity. }
    rewrite E. clear E. cbn [collect_rows]. unfold bind.
    destruct (r_query rel (solver_at mods n) (db_values b args) _ w) as [[[rows|s k|]|e|] w1];
      [|split; [reflexivity|intros ? ?; discriminate]
       |split; [reflexivity|intros ? ?; discriminate]
       |split; [reflexivity|simpl; intros ? [= ->]; reflexivity]
       |split; [reflexivity|intros ? ?; discriminate]].
    split; [|intros ? ?; discriminate]. simpl.
    unfold check_first_row. destruct (fold_left add_row rows []) as [|r0 rs]; [reflexivity|].
    destruct r0; auto. destruct (Nat.eqb _ _); auto. simpl. unfold bind.
    destruct (create_results (VList l :: rs) b args w1) as [[x|e|] w2] eqn:Ec;
      apply create_results_state in Ec; subst; reflexivity.
  Qed.

  (** C12: rows of the wrong length or rows that are not lists *)
  Theorem wrong_row_raises n p args b vals (w : W) row outs w' :
    p <> DISJUNCTION ->
    Forall2 (received b) args vals ->
    queries_return (solver_at mods n) vals args b (find_relations mods w p) w (row :: outs) w' ->
    (forall items, row = VList items -> length items <> length args ->
       solve mods (S n) (VList [VTuple (VStr p :: args)]) b w = (Exn (Raise "wrong number of arguments in the results"), w')) /\
    ((forall items, row <> VList items) ->
       solve mods (S n) (VList [VTuple (VStr p :: args)]) b w = (Exn (Raise "results should be lists"), w')).
  Proof.
    intros Hp Hv Hq. apply received_unique in Hv. subst vals.
    assert (E : exists rest, solve mods (S n) (VList [VTuple (VStr p :: args)]) b w =
      bind (check_first_row (row :: rest) args) (fun _ => bind (create_results (row :: rest) b args) (fun results => ret (SList results))) w').
    { unfold solve. simpl. unfold solve_single. unfold bind at 1. simpl.
      destruct (String.eqb_spec p DISJUNCTION); [contradiction|].
      unfold solve_relation. unfold bind at 1.
      assert (Hf : find_relation_values mods (solver_at mods n) p args b w
                   = (Ok (QRows (fold_left add_row (row :: outs) [])), w')).
      { unfold find_relation_values, bind, get.
        destruct (find_relations mods w p) as [|rel rels] eqn:E; [inversion Hq|].
        apply collect_rows_spec. assumption. }
      rewrite Hf. clear Hf.
      assert (Hfirst : forall outs x acc, exists rest, fold_left add_row outs (x :: acc) = x :: rest).
      { clear. induction outs as [|y outs IH]; intros x acc; simpl; [eauto|].
        unfold add_row at 2. destruct (existsb _ (x :: acc)); [apply IH|]. simpl. apply IH. }
      destruct (Hfirst outs row []) as [rest Hr]. exists rest.
      assert (Hk : fold_left add_row (row :: outs) [] = row :: rest) by exact Hr. rewrite Hk. reflexivity. }
    destruct E as (rest & E). rewrite E. unfold bind at 1 3, check_first_row. split.
    - intros items -> Hl. apply Nat.eqb_neq in Hl. rewrite Hl. reflexivity.
    - intros Hw. destruct row as [| | | | | | | |l|]; try reflexivity. now destruct (Hw l).
  Qed.
End Ordered.
