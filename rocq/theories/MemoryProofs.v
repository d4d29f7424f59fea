(** * Proofs about the memory modules and the generator *)

From Coq Require Import ZArith String List Bool Lia Arith.
From Verif Require Import Py PyFacts Effects EffectsFacts Solver CoreModule CoreSpec CoreProofs CoreProofs3 SolverProofs SolverProofs2 MatchProofs
  DataSpec SimpleDataSource Sql SqliteDataSource SqliteProofs SqliteProofs2 Memory.
Import ListNotations.
Local Open Scope string_scope.
Local Open Scope list_scope.

Section Single.
  Context {W : Type}.
  Variable mods : list (modul W).

  (** a predicate with one relation *)
  Lemma single_solve n p rel args b (w : W) :
    find_relations mods w p = [rel] -> p <> DISJUNCTION ->
    solve mods (S n) (VList [VTuple (VStr p :: args)]) b w =
    bind (r_query rel (solver_at mods n) (db_values b args) (mkCtx (r_pred rel) (r_cols rel) args b)) (finish args b) w.
  Proof.
    intros Hf Hp.
    unfold solve. cbn [solver_at sv_solve]. unfold solve_F. cbn [solve_atoms]. unfold solve_single.
    unfold bind at 1. cbn [atom_parts ret].
    destruct (String.eqb_spec p DISJUNCTION); [contradiction|].
    unfold solve_relation, find_relation_values, get.
    unfold bind at 1 2. rewrite Hf. cbn [collect_rows length Nat.ltb Nat.leb].
    unfold bind.
    destruct (r_query rel (solver_at mods n) (db_values b args) _ w) as [[[rows|s k|]|e|] w1]; reflexivity.
  Qed.
End Single.

Section Dialog.
  Context {W : Type}.
  Variable L : lens W conn.
  Hypothesis HL : lens_ok L.

  (** the names of the active contexts, oldest first *)
  Definition contexts_are (w : W) (names : list string) : Prop :=
    db_get "context" (current (lget L w)) = Some (mkTbl ["name"] [] (map (fun s => [VStr s]) names)).

  (** nothing but the table of contexts is different *)
  Definition only_contexts (w w' : W) : Prop :=
    exists c, w' = lset L c w /\ committed c = committed (lget L w) /\
      forall t, t <> "context" -> db_get t (current c) = db_get t (current (lget L w)).

  Let gs (names : list string) : list given := map (fun s => mkGiven ["name"] [VStr s]) names.
  Lemma gs_rows names : map (fun s => [VStr s]) names = map (row_of ["name"]) (gs names).
  Proof. unfold gs. rewrite map_map. apply map_ext. intros s. reflexivity. Qed.

  Lemma context_fits x s : t_cols x = ["name"] -> fits_table x "context" ["name"] [VStr s].
  Proof.
    intros E. constructor; try reflexivity; try discriminate.
    - intros c [<-|[]]. reflexivity.
    - rewrite E. apply incl_refl.
  Qed.

  Lemma on_conn_run {A} (m : M conn A) w o c : m (lget L w) = (o, c) -> on_conn L m w = (o, lset L c w).
  Proof. unfold on_conn. now intros ->. Qed.

  Lemma contexts_put c w names names' :
    contexts_are w names ->
    c = mkConn (committed (lget L w)) (db_put "context" (mkTbl ["name"] [] (map (fun s => [VStr s]) names')) (current (lget L w))) ->
    contexts_are (lset L c w) names' /\ only_contexts w (lset L c w).
  Proof.
    intros H ->. split.
    - unfold contexts_are in *. rewrite (lens_get_set _ HL). cbn [current]. rewrite db_get_put, String.eqb_refl, H. reflexivity.
    - eexists. split; [reflexivity|]. split; [reflexivity|]. intros t Ht. cbn [current]. rewrite db_get_put.
      destruct (String.eqb_spec t "context"); [contradiction|reflexivity].
  Qed.

  Lemma insert_context w names s : contexts_are w names ->
    exists w', dialog_insert L "context" ["name"] [VStr s] w = (Ok tt, w') /\
      contexts_are w' (names ++ [s]) /\ only_contexts w w'.
  Proof.
    intros H. eexists. split.
    - apply on_conn_run. eapply (sq_insert_run "context" _ ["name"] [VStr s]); [|exact H|reflexivity|apply gs_rows].
      apply context_fits. reflexivity.
    - eapply contexts_put; [exact H|]. cbn [t_cols t_unique]. do 3 f_equal.
      rewrite gs_rows. f_equal. unfold gs. rewrite map_app. reflexivity.
  Qed.

  Lemma delete_context w names s : contexts_are w names ->
    exists w', dialog_delete L "context" ["name"] [VStr s] w = (Ok tt, w') /\
      contexts_are w' (filter (fun x => negb (String.eqb x s)) names) /\ only_contexts w w'.
  Proof.
    intros H. eexists. split.
    - apply on_conn_run. eapply (sq_delete_run "context" _ ["name"] [VStr s]); [|exact H|apply gs_rows].
      apply context_fits. reflexivity.
    - eapply contexts_put; [exact H|]. cbn [t_cols t_unique]. do 3 f_equal.
      rewrite gs_rows. f_equal. unfold gs. clear. induction names as [|x names IH]; [reflexivity|].
      cbn [map filter]. unfold has_all at 1. cbn. destruct (String.eqb x s); cbn; [exact IH|].
      f_equal. exact IH.
  Qed.

  Lemma select_context w names s : contexts_are w names ->
    dialog_select L "context" ["name"] [VStr s] w = (Ok (map (fun x => [VStr x]) (filter (fun x => String.eqb x s) names)), w).
  Proof.
    intros H. unfold dialog_select. erewrite on_conn_run.
    2:{ eapply (sq_select_run "context" _ ["name"] [VStr s]); [|exact H|apply gs_rows]. apply context_fits. reflexivity. }
    f_equal.
    - f_equal. unfold spec_select. unfold gs. clear. induction names as [|x names IH]; [reflexivity|].
      cbn [map filter]. unfold fits at 1. cbn. destruct (String.eqb x s); cbn; [|exact IH]. f_equal. exact IH.
    - destruct (lget L w) eqn:E. cbn. rewrite <- E. apply (lens_set_get _ HL).
  Qed.

  Variable mods : list (modul W).

  Lemma solve_with_context n s body b w names :
    contexts_are w names ->
    find_relations mods w "with_context" = [memory_relation_with (dialog_insert L) "with_context" ["name"; "body"] (with_context L)] ->
    exists w1, contexts_are w1 (names ++ [s]) /\ only_contexts w w1 /\
      match solve mods n (VList body) b w1 with
      | (Ok r, w2) =>
          forall names2, contexts_are w2 names2 ->
            exists w3, solve mods (S n) (VList [VTuple [VStr "with_context"; VStr s; VList body]]) b w = (Ok (SList [b]), w3) /\
              contexts_are w3 (filter (fun x => negb (String.eqb x s)) names2) /\ only_contexts w2 w3
      | (Exn e, w2) => solve mods (S n) (VList [VTuple [VStr "with_context"; VStr s; VList body]]) b w = (Exn e, w2)
      | (OutOfFuel, w2) => solve mods (S n) (VList [VTuple [VStr "with_context"; VStr s; VList body]]) b w = (OutOfFuel, w2)
      end.
  Proof.
    intros H Hf. destruct (insert_context w names s H) as (w1 & E1 & C1 & O1).
    exists w1. split; [exact C1|]. split; [exact O1|].
    assert (R : solve mods (S n) (VList [VTuple [VStr "with_context"; VStr s; VList body]]) b w =
      bind (bind (sv_solve (solver_at mods n) (VList body) b) (fun _ =>
            bind (dialog_delete L "context" ["name"] [VStr s]) (fun _ => ret (QRows [VList [VNone; VNone]]))))
        (finish [VStr s; VList body] b) w1).
    { rewrite (single_solve mods n "with_context" _ [VStr s; VList body] b w Hf) by discriminate.
      cbn [memory_relation_with r_query r_pred r_cols]. unfold with_context, item.
      unfold bind at 1. unfold bind at 1. cbn [db_values map db_value nth_error ret].
      unfold bind at 1. cbn [ret]. unfold bind at 1. rewrite E1. unfold bind. reflexivity. }
    change (sv_solve (solver_at mods n)) with (solve mods n) in R.
    destruct (solve mods n (VList body) b w1) as [[r|e|] w2] eqn:Eb.
    - intros names2 C2. destruct (delete_context w2 names2 s C2) as (w3 & E3 & C3 & O3).
      exists w3. split; [|auto]. rewrite R. unfold bind at 1 2. rewrite Eb. unfold bind at 1. rewrite E3.
      cbn [ret]. exact (finish_none [VStr s; VList body] b w3).
    - rewrite R. unfold bind at 1 2. rewrite Eb. reflexivity.
    - rewrite R. unfold bind at 1 2. rewrite Eb. reflexivity.
  Qed.

  Lemma solve_context n s b w names :
    contexts_are w names ->
    find_relations mods w "context" = [memory_relation (dialog_select L) (dialog_insert L) "context" ["name"]] ->
    solve mods (S n) (VList [VTuple [VStr "context"; VStr s]]) b w =
    (Ok (SList (if existsb (String.eqb s) names then [b] else [])), w).
  Proof.
    intros H Hf. rewrite (single_solve mods n "context" _ [VStr s] b w Hf) by discriminate.
    cbn [memory_relation r_query r_pred r_cols]. unfold memory_query.
    unfold bind at 1. unfold bind at 1. cbn [db_values map db_value c_pred c_cols].
    rewrite (select_context w names s H). cbn [ret]. rewrite map_map.
    assert (G : forall acc, (acc = [] \/ acc = [VList [VStr s]]) ->
      fold_left add_row (map (fun x => VList [VStr x]) (filter (fun x => String.eqb x s) names)) acc
      = if existsb (String.eqb s) names then [VList [VStr s]] else acc).
    { clear. induction names as [|x names IH]; intros acc Ha; [reflexivity|].
      cbn [filter existsb]. rewrite (String.eqb_sym s x). destruct (String.eqb_spec x s) as [->|Hn].
      - cbn [map fold_left orb]. assert (E : add_row acc (VList [VStr s]) = [VList [VStr s]]).
        { destruct Ha as [-> | ->]; [reflexivity|]. unfold add_row. cbn [existsb]. rewrite String.eqb_refl. reflexivity. }
        rewrite E, IH by auto. destruct (existsb (String.eqb s) names); reflexivity.
      - cbn [orb]. apply IH. exact Ha. }
    unfold finish. cbv zeta. rewrite G by auto.
    destruct (existsb (String.eqb s) names); [|reflexivity].
    cbn. unfold create_results. cbn. unfold bind. cbn. rewrite String.eqb_refl. reflexivity.
  Qed.

  Lemma solve_start_context n s b w names :
    contexts_are w names ->
    find_relations mods w "start_context" = [memory_relation_with (dialog_insert L) "start_context" ["name"] (start_context L)] ->
    exists w', solve mods (S n) (VList [VTuple [VStr "start_context"; VStr s]]) b w = (Ok (SList [b]), w') /\
      contexts_are w' (names ++ [s]) /\ only_contexts w w'.
  Proof.
    intros H Hf. destruct (insert_context w names s H) as (w1 & E1 & C1 & O1).
    exists w1. split; [|auto].
    rewrite (single_solve mods n "start_context" _ [VStr s] b w Hf) by discriminate.
    cbn [memory_relation_with r_query r_pred r_cols]. unfold start_context, item.
    unfold bind at 1. unfold bind at 1. cbn [db_values map db_value nth_error ret].
    unfold bind at 1. rewrite E1. cbn [ret]. exact (finish_none [VStr s] b w1).
  Qed.

  Lemma solve_end_context n s b w names :
    contexts_are w names ->
    find_relations mods w "end_context" = [memory_relation_with (dialog_insert L) "end_context" ["name"] (end_context L)] ->
    exists w', solve mods (S n) (VList [VTuple [VStr "end_context"; VStr s]]) b w = (Ok (SList [b]), w') /\
      contexts_are w' (filter (fun x => negb (String.eqb x s)) names) /\ only_contexts w w'.
  Proof.
    intros H Hf. destruct (delete_context w names s H) as (w1 & E1 & C1 & O1).
    exists w1. split; [|auto].
    rewrite (single_solve mods n "end_context" _ [VStr s] b w Hf) by discriminate.
    cbn [memory_relation_with r_query r_pred r_cols]. unfold end_context, item.
    unfold bind at 1. unfold bind at 1. cbn [db_values map db_value nth_error ret].
    unfold bind at 1. rewrite E1. cbn [ret]. exact (finish_none [VStr s] b w1).
  Qed.

  Lemma clear_contexts w : exists w', dialog_clear L w = (Ok tt, w') /\ contexts_are w' [] /\
    db_get "dialog_isa" (current (lget L w')) = Some (mkTbl ["entity"; "type"] [] []).
  Proof.
    eexists. split; [reflexivity|]. unfold contexts_are. rewrite (lens_get_set _ HL). split; reflexivity.
  Qed.

  Lemma solve_no_isa n e t b w :
    db_get "dialog_isa" (current (lget L w)) = Some (mkTbl ["entity"; "type"] [] []) ->
    find_relations mods w "dialog_isa" = [memory_relation (dialog_select L) (dialog_insert L) "dialog_isa" ["entity"; "type"]] ->
    forallb storable (db_values b [e; t]) = true ->
    solve mods (S n) (VList [VTuple [VStr "dialog_isa"; e; t]]) b w = (Ok (SList []), w).
  Proof.
    intros H Hf Hs. rewrite (single_solve mods n "dialog_isa" _ [e; t] b w Hf) by discriminate.
    cbn [memory_relation r_query r_pred r_cols]. unfold memory_query.
    unfold bind at 1. unfold bind at 1. cbn [c_pred c_cols]. unfold dialog_select.
    erewrite on_conn_run.
    2:{ eapply (sq_select_run "dialog_isa" _ ["entity"; "type"] (db_values b [e; t])) with (gs := []); [|exact H|reflexivity].
        constructor; try reflexivity; try discriminate; auto.
        - intros c [<-|[<-|[]]]; reflexivity.
        - apply incl_refl. }
    replace (lset L _ w) with w; [reflexivity|].
    destruct (lget L w) eqn:E. cbn. rewrite <- E. symmetry. apply (lens_set_get _ HL).
  Qed.
End Dialog.
