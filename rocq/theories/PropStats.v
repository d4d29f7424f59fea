(** * C108: keeping statistics changes no answer *)

From Coq Require Import ZArith String List Bool Arith Lia.
From Verif Require Import Py Effects EffectsFacts Solver Atoms CoreModule InferenceModule TableModule Stats StatsProofs.
Import ListNotations.
Local Open Scope string_scope.
Local Open Scope list_scope.

(** A solver that counts gives the outcome (answers, exception, or
    exhausted recursion) and leaves the state of the modules that a solver
    which does not count gives and leaves: for every query, every start of
    the statistics, and all modules that do not look at the statistics. *)
Theorem C108_statistics_change_no_answers :
  forall W (mods' : list (modul (W * stats))) (mods : list (modul W)) log n,
  Forall2 hides_module mods' mods ->
  (forall atoms b w st, exists st',
     solve_s mods' log n atoms b (w, st) =
       (fst (solve mods n atoms b w), (snd (solve mods n atoms b w), st'))) /\
  (forall atom w st, exists st',
     write_atom_s mods' log n atom (w, st) =
       (fst (write_atom mods n atom w), (snd (write_atom mods n atom w), st'))).
Proof.
  intros W mods' mods log n H. pose proof (solver_s_hides mods' mods log H n) as [H1 H2].
  split; [intros atoms b|intros atom]; [apply H1|apply H2].
Qed.
Print Assumptions C108_statistics_change_no_answers.

(** The core module, an inference module and tables are such modules. *)
Theorem C108_modules_ignore_statistics :
  forall W (L : lens W rulebase) (tables : W -> string -> option (list (list value))),
  Forall2 hides_module
    [core_module; inference_module (beside L); table_module (fun v => tables (fst v))]
    [core_module; inference_module L; table_module tables].
Proof.
  intros W L tables. repeat constructor; [apply core_hides|apply inference_hides|apply table_hides].
Qed.
Print Assumptions C108_modules_ignore_statistics.

(** What [self.stats[p]] is after counting up [q]. *)
Fixpoint counted (p : string) (st : stats) : nat :=
  match st with
  | [] => 0
  | (k, n) :: t => if String.eqb k p then n else counted p t
  end.

Lemma counted_up p q st : counted p (count_up q st) = counted p st + (if String.eqb q p then 1 else 0).
Proof.
  induction st as [|[k n] st IH]; simpl.
  - destruct (String.eqb q p); reflexivity.
  - destruct (String.eqb_spec k q) as [->|Hkq]; simpl.
    + destruct (String.eqb q p); lia.
    + destruct (String.eqb_spec k p) as [->|Hkp]; [|exact IH].
      destruct (String.eqb_spec q p) as [->|]; [congruence|lia].
Qed.

(** Tables only: a query on a table asks the solver nothing back.  [tried
    atoms b trace]: the predicates of the atoms that are tried for [atoms]
    with [b]: the first atom once, and then the others once for each of its
    answers. *)
Inductive tried {W} (mods : list (modul W)) (n : nat) (w : W) : list value -> binding -> list string -> Prop :=
| tried_none b : tried mods n w [] b []
| tried_first p args rest b answers trace :
    p <> "$disjunction" ->
    solve mods n (VList [VTuple (VStr p :: args)]) b w = (Ok (SList answers), w) ->
    all_tried mods n w rest answers trace ->
    tried mods n w (VTuple (VStr p :: args) :: rest) b (p :: trace)
with all_tried {W} (mods : list (modul W)) (n : nat) (w : W) : list value -> list binding -> list string -> Prop :=
| all_tried_nil rest : all_tried mods n w rest [] []
| all_tried_cons rest b bs t ts :
    tried mods n w rest b t -> all_tried mods n w rest bs ts ->
    all_tried mods n w rest (b :: bs) (t ++ ts).

Section Tables.
  Context {U : Type}.
  Variable t : U -> string -> option (list (list value)).

  Lemma match_args_preserves v b args : forall i r c, preserves (@match_args U v b i args r c).
  Proof.
    assert (Hs : forall i, preserves (@subscript U v i)).
    { intros i u. unfold subscript. destruct v; try reflexivity.
      - now destruct (String.get i s).
      - now destruct (nth_error l i).
      - now destruct (nth_error l i). }
    induction args as [|a args IH]; intros i r c; simpl; [apply preserves_ret|].
    destruct a as [| | | | |x| | | |]; try (apply preserves_bind; [apply Hs|intros; apply IH]).
    destruct (bget x b); [apply IH|]. apply preserves_bind; [apply Hs|intros; apply IH].
  Qed.

  Lemma table_single_preserves sv p args b : p <> "$disjunction" ->
    preserves (solve_single [table_module t] sv (VTuple (VStr p :: args)) b).
  Proof.
    intros Hp. change (solve_single [table_module t] sv (VTuple (VStr p :: args)) b) with
      (if String.eqb p DISJUNCTION then
          match args with
          | [] => throw IndexErr
          | ds :: _ => solve_disjunction sv ds b
          end
        else solve_relation [table_module t] sv p args b).
    destruct (String.eqb_spec p DISJUNCTION) as [E|_]; [now destruct Hp|].
    unfold solve_relation. apply preserves_bind.
    - intros u. unfold find_relation_values, bind at 1, get, find_relations, find_relations_in, table_module.
      destruct (t u p) eqn:E; [|reflexivity]. cbn [collect_rows r_query length Nat.ltb].
      unfold bind at 1, table_query, bind, get. now rewrite E.
    - intros [rs|x k|]; [|apply preserves_ret|apply preserves_throw].
      apply preserves_bind; [|intros _; apply preserves_bind; [|intros; apply preserves_ret]].
      + unfold check_first_row. destruct rs as [|[] rs]; try apply preserves_throw; try apply preserves_ret.
        destruct (Nat.eqb _ _); [apply preserves_ret|apply preserves_throw].
      + unfold create_results. apply preserves_foldM. intros acc x _.
        apply preserves_bind; [apply match_args_preserves|]. intros [r []]; apply preserves_ret.
  Qed.
End Tables.

Section Counts.
  Context {W : Type}.
  Variable tables : W -> string -> option (list (list value)).
  Notation mods' := [table_module (fun v : W * stats => tables (fst v))].
  Notation mods := [table_module tables].

  Definition up (log : bool) (trace : list string) (st : stats) : stats :=
    if log then fold_left (fun s p => count_up p s) trace st else st.

  Lemma up_app log t1 t2 st : up log (t1 ++ t2) st = up log t2 (up log t1 st).
  Proof. unfold up. destruct log; [apply fold_left_app|reflexivity]. Qed.

  Lemma single_counts log n p args b answers w st : p <> "$disjunction" ->
    solve mods (S n) (VList [VTuple (VStr p :: args)]) b w = (Ok (SList answers), w) ->
    solve_single_s mods' log (solver_at_s mods' log n) (VTuple (VStr p :: args)) b (w, st) =
      (Ok (SList answers), (w, up log [p] st)).
  Proof.
    intros Hp H. change (solve_single mods (solver_at mods n) (VTuple (VStr p :: args)) b w = (Ok (SList answers), w)) in H.
    assert (Hm : Forall2 hides_module mods' mods) by (repeat constructor; apply table_hides).
    pose proof (single_hides mods' mods Hm _ _ (VTuple (VStr p :: args)) b (solver_s_hides mods' mods log Hm n) w (up log [p] st)) as (st' & E).
    rewrite H in E. cbn [fst snd] in E.
    pose proof (table_single_preserves (fun v : W * stats => tables (fst v)) (solver_at_s mods' log n) p args b Hp (w, up log [p] st)) as K.
    rewrite E in K. cbn [snd] in K. rewrite K in E. rewrite <- E. destruct log; reflexivity.
  Qed.

  Lemma atoms_count log n w atoms : forall b trace, tried mods (S n) w atoms b trace -> forall st, exists rs,
    solve_atoms_s mods' log (solver_at_s mods' log n) atoms b (w, st) = (Ok (SList rs), (w, up log trace st)).
  Proof.
    induction atoms as [|a atoms IH]; intros b trace H st; inversion H as [|p args rest b0 answers tr Hp Hs Ha]; subst.
    - exists [b]. destruct log; reflexivity.
    - destruct atoms as [|a2 atoms].
      + exists answers. cbn [solve_atoms_s]. rewrite (single_counts log n p args b answers w st Hp Hs).
        assert (tr = []) as ->; [|reflexivity].
        clear -Ha. remember [] as r eqn:Er in Ha. induction answers as [|x xs IHx] in tr, Ha |- *; inversion Ha; subst; [reflexivity|].
        match goal with T : tried _ _ _ [] _ _ |- _ => inversion T; subst end. simpl. apply IHx. assumption.
      + change (solve_atoms_s mods' log (solver_at_s mods' log n) (VTuple (VStr p :: args) :: a2 :: atoms) b) with
        (bind (solve_single_s mods' log (solver_at_s mods' log n) (VTuple (VStr p :: args)) b) (fun r => bind (sres_items r) (fun bindings =>
         bind (foldM (fun acc b' => bind (solve_atoms_s mods' log (solver_at_s mods' log n) (a2 :: atoms) b') (fun rr =>
                bind (sres_items rr) (fun rs => ret (fold_left add_binding rs acc)))) [] bindings)
              (fun result => ret (SList result))))).
        unfold bind at 1. rewrite (single_counts log n p args b answers w st Hp Hs).
        unfold bind at 1. cbn [sres_items ret].
        change (up log (p :: tr) st) with (up log ([p] ++ tr) st). rewrite up_app.
        generalize (up log [p] st) as st1. intros st1.
        assert (G : forall acc st0, exists rs,
          foldM (fun acc b' => bind (solve_atoms_s mods' log (solver_at_s mods' log n) (a2 :: atoms) b') (fun rr =>
                bind (sres_items rr) (fun rs => ret (fold_left add_binding rs acc)))) acc answers (w, st0)
          = (Ok rs, (w, up log tr st0))).
        { clear -IH Ha. induction answers as [|x xs IHx] in tr, Ha |- *; inversion Ha; subst; intros acc st0.
          - exists acc. destruct log; reflexivity.
          - cbn [foldM]. unfold bind at 1 2.
            match goal with T : tried _ _ _ _ _ _ |- _ => destruct (IH _ _ T st0) as (rs & Er) end.
            rewrite Er. unfold bind at 1. cbn [sres_items ret]. rewrite up_app.
            match goal with T : all_tried _ _ _ _ _ _ |- _ => apply (IHx _ T) || apply (IHx _ ltac:(eassumption)) end. }
        destruct (G [] st1) as (rs & Er). unfold bind at 1. rewrite Er. now exists rs.
  Qed.
End Counts.

(** Each try is counted once, under its own predicate; without
    [log_stats] nothing is counted. *)
Theorem C108_each_try_is_counted_once :
  forall W (tables : W -> string -> option (list (list value))) n atoms b trace (w : W) st log,
  tried [table_module tables] n w atoms b trace ->
  exists out st',
    solve_s [table_module (fun v : W * stats => tables (fst v))] log n (VList atoms) b (w, st) = (out, (w, st')) /\
    (log = false -> st' = st) /\
    (log = true -> forall p, counted p st' = counted p st + count_occ string_dec trace p).
Proof.
  intros W tables n atoms b trace w st log H. destruct n as [|n].
  - exists OutOfFuel, st. split; [reflexivity|]. split; [reflexivity|]. intros _ p.
    inversion H; subst; [simpl; lia|discriminate].
  - destruct (atoms_count tables log n w atoms b trace H st) as (rs & E).
    exists (Ok (SList rs)), (up log trace st). split; [exact E|]. split; intros ->; [reflexivity|].
    intros p. clear. unfold up. revert st. induction trace as [|q tr IH]; intros st; simpl; [lia|].
    rewrite IH, counted_up.
    destruct (String.eqb_spec q p), (string_dec q p); try congruence; lia.
Qed.
Print Assumptions C108_each_try_is_counted_once.

(** Two parents, one of them with two children: [parent(X, Y)] is tried
    once and [parent(Y, Z)] for each of its three answers. *)
Definition family (_ : unit) (p : string) : option (list (list value)) :=
  if String.eqb p "parent" then
    Some [[VStr "ann"; VStr "bob"]; [VStr "ann"; VStr "cor"]; [VStr "bob"; VStr "dee"]]
  else if String.eqb p "old" then Some [[VStr "dee"]]
  else None.
Definition grandparents : list value :=
  [VTuple [VStr "parent"; VVar "X"; VVar "Y"]; VTuple [VStr "parent"; VVar "Y"; VVar "Z"]; VTuple [VStr "old"; VVar "Z"]].

Example C108_example :
  solve_s [core_module; table_module (fun v => family (fst v))] true 5 (VList grandparents) [] (tt, []) =
    (Ok (SList [[("X", VStr "ann"); ("Y", VStr "bob"); ("Z", VStr "dee")]]), (tt, [("parent", 4); ("old", 1)])).
Proof. vm_compute. reflexivity. Qed.

Example C108_example_negation :
  solve_s [core_module; table_module (fun v => family (fst v))] true 5
    (VList [VTuple [VStr "parent"; VVar "X"; VVar "Y"];
            VTuple [VStr "not"; VList [VTuple [VStr "old"; VVar "Y"]]]]) [] (tt, []) =
    (Ok (SList [[("X", VStr "ann"); ("Y", VStr "bob")]; [("X", VStr "ann"); ("Y", VStr "cor")]]),
     (tt, [("parent", 1); ("not", 3); ("old", 3)])).
Proof. vm_compute. reflexivity. Qed.

Example C108_example_tried :
  exists trace, tried [table_module family] 5 tt grandparents [] trace /\ length trace = 5.
Proof.
  eexists. split.
  - repeat first [ eapply tried_none | eapply tried_first; [discriminate|vm_compute; reflexivity|]
                 | eapply all_tried_nil | eapply all_tried_cons ].
  - reflexivity.
Qed.
