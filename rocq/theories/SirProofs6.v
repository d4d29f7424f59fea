(** * The answers to the questions of SIR *)

From Coq Require Import ZArith String Ascii List Bool Arith Lia Relations.
From Verif Require Import Py PyFacts ReprProofs Effects EffectsFacts Solver CoreModule CoreProofs InferenceModule Sql SqliteDataSource DataSpec SqliteProofs2
  SimpleDataSource Memory MemoryProofs Pipeline FragmentModel TalkModel SirModel SirSpec SirProofs2 SirProofs4 SirProofs5.
Import ListNotations.
Local Open Scope nat_scope.
Local Open Scope string_scope.
Local Open Scope list_scope.

Section Disjuncts.
  Context {W : Type}.
  Variable mods : list (modul W).
  Lemma disjunction_solve n ds b (w : W) :
    solve mods (S n) (VList [VTuple [VStr DISJUNCTION; VList ds]]) b w = solve_disjuncts (solver_at mods n) ds b w.
  Proof. reflexivity. Qed.
  Lemma this_disjunct n d ds b r l (w w1 : W) : solve mods n d b w = (Ok (SList (r :: l)), w1) ->
    solve_disjuncts (solver_at mods n) (d :: ds) b w = (Ok (SList (r :: l)), w1).
  Proof. unfold solve. intros E. cbn [solve_disjuncts]. unfold bind. rewrite E. reflexivity. Qed.
  Lemma next_disjunct n d ds b (w w1 : W) : solve mods n d b w = (Ok (SList []), w1) ->
    solve_disjuncts (solver_at mods n) (d :: ds) b w = solve_disjuncts (solver_at mods n) ds b w1.
  Proof. unfold solve. intros E. cbn [solve_disjuncts]. unfold bind at 1. rewrite E. reflexivity. Qed.
  Lemma fuel_disjunct n d ds b (w w1 : W) : solve mods n d b w = (OutOfFuel, w1) ->
    solve_disjuncts (solver_at mods n) (d :: ds) b w = (OutOfFuel, w1).
  Proof. unfold solve. intros E. cbn [solve_disjuncts]. unfold bind. rewrite E. reflexivity. Qed.
End Disjuncts.

Section Facts.
  Variable facts : list (string * string).
  Notation st out := (state (rows_of facts) out).
  Notation chase := (chase facts).

  Lemma none_identical n rows x y i : i = 2 \/ i = 3 \/ i = 4 \/ i = 5 \/ i = 6 \/ i = 7 ->
    solve sir_mods (S n) (body_of "full_isa" i) [("A", VStr x); ("B", VStr y)] (state rows []) = (Ok (SList []), state rows []).
  Proof. intros [->|[->|[->|[->|[->| ->]]]]]; vm_compute; reflexivity. Qed.

  Lemma full_run n x y :
    solve sir_mods (S n) (VList [VTuple [VStr "full_isa"; VVar "A"; VVar "B"]]) [("A", VStr x); ("B", VStr y)] (st []) =
    match chase n x y with
    | None => (OutOfFuel, st [])
    | Some r => (Ok (SList (if (String.eqb x y || r)%bool then [[("A", VStr x); ("B", VStr y)]] else [])), st [])
    end.
  Proof.
    rewrite (inferred n "full_isa" (map (rule_at "full_isa") [0; 1; 2; 3; 4; 5; 6; 7])); [|reflexivity|discriminate|reflexivity].
    unfold bind at 1. rewrite rule_rows_fold. cbn [map fold_rules]. unfold bind at 1.
    set (b := [("A", VStr x); ("B", VStr y)]).
    assert (E0 : solve_rule (solver_at sir_mods n) (rule_at "full_isa" 0) [VVar "A"; VVar "B"] b (st []) =
      (Ok (repeat [VStr x; VStr y] (if String.eqb x y then 1 else 0)), st [])).
    { change (rule_at "full_isa" 0) with (mkRule [VStr "full_isa"; VVar "A"; VVar "A"] (VList [])).
      generalize (st []) as w. generalize (solver_at sir_mods n) as sv. intros sv w.
      change (solve_rule sv (mkRule [VStr "full_isa"; VVar "A"; VVar "A"] (VList [])) [VVar "A"; VVar "B"] b w) with
        ((match (if String.eqb x y then Some [("B", VStr y); ("A", VStr y)] else None) with
          | None => ret []
          | Some rb => fun w => (match head_rows [rb] [VVar "A"; VVar "A"] [VVar "A"; VVar "B"] with Some rs => ret rs | None => ret [] end) w end) w).
      destruct (String.eqb_spec x y) as [->|N]; reflexivity. }
    rewrite E0. cbn [app].
    assert (Ei : chase n x y <> None -> forall i, i = 2 \/ i = 3 \/ i = 4 \/ i = 5 \/ i = 6 \/ i = 7 ->
      solve_rule (solver_at sir_mods n) (rule_at "full_isa" i) [VVar "A"; VVar "B"] b (st []) = (Ok [], st [])).
    { intros Ec i Hi. destruct n as [|n]; [now destruct Ec|]. pose proof (none_identical n (rows_of facts) x y i Hi) as E.
      destruct Hi as [->|[->|[->|[->|[->| ->]]]]]; (erewrite rule_ok; [|reflexivity|reflexivity|reflexivity|exact E]; reflexivity). }
    pose proof (proper_run facts [] n x y b "A" "B" (or_introl (conj eq_refl (conj eq_refl eq_refl)))) as E1.
    change (VList [VTuple [VStr "proper_isa"; VVar "A"; VVar "B"]]) with (body_of "full_isa" 1) in E1.
    unfold bind at 1. destruct (chase n x y) as [r|].
    - specialize (Ei ltac:(discriminate)).
      erewrite rule_ok; [|reflexivity|reflexivity|reflexivity|exact E1]. change (tl (ru_head (rule_at "full_isa" 1))) with [VVar "A"; VVar "B"].
      unfold bind at 1. rewrite Ei by tauto. unfold bind at 1. rewrite Ei by tauto. unfold bind at 1. rewrite Ei by tauto.
      unfold bind at 1. rewrite Ei by tauto. unfold bind at 1. rewrite Ei by tauto. unfold bind at 1. rewrite Ei by tauto.
      rewrite !app_nil_r. cbn [ret].
      transitivity (finish [VVar "A"; VVar "B"] b (QRows (map VList (repeat [VStr x; VStr y] (if String.eqb x y then 1 else 0) ++ repeat [VStr x; VStr y] (if r then 1 else 0)))) (st [])).
      { destruct r; reflexivity. }
      rewrite <- repeat_app, map_repeat, finish_same; [|reflexivity|reflexivity].
      destruct (String.eqb x y), r; reflexivity.
    - erewrite rule_fuel; [reflexivity|reflexivity|reflexivity|reflexivity|exact E1].
  Qed.

  Lemma stores n t x y rows : In t ["yes"; "sometimes"; "unknown"] ->
    solve sir_mods (2 + n) (VList [VTuple [VStr "store"; VList [VTuple [VStr "output_type"; VStr t]]]]) [("A", VStr x); ("B", VStr y)] (state rows []) =
    (Ok (SList [[("A", VStr x); ("B", VStr y)]]), state rows (typed t)).
  Proof. intros [<-|[<-|[<-|[]]]]; vm_compute; reflexivity. Qed.

  Lemma not_equal n x y rows : x <> y ->
    solve sir_mods (S n) (VList [VTuple [VStr "equals"; VVar "A"; VVar "B"]]) [("A", VStr x); ("B", VStr y)] (state rows []) = (Ok (SList []), state rows []).
  Proof.
    intros N. erewrite single_solve; [|reflexivity|discriminate]. cbn [r_query db_values map db_value bget].
    unfold q_equals. unfold bind at 1 2. cbn [item nth_error ret]. unfold bind at 1. cbn.
    apply String.eqb_neq in N. now rewrite N.
  Qed.

  (** what is stored as the type of the answer, with recursion limit [n] *)
  Definition answer (n : nat) (x y : string) : option string :=
    match chase n x y with
    | None => None
    | Some r =>
        if (String.eqb x y || r)%bool then Some "yes"
        else match chase (1 + n) y x with
             | None => None
             | Some true => Some "sometimes"
             | Some false => Some "unknown"
             end
    end.

  Lemma isa_body n x y :
    solve sir_mods (2 + n) (body_of "intent_isa" 0) [("A", VStr x); ("B", VStr y)] (st []) =
    match answer n x y with
    | None => (OutOfFuel, st [])
    | Some t => (Ok (SList [[("A", VStr x); ("B", VStr y)]]), state (rows_of facts) (typed t))
    end.
  Proof.
    set (b := [("A", VStr x); ("B", VStr y)]).
    change (body_of "intent_isa" 0) with (VList [VTuple [VStr DISJUNCTION; VList
      [VList [VTuple [VStr "full_isa"; VVar "A"; VVar "B"]; VTuple [VStr "store"; VList [VTuple [VStr "output_type"; VStr "yes"]]]];
       VList [VTuple [VStr "proper_isa"; VVar "B"; VVar "A"]; VTuple [VStr "store"; VList [VTuple [VStr "output_type"; VStr "sometimes"]]]];
       VList [VTuple [VStr "equals"; VVar "A"; VVar "B"]; VTuple [VStr "store"; VList [VTuple [VStr "output_type"; VStr "yes"]]]];
       VList [VTuple [VStr "store"; VList [VTuple [VStr "output_type"; VStr "unknown"]]]]]]]).
    change (2 + n) with (S (1 + n)). rewrite disjunction_solve. change (1 + n) with (S n). unfold answer.
    pose proof (full_run n x y) as E. fold b in E. destruct (chase n x y) as [r|] eqn:Ec.
    2:{ apply fuel_disjunct. apply (then_fuel sir_mods _ _ _ _ _ _ E). }
    destruct n as [|n]; [discriminate|].
    destruct (String.eqb x y || r)%bool eqn:Er.
    { apply this_disjunct. eapply then_solve; [exact E|]. apply (stores n "yes" x y). now left. }
    rewrite (next_disjunct _ _ _ _ _ _ _ (then_nothing sir_mods _ _ _ _ _ _ _ E)). clear E.
    pose proof (proper_run facts [] (2 + n) y x b "B" "A" (or_intror (or_introl (conj eq_refl (conj eq_refl eq_refl))))) as E.
    change (2 + n) with (S (S n)) in E. change (1 + S n) with (S (S n)). destruct (chase (S (S n)) y x) as [[|]|].
    { apply this_disjunct. eapply then_solve; [exact E|]. apply (stores n "sometimes" x y). right. now left. }
    2:{ apply fuel_disjunct. apply (then_fuel sir_mods _ _ _ _ _ _ E). }
    rewrite (next_disjunct _ _ _ _ _ _ _ (then_nothing sir_mods _ _ _ _ _ _ _ E)).
    assert (N : x <> y). { intros ->. rewrite String.eqb_refl in Er. discriminate. }
    rewrite (next_disjunct _ _ _ _ _ _ _ (then_nothing sir_mods _ _ _ _ _ _ _ (not_equal (S n) x y (rows_of facts) N))).
    apply this_disjunct. apply (stores n "unknown" x y). right. right. now left.
  Qed.

  Lemma run_asks n x y :
    solve sir_mods (3 + n) (asks x y) [] (st []) =
    match answer n x y with
    | None => (OutOfFuel, st [])
    | Some t => (Ok (SList [[]]), state (rows_of facts) (typed t))
    end.
  Proof.
    unfold asks. change (3 + n) with (S (2 + n)).
    rewrite (inferred (2 + n) "intent_isa" [rule_at "intent_isa" 0]); [|reflexivity|discriminate|reflexivity].
    unfold bind at 1. rewrite rule_rows_fold. cbn [fold_rules]. unfold bind at 1.
    pose proof (isa_body n x y) as E. destruct (answer n x y) as [t|].
    - erewrite rule_ok; [|reflexivity|reflexivity|reflexivity|exact E].
      change (tl (ru_head (rule_at "intent_isa" 0))) with [VVar "A"; VVar "B"]. cbn [head_rows head_row app ret map].
      change [VList [VStr x; VStr y]] with (repeat (VList [VStr x; VStr y]) 1). rewrite finish_same; [reflexivity|reflexivity|].
      cbn [match_args]. unfold bind. cbn [subscript nth_error ret is_none negb andb orb py_eq]. rewrite !String.eqb_refl. reflexivity.
    - erewrite rule_fuel; [reflexivity|reflexivity|reflexivity|reflexivity|exact E].
  Qed.
End Facts.
