(** * Proofs about the core predicates *)

From Coq Require Import ZArith QArith Qreduction String List Bool Lia Arith.
From Verif Require Import Py PyFacts ReprProofs Effects EffectsFacts Solver SolverSpec
  SolverProofs SolverProofs2 MatchProofs MatchProofs2 Atoms AtomsFacts CoreModule CoreSpec.
Import ListNotations.
Local Close Scope Q_scope.
Local Open Scope nat_scope.
Local Open Scope string_scope.
Local Open Scope list_scope.

Section Core.
  Context {W : Type}.
  Variable mods : list (modul W).

  (** what the solver does with the answer of a query function *)
  Definition finish (args : list value) (b : binding) (o : qres) : M W sres :=
    match o with
    | QIter s k => ret (SIter s k)
    | QNotIterable => throw TypeErr
    | QRows rows =>
        let kept := fold_left add_row rows [] in
        bind (check_first_row kept args) (fun _ =>
        bind (create_results kept b args) (fun results => ret (SList results)))
    end.

  Lemma core_solve n p q args b (w : W) :
    only_core mods w p -> table_get p core_table = Some q -> p <> DISJUNCTION ->
    solve mods (S n) (VList [VTuple (VStr p :: args)]) b w =
    bind (q (solver_at mods n) (db_values b args) (mkCtx p [] args b)) (finish args b) w.
  Proof.
    intros (ms & -> & Hms) Ht Hp.
    set (mods := core_module :: ms).
    unfold solve. simpl. unfold solve_single. unfold bind at 1. simpl.
    destruct (String.eqb_spec p DISJUNCTION); [contradiction|].
    unfold solve_relation, find_relation_values, get.
    assert (Hf : find_relations mods w p = [mkRel p [] q None]).
    { unfold find_relations, mods. simpl. unfold core_module at 1. rewrite Ht. f_equal.
      clear -Hms. induction ms as [|m ms IH]; simpl; auto.
      rewrite (Hms m (or_introl eq_refl)). apply IH. intros; apply Hms; now right. }
    unfold bind at 1 2. rewrite Hf. cbn [collect_rows length Nat.ltb Nat.leb r_query r_pred r_cols].
    unfold bind.
    destruct (q (solver_at mods n) (db_values b args) _ w) as [[[rows|s k|]|e|] w1]; reflexivity.
  Qed.

  (** one row *)
  Lemma finish_row args b row (w : W) : length row = length args ->
    finish args b (QRows [VList row]) w =
    bind (match_args (VList row) b 0 args b false)
      (fun rc => ret (SList (if snd rc : bool then [] else [fst rc]))) w.
  Proof.
    intros Hl. unfold finish. simpl. apply Nat.eqb_eq in Hl. rewrite Hl.
    unfold bind. simpl. unfold create_results. simpl. unfold bind.
    destruct (match_args (VList row) b 0 args b false w) as [[[r []]|e|] w1]; reflexivity.
  Qed.

  Lemma finish_empty args b (w : W) : finish args b (QRows []) w = (Ok (SList []), w).
  Proof. reflexivity. Qed.

  Lemma py_eq_refl_true v : py_eq v v = true.
  Proof. apply py_eq_refl. Qed.

  Ltac core q := erewrite (core_solve _ _ q) by (try eassumption; try reflexivity; discriminate).

  (** ** C17 *)

  Lemma solve_not n body b (w : W) : only_core mods w "not" ->
    solve mods (S n) (VList [VTuple [VStr "not"; VList body]]) b w =
    after (solve mods n (VList body) b w) (fun r => match sres_len r with O => [b] | S _ => [] end).
  Proof.
    intros H. core (@q_not W). unfold q_not, solve. simpl. unfold bind at 1 2. simpl.
    unfold bind. destruct (sv_solve (solver_at mods n) (VList body) b w) as [[r|e|] w1]; auto.
    simpl. destruct (sres_len r); reflexivity.
  Qed.

  Lemma solve_none n body b (w : W) : only_core mods w "none" ->
    solve mods (S n) (VList [VTuple [VStr "none"; VList body]]) b w =
    after (solve mods n (VList body) b w) (fun r => match sres_len r with O => [b] | S _ => [] end).
  Proof.
    intros H. core (@q_none W). unfold q_none, solve. simpl. unfold bind at 1 2. simpl.
    unfold bind. destruct (sv_solve (solver_at mods n) (VList body) b w) as [[r|e|] w1]; auto.
    simpl. destruct (sres_len r); reflexivity.
  Qed.

  Lemma solve_scoped n body b (w : W) : only_core mods w "scoped" ->
    solve mods (S n) (VList [VTuple [VStr "scoped"; VList body]]) b w =
    after (solve mods n (VList body) b w) (fun r => match sres_len r with O => [] | S _ => [b] end).
  Proof.
    intros H. core (@q_scoped W). unfold q_scoped, solve. simpl. unfold bind at 1 2. simpl.
    unfold bind. destruct (sv_solve (solver_at mods n) (VList body) b w) as [[r|e|] w1]; auto.
    simpl. destruct (sres_len r); reflexivity.
  Qed.

  (** ** rows for a result argument *)

  (** [R] gets [v], the other arguments are constants that the row does not
      constrain *)
  Lemma finish_put_first b R v consts (w : W) :
    v <> VNone -> Forall (fun a => is_var a = false) consts ->
    finish (R :: consts) b (QRows [VList (v :: map (fun _ => VNone) consts)]) w =
    (Ok (SList (put_result b R v)), w).
  Proof.
    intros Hv Hc. rewrite finish_row by (simpl; now rewrite map_length).
    assert (G : forall cs done r c i, Forall (fun a => is_var a = false) cs ->
      match_args (VList (done ++ map (fun _ => VNone) cs)) b i cs r c w = (Ok (r, c), w)
      \/ i <> length done).
    { clear. induction cs as [|a cs IH]; intros done r c i Hc; [now left|].
      destruct (Nat.eq_dec i (length done)) as [->|]; [left|now right].
      inversion Hc; subst. rewrite match_args_const by assumption.
      erewrite bind_ok_intro.
      2:{ apply subscript_nth. rewrite nth_error_app2, Nat.sub_diag by lia. reflexivity. }
      simpl. rewrite orb_false_r.
      specialize (IH (done ++ [VNone]) r c (S (length done)) H2).
      rewrite <- app_assoc in IH. simpl in IH. destruct IH as [IH|IH]; auto.
      rewrite app_length in IH. simpl in IH. lia. }
    assert (G1 : forall r c, match_args (VList (v :: map (fun _ => VNone) consts)) b 1 consts r c w = (Ok (r, c), w)).
    { intros r c. destruct (G consts [v] r c 1 Hc); auto. simpl in H. lia. }
    destruct (is_var R) eqn:E.
    - destruct R; try discriminate. simpl. destruct (bget name b) eqn:Eb.
      + unfold bind. rewrite G1. reflexivity.
      + unfold bind at 1. unfold bind at 1. simpl. rewrite G1. reflexivity.
    - unfold bind at 1. rewrite match_args_const by assumption. unfold bind at 1. cbn [subscript nth_error ret].
      rewrite G1. cbn [fst snd orb].
      assert (is_none v = false) as -> by (destruct v; auto; congruence). simpl.
      assert (put_result b R v = if py_eq R v then [b] else []) as -> by (destruct R; auto; discriminate).
      destruct (py_eq R v); reflexivity.
  Qed.

  (** ** C18 *)

  Lemma solve_count n R body b (w : W) : only_core mods w "count" ->
    solve mods (S n) (VList [VTuple [VStr "count"; R; VList body]]) b w =
    after (solve mods n (VList body) b w) (fun r => put_result b R (VInt (Z.of_nat (sres_len r)))).
  Proof.
    intros H. core (@q_count W). unfold q_count, solve. cbn [db_values map db_value item nth_error].
    unfold bind at 2, item, ret. cbn [nth_error db_value c_binding]. 
    unfold bind at 1 2.
    destruct (sv_solve (solver_at mods n) (VList body) b w) as [[r|e|] w1]; auto.
    simpl. apply (finish_put_first b R _ [VList body]).
    - discriminate.
    - repeat constructor.
  Qed.

  Lemma solve_det p (test : value -> value -> option bool) n body k b (w : W) :
    only_core mods w p -> p <> DISJUNCTION -> table_get p core_table = Some (@q_det W test) ->
    (forall c, test (VInt (Z.of_nat c)) (VInt k) <> None) ->
    solve mods (S n) (VList [VTuple [VStr p; VList body; VInt k]]) b w =
    after (solve mods n (VList body) b w)
      (fun r => match test (VInt (Z.of_nat (sres_len r))) (VInt k) with Some true => [b] | _ => [] end).
  Proof.
    intros H Hp Ht Hk. erewrite core_solve by eassumption.
    unfold q_det, solve. cbn [db_values map db_value unpack2].
    unfold bind at 2, ret. cbn [c_binding].
    unfold bind at 1 2.
    destruct (sv_solve (solver_at mods n) (VList body) b w) as [[r|e|] w1]; auto.
    unfold after, vnat. specialize (Hk (sres_len r)).
    destruct (test (VInt (Z.of_nat (sres_len r))) (VInt k)) as [[]|]; [| |congruence]; reflexivity.
  Qed.

  (** ** C22 *)

  (** a row that repeats the received values, where no variable is unbound *)
  Lemma match_received b r : forall args vals done c (w : W),
    Forall2 (received b) args vals -> Forall (fun v => v <> VNone) vals ->
    match_args (VList (done ++ vals)) b (length done) args r c w = (Ok (r, c), w).
  Proof.
    induction args as [|a args IH]; intros vals done c w Hr Hn.
    - reflexivity.
    - inversion Hr as [|? v ? vals' Hv Hr' ]; subst. inversion Hn; subst.
      assert (IH' : match_args (VList (done ++ v :: vals')) b (S (length done)) args r c w = (Ok (r, c), w)).
      { specialize (IH vals' (done ++ [v]) c w Hr' ltac:(assumption)).
        rewrite <- app_assoc, app_length, Nat.add_1_r in IH. exact IH. }
      inversion Hv; subst.
      + erewrite match_args_bound by eassumption. exact IH'.
      + congruence.
      + rewrite match_args_const by (destruct v; auto; exfalso; eapply H; eauto).
        erewrite bind_ok_intro.
        2:{ apply subscript_nth. rewrite nth_error_app2, Nat.sub_diag by lia. reflexivity. }
        rewrite py_eq_refl, andb_false_r, orb_false_r. exact IH'.
  Qed.

  Lemma finish_received b args vals (w : W) :
    Forall2 (received b) args vals -> Forall (fun v => v <> VNone) vals ->
    finish args b (QRows [VList vals]) w = (Ok (SList [b]), w).
  Proof.
    intros Hr Hn. rewrite finish_row.
    - unfold bind. pose proof (match_received b b args vals [] false w Hr Hn) as E.
      cbn [app length] in E. rewrite E. reflexivity.
    - clear Hn. induction Hr; simpl; auto.
  Qed.

  Lemma not_none v : v <> VNone -> is_none v = false.
  Proof. destruct v; auto; congruence. Qed.

  Ltac two H1 H2 v1 v2 :=
    match goal with |- context [db_values ?b [?a1; ?a2]] =>
      replace (db_values b [a1; a2]) with [v1; v2]
        by (apply received_unique; repeat constructor; assumption)
    end.

  Lemma solve_equals n a1 a2 v1 v2 b (w : W) : only_core mods w "equals" ->
    received b a1 v1 -> received b a2 v2 -> v1 <> VNone -> v2 <> VNone ->
    solve mods (S n) (VList [VTuple [VStr "equals"; a1; a2]]) b w =
    (Ok (SList (if py_eq v1 v2 then [b] else [])), w).
  Proof.
    intros H H1 H2 N1 N2. core (@q_equals W). two H1 H2 v1 v2.
    unfold q_equals, item, rows. unfold bind. cbn [nth_error ret].
    rewrite (not_none v1 N1), (not_none v2 N2).
    destruct (py_eq v1 v2) eqn:Eq; [|reflexivity]. cbn [ret map].
    apply finish_received; repeat constructor; auto.
  Qed.

  (** an unbound variable against a value *)
  Lemma solve_equals_left n x a v b (w : W) : only_core mods w "equals" ->
    bget x b = None -> received b a v -> v <> VNone ->
    solve mods (S n) (VList [VTuple [VStr "equals"; VVar x; a]]) b w =
    (Ok (SList [bset x v b]), w).
  Proof.
    intros H Hx H2 N2. core (@q_equals W).
    assert (received b (VVar x) VNone) as H1 by (now constructor).
    two H1 H2 VNone v.
    unfold q_equals, item, rows. unfold bind. cbn [nth_error ret is_none].
    rewrite (not_none v N2). cbn [ret map]. rewrite finish_row by reflexivity.
    unfold bind. rewrite match_args_unbound by assumption.
    unfold bind at 1. cbn [subscript nth_error ret]. rewrite Hx.
    pose proof (match_received b (bset x v b) [a] [v] [v] (false || false) w) as E.
    cbn [app length] in E. rewrite E; [reflexivity| |]; repeat constructor; auto.
  Qed.

  Lemma solve_equals_right n x a v b (w : W) : only_core mods w "equals" ->
    bget x b = None -> received b a v -> v <> VNone ->
    solve mods (S n) (VList [VTuple [VStr "equals"; a; VVar x]]) b w =
    (Ok (SList [bset x v b]), w).
  Proof.
    intros H Hx H2 N2. core (@q_equals W).
    assert (received b (VVar x) VNone) as H1 by (now constructor).
    two H2 H1 v VNone.
    unfold q_equals, item, rows. unfold bind. cbn [nth_error ret is_none].
    rewrite (not_none v N2). cbn [ret map]. rewrite finish_row by reflexivity.
    unfold bind.
    assert (E : forall r c, match_args (VList [v; v]) b 0 [a; VVar x] r c w =
                match_args (VList [v; v]) b 1 [VVar x] r c w).
    { intros r c. inversion H2; subst.
      - erewrite match_args_bound by eassumption. reflexivity.
      - congruence.
      - rewrite match_args_const by (destruct v; auto; exfalso; eapply H0; eauto).
        unfold bind. cbn [subscript nth_error ret]. rewrite py_eq_refl, andb_false_r, orb_false_r. reflexivity. }
    rewrite E. rewrite match_args_unbound by assumption.
    unfold bind at 1. cbn [subscript nth_error ret]. rewrite Hx. reflexivity.
  Qed.

  Lemma solve_equals_unbound n x y b (w : W) : only_core mods w "equals" ->
    bget x b = None -> bget y b = None ->
    solve mods (S n) (VList [VTuple [VStr "equals"; VVar x; VVar y]]) b w =
    (Exn (Raise "== is called with two variables"), w).
  Proof.
    intros H Hx Hy. core (@q_equals W). simpl. rewrite Hx, Hy. reflexivity.
  Qed.

  (** an order comparison *)
  Lemma solve_less_than n a1 a2 v1 v2 b (w : W) : only_core mods w "less_than" ->
    received b a1 v1 -> received b a2 v2 -> v1 <> VNone -> v2 <> VNone ->
    solve mods (S n) (VList [VTuple [VStr "less_than"; a1; a2]]) b w =
    (match py_lt v1 v2 with
     | Some true => Ok (SList [b])
     | Some false => Ok (SList [])
     | None => Exn TypeErr
     end, w).
  Proof.
    intros H H1 H2 N1 N2. core (@q_less_than W). two H1 H2 v1 v2.
    unfold q_less_than, item, rows. unfold bind. cbn [nth_error ret].
    rewrite (not_none v1 N1), (not_none v2 N2).
    destruct (py_lt v1 v2) as [[]|] eqn:Eq; try reflexivity. cbn [ret map or_throw].
    apply finish_received; repeat constructor; auto.
  Qed.

  Lemma solve_greater_than n a1 a2 v1 v2 b (w : W) : only_core mods w "greater_than" ->
    received b a1 v1 -> received b a2 v2 -> v1 <> VNone -> v2 <> VNone ->
    solve mods (S n) (VList [VTuple [VStr "greater_than"; a1; a2]]) b w =
    (match py_lt v2 v1 with
     | Some true => Ok (SList [b])
     | Some false => Ok (SList [])
     | None => Exn TypeErr
     end, w).
  Proof.
    intros H H1 H2 N1 N2. core (@q_greater_than W). two H1 H2 v1 v2.
    unfold q_greater_than, item, rows. unfold bind. cbn [nth_error ret].
    rewrite (not_none v1 N1), (not_none v2 N2). unfold py_gt.
    destruct (py_lt v2 v1) as [[]|] eqn:Eq; try reflexivity. cbn [ret map or_throw].
    apply finish_received; repeat constructor; auto.
  Qed.

  Lemma solve_compare_unbound p sign n a1 a2 v1 v2 b (w : W) :
    (p = "less_than" /\ sign = "<" \/ p = "greater_than" /\ sign = ">") -> only_core mods w p ->
    received b a1 v1 -> received b a2 v2 -> (v1 = VNone \/ v2 = VNone) ->
    solve mods (S n) (VList [VTuple [VStr p; a1; a2]]) b w =
    (Exn (Raise (append sign (if is_none v1 then " first argument is unbound" else " second argument is unbound"))), w).
  Proof.
    intros [[-> ->]|[-> ->]] H H1 H2 Hn;
      [core (@q_less_than W)|core (@q_greater_than W)]; two H1 H2 v1 v2;
      unfold q_less_than, q_greater_than, item, rows; unfold bind; cbn [nth_error ret];
      (destruct (is_none v1) eqn:E1;
       [reflexivity
       |assert (is_none v2 = true) as -> by (destruct Hn; subst; auto; discriminate);
        reflexivity]).
  Qed.

  (** ** aggregates: C19, C20 *)

  (** the general form of a call with two leading non-row arguments *)
  Lemma finish_put3 b R a2 a3 v (w : W) : v <> VNone -> is_var a2 = false -> is_var a3 = false ->
    finish [R; a2; a3] b (QRows [VList [v; VNone; VNone]]) w = (Ok (SList (put_result b R v)), w).
  Proof. intros Hv H2 H3. apply (finish_put_first b R v [a2; a3] w Hv). repeat constructor; auto. Qed.

  (** the element variable of [sum] and [avg] ends up bound to [None] *)
  Definition with_none (b : binding) (y : string) (r : binding) : binding :=
    match bget y b with Some _ => r | None => bset y VNone r end.

  Lemma finish_put_element b R y body v (w : W) : v <> VNone -> (forall x, R = VVar x -> x <> y) ->
    finish [R; VVar y; VList body] b (QRows [VList [v; VNone; VNone]]) w =
    (Ok (SList (map (with_none b y) (put_result b R v))), w).
  Proof.
    intros Hv HR. rewrite finish_row by reflexivity. unfold bind at 1.
    assert (G : forall r c, bget y r = bget y b -> match_args (VList [v; VNone; VNone]) b 1 [VVar y; VList body] r c w =
                (Ok (with_none b y r, c), w)).
    { intros r c Hy. unfold with_none. destruct (bget y b) eqn:E.
      - erewrite match_args_bound by eassumption. rewrite match_args_const by reflexivity.
        unfold bind. cbn [subscript nth_error ret is_none negb andb]. rewrite orb_false_r. reflexivity.
      - rewrite match_args_unbound by assumption. unfold bind at 1. cbn [subscript nth_error ret].
        rewrite match_args_const by reflexivity. unfold bind. cbn [subscript nth_error ret is_none negb andb].
        rewrite Hy, !orb_false_r. reflexivity. }
    destruct (is_var R) eqn:E.
    - destruct R; try discriminate. simpl put_result. destruct (bget name b) eqn:Eb.
      + erewrite match_args_bound by eassumption. rewrite G by reflexivity. reflexivity.
      + rewrite match_args_unbound by assumption. unfold bind at 1. cbn [subscript nth_error ret].
        rewrite Eb. rewrite G by (apply bget_bset_other; auto). reflexivity.
    - rewrite match_args_const by assumption. unfold bind at 1. cbn [subscript nth_error ret].
      rewrite G by reflexivity. rewrite (not_none v Hv). cbn [negb andb orb].
      assert (put_result b R v = if py_eq R v then [b] else []) as -> by (destruct R; auto; discriminate).
      destruct (py_eq R v); reflexivity.
  Qed.

  (** the loop adds up the numbers *)
  Lemma sum_loop y rs : forall qs s q0 (w : W),
    Forall2 (has_number y) rs qs -> num_of s = Some q0 ->
    exists v q, foldM (sum_step (VVar y)) s rs w = (Ok v, w) /\ num_of v = Some q /\ (q == q0 + Qsum qs)%Q.
  Proof.
    induction rs as [|r rs IH]; intros qs s q0 w Hq Hs; inversion Hq as [|? q1 ? qs' Hr Hrs]; subst.
    - exists s, q0. split; [reflexivity|split; auto]. simpl. symmetry. apply Qplus_0_r.
    - destruct Hr as (v1 & Hg & Hn).
      assert (exists s', py_add s v1 = Some s' /\ exists q', num_of s' = Some q' /\ (q' == q0 + q1)%Q) as (s' & Ha & q' & Hs' & Hq').
      { unfold py_add. destruct s; simpl in Hs; try discriminate; destruct v1; simpl in Hn; try discriminate;
          cbn [int_of num_of]; inversion Hs; inversion Hn; subst; eexists; (split; [reflexivity|]); eexists;
          (split; [reflexivity|]);
          repeat (match goal with |- context [if ?b then _ else _] => destruct b end);
          try apply Qred_correct;
          unfold inject_Z, Qeq, Qplus; cbn [Qnum Qden]; lia. }
      destruct (IH qs' s' q' w Hrs Hs') as (v & q & Hf & Hv & Hq2).
      exists v, q. split; [|split; auto].
      + simpl. unfold sum_step at 1. unfold bind. simpl. unfold lookup. rewrite Hg. cbn [ret or_throw].
        rewrite Ha. exact Hf.
      + simpl. rewrite Hq2, Hq'. ring.
  Qed.

  (** integers stay integers *)
  Lemma sum_loop_int y rs : forall zs s (w : W),
    Forall2 (fun r z => bget y r = Some (VInt z)) rs zs ->
    foldM (sum_step (VVar y)) (VInt s) rs w = (Ok (VInt (fold_left Z.add zs s)), w).
  Proof.
    induction rs as [|r rs IH]; intros zs s w Hz; inversion Hz as [|? z ? zs' Hr Hrs]; subst; [reflexivity|].
    simpl. unfold sum_step at 1. unfold bind. simpl. unfold lookup. rewrite Hr. cbn [ret or_throw py_add int_of].
    now apply IH.
  Qed.

  Lemma solve_sum n R y body b (w : W) rs w1 qs : only_core mods w "sum" ->
    (forall x, R = VVar x -> x <> y) ->
    solve mods n (VList body) b w = (Ok (SList rs), w1) ->
    Forall2 (has_number y) rs qs ->
    exists v q, num_of v = Some q /\ (q == Qsum qs)%Q /\
      solve mods (S n) (VList [VTuple [VStr "sum"; R; VVar y; VList body]]) b w =
      (Ok (SList (map (with_none b y) (put_result b R v))), w1).
  Proof.
    intros H HR Hb Hq.
    destruct (sum_loop y rs qs (VInt 0) 0%Q w1 Hq eq_refl) as (v & q & Hf & Hv & Hqq).
    exists v, q. split; [exact Hv|split; [now rewrite Hqq, Qplus_0_l|]].
    core (@q_sum W). unfold q_sum, item. unfold bind. cbn [c_args c_binding nth_error ret db_values map db_value].
    unfold solve in Hb. rewrite Hb. cbn [sres_items ret]. rewrite Hf.
    apply finish_put_element; auto. destruct v; discriminate.
  Qed.

  Lemma solve_sum_int n R y body b (w : W) rs w1 zs : only_core mods w "sum" ->
    (forall x, R = VVar x -> x <> y) ->
    solve mods n (VList body) b w = (Ok (SList rs), w1) ->
    Forall2 (fun r z => bget y r = Some (VInt z)) rs zs ->
    solve mods (S n) (VList [VTuple [VStr "sum"; R; VVar y; VList body]]) b w =
    (Ok (SList (map (with_none b y) (put_result b R (VInt (fold_left Z.add zs 0%Z))))), w1).
  Proof.
    intros H HR Hb Hq.
    core (@q_sum W). unfold q_sum, item. unfold bind. cbn [c_args c_binding nth_error ret db_values map db_value].
    unfold solve in Hb. rewrite Hb. cbn [sres_items ret]. rewrite (sum_loop_int y rs zs 0%Z w1 Hq).
    apply finish_put_element; auto. discriminate.
  Qed.

  Lemma solve_avg_empty n R y body b (w : W) r w1 : only_core mods w "avg" ->
    solve mods n (VList body) b w = (Ok r, w1) -> sres_len r = 0 ->
    solve mods (S n) (VList [VTuple [VStr "avg"; R; VVar y; VList body]]) b w = (Ok (SList []), w1).
  Proof.
    intros H Hb Hl.
    core (@q_avg W). unfold q_avg, item. unfold bind. cbn [c_args c_binding nth_error ret db_values map db_value].
    unfold solve in Hb. rewrite Hb, Hl. reflexivity.
  Qed.

  Lemma solve_avg n R y body b (w : W) rs w1 qs : only_core mods w "avg" ->
    (forall x, R = VVar x -> x <> y) ->
    solve mods n (VList body) b w = (Ok (SList rs), w1) -> rs <> [] ->
    Forall2 (has_number y) rs qs ->
    exists q, (q == Qsum qs / inject_Z (Z.of_nat (length rs)))%Q /\
      solve mods (S n) (VList [VTuple [VStr "avg"; R; VVar y; VList body]]) b w =
      (Ok (SList (map (with_none b y) (put_result b R (VFloat q)))), w1).
  Proof.
    intros H HR Hb Hne Hq.
    destruct (sum_loop y rs qs (VInt 0) 0%Q w1 Hq eq_refl) as (v & q & Hf & Hv & Hqq).
    exists (Qred (q / inject_Z (Z.of_nat (length rs)))). split.
    { rewrite Qred_correct, Hqq, Qplus_0_l. reflexivity. }
    core (@q_avg W). unfold q_avg, item. unfold bind. cbn [c_args c_binding nth_error ret db_values map db_value].
    unfold solve in Hb. rewrite Hb. cbn [sres_items ret sres_len].
    destruct rs as [|r0 rs0]; [congruence|]. cbn [length]. rewrite Hf.
    unfold py_div_nat. rewrite Hv. cbn [or_throw ret].
    apply finish_put_element; auto. discriminate.
  Qed.

  Lemma solve_percentage n R nom den b (w : W) rn w1 rd w2 : only_core mods w "percentage" ->
    solve mods n (VList nom) b w = (Ok rn, w1) ->
    solve mods n (VList den) b w1 = (Ok rd, w2) ->
    (sres_len rd = 0 ->
       solve mods (S n) (VList [VTuple [VStr "percentage"; R; VList nom; VList den]]) b w = (Ok (SList []), w2)) /\
    (sres_len rd <> 0 ->
       exists q, (q == inject_Z (Z.of_nat (sres_len rn)) / inject_Z (Z.of_nat (sres_len rd)) * 100)%Q /\
       solve mods (S n) (VList [VTuple [VStr "percentage"; R; VList nom; VList den]]) b w =
       (Ok (SList (put_result b R (VFloat q))), w2)).
  Proof.
    intros H Hn Hd.
    core (@q_percentage W). unfold q_percentage, item. unfold bind. cbn [c_args c_binding nth_error ret db_values map db_value].
    unfold solve in Hn, Hd. rewrite Hn, Hd.
    destruct (sres_len rd) eqn:E; (split; intros Hl; [|]); try congruence.
    - reflexivity.
    - eexists. split; [apply Qred_correct|]. apply finish_put3; auto. discriminate.
  Qed.
End Core.
