(** * Datalog: the property theorems *)

From Coq Require Import ZArith String List Bool Lia Arith Permutation.
From Verif Require Import Py PyFacts ReprProofs Effects EffectsFacts Solver SolverSpec
  SolverProofs SolverProofs2 MatchProofs Atoms AtomsFacts CoreModule InferenceModule
  TableModule DatalogSpec DatalogProofs DatalogProofs2.
Import ListNotations.
Local Open Scope string_scope.
Local Open Scope list_scope.

Section Thms.
  Context {W : Type}.
  Variable L : lens W rulebase.
  Variable tables : W -> string -> option (list (list value)).
  Variable arity : string -> nat.
  Variable rules : list frule.
  Variable w : W.
  Hypothesis Htab : good_tables tables arity w.
  Hypothesis Hrules : lget L w = rulebase_of rules.
  Hypothesis Hflat : forall r, In r rules -> flat_rule arity r.

  Notation mods := (dl_mods L tables).
  Notation db := (db_of tables w).
  Notation query q := (VList (map atom_value q)).

  Lemma good_result_answer q b r : good_result tables rules w q b r ->
    const_assignment (asg r) /\ agrees (asg r) b /\ answer_of (asg r) b q r /\
    satisfies db rules (asg r) q.
  Proof.
    intros [A1 A2 A3 A4 A5]. split; [now apply asg_const|]. split; [|split; auto].
    - intros x v Hx. unfold asg. now rewrite (A2 _ _ Hx).
    - intros x. split.
      + intros Hx. unfold asg. destruct (bget x r) eqn:E; auto.
        destruct Hx as [Hx|Hx]; [|now apply A3 in Hx].
        destruct (bget x b) eqn:Eb; [|congruence]. rewrite (A2 _ _ Eb) in E. discriminate.
      + intros Hb Hn. destruct (bget x r) eqn:E; auto.
        destruct (A4 x) as [?|?]; try congruence; contradiction.
  Qed.

  Theorem datalog_sound n q b res w' :
    flat_atoms arity q -> const_binding b ->
    solve mods n (query q) b w = (Ok res, w') ->
    w' = w /\ exists l, res = SList l /\ no_duplicates l /\
      forall r, In r l -> exists s,
        const_assignment s /\ agrees s b /\ answer_of s b q r /\ satisfies db rules s q.
  Proof.
    intros Hf Hb H. pose proof H as H0.
    apply (solver_sound L tables arity rules w Htab Hrules Hflat) in H0 as (-> & l & -> & A); auto.
    split; auto. exists l. split; auto. split.
    - destruct q as [|a1 [|a2 q]].
      + destruct n; [discriminate|]. simpl in H. unfold solve in H. simpl in H. inv_ret H.
        injection H as <-. intros [|[|i]] [|[|j]] a b0 Hn Hi Hj; simpl in *; try congruence;
          try (destruct i; discriminate); destruct j; discriminate.
      + destruct n; [discriminate|]. unfold solve in H. simpl in H.
        eapply single_results in H as (_ & l' & [= <-] & _ & _ & Hd); eauto.
        * apply (solver_sound L tables arity rules w Htab Hrules Hflat).
        * apply Hf. now left.
      + eapply solve_no_duplicates. exact H.
    - intros r Hr. exists (asg r). apply good_result_answer. auto.
  Qed.

  Theorem datalog_complete n q b l w' :
    (forall r, In r rules -> range_restricted r) ->
    flat_atoms arity q -> const_binding b ->
    solve mods n (query q) b w = (Ok (SList l), w') ->
    forall s, const_assignment s -> agrees s b -> satisfies db rules s q ->
      exists r, In r l /\ answer_of s b q r.
  Proof.
    intros Hrr Hf Hb H s Hs Ha Hsat.
    pose proof H as H1.
    apply (solver_sound L tables arity rules w Htab Hrules Hflat) in H1 as (-> & l' & [= <-] & A); auto.
    apply (solver_complete L tables arity rules w Htab Hrules Hflat n Hrr) in H; auto.
    destruct (H s Hs Ha Hsat) as (r & Hr & Hv). exists r. split; auto.
    intros x. split; auto. intros Hbx Hn. destruct (bget x r) eqn:E; auto.
    destruct (gr_dom _ _ _ _ _ _ (A r Hr) x); try congruence; contradiction.
  Qed.

  (** predicates on which the rules of a predicate depend have a lower rank *)
  Definition hierarchical (rank : string -> nat) : Prop :=
    forall r, In r rules -> forall a, In a (fr_body r) ->
      rank (fa_pred a) < rank (fa_pred (fr_head r)) /\ known tables rules w (fa_pred a).

  Theorem datalog_terminates rank n q b :
    hierarchical rank -> flat_atoms arity q -> const_binding b ->
    (forall a, In a q -> rank (fa_pred a) <= n /\ known tables rules w (fa_pred a)) ->
    exists l, solve mods (S n) (query q) b w = (Ok (SList l), w).
  Proof.
    intros Hh Hf Hb Hk.
    apply (atoms_total L tables arity rules w Htab Hrules Hflat rank Hh n); auto.
    - apply (solver_sound L tables arity rules w Htab Hrules Hflat).
    - apply (solver_total L tables arity rules w Htab Hrules Hflat rank Hh).
  Qed.

  (** ** a left-recursive rule never answers *)

  Definition all_unbound (b : binding) (args : list value) : Prop :=
    forall v, In v args -> exists x, v = VVar x /\ bget x b = None.

  Lemma bind_head_unbound b hargs : forall args rb, all_unbound b args ->
    bind_head b hargs args rb = Some rb.
  Proof.
    induction hargs as [|h hargs IH]; intros [|v args] rb Hu; auto.
    destruct (Hu v (or_introl eq_refl)) as (x & -> & Hx).
    assert (E : bind_head b hargs args rb = Some rb) by (apply IH; intros u Hin; apply Hu; now right).
    cbn [bind_head]. unfold bound_value. rewrite Hx. destruct h; exact E.
  Qed.

  Lemma single_runs_rule sv fr args b res w' :
    sv_sound tables arity rules w sv -> In fr rules -> const_binding b ->
    (forall v, In v args -> flat_arg v) -> length args = arity (fa_pred (fr_head fr)) ->
    solve_single mods sv (atom_value (mkAtom (fa_pred (fr_head fr)) args)) b w = (Ok res, w') ->
    exists x w3, solve_rule sv (to_rule fr) args b w = (Ok x, w3).
  Proof.
    intros Hsv Hin Hb Ha Hlen H.
    pose proof (Hflat fr Hin) as Hf. destruct (proj1 Hf) as (Hup & Hl & Hfa).
    set (p := fa_pred (fr_head fr)) in *.
    unfold solve_single in H. unfold bind at 1 in H. simpl in H.
    destruct (String.eqb_spec p DISJUNCTION) as [E|_]; [now destruct Hup as (_ & ? & _)|].
    unfold solve_relation in H. apply bind_ok in H as (qr & w0 & Hq & _).
    unfold find_relation_values, bind at 1, get in Hq.
    rewrite (find_user L tables rules w Hrules p Hup) in Hq.
    destruct (rulebase_has rules fr Hin) as [rs Hrs]. fold p in Hrs. rewrite Hrs in Hq.
    simpl app in Hq. cbn [collect_rows] in Hq. apply bind_ok in Hq as (out & w1 & Hq & _).
    simpl r_query in Hq. unfold handle_rule, bind at 1, get in Hq. simpl in Hq.
    rewrite Hrules, Hrs in Hq. apply bind_ok in Hq as (rows & w2 & Hq & _).
    pose proof (rulebase_get rules p rs Hrs) as Hrl.
    assert (Hi : In (to_rule fr) rs) by (apply Hrl; eauto).
    assert (Hall : forall r, In r rs -> exists fr, In fr rules /\ fa_pred (fr_head fr) = p /\ r = to_rule fr)
      by (intros r Hr; now apply Hrl).
    clear Hrs Hrl. revert Hq. generalize (@nil (list value)).
    induction rs as [|r rs IH]; intros acc Hq; [destruct Hi|].
    cbn [foldM] in Hq. apply bind_ok in Hq as (acc' & w3 & Hq & Hrest).
    apply bind_ok in Hq as (x & w4 & Hq & Hret). inv_ret Hret.
    destruct Hi as [->|Hi]; [eauto|].
    destruct (Hall r (or_introl eq_refl)) as (fr' & Hfr' & Hp' & ->).
    apply (solve_rule_sound tables arity rules w Hflat) in Hq as [-> _]; auto; [|now rewrite Hp'].
    eapply IH; eauto. intros; apply Hall; now right.
  Qed.

  Theorem left_recursion_diverges fr a1 rest :
    In fr rules -> fr_body fr = a1 :: rest -> fa_pred a1 = fa_pred (fr_head fr) ->
    (forall v, In v (fa_args a1) -> exists x, v = VVar x) ->
    forall n args b res w', length args = arity (fa_pred (fr_head fr)) ->
      const_binding b -> all_unbound b args ->
      solve mods n (query [mkAtom (fa_pred (fr_head fr)) args]) b w <> (Ok res, w').
  Proof.
    intros Hin Hbody Hp Hv.
    pose proof (Hflat fr Hin) as Hf. destruct (proj1 Hf) as (Hup & Hl & Hfa).
    assert (Hf1 : flat_atom arity a1) by (apply Hf; rewrite Hbody; now left).
    assert (G : forall n args b res w', length args = arity (fa_pred (fr_head fr)) ->
      const_binding b -> all_unbound b args ->
      solve_single mods (solver_at mods n) (atom_value (mkAtom (fa_pred (fr_head fr)) args)) b w <> (Ok res, w')).
    { induction n as [|n IH]; intros args b res w' Hlen Hb Hu H.
      all: apply single_runs_rule in H as (x & w3 & H); auto;
        [|apply (solver_sound L tables arity rules w Htab Hrules Hflat)
         |intros v Hin'; destruct (Hu v Hin') as (y & -> & _); left; eauto].
      all: rewrite (solve_rule_unfold arity) in H by assumption; rewrite bind_head_unbound in H by assumption;
        rewrite Hbody in H; apply bind_ok in H as (sols & w4 & H & _); apply bind_ok in H as (rr & w5 & H & _).
      - discriminate.
      - simpl in H.
        assert (Hs : exists res1 w6, solve_single mods (solver_at mods n) (atom_value a1) (outer fr b) w = (Ok res1, w6)).
        { destruct rest as [|a2 rest]; simpl in H; [eauto|].
          apply bind_ok in H as (r1 & w6 & H & _). eauto. }
        destruct Hs as (res1 & w6 & Hs).
        destruct a1 as [p1 args1]. simpl in *. subst p1.
        eapply IH; [| | |exact Hs].
        + apply Hf1.
        + now apply (outer_plain arity).
        + intros v Hv'. destruct (Hv v Hv') as [y ->]. exists y. split; auto.
          destruct (outer_get arity fr b y Hf) as [[_ E]|[Hn _]]; auto.
          exfalso. apply Hn. right. rewrite Hbody. eexists. split; [now left|]. exact Hv'. }
    intros n args b res w' Hlen Hb Hu H. destruct n; [discriminate|].
    unfold solve in H. simpl in H. eapply G; eauto.
  Qed.

  (** ** rules whose head variable does not occur in the body *)

  (** [x] stands in the head of the rule only at positions at which the
      query has an unbound variable, and not in the body *)
  Definition stays_unbound (fr : frule) (args : list value) (b : binding) (x : string) : Prop :=
    fvar x (fr_head fr) /\ ~ fvars x (fr_body fr) /\
    forall i, nth_error (fa_args (fr_head fr)) i = Some (VVar x) ->
      exists y, nth_error args i = Some (VVar y) /\ bget y b = None.

  Lemma bind_head_keeps b x hargs : forall args rb rb',
    (forall i, nth_error hargs i = Some (VVar x) -> exists y, nth_error args i = Some (VVar y) /\ bget y b = None) ->
    bget x rb = None -> bind_head b hargs args rb = Some rb' -> bget x rb' = None.
  Proof.
    induction hargs as [|h hargs IH]; intros args rb rb' Hi Hx H.
    - simpl in H. congruence.
    - destruct args as [|v args]; [simpl in H; congruence|].
      assert (Hi' : forall i, nth_error hargs i = Some (VVar x) ->
                exists y, nth_error args i = Some (VVar y) /\ bget y b = None)
        by (intros i; apply (Hi (S i))).
      cbn [bind_head] in H.
      destruct h; try (destruct (bound_value b v); try (eapply IH; eauto; fail);
                       destruct (py_eq _ _); try discriminate; eapply IH; eauto).
      destruct (String.eqb_spec name x) as [->|Hn].
      + destruct (Hi 0 eq_refl) as (y & E & Hy). simpl in E. injection E as ->.
        simpl in H. rewrite Hy in H. eapply IH; eauto.
      + assert (Hb : forall u, bget x (bset name u rb) = None) by (intros u; rewrite bget_bset_other; auto).
        destruct (bound_value b v); try (eapply IH; eauto; fail);
          (destruct (bget name rb); [destruct (py_eq _ _); [|discriminate]|]; (eapply IH; [exact Hi'| |exact H]; auto)).
  Qed.

  Lemma head_row_unbound sol x hargs : bget x sol = None -> forall args i,
    nth_error hargs i = Some (VVar x) -> (exists y, nth_error args i = Some (VVar y)) ->
    head_row sol hargs args = None.
  Proof.
    intros Hx. induction hargs as [|h hargs IH]; intros args i Hi (y & Hy); [destruct i; discriminate|].
    destruct args as [|v args]; [destruct i; discriminate|].
    destruct i as [|i]; simpl in Hi, Hy.
    - injection Hi as ->. injection Hy as ->. simpl. now rewrite Hx.
    - simpl. rewrite (IH args i); eauto. destruct (match v with VVar _ => _ | _ => _ end); auto.
  Qed.

  Lemma unbound_head_no_rows sv fr args b rs w' x :
    sv_sound tables arity rules w sv -> In fr rules -> const_binding b ->
    (forall v, In v args -> flat_arg v) -> length args = arity (fa_pred (fr_head fr)) ->
    stays_unbound fr args b x ->
    solve_rule sv (to_rule fr) args b w = (Ok rs, w') -> rs = [].
  Proof.
    intros Hsv Hin Hb Ha Hlen (Hx1 & Hx2 & Hx3) H. pose proof (Hflat fr Hin) as Hf.
    rewrite (solve_rule_unfold arity) in H by assumption.
    destruct (bind_head b (fa_args (fr_head fr)) args (outer fr b)) as [rb|] eqn:Eh; [|congruence].
    destruct (proj1 Hf) as (Hup & Hl & Hfa).
    destruct (bind_head_sound b Hb (fa_args (fr_head fr)) args (outer fr b) rb) as (Hrb & _); auto.
    { congruence. }
    { now apply (outer_plain arity). }
    assert (Hnone : bget x rb = None).
    { eapply bind_head_keeps; [exact Hx3| |exact Eh].
      destruct (outer_get arity fr b x Hf) as [[_ E]|[Hn _]]; auto. exfalso. apply Hn. now left. }
    fold (body_solutions sv fr rb) in H. inv_bind H.
    apply (body_solutions_sound tables arity rules w) in E as [-> Hs]; auto.
    destruct a as [|s a]; [simpl in H; inv_ret H; reflexivity|].
    assert (Hsx : bget x s = None).
    { destruct (bget x s) eqn:Es; auto.
      destruct (gr_dom _ _ _ _ _ _ (Hs s (or_introl eq_refl)) x) as [?|?]; try congruence; contradiction. }
    apply In_nth_error in Hx1 as [i Hi]. destruct (Hx3 i Hi) as (y & Hy & _).
    simpl in H. rewrite (head_row_unbound s x _ Hsx _ i Hi) in H by eauto. inv_ret H. reflexivity.
  Qed.

  (** when it is the only rule for a predicate without a table, the
      predicate has no solutions *)
  Theorem unbound_head_no_solution fr args b n res w' x :
    rules = [fr] -> db (fa_pred (fr_head fr)) = [] -> const_binding b ->
    (forall v, In v args -> flat_arg v) -> length args = arity (fa_pred (fr_head fr)) ->
    stays_unbound fr args b x ->
    solve mods n (query [mkAtom (fa_pred (fr_head fr)) args]) b w = (Ok res, w') ->
    res = SList [].
  Proof.
    intros Hr Hdb Hb Ha Hlen Hx H. destruct n as [|n]; [discriminate|].
    assert (Hin : In fr rules) by (rewrite Hr; now left).
    pose proof (Hflat fr Hin) as Hf. destruct (proj1 Hf) as (Hup & Hl & Hfa).
    unfold solve in H. simpl in H.
    unfold solve_single in H. unfold bind at 1 in H. simpl in H.
    destruct (String.eqb_spec (fa_pred (fr_head fr)) DISJUNCTION) as [E|_]; [now destruct Hup as (_ & ? & _)|].
    unfold solve_relation in H. apply bind_ok in H as (qr & w0 & Hq & H).
    unfold find_relation_values, bind at 1, get in Hq.
    rewrite (find_user L tables rules w Hrules _ Hup) in Hq.
    assert (Hg : rules_get (fa_pred (fr_head fr)) (rulebase_of rules) = Some [to_rule fr]).
    { rewrite Hr. unfold rulebase_of. simpl. now rewrite String.eqb_refl. }
    clear Hr.
    rewrite Hg in Hq.
    simpl app in Hq. cbn [collect_rows] in Hq. apply bind_ok in Hq as (out & w1 & Hq & Hq2).
    simpl r_query in Hq. unfold handle_rule, bind at 1, get in Hq. simpl in Hq.
    rewrite Hrules, Hg in Hq. apply bind_ok in Hq as (rows & w2 & Hq & Hq3).
    cbn [foldM] in Hq. inv_bind Hq. inv_bind E. inv_ret E. inv_ret Hq. inv_ret Hq3.
    pose proof E0 as E1. apply (solve_rule_sound tables arity rules w Hflat) in E1 as [-> _]; auto;
      [|apply (solver_sound L tables arity rules w Htab Hrules Hflat)].
    eapply unbound_head_no_rows in E0; eauto; [|apply (solver_sound L tables arity rules w Htab Hrules Hflat)].
    subst. simpl in Hq2.
    assert (qr = QRows [] /\ w0 = w) as [-> ->].
    { unfold db_of in Hdb. destruct (tables w (fa_pred (fr_head fr))) as [t|] eqn:Et.
      - subst t. cbn [collect_rows] in Hq2. apply bind_ok in Hq2 as (o & w1 & Hq & Hq2). simpl in Hq.
        unfold table_query, bind, get in Hq. rewrite Et in Hq. simpl in Hq. inv_ret Hq.
        simpl in Hq2. inv_ret Hq2. auto.
      - simpl in Hq2. inv_ret Hq2. auto. }
    simpl in H. unfold bind, ret in H. simpl in H. congruence.
  Qed.
End Thms.

(** one solution in which a head variable has no value discards the rows of
    all solutions of the rule *)
Theorem one_unbound_drops_all {W} (sv : solver_if W) head body args b rb (w : W) sols w' s :
  bind_head b head args
    (match rule_variables (mkRule (VNone :: head) (VList body)) with
     | Some vs => filter (fun kv => negb (existsb (String.eqb (fst kv)) vs)) b
     | None => [] end) = Some rb ->
  body <> [] ->
  sv_solve sv (VList body) rb w = (Ok (SList sols), w') ->
  In s sols -> head_row s head args = None ->
  solve_rule sv (mkRule (VNone :: head) (VList body)) args b w = (Ok [], w').
Proof.
  intros Hb Hne Hs Hin Hn. unfold solve_rule.
  assert (Hf : bind_head b head args (filter (fun kv => negb (existsb (String.eqb (fst kv))
     (match b with [] => [] | _ => atoms_variables (VNone :: head) ++ atoms_variables body end))) b) = Some rb).
  { simpl in Hb. destruct b; exact Hb. }
  cbn [ru_head ru_body tl elements].
  assert (Hv : (match b with [] => ret [] | _ :: _ => or_throw TypeErr (rule_variables (mkRule (VNone :: head) (VList body))) end) w
     = (Ok (match b with [] => [] | _ => atoms_variables (VNone :: head) ++ atoms_variables body end), w)).
  { destruct b; reflexivity. }
  erewrite bind_ok_intro by exact Hv. rewrite Hf.
  unfold or_throw. erewrite bind_ok_intro by reflexivity.
  destruct body as [|a body]; [congruence|].
  erewrite bind_ok_intro.
  2:{ erewrite bind_ok_intro by exact Hs. reflexivity. }
  assert (Hd : head_rows sols head args = None).
  { clear -Hin Hn. induction sols as [|x sols IH]; [destruct Hin|]. simpl.
    destruct Hin as [->|Hin]; [now rewrite Hn|]. rewrite (IH Hin). destruct (head_row x head args); auto. }
  rewrite Hd. reflexivity.
Qed.

(** ** one solution that leaves a variable of the head unbound *)

Lemma head_rows_unbound hargs args s x i : forall sols,
  In s sols -> nth_error hargs i = Some (VVar x) -> bget x s = None -> (exists y, nth_error args i = Some (VVar y)) ->
  head_rows sols hargs args = None.
Proof.
  induction sols as [|s0 sols IH]; intros Hin Hh Hx Hy; [destruct Hin|]. cbn [head_rows]. destruct Hin as [-> | Hin].
  - erewrite head_row_unbound; eauto.
  - rewrite IH by assumption. now destruct (head_row s0 hargs args).
Qed.

Lemma bind_head_open hargs : forall args, (forall v, In v args -> exists y, v = VVar y) -> bind_head [] hargs args [] = Some [].
Proof.
  induction hargs as [|h hargs IH]; intros args Ha; [reflexivity|]. destruct args as [|v args]; [reflexivity|].
  destruct (Ha v (or_introl eq_refl)) as (y & ->). assert (Ha' : forall v, In v args -> exists y, v = VVar y) by (intros v Hv; apply Ha; now right).
  cbn. destruct h; apply IH; exact Ha'.
Qed.

Lemma find_one {W} (m : modul W) rel w p before after :
  (forall m, In m (before ++ after) -> m w p = None) -> m w p = Some rel ->
  find_relations (before ++ m :: after) w p = [rel].
Proof.
  intros H Hm. unfold find_relations.
  assert (N : forall l : list (modul W), (forall m, In m l -> m w p = None) -> find_relations_in l w p = []).
  { induction l as [|m' l IH]; intros Hl; [reflexivity|]. cbn. rewrite (Hl m' (or_introl eq_refl)). apply IH. intros; apply Hl; now right. }
  induction before as [|m' before IH]; cbn.
  - rewrite Hm, N; auto.
  - rewrite (H m' (or_introl eq_refl)). apply IH. intros; apply H; now right.
Qed.

Lemma unbound_solution_drops_all {W} (L : lens W rulebase) mods (w : W) n p hargs a body args sols w1 s x i :
  find_relations mods w p = [mkRel p [] (handle_rule L) None] -> p <> "$disjunction" ->
  rules_get p (lget L w) = Some [mkRule (VStr p :: hargs) (VList (a :: body))] ->
  (forall v, In v args -> exists y, v = VVar y) -> i < length args ->
  solve mods n (VList (a :: body)) [] w = (Ok (SList sols), w1) ->
  In s sols -> nth_error hargs i = Some (VVar x) -> bget x s = None ->
  solve mods (S n) (VList [VTuple (VStr p :: args)]) [] w = (Ok (SList []), w1).
Proof.
  intros Hf Hp Hg Ha Hi Hs Hin Hx Hb. unfold solve in *. cbn [solver_at sv_solve solve_F solve_atoms].
  unfold solve_single. cbn [atom_parts]. erewrite bind_ok_intro by reflexivity. cbv beta iota.
  destruct (String.eqb_spec p DISJUNCTION) as [E|_]; [now destruct (Hp E)|].
  assert (Hr : solve_rule (solver_at mods n) (mkRule (VStr p :: hargs) (VList (a :: body))) args [] w = (Ok [], w1)).
  { unfold solve_rule. erewrite bind_ok_intro by reflexivity. cbn [ru_head ru_body tl filter].
    rewrite bind_head_open by exact Ha. erewrite bind_ok_intro by reflexivity. cbn [elements].
    assert (Hb' : (bind (sv_solve (solver_at mods n) (VList (a :: body)) []) sres_items) w = (Ok sols, w1))
      by (erewrite bind_ok_intro by exact Hs; reflexivity).
    erewrite bind_ok_intro by exact Hb'.
    erewrite head_rows_unbound; [reflexivity|eassumption..|].
    destruct (nth_error args i) eqn:E; [|apply nth_error_None in E; lia].
    destruct (Ha _ (nth_error_In _ _ E)) as (y & ->). eauto. }
  assert (Hh : handle_rule L (solver_at mods n) (db_values [] args) (mkCtx p [] args []) w = (Ok (QRows []), w1)).
  { unfold handle_rule. erewrite bind_ok_intro by reflexivity. cbn [c_pred c_args c_binding]. rewrite Hg. cbn [foldM].
    unfold bind. rewrite Hr. reflexivity. }
  unfold solve_relation.
  assert (Hv : find_relation_values mods (solver_at mods n) p args [] w = (Ok (QRows []), w1)).
  { unfold find_relation_values. erewrite bind_ok_intro by reflexivity. rewrite Hf. cbn [collect_rows length r_query r_pred r_cols].
    erewrite bind_ok_intro by exact Hh. reflexivity. }
  erewrite bind_ok_intro by exact Hv. reflexivity.
Qed.
