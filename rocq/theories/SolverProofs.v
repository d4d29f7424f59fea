(** * Proofs about the solver for arbitrary modules *)

From Coq Require Import ZArith String List Bool Lia Arith.
From Verif Require Import Py PyFacts ReprProofs Effects EffectsFacts Solver SolverSpec.
Import ListNotations.
Local Open Scope string_scope.
Local Open Scope list_scope.

Definition is_var (v : value) : bool := match v with VVar _ => true | _ => false end.

Lemma is_var_false v : is_var v = false <-> forall x, v <> VVar x.
Proof.
  destruct v; simpl; split; try congruence; try discriminate; auto.
  intros H. exfalso. now apply (H name).
Qed.

Section Generic.
  Context {W : Type}.
  Variable mods : list (modul W).

  (** ** match_args *)

  Lemma subscript_state v i (w : W) o w' : subscript v i w = (o, w') -> w' = w.
  Proof.
    destruct v; simpl; try (intros [= <- <-]; reflexivity).
    - destruct (String.get i s); intros [= <- <-]; reflexivity.
    - destruct (nth_error l i); intros [= <- <-]; reflexivity.
    - destruct (nth_error l i); intros [= <- <-]; reflexivity.
  Qed.

  Lemma subscript_list l i (w : W) x w' :
    subscript (VList l) i w = (Ok x, w') -> nth_error l i = Some x.
  Proof. simpl. destruct (nth_error l i); intros [= <- <-]; reflexivity. Qed.

  Lemma match_args_const v b i a rest r c (w : W) : is_var a = false ->
    match_args v b i (a :: rest) r c w =
    bind (subscript v i) (fun vi =>
      match_args v b (S i) rest r (c || (negb (is_none vi) && negb (py_eq a vi)))) w.
  Proof. destruct a; simpl; try reflexivity; discriminate. Qed.

  Lemma match_args_bound v b i x rest r c (w : W) u : bget x b = Some u ->
    match_args v b i (VVar x :: rest) r c w = match_args v b (S i) rest r c w.
  Proof. simpl. now intros ->. Qed.

  Lemma match_args_unbound v b i x rest r c (w : W) : bget x b = None ->
    match_args v b i (VVar x :: rest) r c w =
    bind (subscript v i) (fun vi =>
      match_args v b (S i) rest (bset x vi r)
        (c || match bget x r with Some old => negb (py_eq old vi) | None => false end)) w.
  Proof. simpl. now intros ->. Qed.

  Ltac arg_cases a b :=
    let Ev := fresh "Ev" in
    destruct (is_var a) eqn:Ev;
    [ destruct a as [| | | | |x| | | |]; try discriminate; clear Ev;
      let Eb := fresh "Eb" in destruct (bget x b) eqn:Eb;
      [ erewrite match_args_bound in * by eassumption
      | rewrite match_args_unbound in * by assumption ]
    | rewrite match_args_const in * by assumption ].

  Lemma match_args_extends v b args : forall i r c (w : W) r' c' w',
    match_args v b i args r c w = (Ok (r', c'), w') ->
    extends b r -> extends b r' /\ w' = w.
  Proof.
    induction args as [|a args IH]; intros i r c w r' c' w' H He.
    - simpl in H. inv_ret H. inversion H; subst. auto.
    - arg_cases a b.
      + eapply IH; eauto.
      + inv_bind H. apply subscript_state in E; subst w0.
        apply IH in H; auto. apply extends_bset; auto.
      + inv_bind H. apply subscript_state in E; subst w0. apply IH in H; auto.
  Qed.

  Lemma match_args_domain v b args : forall i r c (w : W) r' c' w',
    match_args v b i args r c w = (Ok (r', c'), w') ->
    forall k, bget k r' <> None -> bget k r <> None \/ In (VVar k) args.
  Proof.
    induction args as [|a args IH]; intros i r c w r' c' w' H k Hk.
    - simpl in H. inv_ret H. inversion H; subst. auto.
    - arg_cases a b.
      + destruct (IH _ _ _ _ _ _ _ H k Hk); simpl; auto.
      + inv_bind H. destruct (IH _ _ _ _ _ _ _ H k Hk) as [Hr|]; simpl; auto.
        rewrite bget_bset in Hr. destruct (String.eqb_spec x k); subst; auto.
      + inv_bind H. destruct (IH _ _ _ _ _ _ _ H k Hk); simpl; auto.
  Qed.

  (** ** create_results *)

  Lemma create_results_inv values b args (P : binding -> Prop) (w : W) rs w' :
    create_results values b args w = (Ok rs, w') ->
    (forall v r (w w' : W), In v values -> match_args v b 0 args b false w = (Ok (r, false), w') -> P r) ->
    Forall P rs.
  Proof.
    unfold create_results. intros H HP.
    eapply (foldM_inv (fun acc => Forall P acc)); [|exact H|constructor].
    intros acc v w0 acc' w1 Hin Hacc Hf. inv_bind Hf. destruct a as [r c].
    destruct c; inv_ret Hf; auto.
    apply Forall_app; split; auto. constructor; [|constructor]. eauto.
  Qed.

  Lemma create_results_state values b args (w : W) o w' :
    create_results values b args w = (o, w') -> w' = w.
  Proof.
    assert (P : preserves (create_results (W:=W) values b args)).
    { apply preserves_foldM. intros acc v _. apply preserves_bind.
      - generalize 0 as i, b at 2 as r, false as c.
        induction args as [|a args IH]; intros i r c.
        + apply preserves_ret.
        + intros w0. arg_cases a b.
          * apply IH.
          * apply preserves_bind; auto. intros w1.
            destruct (subscript v i w1) eqn:E. now apply subscript_state in E.
          * apply preserves_bind; auto. intros w1.
            destruct (subscript v i w1) eqn:E. now apply subscript_state in E.
      - intros [r c]. destruct c; apply preserves_ret. }
    intros H. specialize (P w). now rewrite H in P.
  Qed.

  (** ** inversion of a successful call *)

  (** a successful [solve_single] is either a disjunction or a relation *)
  Lemma solve_single_ok sv atom b (w : W) r w' :
    solve_single mods sv atom b w = (Ok r, w') ->
    exists p args, (atom = VTuple (VStr p :: args) \/ atom = VList (VStr p :: args)) /\
      ((p = DISJUNCTION /\ exists ds rest alts, args = ds :: rest /\
          (ds = VList alts \/ ds = VTuple alts) /\ solve_disjuncts sv alts b w = (Ok r, w'))
       \/ (p <> DISJUNCTION /\ solve_relation mods sv p args b w = (Ok r, w'))).
  Proof.
    unfold solve_single. intros H. inv_bind H. destruct a as [p args].
    assert (Ha : (atom = VTuple (p :: args) \/ atom = VList (p :: args)) /\ w0 = w).
    { destruct atom as [| | | | | | |[|p' l]|[|p' l]|]; simpl in E; try discriminate;
        inversion E; subst; auto. }
    clear E. destruct Ha as [Ha ->].
    destruct p as [| | | |ps| | | | |]; try discriminate.
    exists ps, args. split; [assumption|].
    destruct (String.eqb_spec ps DISJUNCTION) as [->|Hn].
    - left. split; [reflexivity|]. destruct args as [|ds rest]; [discriminate|].
      unfold solve_disjunction in H.
      destruct ds; try discriminate; eauto 8.
    - right. auto.
  Qed.

  Lemma solve_relation_ok sv p args b (w : W) l w' :
    solve_relation mods sv p args b w = (Ok (SList l), w') ->
    exists rows, find_relation_values mods sv p args b w = (Ok (QRows rows), w') /\
      create_results rows b args w' = (Ok l, w') /\
      (match rows with
       | [] => True
       | r0 :: _ => exists items, r0 = VList items /\ length items = length args
       end).
  Proof.
    unfold solve_relation. intros H. inv_bind H.
    destruct a as [rows| |]; try discriminate.
    apply bind_ok in H as (u & w1 & H1 & H).
    assert (w1 = w0 /\ match rows with
       | [] => True
       | r0 :: _ => exists items, r0 = VList items /\ length items = length args
       end) as [-> Hr].
    { unfold check_first_row in H1. destruct rows as [|[| | | | | | | |items|] rest];
        try discriminate; [inversion H1; auto|].
      destruct (Nat.eqb_spec (length items) (length args)); [|discriminate].
      inversion H1; subst; eauto. }
    apply bind_ok in H as (rs & w2 & H2 & H). pose proof (create_results_state _ _ _ _ _ _ H2).
    subst w2. apply ret_ok in H as [E' ->]. injection E' as ->. exists rows. auto.
  Qed.

  (** ** A property of every binding in every result

      [P b r] is any reflexive-transitive relation between input and output
      bindings that row matching respects. *)

  Lemma fold_add_binding_In rs : forall acc r,
    In r (fold_left add_binding rs acc) -> In r acc \/ In r rs.
  Proof.
    induction rs as [|x rs IH]; simpl; intros acc r H; auto.
    apply IH in H as [H|H]; auto. unfold add_binding in H.
    destruct (dict_in x acc); auto. apply in_app_or in H as [H|[H|[]]]; auto.
  Qed.

  Section BindingRelation.
    Variable sv : solver_if W.
    (** what is known about results of nested calls *)
    Variable good : value -> binding -> binding -> Prop.
    Hypothesis sv_good : forall atoms b w l w',
      sv_solve sv atoms b w = (Ok (SList l), w') -> forall r, In r l -> good atoms b r.

    Lemma disjuncts_good alts b : forall w l w',
      solve_disjuncts sv alts b w = (Ok (SList l), w') ->
      forall r, In r l -> exists d, In d alts /\ good d b r.
    Proof.
      induction alts as [|d alts IH]; simpl; intros w l w' H r Hr.
      - apply ret_ok in H as [E _]. injection E as <-. destruct Hr.
      - inv_bind H. destruct (sres_len a) eqn:El.
        + destruct (IH _ _ _ H r Hr) as (d' & Hd & Hg). eauto.
        + inv_ret H. exists d. split; auto. eapply sv_good; eauto.
    Qed.
  End BindingRelation.

  (** *** C01 *)

  Lemma single_extends sv : 
    (forall atoms b w l w', sv_solve sv atoms b w = (Ok (SList l), w') ->
       forall r, In r l -> extends b r) ->
    forall atom b w l w', solve_single mods sv atom b w = (Ok (SList l), w') ->
      forall r, In r l -> extends b r.
  Proof.
    intros Hsv atom b w l w' H r Hr.
    apply solve_single_ok in H as (p & args & _ & [(_ & ds & rest & alts & _ & _ & H)|(_ & H)]).
    - destruct (disjuncts_good sv (fun _ b r => extends b r) Hsv _ _ _ _ _ H r Hr) as (d & _ & Hd).
      exact Hd.
    - apply solve_relation_ok in H as (rows & _ & H & _).
      eapply create_results_inv with (P := fun r => extends b r) in H.
      + rewrite Forall_forall in H. auto.
      + intros v r0 w1 w2 _ Hm. apply match_args_extends in Hm as [Hm _]; auto using extends_refl.
  Qed.

  (** the successful runs of a conjunction of two or more atoms *)
  Definition conj_step (sv : solver_if W) (rest : list value) (acc : list binding) (b' : binding)
      : M W (list binding) :=
    bind (solve_atoms mods sv rest b') (fun rr =>
      bind (sres_items rr) (fun rs => ret (fold_left add_binding rs acc))).

  Lemma sres_items_ok r (w : W) l w' : sres_items r w = (Ok l, w') ->
    w' = w /\ (r = SList l \/ (l = [] /\ exists s, r = SIter s 0)).
  Proof.
    destruct r as [l'|s [|k]]; simpl; intros H; try discriminate; inv_ret H; eauto.
  Qed.

  Lemma solve_atoms_cons sv a a2 rest b :
    solve_atoms mods sv (a :: a2 :: rest) b =
    bind (solve_single mods sv a b) (fun r =>
      bind (sres_items r) (fun bs =>
        bind (foldM (conj_step sv (a2 :: rest)) [] bs) (fun result => ret (SList result)))).
  Proof. reflexivity. Qed.

  Lemma solve_atoms_cons_ok sv a a2 rest b w r w' :
    solve_atoms mods sv (a :: a2 :: rest) b w = (Ok r, w') ->
    exists r1 bs w1 result,
      solve_single mods sv a b w = (Ok r1, w1) /\
      sres_items r1 w1 = (Ok bs, w1) /\
      foldM (conj_step sv (a2 :: rest)) [] bs w1 = (Ok result, w') /\
      r = SList result.
  Proof.
    rewrite solve_atoms_cons. intros H. inv_bind H. inv_bind H. inv_bind H. inv_ret H.
    pose proof (sres_items_ok _ _ _ _ E0) as [-> _]. eauto 10.
  Qed.

  Lemma conj_step_ok sv rest acc b' w acc' w' :
    conj_step sv rest acc b' w = (Ok acc', w') ->
    exists rr rs, solve_atoms mods sv rest b' w = (Ok rr, w') /\
      sres_items rr w' = (Ok rs, w') /\ acc' = fold_left add_binding rs acc.
  Proof.
    unfold conj_step. intros H. inv_bind H. inv_bind H. inv_ret H.
    pose proof (sres_items_ok _ _ _ _ E0) as [-> _]. eauto.
  Qed.

  Lemma atoms_extends sv :
    (forall atoms b w l w', sv_solve sv atoms b w = (Ok (SList l), w') ->
       forall r, In r l -> extends b r) ->
    forall atoms b w l w', solve_atoms mods sv atoms b w = (Ok (SList l), w') ->
      forall r, In r l -> extends b r.
  Proof.
    intros Hsv. induction atoms as [|a rest IH]; intros b w l w' H r Hr.
    - simpl in H. apply ret_ok in H as [E _]. injection E as <-.
      destruct Hr as [<-|[]]. apply extends_refl.
    - destruct rest as [|a2 rest].
      + eapply single_extends; eauto.
      + apply solve_atoms_cons_ok in H as (r1 & bs & w1 & result & H1 & H2 & H3 & [= ->]).
        revert r Hr.
        eapply (foldM_inv (fun acc => forall r, In r acc -> extends b r)); [|exact H3|intros ? []].
        intros acc b' w4 acc' w5 Hb' Hacc Hf r Hr.
        apply conj_step_ok in Hf as (rr & rs & F1 & F2 & ->).
        apply fold_add_binding_In in Hr as [Hr|Hr]; auto.
        apply sres_items_ok in H2 as [_ [->|[-> _]]]; [|destruct Hb'].
        apply sres_items_ok in F2 as [_ [->|[-> _]]]; [|destruct Hr].
        eapply extends_trans; [eapply single_extends; eauto|eapply IH; eauto].
  Qed.

  Theorem solve_extends n : forall atoms b w l w',
    solve mods n atoms b w = (Ok (SList l), w') -> forall r, In r l -> extends b r.
  Proof.
    induction n as [|n IH]; intros atoms b w l w' H r Hr.
    - discriminate.
    - unfold solve in *. simpl in H. destruct atoms; try discriminate. simpl in H.
      eapply atoms_extends; eauto.
  Qed.
End Generic.
