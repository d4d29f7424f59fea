(** * First-order queries: the solver finds exactly the answers *)

From Coq Require Import ZArith String List Bool Lia Arith.
From Verif Require Import Py PyFacts ReprProofs Effects EffectsFacts Solver SolverSpec
  SolverProofs SolverProofs2 MatchProofs Atoms AtomsFacts CoreModule CoreSpec CoreProofs CoreProofs2 CoreProofs3
  InferenceModule TableModule DatalogSpec DatalogProofs DatalogProofs2 FolSpec FolProofs FolProofs2 PropCore.
Import ListNotations.
Local Open Scope nat_scope.
Local Open Scope string_scope.
Local Open Scope list_scope.

(** the rule as the inference module stores it *)
Definition stored_rule (r : folrule) : rule :=
  mkRule (VStr (fa_pred (rl_head r)) :: fa_args (rl_head r)) (VList (map fol_value (rl_body r))).

(** the rule base after inserting the rules one by one *)
Definition stored_rules (rules : list folrule) : rulebase :=
  fold_left (fun rb r => rules_add (fa_pred (rl_head r)) (stored_rule r) rb) rules [].

Lemma stored_rules_gen rules : forall rb p,
  match rules_get p (fold_left (fun rb r => rules_add (fa_pred (rl_head r)) (stored_rule r) rb) rules rb) with
  | Some rs => rs = (match rules_get p rb with Some l => l | None => [] end)
                    ++ map stored_rule (filter (fun r => String.eqb p (fa_pred (rl_head r))) rules)
  | None => rules_get p rb = None /\ filter (fun r => String.eqb p (fa_pred (rl_head r))) rules = []
  end.
Proof.
  induction rules as [|r rules IH]; intros rb p; cbn [fold_left filter].
  - simpl. destruct (rules_get p rb); auto. now rewrite app_nil_r.
  - specialize (IH (rules_add (fa_pred (rl_head r)) (stored_rule r) rb) p).
    destruct (rules_get p (fold_left _ rules _)) as [rs|].
    + rewrite IH, rules_add_get. destruct (String.eqb_spec p (fa_pred (rl_head r))) as [->|]; auto.
      simpl. destruct (rules_get _ rb); simpl; auto. now rewrite <- app_assoc.
    + destruct IH as [IH1 IH2]. rewrite rules_add_get in IH1.
      destruct (String.eqb_spec p (fa_pred (rl_head r))); [discriminate|]. auto.
Qed.

Lemma stored_rules_get rules p rs : rules_get p (stored_rules rules) = Some rs ->
  forall r, In r rs <-> exists fr, In fr rules /\ fa_pred (rl_head fr) = p /\ r = stored_rule fr.
Proof.
  intros H r. pose proof (stored_rules_gen rules [] p) as G. unfold stored_rules in H.
  rewrite H in G. simpl in G. subst rs. rewrite in_map_iff. split.
  - intros (fr & <- & Hf). apply filter_In in Hf as [Hf Hp]. apply String.eqb_eq in Hp. eauto.
  - intros (fr & Hf & Hp & ->). exists fr. split; auto. apply filter_In. split; auto.
    apply String.eqb_eq. auto.
Qed.

Lemma stored_rules_has rules fr : In fr rules ->
  exists rs, rules_get (fa_pred (rl_head fr)) (stored_rules rules) = Some rs.
Proof.
  intros H. pose proof (stored_rules_gen rules [] (fa_pred (rl_head fr))) as G.
  unfold stored_rules. destruct (rules_get _ _); eauto. destruct G as [_ G].
  exfalso. assert (F : In fr (filter (fun r => String.eqb (fa_pred (rl_head fr)) (fa_pred (rl_head r))) rules))
    by (apply filter_In; split; auto; apply String.eqb_refl).
  now rewrite G in F.
Qed.

Lemma stored_rules_none rules p : (forall fr, In fr rules -> fa_pred (rl_head fr) <> p) ->
  rules_get p (stored_rules rules) = None.
Proof.
  intros H. unfold stored_rules.
  assert (G : forall rb, rules_get p rb = None ->
    rules_get p (fold_left (fun rb r => rules_add (fa_pred (rl_head r)) (stored_rule r) rb) rules rb) = None).
  { induction rules as [|r rules IH]; intros rb Hrb; simpl; auto. apply IH.
    - intros fr Hfr. apply H. now right.
    - rewrite rules_add_get. destruct (String.eqb_spec p (fa_pred (rl_head r))) as [->|]; auto.
      exfalso. apply (H r); [now left|reflexivity]. }
  now apply G.
Qed.

(** only head variables get a value *)
Lemma bind_head_keys b hargs : forall args rb rb' x, bind_head b hargs args rb = Some rb' ->
  bget x rb' <> None -> bget x rb <> None \/ In (VVar x) hargs.
Proof.
  induction hargs as [|ra hargs IH]; intros args rb rb' x H Hx.
  - destruct args; simpl in H; injection H as <-; auto.
  - destruct args as [|v args]; [simpl in H; injection H as <-; auto|].
    simpl in H.
    assert (Hset : forall y u, ra = VVar y -> bind_head b hargs args (bset y u rb) = Some rb' ->
      bget x rb <> None \/ In (VVar x) (ra :: hargs)).
    { intros y u -> H'. apply IH with (x := x) in H' as [H'|H']; auto; [|right; now right].
      rewrite bget_bset in H'. destruct (String.eqb_spec y x) as [->|]; auto. right. now left. }
    assert (Hkeep : bind_head b hargs args rb = Some rb' ->
      bget x rb <> None \/ In (VVar x) (ra :: hargs)).
    { intros H'. apply IH with (x := x) in H' as [|]; auto. right. now right. }
    destruct ra; destruct (bound_value b v);
      repeat match type of H with
      | context [match bget ?y ?r with _ => _ end] => destruct (bget y r)
      | context [if ?c then _ else _] => destruct c
      end; try discriminate; eauto.
Qed.

Section Fol.
  Context {W : Type}.
  Variable L : lens W rulebase.
  Variable tables : W -> string -> option (list (list value)).
  Variable arity : string -> nat.
  Variable rules : list folrule.
  Variable w : W.
  Variable ext : string -> list value -> Prop.

  Hypothesis Htab : good_tables tables arity w.
  Hypothesis Hnames : forall p, tables w p <> None -> user_pred p.
  Hypothesis Hrules : lget L w = stored_rules rules.
  Hypothesis Hgood : forall r, In r rules -> good_rule (flat_atom arity) r.
  Hypothesis Hext : completed (db_of tables w) rules ext.

  Notation mods := (dl_mods L tables).
  Notation GA := (flat_atom arity).
  Notation db := (db_of tables w).

  (** ** which module answers *)

  Lemma find_fol p : user_pred p ->
    find_relations mods w p =
      (match rules_get p (stored_rules rules) with
       | Some _ => [mkRel p [] (handle_rule L) None] | None => [] end) ++
      (match tables w p with
       | Some _ => [mkRel p [] (table_query tables p) None] | None => [] end).
  Proof.
    intros (Hc & _ & Hl). unfold find_relations, dl_mods. simpl.
    unfold core_module. rewrite (table_get_unit p Hc).
    unfold inference_module, table_module. rewrite Hrules.
    apply String.eqb_neq in Hl. rewrite Hl.
    destruct (rules_get p (stored_rules rules)), (tables w p); reflexivity.
  Qed.

  Lemma core_only p : ~ user_pred p -> p <> "learn_rule" -> only_core mods w p.
  Proof.
    intros Hu Hl. eexists. split; [reflexivity|]. intros m [<-|[<-|[]]].
    - unfold inference_module. rewrite Hrules.
      apply String.eqb_neq in Hl. rewrite Hl. rewrite stored_rules_none; auto.
      intros fr Hfr F. apply Hu. rewrite <- F. now destruct (Hgood fr Hfr) as [(? & _) _].
    - unfold table_module. destruct (tables w p) eqn:E; auto.
      exfalso. apply Hu. apply Hnames. congruence.
  Qed.

  Ltac core_pred := apply core_only; [intros (F & _); vm_compute in F; discriminate|discriminate].

  Definition sv_exact (sv : solver_if W) : Prop := forall q b res w',
    wfs GA [] (keys b) q -> const_binding b ->
    sv_solve sv (VList (map fol_value q)) b w = (Ok res, w') ->
    w' = w /\ exists l, res = SList l /\ exact ext q b l.

  (** ** one rule *)

  Definition stored_vars (fr : folrule) : list string :=
    atoms_variables (VStr (fa_pred (rl_head fr)) :: fa_args (rl_head fr)) ++
    atoms_variables (map fol_value (rl_body fr)).

  Definition fol_outer (fr : folrule) (b : binding) : binding :=
    filter (fun kv => negb (existsb (String.eqb (fst kv)) (stored_vars fr))) b.

  Lemma fol_outer_get fr b k v : bget k (fol_outer fr b) = Some v ->
    bget k b = Some v /\ ~ In (VVar k) (fa_args (rl_head fr)) /\ ~ In k (vars (rl_body fr)).
  Proof.
    unfold fol_outer. rewrite (bget_filter (fun k => negb (existsb (String.eqb k) (stored_vars fr)))).
    destruct (existsb (String.eqb k) (stored_vars fr)) eqn:E; simpl; [discriminate|]. intros Hk.
    assert (N : ~ In k (stored_vars fr)).
    { intros F. assert (existsb (String.eqb k) (stored_vars fr) = true); [|congruence].
      apply existsb_exists. exists k. split; auto. apply String.eqb_refl. }
    split; auto. unfold stored_vars in N. split; intros F; apply N; apply in_or_app.
    - left. apply atoms_variables_In. exists (VVar k). simpl. auto.
    - right. now apply vars_values.
  Qed.

  Lemma fol_outer_plain fr b : plain_binding b -> plain_binding (fol_outer fr b).
  Proof. intros Hb k v Hk. apply fol_outer_get in Hk as (Hk & _). eauto. Qed.

  Lemma fol_rule_unfold (sv : solver_if W) fr args b (w0 : W) :
    solve_rule sv (stored_rule fr) args b w0 =
    match bind_head b (fa_args (rl_head fr)) args (fol_outer fr b) with
    | None => (Ok [], w0)
    | Some rb' =>
        bind (match rl_body fr with
              | [] => ret [rb']
              | _ :: _ => bind (sv_solve sv (VList (map fol_value (rl_body fr))) rb') (fun rr => sres_items rr)
              end)
             (fun bindings => match head_rows bindings (fa_args (rl_head fr)) args with
                              | None => ret [] | Some rs => ret rs end) w0
    end.
  Proof.
    assert (E : rule_variables (stored_rule fr) = Some (stored_vars fr)) by reflexivity.
    unfold solve_rule, fol_outer. rewrite E.
    assert (Hv : forall B (k : list string -> M W B),
       (forall vs', b = [] -> k vs' = k (stored_vars fr)) ->
       bind (match b with [] => ret [] | _ :: _ => or_throw TypeErr (Some (stored_vars fr)) end) k w0
       = k (stored_vars fr) w0).
    { intros B k Hk. destruct b; simpl; auto. unfold bind. simpl. now rewrite (Hk []). }
    rewrite Hv by (intros vs' ->; reflexivity).
    simpl tl. destruct (bind_head _ _ _ _); [|reflexivity].
    simpl elements. unfold or_throw. unfold bind at 1. simpl.
    destruct (rl_body fr); reflexivity.
  Qed.

  Lemma exact_nil b : const_binding b -> exact ext [] b [b].
  Proof.
    intros Hb. constructor.
    - intros r [<-|[]]. split; auto. split; [apply extends_refl|]. split; [|exact I].
      intros x. simpl. rewrite app_nil_r. symmetry. apply bget_In_keys.
    - intros s Hs Ha _. exists b. split; [now left|]. intros x Hx. simpl in Hx. rewrite app_nil_r in Hx.
      apply bget_In_keys in Hx. destruct (bget x b) eqn:E; [|congruence]. now rewrite (Ha _ _ E).
    - apply no_duplicates_one.
  Qed.

  Lemma fol_body_exact sv fr rb sols w' : sv_exact sv ->
    wfs GA [] (keys rb) (rl_body fr) -> const_binding rb ->
    (match rl_body fr with
     | [] => ret [rb]
     | _ :: _ => bind (sv_solve sv (VList (map fol_value (rl_body fr))) rb) (fun rr => sres_items rr)
     end) w = (Ok sols, w') -> w' = w /\ exact ext (rl_body fr) rb sols.
  Proof.
    intros Hsv Hw Hr. destruct (rl_body fr) eqn:Eb.
    - intros H. inversion H; subst. split; auto. now apply exact_nil.
    - rewrite <- Eb. rewrite <- Eb in Hw. intros H. apply bind_ok in H as (rr & w1 & E & H).
      apply Hsv in E as (-> & l0 & -> & Hl); auto. simpl in H. inversion H; subst. auto.
  Qed.

  (** the situation in which the body is solved *)
  Lemma rule_near fr b args rb : In fr rules ->
    bind_head b (fa_args (rl_head fr)) args (fol_outer fr b) = Some rb ->
    near (arg_vars (fa_args (rl_head fr))) (vars (rl_body fr)) [] (keys rb).
  Proof.
    intros Hin Eh x Hx. split; [intros []|]. intros Hk. right. apply in_arg_vars.
    apply bget_In_keys in Hk. apply (bind_head_keys _ _ _ _ _ _ Eh) in Hk as [Hk|]; auto.
    exfalso. destruct (bget x (fol_outer fr b)) eqn:E; [|congruence].
    apply fol_outer_get in E as (_ & _ & E). contradiction.
  Qed.

  Lemma fol_rule_exact sv fr args b rs w' :
    sv_exact sv -> In fr rules -> const_binding b ->
    (forall v, In v args -> flat_arg v) -> length args = arity (fa_pred (rl_head fr)) ->
    solve_rule sv (stored_rule fr) args b w = (Ok rs, w') ->
    w' = w /\
    (forall row, In row rs -> ext (fa_pred (rl_head fr)) row /\ row_agrees b args row) /\
    (forall s, const_assignment s -> all_hold ext [] (rl_body fr) s ->
       row_agrees b args (map (inst s) (fa_args (rl_head fr))) ->
       In (map (inst s) (fa_args (rl_head fr))) rs).
  Proof.
    intros Hsv Hin Hb Ha Hlen H. destruct (Hgood fr Hin) as ((Hup & Hl & Hfa) & Hw & Hi).
    rewrite fol_rule_unfold in H.
    assert (Hout : plain_binding (fol_outer fr b)) by now apply fol_outer_plain.
    assert (Hl' : length (fa_args (rl_head fr)) = length args) by congruence.
    assert (Hcompl : forall s, const_assignment s ->
       row_agrees b args (map (inst s) (fa_args (rl_head fr))) ->
       exists rb, bind_head b (fa_args (rl_head fr)) args (fol_outer fr b) = Some rb /\
      (forall x, In (VVar x) (fa_args (rl_head fr)) -> forall v, bget x rb = Some v -> s x = v) /\
      (forall x, ~ In (VVar x) (fa_args (rl_head fr)) -> bget x rb = bget x (fol_outer fr b))).
    { intros s Hs Hag. apply bind_head_complete; auto.
      intros x Hx v Hv. apply fol_outer_get in Hv as (_ & Hv & _). contradiction. }
    destruct (bind_head b (fa_args (rl_head fr)) args (fol_outer fr b)) as [rb|] eqn:Eh.
    2:{ injection H as <- <-. split; auto. split; [intros row []|].
        intros s Hs _ Hag. destruct (Hcompl s Hs Hag) as (rb & F & _). discriminate. }
    destruct (bind_head_sound b Hb (fa_args (rl_head fr)) args (fol_outer fr b) rb) as (Hrb & Hex & Hok); auto.
    pose proof (rule_near fr b args rb Hin Eh) as Hnear.
    pose proof (wfs_near GA _ _ _ _ Hw Hnear) as Hw'.
    apply bind_ok in H as (a & w1 & E & H).
    apply fol_body_exact in E as [-> Ex]; auto. destruct Ex as [Hs1 Hs2 _].
    assert (Hall : forall s0, In s0 a -> exists row, head_row s0 (fa_args (rl_head fr)) args = Some row).
    { intros s0 Hs0. apply head_row_total. intros x Hx. destruct (Hs1 s0 Hs0) as (_ & _ & D & _).
      apply D. apply in_or_app. right. apply Hi. now apply in_arg_vars. }
    destruct (head_rows_total _ _ _ Hall) as (rs' & Er & Hrs). rewrite Er in H.
    assert (rs' = rs /\ w' = w) as [-> ->] by (inversion H; auto). clear H.
    split; auto. split.
    - intros row Hrow.
      destruct (head_rows_In _ _ _ _ _ Er Hrow) as (s & Hsin & Hrw).
      destruct (Hs1 s Hsin) as (G1 & G2 & G3 & G4).
      destruct (head_row_sound b rb s _ G2 args row Ha Hok Hrw) as [-> Hcells].
      pose proof (asg_const s G1) as Gc.
      split.
      + apply Hext. right. exists fr, (asg s). repeat split; auto.
        apply (all_hold_near ext GA (arg_vars (fa_args (rl_head fr))) _ [] (keys rb)); auto.
      + unfold row_agrees.
        assert (Hpl : Forall (fun y => plain y = true) (map (inst (asg s)) (fa_args (rl_head fr)))).
        { apply Forall_forall. intros y Hy. apply in_map_iff in Hy as (v & <- & Hv).
          destruct (flat_arg_cases v (Hfa v Hv)) as [[x ->]|[_ Hp]].
          - simpl. now apply asg_const.
          - destruct v; try discriminate; auto. }
        clear -Hcells Hpl. revert Hpl.
        induction Hcells; intros Hpl; constructor; inversion Hpl; subst; auto.
        split; auto.
    - intros s Hs Hsat Hag. destruct (Hcompl s Hs Hag) as (rb0 & [= <-] & Hag1 & Hag2).
      set (s' := fun x => match bget x rb with Some v => v | None => s x end).
      assert (Hs' : const_assignment s').
      { intros x. unfold s'. destruct (bget x rb) eqn:Ex; [now apply (Hrb x)|apply Hs]. }
      assert (Hh : forall x, In (VVar x) (fa_args (rl_head fr)) -> s' x = s x).
      { intros x Hx. unfold s'. destruct (bget x rb) eqn:Ex; auto. symmetry. eapply Hag1; eauto. }
      assert (Hv : forall x, In x (vars (rl_body fr)) -> s' x = s x).
      { intros x Hx. unfold s'. destruct (bget x rb) eqn:Ex; auto.
        destruct (in_var_dec x (fa_args (rl_head fr))) as [Hih|Hih].
        - symmetry. eapply Hag1; eauto.
        - rewrite Hag2 in Ex by assumption. apply fol_outer_get in Ex as (_ & _ & Ex). contradiction. }
      destruct (Hs2 s') as (sol & Hsol & Hval); auto.
      { intros x v Hx. unfold s'. now rewrite Hx. }
      { apply (all_hold_near ext GA (arg_vars (fa_args (rl_head fr))) _ [] (keys rb)); auto.
        apply (all_hold_stable ext GA (arg_vars (fa_args (rl_head fr))) _ [] s s'); auto.
        intros x Hx _. symmetry. auto. }
      destruct (Hall sol Hsol) as [row Hrow].
      destruct (Hs1 sol Hsol) as (G1 & G2 & G3 & G4).
      destruct (head_row_sound b rb sol _ G2 args row Ha Hok Hrow) as [Er' _].
      assert (Heq : map (inst (asg sol)) (fa_args (rl_head fr)) = map (inst s) (fa_args (rl_head fr))).
      { apply map_ext_in. intros v Hv0. destruct v; auto. simpl.
        rewrite <- Hh by exact Hv0. unfold asg. rewrite Hval; [reflexivity|].
        apply in_or_app. right. apply Hi. now apply in_arg_vars. }
      rewrite <- Heq, <- Er'. eapply Hrs; eauto.
  Qed.

  (** ** one predicate *)

  Lemma fol_handle_exact sv p args b vals cols out w' :
    sv_exact sv -> const_binding b ->
    (forall v, In v args -> flat_arg v) -> length args = arity p ->
    handle_rule L sv vals (mkCtx p cols args b) w = (Ok out, w') ->
    w' = w /\ exists rows, out = QRows (map VList rows) /\
      (forall row, In row rows -> ext p row /\ row_agrees b args row) /\
      (forall fr s, In fr rules -> fa_pred (rl_head fr) = p -> const_assignment s ->
         all_hold ext [] (rl_body fr) s ->
         row_agrees b args (map (inst s) (fa_args (rl_head fr))) ->
         In (map (inst s) (fa_args (rl_head fr))) rows).
  Proof.
    intros Hsv Hb Ha Hlen H. unfold handle_rule in H. unfold bind at 1, get in H. simpl in H.
    rewrite Hrules in H. destruct (rules_get p (stored_rules rules)) as [rs|] eqn:Eg; [|discriminate].
    apply bind_ok in H as (res & w1 & E & H).
    pose proof (stored_rules_get rules p rs Eg) as Hrs.
    assert (G : forall rl acc res w1,
      (forall r, In r rl -> exists fr, In fr rules /\ fa_pred (rl_head fr) = p /\ r = stored_rule fr) ->
      foldM (fun (acc : list (list value)) (r : rule) =>
               bind (solve_rule sv r args b) (fun x => ret (acc ++ x))) acc rl w = (Ok res, w1) ->
      w1 = w /\
      (forall row, In row res -> In row acc \/ (ext p row /\ row_agrees b args row)) /\
      (forall row, In row acc -> In row res) /\
      (forall fr s, In (stored_rule fr) rl -> In fr rules -> fa_pred (rl_head fr) = p -> const_assignment s ->
         all_hold ext [] (rl_body fr) s ->
         row_agrees b args (map (inst s) (fa_args (rl_head fr))) ->
         In (map (inst s) (fa_args (rl_head fr))) res)).
    { clear - Hsv Hb Ha Hlen Hgood Hext Hrules Htab Hnames. induction rl as [|r rl IH]; intros acc res w1 Hrl HH.
      - simpl in HH. assert (acc = res /\ w = w1) as [<- <-] by (inversion HH; auto).
        split; auto. split; auto. split; auto. intros fr s [].
      - cbn [foldM] in HH. apply bind_ok in HH as (acc1 & w2 & HH1 & HH).
        apply bind_ok in HH1 as (x & w3 & E1 & HH1).
        destruct (Hrl r (or_introl eq_refl)) as (fr & Hfr & Hp & ->).
        pose proof E1 as E1'. apply fol_rule_exact in E1' as (-> & Hrows & _); auto; [|now rewrite Hp].
        assert (acc ++ x = acc1 /\ w = w2) as [<- <-] by (inversion HH1; auto). clear HH1.
        apply IH in HH as (-> & A & B & C); [|intros; apply Hrl; now right].
        split; auto. split; [|split].
        + intros row Hrow. apply A in Hrow as [Hrow|]; auto.
          apply in_app_or in Hrow as [|Hrow]; auto. right. rewrite <- Hp. apply Hrows. auto.
        + intros row Hrow. apply B. apply in_or_app; auto.
        + intros fr' s [Heq|Hi] Hin Hp' Hs Hsat Hag; [|eapply C; eauto].
          apply B. apply in_or_app. right.
          rewrite Heq in E1. apply fol_rule_exact in E1 as (_ & _ & E1); auto. now rewrite Hp'. }
    apply G in E as (-> & A & _ & C); [|intros r Hr; apply Hrs; auto].
    assert (QRows (map VList res) = out /\ w = w') as [<- <-] by (inversion H; auto).
    split; auto. eexists. split; [reflexivity|]. split.
    - intros row Hrow. apply A in Hrow as [[]|]; auto.
    - intros fr s Hin Hp. apply C; auto. apply Hrs. eauto.
  Qed.

  (** ** one atom *)

  Lemma atom_rows sv a b res w' :
    sv_exact sv -> flat_atom arity a -> const_binding b ->
    solve_single mods sv (atom_value a) b w = (Ok res, w') ->
    w' = w /\ exists l rows, res = SList l /\
      create_results rows b (fa_args a) w = (Ok l, w) /\ NoDup rows /\
      (forall x, In x rows -> exists row, x = VList row /\ ext (fa_pred a) row /\ row_agrees b (fa_args a) row) /\
      (forall t, ext (fa_pred a) t -> row_agrees b (fa_args a) t -> In (VList t) rows).
  Proof.
    intros Hsv (Hup & Hl & Hfa) Hb H. destruct a as [p args]. simpl in *.
    unfold solve_single in H. unfold bind at 1 in H. simpl in H.
    destruct (String.eqb_spec p DISJUNCTION) as [E|_]; [now destruct Hup as (_ & ? & _)|].
    unfold solve_relation in H. apply bind_ok in H as (qr & w0 & Hq & H).
    unfold find_relation_values, bind at 1, get in Hq.
    pose proof (find_fol p Hup) as Hfu.
    set (rels := find_relations mods w p) in *.
    assert (Hrel : forall rel, In rel rels ->
      (rel = mkRel p [] (handle_rule L) None /\ rules_get p (stored_rules rules) <> None) \/
      (rel = mkRel p [] (table_query tables p) None /\ tables w p <> None)).
    { intros rel Hr. rewrite Hfu in Hr. apply in_app_or in Hr as [Hr|Hr].
      - destruct (rules_get p (stored_rules rules)); [|destruct Hr].
        destruct Hr as [<-|[]]. left. split; [reflexivity|discriminate].
      - destruct (tables w p); [|destruct Hr]. destruct Hr as [<-|[]]. right. split; [reflexivity|discriminate]. }
    assert (Hc : collect_rows sv (Nat.ltb 1 (length rels)) rels (db_values b args) args b [] w = (Ok qr, w0)).
    { destruct rels; [discriminate|exact Hq]. }
    clear Hq. apply collect_rows_inv in Hc as (outs & -> & -> & A & B).
    2:{ intros rel Hr out w1 Ho. destruct (Hrel rel Hr) as [[-> _]|[-> _]]; simpl in Ho.
        - apply fol_handle_exact in Ho as (-> & rows & -> & _); eauto.
        - apply (table_query_sound tables arity w Htab) in Ho as (-> & rows & -> & _); eauto. }
    assert (Houts : forall x, In x outs -> exists row, x = VList row /\ ext p row /\ row_agrees b args row).
    { intros x Hx. destruct (B x Hx) as (rel & rows & Hr & Ho & Hxr).
      destruct (Hrel rel Hr) as [[-> _]|[-> _]]; simpl in Ho.
      - apply fol_handle_exact in Ho as (_ & rows' & [= ->] & Hs & _); eauto.
        apply in_map_iff in Hxr as (row & <- & Hrow). exists row. split; auto.
      - apply (table_query_sound tables arity w Htab) in Ho as (_ & rows' & [= ->] & Hs); eauto.
        apply in_map_iff in Hxr as (row & <- & Hrow). apply Hs in Hrow as [Hrow Hag].
        exists row. split; auto. split; auto. apply Hext. now left. }
    assert (Hgr : good_rows (length args) outs).
    { intros x Hx. destruct (Houts x Hx) as (row & -> & _ & Hag). exists row. split; auto.
      split; [symmetry; eapply Forall2_len; eauto|].
      apply plain_data. simpl. eapply row_agrees_plain; eauto. }
    set (rows := fold_left add_row outs []) in *.
    assert (Hrows : forall x, In x rows <-> In x outs).
    { intros x. unfold rows. rewrite (fold_add_row_In (length args)) by (auto; intros ? []).
      split; auto. intros [[]|]; auto. }
    apply bind_ok in H as (u & w1 & Hcheck & H).
    assert (w1 = w) as ->.
    { unfold check_first_row in Hcheck. destruct rows as [|[| | | | | | | |items|] ?]; try discriminate.
      - inversion Hcheck; auto.
      - destruct (Nat.eqb _ _); inversion Hcheck; auto. }
    apply bind_ok in H as (l & w2 & Hcr & H).
    pose proof (create_results_state _ _ _ _ _ _ Hcr) as ->.
    assert (SList l = res /\ w = w') as [<- <-] by (inversion H; auto).
    split; auto. exists l, rows. split; auto. split; auto. split; [|split].
    - assert (Gn : forall o acc, NoDup acc -> NoDup (fold_left add_row o acc)).
      { clear. induction o as [|x o IH]; simpl; intros acc Hn; auto. apply IH.
        unfold add_row. destruct (existsb _ acc) eqn:E; auto.
        apply NoDup_rev in Hn. rewrite <- (rev_involutive (acc ++ [x])). apply NoDup_rev.
        rewrite rev_app_distr. simpl. constructor; auto. rewrite <- in_rev. intros F.
        assert (existsb (fun r => String.eqb (py_str r) (py_str x)) acc = true); [|congruence].
        apply existsb_exists. exists x. split; auto. apply String.eqb_refl. }
      apply Gn. constructor.
    - intros x Hx. apply Houts. now apply Hrows.
    - intros t Ht Hag. apply Hrows.
      assert (Hdata : exists rel rws, In rel rels /\
          r_query rel sv (db_values b args) (mkCtx (r_pred rel) (r_cols rel) args b) w = (Ok (QRows rws), w) /\
          In (VList t) rws /\ incl rws outs); [|destruct Hdata as (? & ? & _ & _ & ? & Hinc); now apply Hinc].
      apply Hext in Ht as [Hin|(fr & s & Hin & Hs & Hsat & Hp & ->)].
      + assert (Hne : tables w p <> None).
        { unfold db_of in Hin. destruct (tables w p); [discriminate|destruct Hin]. }
        assert (Hir : In (mkRel p [] (table_query tables p) None) rels).
        { rewrite Hfu. apply in_or_app. right. destruct (tables w p); [now left|congruence]. }
        destruct (A _ Hir) as (rws & Ho & Hinc). do 2 eexists. split; [exact Hir|]. split; [exact Ho|].
        split; auto. simpl in Ho. apply (table_query_sound tables arity w Htab) in Ho as (_ & rows' & [= ->] & Hs); eauto.
        apply in_map. apply Hs; auto.
      + destruct (stored_rules_has rules fr Hin) as (rl & Erl). rewrite Hp in Erl.
        assert (Hir : In (mkRel p [] (handle_rule L) None) rels).
        { rewrite Hfu. apply in_or_app. left. rewrite Erl. now left. }
        destruct (A _ Hir) as (rws & Ho & Hinc). do 2 eexists. split; [exact Hir|]. split; [exact Ho|].
        split; auto. simpl in Ho. apply fol_handle_exact in Ho as (_ & rows' & [= ->] & _ & C); eauto.
        apply in_map. apply C; auto.
  Qed.

  Lemma atom_exact sv a b res w' :
    sv_exact sv -> flat_atom arity a -> const_binding b ->
    solve_single mods sv (atom_value a) b w = (Ok res, w') ->
    w' = w /\ exists l, res = SList l /\ exact ext [FAtom a] b l.
  Proof.
    intros Hsv Hfl Hb H. pose proof Hfl as (Hup & Hl & Hfa).
    apply atom_rows in H as (-> & l & rows & -> & Hcr & Hnd & Hrows & Hcomp); auto.
    split; auto. exists l. split; auto.
    assert (Hg : good_rows (length (fa_args a)) rows).
    { intros x Hx. destruct (Hrows x Hx) as (row & -> & _ & Hag). exists row. split; auto.
      split; [symmetry; eapply Forall2_len; eauto|].
      apply plain_data. simpl. eapply row_agrees_plain; eauto. }
    assert (Hone : forall row r (w1 w2 : W), In (VList row) rows ->
       match_args (VList row) b 0 (fa_args a) b false w1 = (Ok (r, false), w2) ->
       const_binding r /\ extends b r /\ (forall x, In (VVar x) (fa_args a) -> bget x r <> None) /\
       (forall k, bget k r <> None -> bget k b <> None \/ In (VVar k) (fa_args a)) /\
       map (inst (asg r)) (fa_args a) = row /\ ext (fa_pred a) row).
    { intros row r w1 w2 Hin Hm. destruct (Hrows _ Hin) as (row' & [= <-] & Hd & Hag).
      pose proof (row_agrees_plain _ _ _ Hag) as Hpl. rewrite forallb_forall in Hpl.
      assert (Hr : const_binding r).
      { intros k u Hk. eapply match_args_values in Hm; [|reflexivity|exact Hk].
        destruct Hm; [eapply Hb; eauto|]. now apply Hpl. }
      apply match_fits in Hm.
      destruct (fits_agrees b (fa_args a) row r Hb Hr Hag Hm Hfa) as (X1 & X2 & X3 & X4). auto 8. }
    assert (HP : forall r, In r l -> exists row, In (VList row) rows /\
          match_args (VList row) b 0 (fa_args a) b false w = (Ok (r, false), w)).
    { apply Forall_forall. eapply create_results_inv; [exact Hcr|]. intros v r0 w1 w2 Hv Hm.
      destruct (Hrows v Hv) as (row & -> & _). exists row. split; auto.
      eapply match_args_state; eauto. }
    assert (Hbinds : forall x, In x (keys b ++ binds [FAtom a]) <-> bget x b <> None \/ In (VVar x) (fa_args a)).
    { intros x. unfold binds. cbn [flat_map fol_binds]. rewrite app_nil_r, in_app_iff, in_arg_vars, bget_In_keys.
      reflexivity. }
    constructor.
    - intros r Hr. destruct (HP r Hr) as (row & Hin & Hm).
      destruct (Hone row r w w Hin Hm) as (X0 & X1 & X2 & X3 & X4 & X5).
      split; auto. split; auto. split.
      + intros x. rewrite Hbinds. split; [|apply X3]. intros [Hx|Hx]; auto.
        destruct (bget x b) eqn:E; [|congruence]. rewrite (X1 _ _ E). discriminate.
      + split; [|exact I]. simpl. now rewrite X4.
    - intros s Hs Hag [Hd _]. simpl in Hd.
      pose proof (agrees_row b (fa_args a) s Hs Hag Hfa) as Hra.
      pose proof (Hcomp _ Hd Hra) as Hin.
      destruct (create_results_spec b (fa_args a) rows w Hg) as (l' & Hcr' & Hl').
      rewrite Hcr in Hcr'. injection Hcr' as <-.
      assert (Hfit : exists t, row_fits b (fa_args a) (map (inst s) (fa_args a)) t /\
                 forall x, bget x b <> None \/ In (VVar x) (fa_args a) -> bget x t = Some (s x)).
      { set (vs := arg_vars (fa_args a)).
        assert (Hvs : forall x, In x vs <-> In (VVar x) (fa_args a)) by (intros; apply in_arg_vars).
        assert (Hbs : forall vs0 x, bget x (fold_right (fun y acc => bset y (s y) acc) b vs0) =
                   if in_dec string_dec x vs0 then Some (s x) else bget x b).
        { clear. induction vs0 as [|y vs0 IH]; intros x; simpl; auto.
          rewrite bget_bset. destruct (String.eqb_spec y x) as [->|Hn].
          - destruct (string_dec x x); [|congruence]. reflexivity.
          - rewrite IH. destruct (string_dec y x); [congruence|].
            destruct (in_dec string_dec x vs0); reflexivity. }
        set (t := fold_right (fun y acc => bset y (s y) acc) b vs).
        assert (Ht : forall x, bget x b <> None \/ In (VVar x) (fa_args a) -> bget x t = Some (s x)).
        { intros x Hx. unfold t. rewrite Hbs. destruct (in_dec string_dec x vs) as [|Hn]; auto.
          destruct Hx as [Hx|Hx]; [|now apply Hvs in Hx].
          destruct (bget x b) eqn:Eb; [|congruence]. now rewrite (Hag _ _ Eb). }
        exists t. split; auto. constructor.
        - intros k v Hk. rewrite Ht by (left; congruence). rewrite (Hag _ _ Hk). apply opt_eq_refl.
        - intros i x Hi Hx. exists (s x). split; [erewrite map_nth_error; eauto; reflexivity|].
          rewrite Ht; [apply opt_eq_refl|]. right. eapply nth_error_In; eauto.
        - intros i arg Hi Hv. exists arg. split.
          + erewrite map_nth_error; eauto. destruct arg; auto. now exfalso; apply (Hv name).
          + right. apply py_eq_refl.
        - intros k Hk Hn. unfold t. rewrite Hbs. destruct (in_dec string_dec k vs) as [Hi|]; auto.
          apply Hvs in Hi. contradiction. }
      destruct Hfit as (t & Hfit & Htv).
      assert (Hm : mem t l) by (apply Hl'; eauto).
      destruct Hm as (r & Hr & Heq). exists r. split; auto.
      intros x Hx. apply Hbinds in Hx.
      specialize (Htv x Hx). apply dict_eq_spec in Heq. specialize (Heq x). rewrite Htv in Heq.
      destruct (bget x r) eqn:Er; simpl in Heq; [|discriminate]. f_equal. symmetry.
      apply py_eq_plain; [apply Hs| |exact Heq].
      destruct (HP r Hr) as (row & Hrow & Hm). destruct (Hone row r w w Hrow Hm) as (X0 & _). eapply X0; eauto.
    - apply distinct_no_duplicates.
      eapply (create_results_distinct b (fa_args a) (fun r => VList (map (inst (asg r)) (fa_args a)))); eauto.
      + intros v r w1 w2 Hv Hm. destruct (Hrows v Hv) as (row & -> & _).
        destruct (Hone row r w1 w2 Hv Hm) as (X0 & _ & _ & _ & X4 & _). split; auto. now rewrite X4.
      + intros r r0 X0 X1 Eq. f_equal. apply map_ext_in. intros v Hv. destruct v; auto. simpl. unfold asg.
        apply (dict_eq_plain r r0 X0 X1) with (k := name) in Eq. now rewrite Eq.
  Qed.

  (** ** the core predicates *)

  Lemma known_received b t : flat_arg t -> known_arg (keys b) t -> const_binding b ->
    exists v, received b t v /\ constant v = true /\ v <> VNone /\
      forall s, agrees s b -> inst s t = v.
  Proof.
    intros Hf Hk Hb. destruct (flat_arg_cases t Hf) as [[x ->]|[Hv Hp]].
    - simpl in Hk. apply bget_In_keys in Hk. destruct (bget x b) as [v|] eqn:E; [|congruence].
      exists v. pose proof (Hb _ _ E) as Hc. split; [now constructor|]. split; auto.
      split; [intros ->; discriminate|]. intros s Ha. simpl. now apply Ha.
    - exists t. split; [apply rec_const; intros x ->; discriminate|]. split; auto. split; [intros ->; discriminate|].
      intros s _. destruct t; auto; discriminate.
  Qed.

  Lemma not_known x b : ~ In x (keys b) <-> bget x b = None.
  Proof.
    rewrite <- bget_In_keys. destruct (bget x b); split; auto; try congruence.
    - intros H. exfalso. apply H. discriminate.
  Qed.

  Lemma after_ok {S0} (x : outcome sres * S0) f res w' : after x f = (Ok res, w') ->
    exists r, x = (Ok r, w') /\ res = SList (f r).
  Proof. destruct x as [[r|e|] w1]; simpl; intros [= <- <-]; eauto. Qed.

  Section Step.
    Variable n : nat.
    Hypothesis Hsv : sv_exact (solver_at mods n).

    Lemma sub_exact q b res w' : wfs GA [] (keys b) q -> const_binding b ->
      solve mods n (VList (map fol_value q)) b w = (Ok res, w') ->
      w' = w /\ exists l, res = SList l /\ exact ext q b l.
    Proof. intros Hw Hb H. exact (Hsv q b res w' Hw Hb H). Qed.

    Lemma not_exact none q b res w' : wfs GA [] (keys b) q -> const_binding b ->
      solve mods (S n) (VList [fol_value (FNot none q)]) b w = (Ok res, w') ->
      w' = w /\ exists l, res = SList l /\ exact ext [FNot none q] b l.
    Proof.
      intros Hw Hb H. cbn [fol_value] in H.
      assert (H' : after (solve mods n (VList (map fol_value q)) b w)
         (fun r => match sres_len r with O => [b] | S _ => [] end) = (Ok res, w')).
      { destruct none; [rewrite solve_none in H|rewrite solve_not in H]; auto; core_pred. }
      clear H. apply after_ok in H' as (r & E & ->). apply sub_exact in E as (-> & l & -> & Ex); auto.
      split; auto. eexists. split; [reflexivity|]. apply test_exact; auto; [intros x []|].
      cbn [sres_len]. destruct l as [|r l]; cbn [length].
      - left. split; auto. intros s Hs Ha. rewrite holds_not. rewrite <- (exact_possible ext q b [] s); auto.
      - right. split; auto. intros s Hs Ha. rewrite holds_not. intros F. apply F.
        apply (exact_possible ext q b (r :: l) s); auto. discriminate.
    Qed.

    Lemma some_exact q b res w' : wfs GA [] (keys b) q -> const_binding b ->
      solve mods (S n) (VList [fol_value (FSome q)]) b w = (Ok res, w') ->
      w' = w /\ exists l, res = SList l /\ exact ext [FSome q] b l.
    Proof.
      intros Hw Hb H. cbn [fol_value] in H. rewrite solve_scoped in H by core_pred.
      apply after_ok in H as (r & E & ->). apply sub_exact in E as (-> & l & -> & Ex); auto.
      split; auto. eexists. split; [reflexivity|]. apply test_exact; auto; [intros x []|].
      cbn [sres_len]. destruct l as [|r l]; cbn [length].
      - right. split; auto. intros s Hs Ha. rewrite holds_some. rewrite <- (exact_possible ext q b [] s); auto.
      - left. split; auto. intros s Hs Ha. rewrite holds_some.
        apply (exact_possible ext q b (r :: l) s); auto. discriminate.
    Qed.

    Lemma det_exact c k q b res w' : wfs GA [] (keys b) q -> const_binding b ->
      solve mods (S n) (VList [fol_value (FDet c k q)]) b w = (Ok res, w') ->
      w' = w /\ exists l, res = SList l /\ exact ext [FDet c k q] b l.
    Proof.
      intros Hw Hb H. cbn [fol_value] in H.
      rewrite C18_determiners in H by (destruct c; (simpl; tauto) || core_pred).
      apply after_ok in H as (r & E & ->). apply sub_exact in E as (-> & l & -> & Ex); auto.
      split; auto. eexists. split; [reflexivity|]. apply test_exact; auto; [intros x []|].
      cbn [sres_len]. cbv zeta.
      assert (Hd : forall s, const_assignment s -> agrees s b ->
         (holds ext (keys b) (FDet c k q) s <-> Z.compare (Z.of_nat (length l)) k = c)).
      { intros s Hs Ha. rewrite holds_det. pose proof (exact_number ext q b l s Ex Hs Ha) as Hn. split.
        - intros (m & Hm & <-). now rewrite (number_unique ext _ _ _ _ _ Hn Hm).
        - intros Hc. eauto. }
      set (z := Z.of_nat (length l)) in *.
      assert (Hdec : (Z.compare z k = c /\
          (if String.eqb (det_name c) "det_equals" then if Z.eq_dec z k then [b] else []
           else if String.eqb (det_name c) "det_greater_than" then if Z_lt_dec k z then [b] else []
           else if Z_lt_dec z k then [b] else []) = [b]) \/
        (Z.compare z k <> c /\
          (if String.eqb (det_name c) "det_equals" then if Z.eq_dec z k then [b] else []
           else if String.eqb (det_name c) "det_greater_than" then if Z_lt_dec k z then [b] else []
           else if Z_lt_dec z k then [b] else []) = [])).
      { destruct c; cbn [det_name String.eqb Ascii.eqb Bool.eqb].
        - destruct (Z.eq_dec z k) as [->|Hn]; [left|right]; split; auto.
          + apply Z.compare_refl.
          + now rewrite Z.compare_eq_iff.
        - destruct (Z_lt_dec z k) as [|Hn]; [left|right]; split; auto.
        - destruct (Z_lt_dec k z) as [|Hn]; [left|right]; split; auto; rewrite Z.compare_gt_iff; auto. }
      destruct Hdec as [[Hc ->]|[Hc ->]]; [left|right]; split; auto; intros s Hs Ha; rewrite Hd; auto.
    Qed.

    Lemma count_exact x q b res w' : ~ In x (keys b) -> wfs GA [] (keys b) q -> const_binding b ->
      solve mods (S n) (VList [fol_value (FCount x q)]) b w = (Ok res, w') ->
      w' = w /\ exists l, res = SList l /\ exact ext [FCount x q] b l.
    Proof.
      intros Hx Hw Hb H. cbn [fol_value] in H. rewrite solve_count in H by core_pred.
      apply after_ok in H as (r & E & ->). apply sub_exact in E as (-> & l & -> & Ex); auto.
      split; auto. eexists. split; [reflexivity|]. cbn [sres_len]. unfold put_result.
      apply not_known in Hx. rewrite Hx.
      apply (values_exact ext (FCount x q) b x [VInt (Z.of_nat (length l))]); auto.
      - intros y. rewrite in_app_iff. cbn [fol_binds]. simpl. intuition congruence.
      - repeat constructor. intros [].
      - intros v [<-|[]]. reflexivity.
      - intros s Hs Ha. rewrite holds_count. pose proof (exact_number ext q b l s Ex Hs Ha) as Hn. split.
        + intros (m & Hm & ->). left. now rewrite (number_unique ext _ _ _ _ _ Hn Hm).
        + intros [F|[]]. eauto.
    Qed.

    Lemma eq_exact t u b res w' : well_formed GA [] (keys b) (FEq t u) -> const_binding b ->
      solve mods (S n) (VList [fol_value (FEq t u)]) b w = (Ok res, w') ->
      w' = w /\ exists l, res = SList l /\ exact ext [FEq t u] b l.
    Proof.
      intros (Ht & Hu & Hk) Hb H. cbn [fol_value] in H.
      assert (Hdec : forall v, flat_arg v -> known_arg (keys b) v \/ exists x, v = VVar x /\ bget x b = None).
      { intros v Hv. destruct (flat_arg_cases v Hv) as [[x ->]|[Hn Hp]].
        - simpl. destruct (bget x b) eqn:E; [left; apply bget_In_keys; congruence|right; eauto].
        - left. destruct v; try exact I. discriminate. }
      assert (Hcase : forall x v a, bget x b = None -> constant v = true ->
         (forall y, In y (keys b ++ fol_binds (FEq t u)) <-> y = x \/ In y (keys b)) ->
         (forall s, agrees s b -> inst s a = v) ->
         ((t = VVar x /\ u = a) \/ (u = VVar x /\ t = a)) ->
         exact ext [FEq t u] b [bset x v b]).
      { intros x v a Hx Hc Hd Ha Hcase. apply (values_exact ext (FEq t u) b x [v]); auto.
        - repeat constructor. intros [].
        - intros v' [<-|[]]; auto.
        - intros s Hs Hag. simpl. specialize (Ha s Hag).
          destruct Hcase as [[-> ->]|[-> ->]]; simpl; rewrite Ha; intuition congruence. }
      destruct (Hdec t Ht) as [Kt|(x & -> & Hx)], (Hdec u Hu) as [Ku|(y & -> & Hy)].
      - destruct (known_received b t Ht Kt Hb) as (v1 & R1 & C1 & N1 & I1).
        destruct (known_received b u Hu Ku Hb) as (v2 & R2 & C2 & N2 & I2).
        rewrite (solve_equals mods n t u v1 v2) in H; auto; [|core_pred].
        assert (res = SList (if py_eq v1 v2 then [b] else []) /\ w' = w) as [-> ->] by (inversion H; auto).
        split; auto. eexists. split; [reflexivity|]. apply test_exact; auto.
        + intros z Hz. cbn [fol_binds] in Hz. apply in_arg_vars in Hz as [->|[->|[]]]; auto.
        + destruct (py_eq v1 v2) eqn:E; [left|right]; split; auto; intros s Hs Ha; simpl;
            rewrite (I1 s Ha), (I2 s Ha).
          * apply py_eq_plain in E; auto.
          * intros ->. rewrite py_eq_refl in E. discriminate.
      - destruct (known_received b t Ht Kt Hb) as (v1 & R1 & C1 & N1 & I1).
        rewrite (solve_equals_right mods n y t v1) in H; auto; [|core_pred].
        assert (res = SList [bset y v1 b] /\ w' = w) as [-> ->] by (inversion H; auto).
        split; auto. eexists. split; [reflexivity|]. apply (Hcase y v1 t); auto.
        intros z. rewrite in_app_iff. cbn [fol_binds]. rewrite in_arg_vars. simpl. split.
        + intros [|[->|[[= ->]|[]]]]; auto.
        + intros [->|]; auto.
      - destruct (known_received b u Hu Ku Hb) as (v2 & R2 & C2 & N2 & I2).
        rewrite (solve_equals_left mods n x u v2) in H; auto; [|core_pred].
        assert (res = SList [bset x v2 b] /\ w' = w) as [-> ->] by (inversion H; auto).
        split; auto. eexists. split; [reflexivity|]. apply (Hcase x v2 u); auto.
        intros z. rewrite in_app_iff. cbn [fol_binds]. rewrite in_arg_vars. simpl. split.
        + intros [|[[= ->]|[->|[]]]]; auto.
        + intros [->|]; auto.
      - exfalso. apply not_known in Hx, Hy. simpl in Hk. tauto.
    Qed.

    Lemma cmp_exact less t u b res w' : well_formed GA [] (keys b) (FCmp less t u) -> const_binding b ->
      solve mods (S n) (VList [fol_value (FCmp less t u)]) b w = (Ok res, w') ->
      w' = w /\ exists l, res = SList l /\ exact ext [FCmp less t u] b l.
    Proof.
      intros (Ht & Hu & Kt & Ku) Hb H. cbn [fol_value] in H.
      destruct (known_received b t Ht Kt Hb) as (v1 & R1 & C1 & N1 & I1).
      destruct (known_received b u Hu Ku Hb) as (v2 & R2 & C2 & N2 & I2).
      destruct less.
      - rewrite (solve_less_than mods n t u v1 v2) in H; auto; [|core_pred].
        pose proof (py_lt_less v1 v2 C1 C2) as P.
        destruct (py_lt v1 v2) as [[|]|]; try discriminate; injection H as <- <-; split; auto;
          (eexists; split; [reflexivity|]); specialize (P _ eq_refl);
          (apply test_exact; auto; [intros x []|]); [left|right]; split; auto; intros s Hs Ha; simpl;
          rewrite (I1 s Ha), (I2 s Ha); rewrite <- P; auto.
      - rewrite (solve_greater_than mods n t u v1 v2) in H; auto; [|core_pred].
        pose proof (py_lt_less v2 v1 C2 C1) as P.
        destruct (py_lt v2 v1) as [[|]|]; try discriminate; injection H as <- <-; split; auto;
          (eexists; split; [reflexivity|]); specialize (P _ eq_refl);
          (apply test_exact; auto; [intros x []|]); [left|right]; split; auto; intros s Hs Ha; simpl;
          rewrite (I1 s Ha), (I2 s Ha); rewrite <- P; auto.
    Qed.

    Lemma or_exact alts b res w' : well_formed GA [] (keys b) (FOr alts) -> const_binding b ->
      solve mods (S n) (VList [fol_value (FOr alts)]) b w = (Ok res, w') ->
      w' = w /\ exists l, res = SList l /\ exact ext [FOr alts] b l.
    Proof.
      intros Hw Hb H. rewrite wf_or in Hw.
      change (solve_disjuncts (solver_at mods n) (map (fun q => VList (map fol_value q)) alts) b w = (Ok res, w')) in H.
      assert (G : forall rest, incl rest alts ->
        solve_disjuncts (solver_at mods n) (map (fun q => VList (map fol_value q)) rest) b w = (Ok res, w') ->
        w' = w /\ ((res = SList [] /\ forall s, const_assignment s -> agrees s b -> ~ first_alt ext (keys b) rest s) \/
          exists q l, In q rest /\ res = SList l /\ exact ext q b l /\ l <> [] /\
            forall s, const_assignment s -> agrees s b -> (first_alt ext (keys b) rest s <-> all_hold ext (keys b) q s))).
      { clear H. induction rest as [|q rest IH]; intros Hi H.
        - simpl in H. assert (SList [] = res /\ w = w') as [<- <-] by (inversion H; auto).
          split; auto.
        - cbn [map solve_disjuncts] in H. apply bind_ok in H as (r & w1 & E & H).
          destruct (Hw q (Hi q (or_introl eq_refl))) as (_ & Hwq & _).
          change (solve mods n (VList (map fol_value q)) b w = (Ok r, w1)) in E.
          apply sub_exact in E as (-> & l & -> & Ex); auto. cbn [sres_len] in H.
          destruct l as [|r l]; cbn [length] in H.
          + apply IH in H as [-> H]; [|intros q' Hq'; apply Hi; now right]. split; auto.
            assert (Hn : forall s, const_assignment s -> agrees s b -> ~ possible ext (keys b) q s).
            { intros s Hs Ha. rewrite <- (exact_possible ext q b [] s); auto. }
            assert (Hn' : forall s, const_assignment s -> agrees s b -> ~ all_hold ext (keys b) q s).
            { intros s Hs Ha F. apply (Hn s Hs Ha). exists s. split; auto. split; auto. intros x _. reflexivity. }
            destruct H as [[-> H]|(q' & l & Hq' & -> & Ex' & Hne & H)].
            * left. split; auto. intros s Hs Ha [F|[_ F]]; [eapply Hn'|eapply H]; eauto.
            * right. exists q', l. split; [now right|]. split; auto. split; auto. split; auto.
              intros s Hs Ha. cbn [first_alt]. rewrite <- (H s Hs Ha). split.
              -- intros [F|[_ F]]; auto. exfalso. eapply Hn'; eauto.
              -- intros F. right. split; auto.
          + assert (SList (r :: l) = res /\ w = w') as [<- <-] by (inversion H; auto). split; auto.
            right. exists q, (r :: l). split; [now left|]. split; auto. split; auto. split; [discriminate|].
            intros s Hs Ha. cbn [first_alt]. split; auto. intros [F|[F _]]; auto.
            exfalso. apply F. apply (exact_possible ext q b (r :: l) s); auto. discriminate. }
      apply G in H as [-> H]; [|apply incl_refl]. split; auto.
      destruct H as [[-> H]|(q & l & Hq & -> & [E1 E2 E3] & Hne & H)].
      - exists []. split; auto. constructor; [intros r []| |apply no_duplicates_nil].
        intros s Hs Ha [F _]. rewrite holds_or in F. exfalso. eapply H; eauto.
      - exists l. split; auto. destruct (Hw q Hq) as (_ & _ & Hd).
        assert (Hd' : forall x, In x (keys b ++ binds [FOr alts]) <-> In x (keys b ++ binds q)).
        { intros x. specialize (Hd x). change (binds [FOr alts]) with (fol_binds (FOr alts) ++ []).
          rewrite app_nil_r. rewrite !in_app_iff in *. tauto. }
        constructor; auto.
        + intros r Hr. destruct (E1 r Hr) as (R1 & R2 & R3 & R4). split; auto. split; auto. split.
          * intros x. rewrite Hd'. apply R3.
          * split; [|exact I]. rewrite holds_or. apply H; auto using asg_const. now apply asg_agrees.
        + intros s Hs Ha [F _]. rewrite holds_or in F. apply H in F; auto.
          destruct (E2 s Hs Ha F) as (r & Hr & Hv). exists r. split; auto.
          intros x Hx. apply Hv. now apply Hd'.
    Qed.

    Lemma keys_bset_in x v b y : In y (keys (bset x v b)) <-> y = x \/ In y (keys b).
    Proof.
      rewrite <- !bget_In_keys, bget_bset. destruct (String.eqb_spec x y) as [->|Hn].
      - split; auto. discriminate.
      - split; auto. intros [->|]; auto.
    Qed.

    Lemma near_same xs B B' : (forall y, In y B <-> In y B') -> near [] xs B B'.
    Proof. intros H y _. rewrite H. split; auto. Qed.

    Lemma all_exact x range body b res w' : well_formed GA [] (keys b) (FAll x range body) -> const_binding b ->
      solve mods (S n) (VList [fol_value (FAll x range body)]) b w = (Ok res, w') ->
      w' = w /\ exists l, res = SList l /\ exact ext [FAll x range body] b l.
    Proof.
      intros Hw Hb H. rewrite wf_all in Hw. destruct Hw as (A1 & _ & A3 & _ & A5 & _ & A7).
      pose proof A1 as Hx. apply not_known in Hx. cbn [fol_value] in H.
      assert (Hcb : forall e, plain e = true -> const_binding (bset x e b)).
      { intros e He k u. rewrite bget_bset. destruct (String.eqb x k); [intros [= <-]; auto|apply Hb]. }
      assert (Hwb : forall e, wfs GA [] (keys (bset x e b)) body).
      { intros e. eapply wfs_near; [exact A7|]. apply near_same. intros y. rewrite keys_bset_in. simpl. split; intros [|]; auto. }
      (* the values of the range *)
      assert (Hrange : forall rs, exact ext range b rs -> forall r, In r rs ->
                exists e, bget x r = Some e /\ plain e = true).
      { intros rs [E1 _ _] r Hr. destruct (E1 r Hr) as (R1 & R2 & R3 & _).
        assert (bget x r <> None) as Hn by (apply R3; apply in_or_app; auto).
        destruct (bget x r) as [e|] eqn:E; [|congruence]. exists e. split; auto. apply (R1 _ _ E). }
      assert (Hinv : exists rs es ents,
        solve mods n (VList (map fol_value range)) b w = (Ok (SList rs), w) /\
        Forall2 (fun r e => bget x r = Some e) rs es /\
        Forall (fun e => hashable e = true) es /\
        first_values [] es ents /\
        (forall e, In e ents -> exists r, solve mods n (VList (map fol_value body)) (bset x e b) w = (Ok r, w))).
      { eapply (all_inv mods w (fun e => plain e = true)); [core_pred| | |exact H].
        - intros r1 w1 E. apply sub_exact in E as (-> & rs & -> & Ex); auto. split; auto.
          exists rs. split; auto. intros r e Hr He. destruct (Hrange rs Ex r Hr) as (e' & He' & Hp). congruence.
        - intros e r1 w1 He E. apply sub_exact in E as (-> & _); auto. }
      destruct Hinv as (rs & es & ents & Hs1 & Hf & Hh & Hk & Hs2).
      pose proof Hs1 as Hs1'. apply sub_exact in Hs1' as (_ & rs' & [= <-] & Ex); auto.
      assert (Hes : forall e, In e es <-> exists r, In r rs /\ bget x r = Some e).
      { clear -Hf. induction Hf as [|r e rs es Hr Hf IH]; simpl.
        - split; [intros []|intros (r & [] & _)].
        - intros e'. rewrite IH. split.
          + intros [<-|(r' & ? & ?)]; eauto.
          + intros (r' & [<-|Hr'] & He'); [left; congruence|right; eauto]. }
      assert (Hpl : forall e, In e es -> plain e = true).
      { intros e He. apply Hes in He as (r & Hr & He). destruct (Hrange rs Ex r Hr) as (e' & He' & Hp). congruence. }
      assert (Hents : forall e, In e ents <-> In e es).
      { intros e. split; [apply (first_values_In _ _ _ Hk)|]. intros He.
        destruct (first_values_all es Hpl [] ents Hk) with (e := e) as [|[]]; auto. }
      set (good := fun e => exists s', const_assignment s' /\ agrees s' b /\ s' x = e /\
                                       all_hold ext (x :: keys b) body s').
      assert (Hgd : forall e, In e ents -> exists r, solve mods n (VList (map fol_value body)) (bset x e b) w = (Ok r, w) /\
                 (good e <-> sres_len r <> 0)).
      { intros e He. destruct (Hs2 e He) as [r Er]. exists r. split; auto.
        assert (Hpe : plain e = true) by (apply Hpl, Hents, He).
        apply sub_exact in Er as (_ & lb & -> & [B1 B2 _]); auto. cbn [sres_len].
        assert (Hnear : forall s', const_assignment s' -> all_hold ext (x :: keys b) body s' <->
                    all_hold ext (keys (bset x e b)) body s').
        { intros s' Hs'. apply (all_hold_near ext GA []); auto. apply near_same.
          intros y. rewrite keys_bset_in. simpl. split; intros [|]; auto. }
        split.
        - intros (s' & Hs' & Ha' & He' & Hh') F.
          destruct (B2 s') as (r & Hr & _); auto.
          + intros y v. rewrite bget_bset. destruct (String.eqb_spec x y) as [<-|]; [congruence|apply Ha'].
          + now apply Hnear.
          + destruct lb; [destruct Hr|discriminate].
        - intros F. destruct lb as [|r lb]; [now exfalso; apply F|].
          destruct (B1 r (or_introl eq_refl)) as (R1 & R2 & R3 & R4).
          exists (asg r). split; [now apply asg_const|]. split; [|split].
          + apply asg_agrees. intros y v Hy. apply R2. rewrite bget_bset.
            destruct (String.eqb_spec x y) as [<-|]; [congruence|auto].
          + unfold asg. rewrite (R2 x e); auto. apply bget_bset_same.
          + apply Hnear; auto using asg_const. }
      destruct (solve_all mods n x (map fol_value range) (map fol_value body) b w rs es ents good)
        as (l & El & Hl1 & Hl2); auto; [core_pred| |].
      { apply Forall_forall. intros e He. rewrite Forall_forall in Hh. split; auto. apply plain_data. auto. }
      rewrite El in H. assert (SList l = res /\ w = w') as [<- <-] by (inversion H; auto). clear H.
      split; auto. exists l. split; auto.
      assert (Hdec : Forall good ents \/ ~ Forall good ents).
      { assert (Hd : forall e, In e ents -> good e \/ ~ good e).
        { intros e He. destruct (Hgd e He) as (r & _ & ->). destruct (sres_len r); auto. }
        clear -Hd. induction ents as [|e ents IH]; [left; constructor|].
        destruct (Hd e (or_introl eq_refl)) as [Hg|Hg].
        - destruct IH as [IH|IH]; [intros; apply Hd; now right|left; now constructor|].
          right. intros F. inversion F; auto.
        - right. intros F. inversion F; auto. }
      (* the range, as the specification states it *)
      assert (Hir : forall s v, const_assignment s -> agrees s b ->
                (in_range ext (keys b) x range s v <-> In v ents)).
      { intros s v Hs Ha. rewrite Hents, Hes. destruct Ex as [E1 E2 _]. split.
        - intros (s' & Hs' & Hsame & <- & Hh'). destruct (E2 s') as (r & Hr & Hv); auto.
          { eapply agrees_same; eauto. }
          exists r. split; auto. apply Hv. apply in_or_app. auto.
        - intros (r & Hr & Hv). destruct (E1 r Hr) as (R1 & R2 & R3 & R4). exists (asg r).
          split; [now apply asg_const|]. split; [|split; auto].
          + apply (same_agrees s (asg r) b); auto. now apply asg_agrees.
          + unfold asg. now rewrite Hv. }
      assert (Hbd : forall s v, const_assignment s -> agrees s b ->
         ((exists s', const_assignment s' /\ same_on (keys b) s s' /\ s' x = v /\ all_hold ext (x :: keys b) body s')
           <-> good v)).
      { intros s v Hs Ha. split; intros (s' & Hs' & Hsame & Hv & Hh'); exists s'; split; auto; split; auto.
        - eapply agrees_same; eauto.
        - eapply same_agrees; eauto. }
      assert (Hholds : forall s, const_assignment s -> agrees s b ->
         (holds ext (keys b) (FAll x range body) s <-> In (s x) ents /\ Forall good ents)).
      { intros s Hs Ha. rewrite holds_all, (Hir s (s x) Hs Ha), Forall_forall. split; intros [F1 F2]; split; auto.
        - intros v Hv. apply (Hbd s v Hs Ha). apply F2. now apply Hir.
        - intros v Hv. apply (Hbd s v Hs Ha). apply F2. now apply (Hir s v Hs Ha). }
      assert (Hd : forall y, In y (keys b ++ fol_binds (FAll x range body)) <-> y = x \/ In y (keys b)).
      { intros y. rewrite in_app_iff. cbn [fol_binds]. simpl. intuition congruence. }
      destruct Hdec as [Hg|Hg].
      - rewrite (Hl1 Hg).
        assert (E : map (fun e => set_unbound b x e b) ents = map (fun e => bset x e b) ents).
        { apply map_ext. intros e. unfold set_unbound. now rewrite Hx. }
        rewrite E. apply values_exact; auto.
        + destruct (first_values_distinct _ _ _ Hk) as [Hdist _]. clear -Hdist.
          induction Hdist as [|e l Hl Hd IH]; constructor; auto. intros F.
          rewrite Forall_forall in Hl. specialize (Hl e F). rewrite py_eq_refl in Hl. discriminate.
        + intros v Hv. apply Hpl, Hents, Hv.
        + intros s Hs Ha. rewrite (Hholds s Hs Ha). tauto.
      - rewrite (Hl2 Hg). apply (values_exact ext (FAll x range body) b x []); auto.
        + constructor.
        + intros s Hs Ha. rewrite (Hholds s Hs Ha). split; [tauto|intros []].
    Qed.

    Lemma single_exact f b res w' : well_formed GA [] (keys b) f -> const_binding b ->
      solve_single mods (solver_at mods n) (fol_value f) b w = (Ok res, w') ->
      w' = w /\ exists l, res = SList l /\ exact ext [f] b l.
    Proof.
      intros Hw Hb H. destruct f as [a|t u|l t u|none q|q|alts|x range body|x q|c k q].
      - apply atom_exact in H; auto.
      - eapply eq_exact; eauto.
      - eapply cmp_exact; eauto.
      - rewrite wf_not in Hw. eapply not_exact; eauto. apply Hw.
      - rewrite wf_some in Hw. eapply some_exact; eauto. apply Hw.
      - eapply or_exact; eauto.
      - eapply all_exact; eauto.
      - rewrite wf_count in Hw. eapply count_exact; eauto; apply Hw.
      - rewrite wf_det in Hw. eapply det_exact; eauto. apply Hw.
    Qed.

    (** *** conjunctions *)

    Lemma dom_keys b r q : (forall x, In x (keys b ++ binds q) <-> bget x r <> None) ->
      forall x, In x (keys r) <-> In x (binds q ++ keys b).
    Proof. intros H x. rewrite <- bget_In_keys, <- H, !in_app_iff. tauto. Qed.

    Lemma atoms_exact : forall q b res w', wfs GA [] (keys b) q -> const_binding b ->
      solve_atoms mods (solver_at mods n) (map fol_value q) b w = (Ok res, w') ->
      w' = w /\ exists l, res = SList l /\ exact ext q b l.
    Proof.
      induction q as [|f rest IH]; intros b res w' Hw Hb H.
      - simpl in H. assert (SList [b] = res /\ w = w') as [<- <-] by (inversion H; auto).
        split; auto. eexists. split; [reflexivity|]. now apply exact_nil.
      - destruct Hw as [Hw1 Hw2]. destruct rest as [|f2 rest].
        + simpl in H. apply single_exact in H; auto.
        + cbn [map] in H. apply solve_atoms_cons_ok in H as (r1 & bs & w1 & result & H1 & H2 & H3 & ->).
          apply single_exact in H1 as (-> & l1 & -> & Ex1); auto.
          simpl in H2. assert (l1 = bs) as <- by (inversion H2; auto). clear H2.
          change (fol_value f2 :: map fol_value rest) with (map fol_value (f2 :: rest)) in H3.
          destruct Ex1 as [A1 A2 A3].
          set (q := f2 :: rest) in *.
          assert (Hkeys : forall r, In r l1 -> forall x, In x (keys r) <-> In x (fol_binds f ++ keys b)).
          { intros r Hr x. destruct (A1 r Hr) as (_ & _ & D & _).
            rewrite (dom_keys b r [f] D). unfold binds. simpl. now rewrite app_nil_r. }
          assert (Hwr : forall r, In r l1 -> wfs GA [] (keys r) q).
          { intros r Hr. eapply wfs_near; [exact Hw2|]. apply near_same. intros x. now rewrite Hkeys. }
          assert (Hhr : forall r s, In r l1 -> const_assignment s ->
                    (all_hold ext (fol_binds f ++ keys b) q s <-> all_hold ext (keys r) q s)).
          { intros r s Hr Hs. apply (all_hold_near ext GA []); auto. apply near_same.
            intros x. now rewrite Hkeys. }
          assert (Hsub : forall r rr w1, In r l1 ->
             solve_atoms mods (solver_at mods n) (map fol_value q) r w = (Ok rr, w1) ->
             w1 = w /\ exists l, rr = SList l /\ exact ext q r l).
          { intros r rr w1 Hr Hrr. apply IH in Hrr; auto. apply (A1 r Hr). }
          pose proof H3 as H3'. apply (conj_fold_inv L tables w) in H3' as (-> & C & _ & D).
          2:{ intros r rr w1 Hr Hrr. apply Hsub in Hrr as (-> & l & -> & _); eauto. }
          assert (G : forall r, In r result -> const_binding r /\ extends b r /\
             (forall x, In x (keys b ++ binds (f :: q)) <-> bget x r <> None) /\
             all_hold ext (keys b) (f :: q) (asg r)).
          { intros r Hr. apply C in Hr as [[]|(b' & l & Hb' & Hl & Hr)].
            pose proof (A1 b' Hb') as (R1 & R2 & R3 & R4).
            apply Hsub in Hl as (_ & l' & [= <-] & [E1 E2 E3]); auto.
            destruct (E1 r Hr) as (S1 & S2 & S3 & S4). split; auto.
            split; [eapply extends_trans; eauto|]. split.
            - intros x. rewrite <- S3. change (binds (f :: q)) with (fol_binds f ++ binds q).
              rewrite !in_app_iff, (Hkeys b' Hb'), in_app_iff. tauto.
            - destruct R4 as [R4 _]. split.
              + apply (holds_stable ext GA [] f (keys b) (asg b') (asg r)); auto using asg_const.
                intros x _ Hx. assert (bget x b' <> None) as Hn.
                { apply bget_In_keys, (Hkeys b' Hb'). apply in_or_app. tauto. }
                unfold asg. destruct (bget x b') eqn:E; [|congruence]. now rewrite (S2 _ _ E).
              + apply (Hhr b'); auto using asg_const. }
          split; auto. eexists. split; [reflexivity|]. constructor; auto.
          * intros s Hs Hag [Hh1 Hh2].
            destruct (A2 s Hs Hag) as (b' & Hb' & Hv); [split; [auto|exact I]|].
            pose proof (A1 b' Hb') as (R1 & R2 & R3 & R4).
            assert (Hag' : agrees s b').
            { intros x v Hx. assert (In x (keys b ++ binds [f])) as Hin by (apply R3; congruence).
              rewrite (Hv x Hin) in Hx. congruence. }
            assert (exists l, solve_atoms mods (solver_at mods n) (map fol_value q) b' w = (Ok (SList l), w)) as [l Hl].
            { clear -H3 Hb' Hsub. revert H3. generalize (@nil binding).
              induction l1 as [|b0 bs IHb]; [destruct Hb'|]. intros acc H3.
              cbn [foldM] in H3. apply bind_ok in H3 as (acc1 & w1 & E & H3).
              apply conj_step_ok in E as (rr & rs & F1 & F2 & ->).
              pose proof F1 as F1'. apply Hsub in F1' as (-> & l & -> & _); [|now left].
              destruct Hb' as [<-|Hb']; [exists l; exact F1|].
              eapply IHb; eauto. intros r rr w2 Hr. apply Hsub. now right. }
            pose proof Hl as Hl'. apply Hsub in Hl' as (_ & l' & [= <-] & [E1 E2 E3]); auto.
            destruct (E2 s Hs Hag') as (r & Hr & Hrv); [apply (Hhr b'); auto|].
            destruct (mem_const r result) as (r' & Hr' & Heq).
            { apply (E1 r Hr). }
            { intros r' Hr'. apply (G r' Hr'). }
            { eapply D; eauto. }
            exists r'. split; auto. intros x Hx. rewrite Heq. apply Hrv.
            change (binds (f :: q)) with (fol_binds f ++ binds q) in Hx.
            rewrite !in_app_iff in *. rewrite (Hkeys b' Hb'), in_app_iff. tauto.
          * apply distinct_no_duplicates.
            eapply (foldM_inv distinct); [|exact H3|constructor].
            intros acc b' w4 acc' w5 _ Hacc Hf.
            apply conj_step_ok in Hf as (rr & rs & _ & _ & ->).
            now apply fold_add_binding_distinct.
    Qed.
  End Step.

  Theorem fol_exact n : sv_exact (solver_at mods n).
  Proof.
    induction n as [|n IH]; intros q b res w' Hw Hb H; [discriminate|].
    exact (atoms_exact n IH q b res w' Hw Hb H).
  Qed.
End Fol.
