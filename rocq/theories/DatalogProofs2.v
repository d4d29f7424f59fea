(** * Datalog: the main theorems *)

From Coq Require Import ZArith String List Bool Lia Arith.
From Verif Require Import Py PyFacts ReprProofs Effects EffectsFacts Solver SolverSpec
  SolverProofs SolverProofs2 MatchProofs Atoms AtomsFacts CoreModule InferenceModule
  TableModule DatalogSpec DatalogProofs.
Import ListNotations.
Local Open Scope string_scope.
Local Open Scope list_scope.

(** [VVar x] in a list is decidable *)
Lemma in_var_dec x l : {In (VVar x) l} + {~ In (VVar x) l}.
Proof.
  destruct (in_dec string_dec x (flat_map (fun a => match a with VVar x => [x] | _ => [] end) l)) as [H|H].
  - left. apply in_flat_map in H as (a & Ha & Hx). destruct a; simpl in Hx; try tauto.
    destruct Hx as [->|[]]. auto.
  - right. intros F. apply H. apply in_flat_map. exists (VVar x). simpl; auto.
Qed.

Lemma bget_filter f b k : bget k (filter (fun kv => f (fst kv)) b) = if f k then bget k b else None.
Proof.
  induction b as [|[k' v] b IH]; simpl.
  - now destruct (f k).
  - destruct (f k') eqn:E; simpl.
    + destruct (String.eqb_spec k k') as [->|]; [now rewrite E|auto].
    + rewrite IH. destruct (String.eqb_spec k k') as [->|]; auto. now rewrite E.
Qed.

(** the loop over the arguments does not depend on the state *)
Lemma match_args_state {W} row b args : forall i r c (wa wb : W) o wa',
  match_args (VList row) b i args r c wa = (Ok o, wa') ->
  match_args (VList row) b i args r c wb = (Ok o, wb).
Proof.
  induction args as [|a args IH]; intros i r c wa wb o wa' HH.
  - simpl in *. inv_ret HH. reflexivity.
  - destruct (is_var a) eqn:Ev.
    + destruct a; try discriminate. destruct (bget name b) eqn:Eb.
      * erewrite match_args_bound in * by eassumption. eauto.
      * rewrite match_args_unbound in * by assumption. inv_bind HH.
        apply subscript_list in E. erewrite bind_ok_intro by (apply subscript_nth; exact E). eauto.
    + rewrite match_args_const in * by assumption. inv_bind HH.
      apply subscript_list in E. erewrite bind_ok_intro by (apply subscript_nth; exact E). eauto.
Qed.

(** distinct rows give distinct results when a result determines its row *)
Lemma create_results_distinct {W} b args (f : binding -> value) (rows : list value) (w : W) l w' :
  create_results rows b args w = (Ok l, w') -> NoDup rows ->
  (forall v r (w1 w2 : W), In v rows -> match_args v b 0 args b false w1 = (Ok (r, false), w2) ->
     plain_binding r /\ f r = v) ->
  (forall r r', plain_binding r -> plain_binding r' -> dict_eq r r' = true -> f r = f r') ->
  distinct l.
Proof.
  unfold create_results. intros H Hn Hf He.
  assert (G : forall rs acc (w1 : W) l1 w2, NoDup rs -> incl rs rows -> distinct acc ->
    (forall r, In r acc -> plain_binding r /\ ~ In (f r) rs) ->
    foldM (fun (results : list binding) (v : value) =>
       bind (match_args v b 0 args b false)
         (fun rc => let '(result, conflict) := rc in
          if conflict then ret results else ret (results ++ [result]))) acc rs w1 = (Ok l1, w2) ->
    distinct l1).
  { induction rs as [|v rs IH]; intros acc w1 l1 w2 Hn' Hinc Hd Hac HH.
    - simpl in HH. inv_ret HH. auto.
    - cbn [foldM] in HH. inv_bind HH. inv_bind E. destruct a0 as [r c].
      inversion Hn' as [|? ? Hnin Hn'']; subst.
      assert (Hinc' : incl rs rows) by (intros x Hx; apply Hinc; now right).
      destruct c; inv_ret E.
      + eapply IH; [| | | |exact HH]; auto. intros r0 Hr0. destruct (Hac r0 Hr0). split; auto.
        intros F. apply H1. now right.
      + destruct (Hf v r _ _ (Hinc v (or_introl eq_refl)) E0) as [X0 X1].
        eapply IH; [| | | |exact HH]; auto.
        * apply distinct_snoc; auto. destruct (dict_in r acc) eqn:Ed; auto. exfalso.
          apply dict_in_spec in Ed as (r0 & Hr0 & Eq). destruct (Hac r0 Hr0) as [X2 X3].
          apply X3. left. rewrite <- X1. apply He; auto.
        * intros r0 Hr0. apply in_app_or in Hr0 as [Hr0|[<-|[]]].
          -- destruct (Hac r0 Hr0). split; auto. intros F. apply H1. now right.
          -- split; auto. now rewrite X1. }
  eapply G; [exact Hn|apply incl_refl|constructor| |exact H]. intros r [].
Qed.

Lemma Forall2_len {A B} (R : A -> B -> Prop) l m : Forall2 R l m -> length l = length m.
Proof. induction 1; simpl; congruence. Qed.

Section Datalog.
  Context {W : Type}.
  Variable L : lens W rulebase.
  Variable tables : W -> string -> option (list (list value)).
  Variable arity : string -> nat.
  Variable rules : list frule.
  Variable w : W.

  Definition dl_mods : list (modul W) := [core_module; inference_module L; table_module tables].

  Hypothesis Htab : good_tables tables arity w.
  Hypothesis Hrules : lget L w = rulebase_of rules.
  Hypothesis Hflat : forall r, In r rules -> flat_rule arity r.

  Notation db := (db_of tables w).
  Notation derives := (derivable db rules).

  Lemma find_user p : user_pred p ->
    find_relations dl_mods w p =
      (match rules_get p (rulebase_of rules) with
       | Some _ => [mkRel p [] (handle_rule L) None] | None => [] end) ++
      (match tables w p with
       | Some _ => [mkRel p [] (table_query tables p) None] | None => [] end).
  Proof.
    intros (Hc & _ & Hl). unfold find_relations, dl_mods. simpl.
    unfold core_module. rewrite (table_get_unit p Hc).
    unfold inference_module, table_module. rewrite Hrules.
    apply String.eqb_neq in Hl. rewrite Hl.
    destruct (rules_get p (rulebase_of rules)), (tables w p); reflexivity.
  Qed.

  (** ** variables of a rule *)

  Definition rule_var (fr : frule) (x : string) : Prop := fvar x (fr_head fr) \/ fvars x (fr_body fr).

  Lemma flat_vars l x : (forall v, In v l -> flat_arg v) ->
    (exists a, In a l /\ In x (atom_variables a)) <-> In (VVar x) l.
  Proof.
    intros Hf. split.
    - intros (a & Ha & Hx). destruct (flat_arg_cases a (Hf a Ha)) as [[y ->]|[_ Hp]].
      + simpl in Hx. destruct Hx as [->|[]]. auto.
      + exfalso. eapply plain_no_variables; eauto.
    - intros H. exists (VVar x). simpl; auto.
  Qed.

  Lemma rule_variables_spec fr : flat_rule arity fr ->
    exists vs, rule_variables (to_rule fr) = Some vs /\ forall x, In x vs <-> rule_var fr x.
  Proof.
    intros [Hh Hbody]. unfold rule_variables. simpl. eexists. split; [reflexivity|].
    intros x. rewrite in_app_iff, !atoms_variables_In. unfold rule_var. 
    assert (E1 : (exists a, In a (VStr (fa_pred (fr_head fr)) :: fa_args (fr_head fr)) /\ In x (atom_variables a))
                 <-> fvar x (fr_head fr)).
    { unfold fvar. rewrite <- (flat_vars (fa_args (fr_head fr)) x) by apply Hh. simpl. split.
      - intros (a & [<-|Ha] & Hx); [destruct Hx|eauto].
      - intros (a & Ha & Hx); eauto. }
    assert (E2 : (exists a, In a (map atom_value (fr_body fr)) /\ In x (atom_variables a))
                 <-> fvars x (fr_body fr)).
    { unfold fvars, fvar. split.
      - intros (a & Ha & Hx). apply in_map_iff in Ha as (f & <- & Hf). exists f. split; auto.
        unfold atom_value in Hx. apply atom_variables_tuple in Hx as (v & [<-|Hv] & Hx); [destruct Hx|].
        apply (flat_vars (fa_args f) x); [apply (Hbody f Hf)|eauto].
      - intros (f & Hf & Hx). exists (atom_value f). split; [now apply in_map|].
        apply atom_variables_tuple. exists (VVar x). simpl; auto. }
    rewrite E1, E2. reflexivity.
  Qed.

  (** ** results *)

  Record good_result (q : list fatom) (b r : binding) : Prop := {
    gr_const : const_binding r;
    gr_ext : extends b r;
    gr_bound : forall x, fvars x q -> bget x r <> None;
    gr_dom : forall k, bget k r <> None -> bget k b <> None \/ fvars k q;
    gr_sat : satisfies db rules (asg r) q
  }.

  Definition sv_sound (sv : solver_if W) : Prop := forall q b res w',
    flat_atoms arity q -> const_binding b ->
    sv_solve sv (VList (map atom_value q)) b w = (Ok res, w') ->
    w' = w /\ exists l, res = SList l /\ forall r, In r l -> good_result q b r.

  (** all answers are there *)
  Definition covers (q : list fatom) (b : binding) (l : list binding) : Prop :=
    forall s, const_assignment s -> agrees s b -> satisfies db rules s q ->
      exists r, In r l /\ forall x, bget x b <> None \/ fvars x q -> bget x r = Some (s x).

  Definition sv_complete (sv : solver_if W) : Prop := forall q b l w',
    flat_atoms arity q -> const_binding b ->
    sv_solve sv (VList (map atom_value q)) b w = (Ok (SList l), w') -> covers q b l.

  (** ** one rule *)

  (** the binding with which a rule body is solved *)
  Definition outer (fr : frule) (b : binding) : binding :=
    match rule_variables (to_rule fr) with
    | Some vs => filter (fun kv => negb (existsb (String.eqb (fst kv)) vs)) b
    | None => []
    end.

  Lemma outer_get fr b k : flat_rule arity fr ->
    (rule_var fr k /\ bget k (outer fr b) = None) \/ (~ rule_var fr k /\ bget k (outer fr b) = bget k b).
  Proof.
    intros Hf. unfold outer. destruct (rule_variables_spec fr Hf) as (vs & -> & Hvs).
    rewrite (bget_filter (fun k => negb (existsb (String.eqb k) vs))).
    destruct (existsb (String.eqb k) vs) eqn:E; simpl.
    - left. split; auto. apply Hvs. apply existsb_exists in E as (y & Hy & Ey).
      apply String.eqb_eq in Ey. now subst.
    - right. split; auto. intros F. apply Hvs in F.
      assert (existsb (String.eqb k) vs = true); [|congruence].
      apply existsb_exists. exists k. split; auto. apply String.eqb_refl.
  Qed.

  Lemma outer_plain fr b : flat_rule arity fr -> plain_binding b -> plain_binding (outer fr b).
  Proof.
    intros Hf Hb k v Hk. destruct (outer_get fr b k Hf) as [[_ E]|[_ E]]; rewrite E in Hk; [discriminate|eauto].
  Qed.

  Lemma solve_rule_unfold (sv : solver_if W) fr args b (w0 : W) : flat_rule arity fr ->
    solve_rule sv (to_rule fr) args b w0 =
    match bind_head b (fa_args (fr_head fr)) args (outer fr b) with
    | None => (Ok [], w0)
    | Some rb' =>
        bind (match fr_body fr with
              | [] => ret [rb']
              | _ :: _ => bind (sv_solve sv (VList (map atom_value (fr_body fr))) rb') (fun rr => sres_items rr)
              end)
             (fun bindings => match head_rows bindings (fa_args (fr_head fr)) args with
                              | None => ret [] | Some rs => ret rs end) w0
    end.
  Proof.
    intros Hf. destruct (rule_variables_spec fr Hf) as (vs & E & _).
    unfold solve_rule, outer. rewrite E.
    assert (Hv : forall B (k : list string -> M W B),
       (forall vs', b = [] -> k vs' = k vs) ->
       bind (match b with [] => ret [] | _ :: _ => or_throw TypeErr (Some vs) end) k w0 = k vs w0).
    { intros B k Hk. destruct b; simpl; auto. unfold bind. simpl. now rewrite (Hk []). }
    rewrite Hv by (intros vs' ->; reflexivity).
    simpl tl. destruct (bind_head _ _ _ _); [|reflexivity].
    simpl elements. unfold or_throw. unfold bind at 1. simpl.
    destruct (fr_body fr); reflexivity.
  Qed.

  Lemma head_rows_In sols hargs args : forall rs row,
    head_rows sols hargs args = Some rs -> In row rs ->
    exists s, In s sols /\ head_row s hargs args = Some row.
  Proof.
    induction sols as [|s sols IH]; simpl; intros rs row H Hr.
    - injection H as <-. destruct Hr.
    - destruct (head_row s hargs args) eqn:E; [|discriminate].
      destruct (head_rows sols hargs args) eqn:E'; [|discriminate].
      injection H as <-. destruct Hr as [<-|Hr]; eauto.
      destruct (IH _ _ eq_refl Hr) as (s' & ? & ?). eauto.
  Qed.

  Lemma head_rows_total sols hargs args :
    (forall s, In s sols -> exists row, head_row s hargs args = Some row) ->
    exists rs, head_rows sols hargs args = Some rs /\
      forall s row, In s sols -> head_row s hargs args = Some row -> In row rs.
  Proof.
    induction sols as [|s sols IH]; simpl; intros H.
    - exists []. split; [reflexivity|intros s row []].
    - destruct (H s (or_introl eq_refl)) as [row Hr]. rewrite Hr.
      destruct IH as (rs & -> & Hrs); auto.
      exists (row :: rs). split; auto. intros s' row' [<-|Hs] Hr'.
      + left. congruence.
      + right. eauto.
  Qed.

  (** properties of the solutions with which [solve_rule] builds rows *)
  Definition body_solutions (sv : solver_if W) (fr : frule) (rb : binding) : M W (list binding) :=
    match fr_body fr with
    | [] => ret [rb]
    | _ :: _ => bind (sv_solve sv (VList (map atom_value (fr_body fr))) rb) (fun rr => sres_items rr)
    end.

  Lemma body_solutions_sound sv fr rb sols w' : sv_sound sv -> flat_rule arity fr -> const_binding rb ->
    body_solutions sv fr rb w = (Ok sols, w') ->
    w' = w /\ (forall s, In s sols -> good_result (fr_body fr) rb s).
  Proof.
    intros Hsv [_ Hf] Hr. unfold body_solutions. destruct (fr_body fr) eqn:Eb.
    - intros H. inv_ret H. split; auto. intros s [<-|[]]. constructor; auto.
      + apply extends_refl.
      + intros x (a & [] & _).
      + intros a [].
    - rewrite <- Eb. rewrite <- Eb in Hf. intros H. inv_bind H.
      apply Hsv in E as (-> & l0 & -> & Hl); auto. simpl in H. inv_ret H. auto.
  Qed.

  Lemma body_solutions_complete sv fr rb sols w' : sv_complete sv -> sv_sound sv ->
    flat_rule arity fr -> const_binding rb ->
    body_solutions sv fr rb w = (Ok sols, w') -> covers (fr_body fr) rb sols.
  Proof.
    intros Hc Hsv [_ Hf] Hr. unfold body_solutions. destruct (fr_body fr) eqn:Eb.
    - intros H. inv_ret H. intros s Hs Ha _. exists rb. split; [now left|].
      intros x [Hx|(a & [] & _)]. destruct (bget x rb) eqn:E; [|congruence]. now rewrite (Ha _ _ E).
    - rewrite <- Eb. rewrite <- Eb in Hf. intros H. inv_bind H.
      pose proof E as E'. apply Hsv in E' as (-> & l0 & -> & Hl); auto. simpl in H. inv_ret H. 
      eapply Hc; eauto.
  Qed.

  Lemma solve_rule_sound sv fr args b rs w' :
    sv_sound sv -> In fr rules -> const_binding b ->
    (forall v, In v args -> flat_arg v) -> length args = arity (fa_pred (fr_head fr)) ->
    solve_rule sv (to_rule fr) args b w = (Ok rs, w') ->
    w' = w /\ forall row, In row rs -> derives (fa_pred (fr_head fr)) row /\ row_agrees b args row.
  Proof.
    intros Hsv Hin Hb Ha Hlen H. pose proof (Hflat fr Hin) as Hf.
    rewrite solve_rule_unfold in H by assumption.
    destruct (bind_head b (fa_args (fr_head fr)) args (outer fr b)) as [rb|] eqn:Eh.
    2:{ injection H as <- <-. split; auto. intros row []. }
    destruct (proj1 Hf) as (Hup & Hl & Hfa).
    destruct (bind_head_sound b Hb (fa_args (fr_head fr)) args (outer fr b) rb) as (Hrb & Hext & Hok); auto.
    { congruence. }
    { now apply outer_plain. }
    fold (body_solutions sv fr rb) in H. inv_bind H.
    apply body_solutions_sound in E as [-> Hs]; auto.
    destruct (head_rows a (fa_args (fr_head fr)) args) as [rs'|] eqn:Er; inv_ret H.
    2:{ split; auto. intros row []. }
    split; auto. intros row Hrow.
    destruct (head_rows_In _ _ _ _ _ Er Hrow) as (s & Hsin & Hrw).
    destruct (Hs s Hsin) as [G1 G2 G3 G4 G5].
    destruct (head_row_sound b rb s _ G2 args row Ha Hok Hrw) as [-> Hcells].
    split.
    - apply (d_rule db rules fr (asg s)); auto. now apply asg_const.
    - unfold row_agrees.
      assert (Hpl : Forall (fun y => plain y = true) (map (inst (asg s)) (fa_args (fr_head fr)))).
      { apply Forall_forall. intros y Hy. apply in_map_iff in Hy as (v & <- & Hv).
        destruct (flat_arg_cases v (Hfa v Hv)) as [[x ->]|[_ Hp]].
        - simpl. now apply asg_const.
        - destruct v; try discriminate; auto. }
      clear -Hcells Hpl. revert Hpl.
      induction Hcells; intros Hpl; constructor; inversion Hpl; subst; auto.
      split; auto.
  Qed.

  Lemma solve_rule_complete sv fr args b rs w' s :
    sv_sound sv -> sv_complete sv -> In fr rules -> const_binding b -> range_restricted fr ->
    (forall v, In v args -> flat_arg v) -> length args = arity (fa_pred (fr_head fr)) ->
    solve_rule sv (to_rule fr) args b w = (Ok rs, w') ->
    const_assignment s -> satisfies db rules s (fr_body fr) ->
    row_agrees b args (map (inst s) (fa_args (fr_head fr))) ->
    In (map (inst s) (fa_args (fr_head fr))) rs.
  Proof.
    intros Hsv Hcv Hin Hb Hrr Ha Hlen H Hs Hsat Hag. pose proof (Hflat fr Hin) as Hf.
    rewrite solve_rule_unfold in H by assumption.
    destruct (proj1 Hf) as (Hup & Hl & Hfa).
    assert (Hl' : length (fa_args (fr_head fr)) = length args) by congruence.
    assert (Hout : plain_binding (outer fr b)) by now apply outer_plain.
    destruct (bind_head_complete b Hb s (fa_args (fr_head fr)) Hs args (outer fr b))
      as (rb & Eh & Hag1 & Hag2); auto.
    { intros x Hx v Hv. destruct (outer_get fr b x Hf) as [[_ E]|[Hn E]]; [congruence|].
      exfalso. apply Hn. now left. }
    rewrite Eh in H.
    destruct (bind_head_sound b Hb (fa_args (fr_head fr)) args (outer fr b) rb) as (Hrb & Hext & Hok); auto.
    fold (body_solutions sv fr rb) in H. inv_bind H.
    pose proof E as E'. apply body_solutions_sound in E' as [-> Hgood]; auto.
    (* the assignment of the rule variables, with the caller's values elsewhere *)
    set (s' := fun x => match bget x rb with Some v => v | None => s x end).
    assert (Hs' : const_assignment s').
    { intros x. unfold s'. destruct (bget x rb) eqn:Ex; [now apply (Hrb x)|apply Hs]. }
    assert (Hss : forall x, rule_var fr x -> s' x = s x).
    { intros x Hx. unfold s'. destruct (bget x rb) eqn:Ex; auto.
      destruct (in_var_dec x (fa_args (fr_head fr))) as [Hi|Hi].
      - symmetry. eapply Hag1; eauto.
      - rewrite Hag2 in Ex by assumption. destruct (outer_get fr b x Hf) as [[_ E1]|[Hn _]]; [congruence|].
        now exfalso. }
    assert (Hcov : exists sol, In sol a /\
       forall x, bget x rb <> None \/ fvars x (fr_body fr) -> bget x sol = Some (s' x)).
    { pose proof (body_solutions_complete sv fr rb a w Hcv Hsv Hf Hrb E) as C. apply C; auto.
      - intros x v Hx. unfold s'. now rewrite Hx.
      - intros at0 Hat. specialize (Hsat at0 Hat).
        erewrite map_ext_in; [exact Hsat|]. intros v Hv. destruct v; auto. simpl.
        apply Hss. right. exists at0. auto. }
    destruct Hcov as (sol & Hsol & Hval).
    assert (Hall : forall s0, In s0 a -> exists row, head_row s0 (fa_args (fr_head fr)) args = Some row).
    { intros s0 Hs0. apply head_row_total. intros x Hx. apply (gr_bound _ _ _ (Hgood s0 Hs0)).
      apply Hrr. exact Hx. }
    destruct (head_rows_total _ _ _ Hall) as (rs' & Er & Hrs). rewrite Er in H. inv_ret H.
    destruct (Hall sol Hsol) as [row Hrow].
    destruct (Hgood sol Hsol) as [G1 G2 G3 G4 G5].
    destruct (head_row_sound b rb sol _ G2 args row Ha Hok Hrow) as [Er' _].
    assert (Heq : map (inst (asg sol)) (fa_args (fr_head fr)) = map (inst s) (fa_args (fr_head fr))).
    { apply map_ext_in. intros v Hv. destruct v; auto. simpl.
      rewrite <- Hss by (left; exact Hv). unfold asg.
      rewrite Hval; [reflexivity|]. right. apply Hrr. exact Hv. }
    rewrite <- Heq, <- Er'. eapply Hrs; eauto.
  Qed.

  (** ** one predicate *)

  Lemma handle_rule_sound sv p args b vals cols out w' :
    sv_sound sv -> const_binding b ->
    (forall v, In v args -> flat_arg v) -> length args = arity p ->
    handle_rule L sv vals (mkCtx p cols args b) w = (Ok out, w') ->
    w' = w /\ exists rows, out = QRows (map VList rows) /\
      (forall row, In row rows -> derives p row /\ row_agrees b args row) /\
      (sv_complete sv -> (forall r, In r rules -> range_restricted r) ->
       forall fr s, In fr rules -> fa_pred (fr_head fr) = p -> const_assignment s ->
         satisfies db rules s (fr_body fr) ->
         row_agrees b args (map (inst s) (fa_args (fr_head fr))) ->
         In (map (inst s) (fa_args (fr_head fr))) rows).
  Proof.
    intros Hsv Hb Ha Hlen H. unfold handle_rule in H. unfold bind at 1, get in H. simpl in H.
    rewrite Hrules in H. destruct (rules_get p (rulebase_of rules)) as [rs|] eqn:Eg; [|discriminate].
    inv_bind H. inv_ret H.
    pose proof (rulebase_get rules p rs Eg) as Hrs.
    assert (G : forall rl acc res w1,
      (forall r, In r rl -> exists fr, In fr rules /\ fa_pred (fr_head fr) = p /\ r = to_rule fr) ->
      foldM (fun (acc : list (list value)) (r : rule) =>
               bind (solve_rule sv r args b) (fun x => ret (acc ++ x))) acc rl w = (Ok res, w1) ->
      w1 = w /\
      (forall row, In row res -> In row acc \/ (derives p row /\ row_agrees b args row)) /\
      (forall row, In row acc -> In row res) /\
      (sv_complete sv -> (forall r, In r rules -> range_restricted r) ->
       forall fr s, In (to_rule fr) rl -> In fr rules -> fa_pred (fr_head fr) = p -> const_assignment s ->
         satisfies db rules s (fr_body fr) ->
         row_agrees b args (map (inst s) (fa_args (fr_head fr))) ->
         In (map (inst s) (fa_args (fr_head fr))) res)).
    { induction rl as [|r rl IH]; intros acc res w1 Hrl HH.
      - simpl in HH. inv_ret HH. split; auto. split; auto. split; auto.
        intros _ _ fr s [].
      - cbn [foldM] in HH. inv_bind HH. inv_bind E0. inv_ret E0.
        destruct (Hrl r (or_introl eq_refl)) as (fr & Hfr & Hp & ->).
        pose proof E1 as E1'. apply solve_rule_sound in E1' as [-> Hrows]; auto; [|now rewrite Hp].
        apply IH in HH as (-> & A & B & C); [|intros; apply Hrl; now right].
        split; auto. split; [|split].
        + intros row Hrow. apply A in Hrow as [Hrow|]; auto.
          apply in_app_or in Hrow as [|Hrow]; auto. right. rewrite <- Hp. apply Hrows. auto.
        + intros row Hrow. apply B. apply in_or_app; auto.
        + intros Hc Hrr fr' s [Heq|Hi] Hin Hp' Hs Hsat Hag; [|eapply C; eauto].
          apply B. apply in_or_app. right.
          rewrite Heq in E1. eapply solve_rule_complete; [exact Hsv|exact Hc| | | | | |exact E1| | |]; auto. now rewrite Hp'. }
    apply G in E as (-> & A & _ & C); [|intros r Hr; apply Hrs; auto].
    split; auto. eexists. split; [reflexivity|]. split.
    - intros row Hrow. apply A in Hrow as [[]|]; auto.
    - intros Hc Hrr fr s Hin Hp. apply C; auto. apply Hrs. eauto.
  Qed.

  Lemma table_query_sound sv p args b cols out w' :
    const_binding b -> (forall v, In v args -> flat_arg v) -> length args = arity p ->
    table_query tables p sv (db_values b args) (mkCtx p cols args b) w = (Ok out, w') ->
    w' = w /\ exists rows, out = QRows (map VList rows) /\
      (forall row, In row rows <-> In row (db p) /\ row_agrees b args row).
  Proof.
    clear Hrules Hflat.
    intros Hb Ha Hl H. unfold table_query, bind, get in H.
    destruct (tables w p) as [rows|] eqn:Et; [|discriminate]. inv_ret H. split; auto.
    eexists. split; [reflexivity|]. intros row. rewrite filter_In. unfold db_of. rewrite Et.
    split; intros [H1 H2]; split; auto;
      (eapply table_row_agrees; eauto; exact (proj2 (Htab p rows Et row H1))).
  Qed.

  (** inversion of the loop over the relations *)
  Lemma collect_rows_inv sv many vals args b rels : forall acc q w',
    (forall rel, In rel rels -> forall out w1,
       r_query rel sv vals (mkCtx (r_pred rel) (r_cols rel) args b) w = (Ok out, w1) ->
       w1 = w /\ exists rows, out = QRows rows) ->
    collect_rows sv many rels vals args b acc w = (Ok q, w') ->
    exists outs, q = QRows (fold_left add_row outs acc) /\ w' = w /\
      (forall rel, In rel rels -> exists rows,
         r_query rel sv vals (mkCtx (r_pred rel) (r_cols rel) args b) w = (Ok (QRows rows), w) /\
         incl rows outs) /\
      (forall x, In x outs -> exists rel rows, In rel rels /\
         r_query rel sv vals (mkCtx (r_pred rel) (r_cols rel) args b) w = (Ok (QRows rows), w) /\ In x rows).
  Proof.
    clear Htab Hrules Hflat.
    induction rels as [|rel rels IH]; intros acc q w' Hq H.
    - simpl in H. inv_ret H. exists []. split; auto. split; auto. split; [intros ? []|intros ? []].
    - cbn [collect_rows] in H. inv_bind H.
      destruct (Hq rel (or_introl eq_refl) _ _ E) as [-> [rows ->]].
      apply IH in H as (outs & -> & -> & A & B); [|intros; eapply Hq; eauto; now right].
      exists (rows ++ outs). rewrite fold_left_app. split; auto. split; auto. split.
      + intros rel' [<-|Hr].
        * exists rows. split; auto. apply incl_appl, incl_refl.
        * destruct (A rel' Hr) as (rows' & ? & ?). exists rows'. split; auto. now apply incl_appr.
      + intros x Hx. apply in_app_or in Hx as [Hx|Hx].
        * exists rel, rows. simpl; auto.
        * destruct (B x Hx) as (rel' & rows' & ? & ? & ?). exists rel', rows'. simpl; auto.
  Qed.

  (** ** one atom *)

  Lemma single_inv sv a b res w' :
    sv_sound sv -> flat_atom arity a -> const_binding b ->
    solve_single dl_mods sv (atom_value a) b w = (Ok res, w') ->
    w' = w /\ exists l rows, res = SList l /\
      create_results rows b (fa_args a) w = (Ok l, w) /\ NoDup rows /\
      (forall x, In x rows -> exists row, x = VList row /\ derives (fa_pred a) row /\ row_agrees b (fa_args a) row) /\
      (sv_complete sv -> (forall r, In r rules -> range_restricted r) ->
       forall t, derives (fa_pred a) t -> row_agrees b (fa_args a) t -> In (VList t) rows).
  Proof.
    intros Hsv (Hup & Hl & Hfa) Hb H. destruct a as [p args]. simpl in *.
    unfold solve_single in H. unfold bind at 1 in H. simpl in H.
    destruct (String.eqb_spec p DISJUNCTION) as [E|_]; [now destruct Hup as (_ & ? & _)|].
    unfold solve_relation in H. apply bind_ok in H as (qr & w0 & Hq & H).
    unfold find_relation_values, bind at 1, get in Hq. 
    pose proof (find_user p Hup) as Hfu.
    set (rels := find_relations dl_mods w p) in *.
    assert (Hrel : forall rel, In rel rels ->
      (rel = mkRel p [] (handle_rule L) None /\ rules_get p (rulebase_of rules) <> None) \/
      (rel = mkRel p [] (table_query tables p) None /\ tables w p <> None)).
    { intros rel Hr. rewrite Hfu in Hr. apply in_app_or in Hr as [Hr|Hr].
      - destruct (rules_get p (rulebase_of rules)); [|destruct Hr].
        destruct Hr as [<-|[]]. left. split; [reflexivity|discriminate].
      - destruct (tables w p); [|destruct Hr]. destruct Hr as [<-|[]]. right. split; [reflexivity|discriminate]. }
    assert (Hc : collect_rows sv (Nat.ltb 1 (length rels)) rels (db_values b args) args b [] w = (Ok qr, w0)).
    { destruct rels; [discriminate|exact Hq]. }
    clear Hq. apply collect_rows_inv in Hc as (outs & -> & -> & A & B).
    2:{ intros rel Hr out w1 Ho. destruct (Hrel rel Hr) as [[-> _]|[-> _]]; simpl in Ho.
        - apply handle_rule_sound in Ho as (-> & rows & -> & _); eauto.
        - apply table_query_sound in Ho as (-> & rows & -> & _); eauto. }
    assert (Houts : forall x, In x outs -> exists row, x = VList row /\ derives p row /\ row_agrees b args row).
    { intros x Hx. destruct (B x Hx) as (rel & rows & Hr & Ho & Hxr).
      destruct (Hrel rel Hr) as [[-> _]|[-> _]]; simpl in Ho.
      - apply handle_rule_sound in Ho as (_ & rows' & [= ->] & Hs & _); eauto.
        apply in_map_iff in Hxr as (row & <- & Hrow). exists row. split; auto.
      - apply table_query_sound in Ho as (_ & rows' & [= ->] & Hs); eauto.
        apply in_map_iff in Hxr as (row & <- & Hrow). apply Hs in Hrow as [Hrow Hag].
        exists row. split; auto. split; auto. now apply d_table. }
    assert (Hgood : good_rows (length args) outs).
    { intros x Hx. destruct (Houts x Hx) as (row & -> & _ & Hag). exists row. split; auto.
      split; [symmetry; eapply Forall2_len; eauto|].
      apply plain_data. simpl. eapply row_agrees_plain; eauto. }
    set (rows := fold_left add_row outs []) in *.
    assert (Hrows : forall x, In x rows <-> In x outs).
    { intros x. unfold rows. rewrite (fold_add_row_In (length args)) by (auto; intros ? []).
      split; auto. intros [[]|]; auto. }
    apply bind_ok in H as (u & w1 & Hcheck & H).
    assert (w1 = w) as ->.
    { unfold check_first_row in Hcheck. destruct rows as [|[| | | | | | | |items|] ?]; try discriminate.
      - inversion Hcheck; auto.
      - destruct (Nat.eqb _ _); inversion Hcheck; auto. }
    apply bind_ok in H as (l & w2 & Hcr & H).
    pose proof (create_results_state _ _ _ _ _ _ Hcr) as ->. inv_ret H.
    split; auto. exists l, rows. split; auto. split; auto. split; [|split].
    - assert (Gn : forall o acc, NoDup acc -> NoDup (fold_left add_row o acc)).
      { clear. induction o as [|x o IH]; simpl; intros acc Hn; auto. apply IH.
        unfold add_row. destruct (existsb _ acc) eqn:E; auto.
        apply NoDup_rev in Hn. rewrite <- (rev_involutive (acc ++ [x])). apply NoDup_rev.
        rewrite rev_app_distr. simpl. constructor; auto. rewrite <- in_rev. intros F.
        assert (existsb (fun r => String.eqb (py_str r) (py_str x)) acc = true); [|congruence].
        apply existsb_exists. exists x. split; auto. apply String.eqb_refl. }
      apply Gn. constructor.
    - intros x Hx. apply Houts. now apply Hrows.
    - intros Hcv Hrr t Ht Hag. apply Hrows.
      assert (Hdata : exists rel rws, In rel rels /\
          r_query rel sv (db_values b args) (mkCtx (r_pred rel) (r_cols rel) args b) w = (Ok (QRows rws), w) /\
          In (VList t) rws /\ incl rws outs); [|destruct Hdata as (? & ? & _ & _ & ? & Hinc); now apply Hinc].
      inversion Ht as [p0 t0 Hin|fr s Hin Hs Hsat]; subst.
      + assert (Hne : tables w p <> None).
        { unfold db_of in Hin. destruct (tables w p); [discriminate|destruct Hin]. }
        assert (Hir : In (mkRel p [] (table_query tables p) None) rels).
        { rewrite Hfu. apply in_or_app. right. destruct (tables w p); [now left|congruence]. }
        destruct (A _ Hir) as (rws & Ho & Hinc). do 2 eexists. split; [exact Hir|]. split; [exact Ho|].
        split; auto. simpl in Ho. apply table_query_sound in Ho as (_ & rows' & [= ->] & Hs); eauto.
        apply in_map. apply Hs; auto.
      + destruct (rulebase_has rules fr Hin) as (rl & Erl).
        assert (Hir : In (mkRel (fa_pred (fr_head fr)) [] (handle_rule L) None) rels).
        { rewrite Hfu. apply in_or_app. left. rewrite Erl. now left. }
        destruct (A _ Hir) as (rws & Ho & Hinc). do 2 eexists. split; [exact Hir|]. split; [exact Ho|].
        split; auto. simpl in Ho. apply handle_rule_sound in Ho as (_ & rows' & [= ->] & _ & C); eauto.
        apply in_map. apply C; auto.
  Qed.

  Lemma fits_dom_r b args row r k : row_fits b args row r -> bget k r <> None ->
    bget k b <> None \/ In (VVar k) args.
  Proof.
    intros [_ _ _ F4] Hk. destruct (bget k b) eqn:Eb; [left; discriminate|].
    destruct (in_var_dec k args); auto.
  Qed.

  (** each result of a single atom comes from one row *)
  Lemma single_results sv a b res w' :
    sv_sound sv -> flat_atom arity a -> const_binding b ->
    solve_single dl_mods sv (atom_value a) b w = (Ok res, w') ->
    w' = w /\ exists l, res = SList l /\
      (forall r, In r l -> good_result [a] b r) /\
      (sv_complete sv -> (forall r, In r rules -> range_restricted r) -> covers [a] b l) /\
      no_duplicates l.
  Proof.
    intros Hsv Hfl Hb H. pose proof Hfl as (Hup & Hl & Hfa).
    apply single_inv in H as (-> & l & rows & -> & Hcr & Hnd & Hrows & Hcomp); auto.
    split; auto. exists l. split; auto.
    assert (Hg : good_rows (length (fa_args a)) rows).
    { intros x Hx. destruct (Hrows x Hx) as (row & -> & _ & Hag). exists row. split; auto.
      split; [symmetry; eapply Forall2_len; eauto|].
      apply plain_data. simpl. eapply row_agrees_plain; eauto. }
    assert (Hone : forall row r (w1 w2 : W), In (VList row) rows ->
       match_args (VList row) b 0 (fa_args a) b false w1 = (Ok (r, false), w2) ->
       const_binding r /\ extends b r /\ (forall x, In (VVar x) (fa_args a) -> bget x r <> None) /\
       (forall k, bget k r <> None -> bget k b <> None \/ In (VVar k) (fa_args a)) /\
       map (inst (asg r)) (fa_args a) = row /\ derives (fa_pred a) row).
    { intros row r w1 w2 Hin Hm. destruct (Hrows _ Hin) as (row' & [= <-] & Hd & Hag).
      pose proof (row_agrees_plain _ _ _ Hag) as Hpl. rewrite forallb_forall in Hpl.
      assert (Hr : const_binding r).
      { intros k u Hk. eapply match_args_values in Hm; [|reflexivity|exact Hk].
        destruct Hm; [eapply Hb; eauto|]. now apply Hpl. }
      apply match_fits in Hm.
      destruct (fits_agrees b (fa_args a) row r Hb Hr Hag Hm Hfa) as (X1 & X2 & X3 & X4). auto 8. }
    split; [|split].
    - intros r Hr.
      assert (HP : Forall (fun r => exists row, In (VList row) rows /\
          match_args (VList row) b 0 (fa_args a) b false w = (Ok (r, false), w)) l).
      { eapply create_results_inv; [exact Hcr|]. intros v r0 w1 w2 Hv Hm.
        destruct (Hrows v Hv) as (row & -> & _). exists row. split; auto.
        eapply match_args_state; eauto. }
      rewrite Forall_forall in HP. destruct (HP r Hr) as (row & Hin & Hm).
      destruct (Hone row r w w Hin Hm) as (X0 & X1 & X2 & X3 & X4 & X5). constructor; auto.
      + intros x (a' & [<-|[]] & Hx). auto.
      + intros k Hk. destruct (X3 k Hk) as [|Hx]; auto. right. exists a. split; [now left|auto].
      + intros a' [<-|[]]. now rewrite X4.
    - intros Hcv Hrr s Hs Hag Hsat.
      assert (Hd : derives (fa_pred a) (map (inst s) (fa_args a))) by (apply Hsat; now left).
      pose proof (agrees_row b (fa_args a) s Hs Hag Hfa) as Hra.
      pose proof (Hcomp Hcv Hrr _ Hd Hra) as Hin.
      destruct (create_results_spec b (fa_args a) rows w Hg) as (l' & Hcr' & Hl').
      rewrite Hcr in Hcr'. injection Hcr' as <-.
      (* the restriction of the assignment *)
      assert (Hfit : exists t, row_fits b (fa_args a) (map (inst s) (fa_args a)) t /\
                 forall x, bget x b <> None \/ In (VVar x) (fa_args a) -> bget x t = Some (s x)).
      { set (vs := flat_map (fun v => match v with VVar x => [x] | _ => [] end) (fa_args a)).
        assert (Hvs : forall x, In x vs <-> In (VVar x) (fa_args a)).
        { intros x. unfold vs. rewrite in_flat_map. split.
          - intros (v & Hv & Hx). destruct v; simpl in Hx; try tauto. destruct Hx as [->|[]]. auto.
          - intros Hx. exists (VVar x). simpl; auto. }
        assert (Hbs : forall vs0 x, bget x (fold_right (fun y acc => bset y (s y) acc) b vs0) =
                   if in_dec string_dec x vs0 then Some (s x) else bget x b).
        { clear. induction vs0 as [|y vs0 IH]; intros x; simpl; auto.
          rewrite bget_bset. destruct (String.eqb_spec y x) as [->|Hn].
          - destruct (string_dec x x); [|congruence]. reflexivity.
          - rewrite IH. destruct (string_dec y x); [congruence|].
            destruct (in_dec string_dec x vs0); reflexivity. }
        set (t := fold_right (fun y acc => bset y (s y) acc) b vs).
        assert (Ht : forall x, bget x b <> None \/ In (VVar x) (fa_args a) -> bget x t = Some (s x)).
        { intros x Hx. unfold t. rewrite Hbs. destruct (in_dec string_dec x vs) as [|Hn]; auto.
          destruct Hx as [Hx|Hx]; [|now apply Hvs in Hx].
          destruct (bget x b) eqn:Eb; [|congruence]. now rewrite (Hag _ _ Eb). }
        exists t. split; auto. constructor.
        - intros k v Hk. rewrite Ht by (left; congruence). rewrite (Hag _ _ Hk). apply opt_eq_refl.
        - intros i x Hi Hx. exists (s x). split; [erewrite map_nth_error; eauto; reflexivity|].
          rewrite Ht; [apply opt_eq_refl|]. right. eapply nth_error_In; eauto.
        - intros i arg Hi Hv. exists arg. split.
          + erewrite map_nth_error; eauto. destruct arg; auto. now exfalso; apply (Hv name).
          + right. apply py_eq_refl.
        - intros k Hk Hn. unfold t. rewrite Hbs. destruct (in_dec string_dec k vs) as [Hi|]; auto.
          apply Hvs in Hi. contradiction. }
      destruct Hfit as (t & Hfit & Htv).
      assert (Hm : mem t l) by (apply Hl'; eauto).
      destruct Hm as (r & Hr & Heq). exists r. split; auto.
      intros x Hx.
      assert (Hx' : bget x b <> None \/ In (VVar x) (fa_args a)).
      { destruct Hx as [|(a' & [<-|[]] & Hx)]; auto. }
      specialize (Htv x Hx'). apply dict_eq_spec in Heq. specialize (Heq x). rewrite Htv in Heq.
      destruct (bget x r) eqn:Er; simpl in Heq; [|discriminate]. f_equal. symmetry.
      apply py_eq_plain; [apply Hs| |exact Heq].
      (* the value in r is plain *)
      assert (HP : Forall (fun r => const_binding r) l).
      { eapply create_results_inv; [exact Hcr|]. intros v0 r0 w1 w2 Hv Hm.
        destruct (Hrows v0 Hv) as (row & -> & _ & Hag').
        pose proof (row_agrees_plain _ _ _ Hag') as Hpl. rewrite forallb_forall in Hpl.
        intros k u Hk. eapply match_args_values in Hm; [|reflexivity|exact Hk].
        destruct Hm; [eapply Hb; eauto|]. now apply Hpl. }
      rewrite Forall_forall in HP. eapply HP; eauto.
    - apply distinct_no_duplicates.
      eapply (create_results_distinct b (fa_args a) (fun r => VList (map (inst (asg r)) (fa_args a)))); eauto.
      + intros v r w1 w2 Hv Hm. destruct (Hrows v Hv) as (row & -> & _).
        destruct (Hone row r w1 w2 Hv Hm) as (X0 & _ & _ & _ & X4 & _). split; auto. now rewrite X4.
      + intros r r0 X0 X1 Eq. f_equal. apply map_ext_in. intros v Hv. destruct v; auto. simpl. unfold asg.
        apply (dict_eq_plain r r0 X0 X1) with (k := name) in Eq. now rewrite Eq.
  Qed.

  (** ** conjunctions *)

  Lemma good_result_cons a rest b b' r :
    good_result [a] b b' -> good_result rest b' r -> good_result (a :: rest) b r.
  Proof.
    intros [A1 A2 A3 A4 A5] [B1 B2 B3 B4 B5]. constructor; auto.
    - eapply extends_trans; eauto.
    - intros x (a' & [<-|Ha'] & Hx).
      + destruct (bget x b') eqn:E.
        * rewrite (B2 _ _ E). discriminate.
        * exfalso. apply (A3 x); auto. exists a. split; [now left|auto].
      + apply B3. exists a'. auto.
    - intros k Hk. destruct (B4 k Hk) as [Hk'|(a' & Ha' & Hx)].
      + destruct (A4 k Hk') as [|(a' & [<-|[]] & Hx)]; auto. right. exists a. split; [now left|auto].
      + right. exists a'. split; [now right|auto].
    - intros a' [<-|Ha']; [|now apply B5].
      assert (Heq : map (inst (asg r)) (fa_args a) = map (inst (asg b')) (fa_args a)).
      { apply map_ext_in. intros v Hv. destruct v; auto. simpl. unfold asg.
        destruct (bget name b') eqn:E; [now rewrite (B2 _ _ E)|].
        exfalso. apply (A3 name); auto. exists a. split; [now left|auto]. }
      rewrite Heq. apply A5. now left.
  Qed.

  Lemma conj_fold_inv sv rest bs : forall acc res w',
    (forall b' rr w1, In b' bs -> solve_atoms dl_mods sv rest b' w = (Ok rr, w1) ->
       w1 = w /\ exists l, rr = SList l) ->
    foldM (conj_step dl_mods sv rest) acc bs w = (Ok res, w') ->
    w' = w /\
    (forall r, In r res -> In r acc \/ exists b' l, In b' bs /\
        solve_atoms dl_mods sv rest b' w = (Ok (SList l), w) /\ In r l) /\
    (forall r, mem r acc -> mem r res) /\
    (forall b' l r, In b' bs -> solve_atoms dl_mods sv rest b' w = (Ok (SList l), w) -> In r l -> mem r res).
  Proof.
    clear Htab Hrules Hflat.
    induction bs as [|b0 bs IH]; intros acc res w' Hs H.
    - simpl in H. inv_ret H. split; auto. split; auto. split; auto. intros b' l r [].
    - cbn [foldM] in H. inv_bind H.
      apply conj_step_ok in E as (rr & rs & F1 & F2 & ->).
      destruct (Hs b0 rr _ (or_introl eq_refl) F1) as [-> [l0 ->]]. simpl in F2. inv_ret F2.
      apply IH in H as (-> & A & B & C); [|intros; eapply Hs; eauto; now right].
      split; auto. split; [|split].
      + intros r Hr. apply A in Hr as [Hr|(b' & l & ? & ? & ?)].
        * apply fold_add_binding_In in Hr as [|Hr]; auto. right. exists b0, rs. simpl; auto.
        * right. exists b', l. simpl; auto.
      + intros r Hr. apply B. apply fold_add_binding_mem. auto.
      + intros b' l r [<-|Hb'] Hl Hr.
        * rewrite F1 in Hl. injection Hl as <-. apply B. apply fold_add_binding_mem. right. now apply mem_In.
        * eapply C; eauto.
  Qed.

  Lemma mem_const r l : const_binding r -> (forall r', In r' l -> const_binding r') -> mem r l ->
    exists r', In r' l /\ forall k, bget k r' = bget k r.
  Proof.
    intros Hr Hl (r' & Hin & Heq). exists r'. split; auto. intros k.
    symmetry. now apply (dict_eq_plain r r' Hr (Hl r' Hin)).
  Qed.

  Lemma atoms_results sv : sv_sound sv -> forall q b res w',
    flat_atoms arity q -> const_binding b ->
    solve_atoms dl_mods sv (map atom_value q) b w = (Ok res, w') ->
    w' = w /\ exists l, res = SList l /\
      (forall r, In r l -> good_result q b r) /\
      (sv_complete sv -> (forall r, In r rules -> range_restricted r) -> covers q b l).
  Proof.
    intros Hsv. induction q as [|a rest IH]; intros b res w' Hf Hb H.
    - simpl in H. inv_ret H. split; auto. eexists. split; [reflexivity|]. split.
      + intros r [<-|[]]. constructor; auto.
        * apply extends_refl.
        * intros x (a & [] & _).
        * intros a [].
      + intros _ _ s Hs Ha _. exists b. split; [now left|].
        intros x [Hx|(a & [] & _)]. destruct (bget x b) eqn:E; [|congruence]. now rewrite (Ha _ _ E).
    - assert (Hfa : flat_atom arity a) by (apply Hf; now left).
      assert (Hfr : flat_atoms arity rest) by (intros a' Ha'; apply Hf; now right).
      destruct rest as [|a2 rest].
      + simpl in H. apply single_results in H as (-> & l & -> & A & B & _); auto.
        split; auto. exists l. auto.
      + cbn [map] in H. apply solve_atoms_cons_ok in H as (r1 & bs & w1 & result & H1 & H2 & H3 & ->).
        apply single_results in H1 as (-> & l1 & -> & A & B & _); auto.
        simpl in H2. inv_ret H2. change (atom_value a2 :: map atom_value rest)
          with (map atom_value (a2 :: rest)) in H3.
        pose proof H3 as H3'. apply conj_fold_inv in H3' as (-> & C & _ & D).
        2:{ intros b' rr w1 Hb' Hrr. apply IH in Hrr as (-> & l & -> & _); eauto.
            apply (A b' Hb'). }
        assert (G : forall r, In r result -> good_result (a :: a2 :: rest) b r).
        { intros r Hr. apply C in Hr as [[]|(b' & l & Hb' & Hl & Hr)].
          pose proof (A b' Hb') as Gb.
          apply IH in Hl as (_ & l' & [= ->] & Hg & _); auto; [|apply Gb].
          eapply good_result_cons; eauto. }
        split; auto. eexists. split; [reflexivity|]. split; auto.
        intros Hc Hrr s Hs Hag Hsat.
        destruct (B Hc Hrr s Hs Hag) as (b' & Hb' & Hv).
        { intros a' [<-|[]]. apply Hsat. now left. }
        pose proof (A b' Hb') as Gb.
        assert (Hag' : agrees s b').
        { intros x v Hx. destruct (gr_dom _ _ _ Gb x) as [Hd|Hd]; [congruence| |];
            (rewrite Hv in Hx; [congruence|auto]). }
        (* the recursive call for [b'] returned *)
        assert (exists l, solve_atoms dl_mods sv (map atom_value (a2 :: rest)) b' w = (Ok (SList l), w)) as [l Hl].
        { clear -H3 Hb' IH A Hfr. revert H3. generalize (@nil binding).
          assert (Hal : forall b0, In b0 bs -> const_binding b0) by (intros; now apply A).
          clear A. induction bs as [|b0 bs IHb]; [destruct Hb'|]. intros acc H3.
          cbn [foldM] in H3. inv_bind H3. apply conj_step_ok in E as (rr & rs & F1 & F2 & ->).
          pose proof F1 as F1'. apply IH in F1' as (-> & l & -> & _); auto; [|apply Hal; now left].
          destruct Hb' as [<-|Hb']; [exists l; exact F1|].
          eapply IHb; eauto. intros; apply Hal; now right. }
        pose proof Hl as Hl'. apply IH in Hl' as (_ & l' & [= <-] & Hg & Hcov); auto; [|apply Gb].
        destruct (Hcov Hc Hrr s Hs Hag') as (r & Hr & Hrv).
        { intros a' Ha'. apply Hsat. now right. }
        pose proof (good_result_cons _ _ _ _ _ Gb (Hg r Hr)) as Gr.
        destruct (mem_const r result) as (r' & Hr' & Heq).
        { apply Gr. }
        { intros r' Hr'. apply (G r' Hr'). }
        { eapply D; eauto. }
        exists r'. split; auto. intros x Hx. rewrite Heq. apply Hrv.
        destruct Hx as [Hx|(a' & [<-|Ha'] & Hx)].
        * left. rewrite Hv; [discriminate|auto].
        * left. apply (gr_bound _ _ _ Gb). exists a. split; [now left|auto].
        * right. exists a'. auto.
  Qed.

  Lemma solver_sound n : sv_sound (solver_at dl_mods n).
  Proof.
    induction n as [|n IH]; intros q b res w' Hf Hb H; [discriminate|].
    simpl in H. apply atoms_results in H as (-> & l & -> & A & _); eauto.
  Qed.

  Lemma solver_complete n : (forall r, In r rules -> range_restricted r) ->
    sv_complete (solver_at dl_mods n).
  Proof.
    intros Hrr. induction n as [|n IH]; intros q b l w' Hf Hb H; [discriminate|].
    simpl in H. apply atoms_results in H as (-> & l' & [= ->] & _ & B); auto using solver_sound.
  Qed.

  (** ** termination *)

  Definition known (p : string) : Prop :=
    tables w p <> None \/ exists r, In r rules /\ fa_pred (fr_head r) = p.

  Lemma single_total_if sv a b :
    sv_sound sv -> flat_atom arity a -> const_binding b -> known (fa_pred a) ->
    (forall fr, In fr rules -> fa_pred (fr_head fr) = fa_pred a -> exists rs, solve_rule sv (to_rule fr) (fa_args a) b w = (Ok rs, w)) ->
    exists l, solve_single dl_mods sv (atom_value a) b w = (Ok (SList l), w).
  Proof.
    intros Hsv Hfl Hb Hkn Hall. pose proof Hfl as (Hup & Hl & Hfa).
    cut (exists r, solve_single dl_mods sv (atom_value a) b w = (Ok r, w)).
    { intros [r Hr]. pose proof Hr as Hr'. apply single_results in Hr' as (_ & l & -> & _); eauto. }
    destruct a as [p args]. simpl in *.
    unfold solve_single. erewrite bind_ok_intro by reflexivity. simpl.
    destruct (String.eqb_spec p DISJUNCTION) as [E|_]; [now destruct Hup as (_ & ? & _)|].
    unfold solve_relation.
    pose proof (find_user p Hup) as Hfu.
    (* every relation answers with good rows *)
    assert (Hq : forall rel, In rel (find_relations dl_mods w p) ->
      exists rows, r_query rel sv (db_values b args) (mkCtx (r_pred rel) (r_cols rel) args b) w
        = (Ok (QRows rows), w) /\ good_rows (length args) rows).
    { intros rel Hr. rewrite Hfu in Hr. apply in_app_or in Hr as [Hr|Hr].
      - destruct (rules_get p (rulebase_of rules)) as [rs|] eqn:Eg; [|destruct Hr]. destruct Hr as [<-|[]].
        simpl.
        assert (exists out, handle_rule L sv (db_values b args) (mkCtx p [] args b) w = (Ok out, w)) as [out Ho].
        { unfold handle_rule, get. erewrite bind_ok_intro by reflexivity. simpl. rewrite Hrules, Eg.
          pose proof (rulebase_get rules p rs Eg) as Hrs.
          assert (G : forall rl acc,
            (forall r, In r rl -> exists fr, In fr rules /\ fa_pred (fr_head fr) = p /\ r = to_rule fr) ->
            exists res, foldM (fun (acc : list (list value)) (r : rule) =>
               bind (solve_rule sv r args b) (fun x => ret (acc ++ x))) acc rl w = (Ok res, w)).
          { induction rl as [|r rl IHr]; intros acc Hrl; [eexists; reflexivity|].
            destruct (Hrl r (or_introl eq_refl)) as (fr & Hfr & Hp & ->).
            destruct (Hall fr Hfr Hp) as (x & Hx).
            cbn [foldM]. erewrite bind_ok_intro.
            2:{ erewrite bind_ok_intro by exact Hx. reflexivity. }
            apply IHr. intros; apply Hrl; now right. }
          destruct (G rs []) as [res Hres]; [intros; apply Hrs; auto|].
          erewrite bind_ok_intro by exact Hres. eexists; reflexivity. }
        pose proof Ho as Ho'. apply handle_rule_sound in Ho' as (_ & rows & -> & Hs & _); auto.
        eexists. split; [exact Ho|]. intros x Hx. apply in_map_iff in Hx as (row & <- & Hrow).
        destruct (Hs row Hrow) as [_ Hag]. exists row. split; auto.
        split; [symmetry; eapply Forall2_len; eauto|].
        apply plain_data. simpl. eapply row_agrees_plain; eauto.
      - destruct (tables w p) as [rows|] eqn:Et; [|destruct Hr]. destruct Hr as [<-|[]]. simpl.
        unfold table_query, get. erewrite bind_ok_intro by reflexivity. rewrite Et.
        eexists. split; [reflexivity|]. intros x Hx. apply in_map_iff in Hx as (row & <- & Hrow).
        apply filter_In in Hrow as [Hrow _]. destruct (Htab p rows Et row Hrow) as [Hlen Hc].
        exists row. split; auto. split; [congruence|]. apply plain_data. exact Hc. }
    assert (Hne : find_relations dl_mods w p <> []).
    { rewrite Hfu. destruct Hkn as [Hkn|(r & Hr & <-)].
      - destruct (tables w p); [|congruence]. intros F. now apply app_eq_nil in F as [_ F].
      - destruct (rulebase_has rules r Hr) as [rs ->]. discriminate. }
    remember (find_relations dl_mods w p) as rels eqn:Er.
    assert (Hc : forall rels acc, 
      (forall rel, In rel rels -> exists rows, 
        r_query rel sv (db_values b args) (mkCtx (r_pred rel) (r_cols rel) args b) w
        = (Ok (QRows rows), w) /\ good_rows (length args) rows) ->
      good_rows (length args) acc -> forall many,
      exists rows, collect_rows sv many rels (db_values b args) args b acc w = (Ok (QRows rows), w) /\
        good_rows (length args) rows).
    { clear. induction rels as [|rel rels IH]; intros acc Hq Hg many; [eexists; split; [reflexivity|auto]|].
      destruct (Hq rel (or_introl eq_refl)) as (rows & Hrows & Hgr).
      cbn [collect_rows]. erewrite bind_ok_intro by exact Hrows. apply IH; auto.
      - intros; apply Hq; now right.
      - intros x Hx. apply fold_add_row_incl in Hx as [|]; auto. }
    destruct (Hc rels [] Hq) with (many := Nat.ltb 1 (length rels)) as (rows & Hrows & Hgr); [intros ? []|].
    erewrite bind_ok_intro.
    2:{ unfold find_relation_values, get. erewrite bind_ok_intro by reflexivity.
        rewrite <- Er. destruct rels; [congruence|exact Hrows]. }
    cbv beta iota.
    erewrite bind_ok_intro.
    2:{ unfold check_first_row. destruct rows as [|row rows]; [reflexivity|].
        destruct (Hgr row (or_introl eq_refl)) as (items & -> & Hlen & _).
        apply Nat.eqb_eq in Hlen. rewrite Hlen. reflexivity. }
    destruct (create_results_spec b args rows w Hgr) as (l & Hcr & _).
    erewrite bind_ok_intro by exact Hcr. eexists; reflexivity.
  Qed.

  Section Rank.
    Variable rank : string -> nat.
    Hypothesis Hrank : forall r, In r rules -> forall a, In a (fr_body r) ->
      rank (fa_pred a) < rank (fa_pred (fr_head r)) /\ known (fa_pred a).

    Definition sv_total (k : nat) (sv : solver_if W) : Prop := forall q b,
      q <> [] -> flat_atoms arity q -> const_binding b ->
      (forall a, In a q -> rank (fa_pred a) < k /\ known (fa_pred a)) ->
      exists l, sv_solve sv (VList (map atom_value q)) b w = (Ok (SList l), w).

    Lemma solve_rule_total k sv fr args b :
      sv_sound sv -> sv_total k sv -> In fr rules -> const_binding b ->
      (forall v, In v args -> flat_arg v) -> length args = arity (fa_pred (fr_head fr)) ->
      rank (fa_pred (fr_head fr)) <= k ->
      exists rs, solve_rule sv (to_rule fr) args b w = (Ok rs, w).
    Proof.
      intros Hsv Ht Hin Hb Ha Hl Hk. pose proof (Hflat fr Hin) as Hf.
      rewrite solve_rule_unfold by assumption.
      destruct (bind_head b (fa_args (fr_head fr)) args (outer fr b)) as [rb|] eqn:Eh; eauto.
      destruct (proj1 Hf) as (Hup & Hl' & Hfa).
      destruct (bind_head_sound b Hb (fa_args (fr_head fr)) args (outer fr b) rb) as (Hrb & _); auto.
      { congruence. }
      { now apply outer_plain. }
      assert (exists sols, body_solutions sv fr rb w = (Ok sols, w)) as [sols Hs].
      { unfold body_solutions. destruct (fr_body fr) as [|a0 q0] eqn:Eb; [eexists; reflexivity|].
        rewrite <- Eb.
        destruct (Ht (fr_body fr) rb) as (l & Hs); auto.
        - rewrite Eb. discriminate.
        - apply Hf.
        - intros a Ha'. destruct (Hrank fr Hin a Ha'). split; auto. lia.
        - exists l. erewrite bind_ok_intro by exact Hs. reflexivity. }
      fold (body_solutions sv fr rb). erewrite bind_ok_intro by exact Hs.
      destruct (head_rows _ _ _); eexists; reflexivity.
    Qed.

    Lemma single_total k sv a b :
      sv_sound sv -> sv_total k sv -> flat_atom arity a -> const_binding b ->
      rank (fa_pred a) <= k -> known (fa_pred a) ->
      exists l, solve_single dl_mods sv (atom_value a) b w = (Ok (SList l), w).
    Proof.
      intros Hsv Ht Hfl Hb Hk Hkn. pose proof Hfl as (Hup & Hl & Hfa).
      apply single_total_if; auto. intros fr Hfr Hp. apply (solve_rule_total k); auto; now rewrite Hp.
    Qed.

    Lemma atoms_total k sv : sv_sound sv -> sv_total k sv -> forall q b,
      flat_atoms arity q -> const_binding b ->
      (forall a, In a q -> rank (fa_pred a) <= k /\ known (fa_pred a)) ->
      exists l, solve_atoms dl_mods sv (map atom_value q) b w = (Ok (SList l), w).
    Proof.
      intros Hsv Ht. induction q as [|a rest IH]; intros b Hf Hb Hk.
      - eexists. reflexivity.
      - destruct (single_total k sv a b) as (l & Hl); auto.
        { apply Hf; now left. }
        { apply Hk; now left. }
        { apply Hk; now left. }
        destruct rest as [|a2 rest]; [exists l; exact Hl|].
        cbn [map]. rewrite solve_atoms_cons. erewrite bind_ok_intro by exact Hl.
        simpl sres_items. erewrite bind_ok_intro by reflexivity.
        apply single_results in Hl as (_ & l' & [= <-] & A & _); auto; [|apply Hf; now left].
        assert (G : forall bs acc, (forall b, In b bs -> const_binding b) ->
           exists res, foldM (conj_step dl_mods sv (map atom_value (a2 :: rest))) acc bs w = (Ok res, w)).
        { induction bs as [|b0 bs IHb]; intros acc Hbs; [eexists; reflexivity|].
          cbn [foldM]. destruct (IH b0) as (l0 & Hl0).
          - intros a' Ha'. apply Hf. now right.
          - apply Hbs. now left.
          - intros a' Ha'. apply Hk. now right.
          - erewrite bind_ok_intro.
            2:{ unfold conj_step. erewrite bind_ok_intro by exact Hl0. reflexivity. }
            apply IHb. intros; apply Hbs; now right. }
        destruct (G l []) as [res Hres]; [intros b0 Hb0; apply (A b0 Hb0)|].
        erewrite bind_ok_intro by exact Hres. eexists; reflexivity.
    Qed.

    Lemma solver_total n : sv_total n (solver_at dl_mods n).
    Proof.
      induction n as [|n IH]; intros q b Hne Hf Hb Hk.
      - destruct q as [|a q]; [congruence|destruct (Hk a (or_introl eq_refl)); lia].
      - simpl. apply (atoms_total n); auto using solver_sound.
        intros a Ha. destruct (Hk a Ha). split; auto. lia.
    Qed.
  End Rank.
End Datalog.
