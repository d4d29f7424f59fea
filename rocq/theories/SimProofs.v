(** * First-order queries do not see what they do not mention

    The same query in two models that agree on the predicates it depends on,
    and in two bindings that agree on the variables it mentions: the second
    model finds the same answers, each with the further bindings. *)

From Coq Require Import ZArith String List Bool Lia Arith.
From Verif Require Import Py PyFacts ReprProofs Effects EffectsFacts Solver SolverSpec
  SolverProofs SolverProofs2 MatchProofs Atoms AtomsFacts CoreModule CoreSpec CoreProofs CoreProofs2 CoreProofs3
  InferenceModule TableModule DatalogSpec DatalogProofs DatalogProofs2 FolSpec FolProofs FolProofs2 PropCore FolProofs3.
Import ListNotations.
Local Open Scope nat_scope.
Local Open Scope string_scope.
Local Open Scope list_scope.

(** ** bindings *)

(** no variable in common *)
Definition apart (J : binding) (xs : list string) : Prop := forall x, In x xs -> bget x J = None.

Lemma bget_app x a b : bget x (a ++ b) = match bget x a with Some v => Some v | None => bget x b end.
Proof. induction a as [|[k v] a IH]; cbn; auto. destruct (String.eqb x k); auto. Qed.
Lemma bget_apart J x b : bget x J = None -> bget x (J ++ b) = bget x b.
Proof. intros H. now rewrite bget_app, H. Qed.
Lemma bset_apart J x v b : bget x J = None -> bset x v (J ++ b) = J ++ bset x v b.
Proof.
  intros H. induction J as [|[k u] J IH]; cbn; auto. cbn in H. destruct (String.eqb x k); [discriminate|]. now rewrite IH.
Qed.
Lemma apart_app J xs ys : apart J (xs ++ ys) <-> apart J xs /\ apart J ys.
Proof.
  split.
  - intros H. split; intros x Hx; apply H, in_or_app; auto.
  - intros (H1 & H2) x Hx. apply in_app_or in Hx as [Hx|Hx]; auto.
Qed.
Lemma apart_incl J xs ys : incl xs ys -> apart J ys -> apart J xs.
Proof. intros I H x Hx. auto. Qed.
Lemma keys_app a b : keys (a ++ b) = keys a ++ keys b.
Proof. unfold keys. apply map_app. Qed.
Lemma keys_bset x v b y : In y (keys (bset x v b)) <-> y = x \/ In y (keys b).
Proof.
  rewrite <- !bget_In_keys, bget_bset. destruct (String.eqb_spec x y) as [->|N]; [split; auto; discriminate|].
  split; auto. intros [->|]; auto; now destruct N.
Qed.
Lemma apart_bset J x v b : bget x J = None -> apart J (keys b) -> apart J (keys (bset x v b)).
Proof. intros H Hb y Hy. apply keys_bset in Hy as [->|Hy]; auto. Qed.

Lemma dict_eq_carry J a b : apart J (keys a) -> apart J (keys b) -> dict_eq (J ++ a) (J ++ b) = dict_eq a b.
Proof.
  intros Ha Hb. unfold dict_eq. rewrite !keys_app.
  assert (E : forall l, (forall k, In k l -> bget k J = None) ->
    forallb (fun k => opt_eq (bget k (J ++ a)) (bget k (J ++ b))) l = forallb (fun k => opt_eq (bget k a) (bget k b)) l).
  { induction l as [|k l IH]; cbn; auto. intros H. rewrite IH by auto. now rewrite !bget_apart by auto. }
  assert (T : forallb (fun k => opt_eq (bget k (J ++ a)) (bget k (J ++ b))) (keys J) = true).
  { apply forallb_forall. intros k Hk. apply bget_In_keys in Hk. rewrite !bget_app. destruct (bget k J); [|congruence].
    cbn. apply py_eq_refl. }
  rewrite !forallb_app, T, !E by auto. reflexivity.
Qed.
Lemma dict_in_carry J r l : apart J (keys r) -> Forall (fun x => apart J (keys x)) l ->
  dict_in (J ++ r) (map (app J) l) = dict_in r l.
Proof.
  intros Hr. unfold dict_in. induction 1 as [|x l Hx Hl IH]; cbn; auto. now rewrite IH, dict_eq_carry.
Qed.
Lemma add_carry J rs : Forall (fun x => apart J (keys x)) rs -> forall acc, Forall (fun x => apart J (keys x)) acc ->
  fold_left add_binding (map (app J) rs) (map (app J) acc) = map (app J) (fold_left add_binding rs acc) /\
  Forall (fun x => apart J (keys x)) (fold_left add_binding rs acc).
Proof.
  induction 1 as [|r rs Hr Hrs IH]; intros acc Ha; cbn [map fold_left]; auto.
  assert (E : add_binding (map (app J) acc) (J ++ r) = map (app J) (add_binding acc r)).
  { unfold add_binding. rewrite dict_in_carry by auto. destruct (dict_in r acc); auto. now rewrite map_app. }
  rewrite E. apply IH. unfold add_binding. destruct (dict_in r acc); auto. apply Forall_app. auto.
Qed.

(** the predicates of the core module that first-order queries use *)
Definition fol_core : list string :=
  ["equals"; "less_than"; "greater_than"; "none"; "not"; "scoped"; "all"; "count"; "det_equals"; "det_less_than"; "det_greater_than"].

(** what a model must be like to serve the rules and tables for the
    predicates in [P] *)
Record serves {W} (mods : list (modul W)) (L : lens W rulebase) (tables : W -> string -> option (list (list value)))
    (rules : list folrule) (tab : string -> option (list (list value))) (P : string -> Prop) (w : W) : Prop := {
  sv_core : forall p, In p fol_core -> only_core mods w p;
  sv_rules : forall p, P p -> rules_get p (lget L w) = rules_get p (stored_rules rules);
  sv_tables : forall p, P p -> tables w p = tab p;
  sv_find : forall p, P p -> find_relations mods w p =
      (match rules_get p (stored_rules rules) with
       | Some _ => [mkRel p [] (handle_rule L) None] | None => [] end) ++
      (match tab p with
       | Some _ => [mkRel p [] (table_query tables p) None] | None => [] end)
}.

(** ** two runs *)
Section Runs.
  Context {W1 W2 : Type} (w1 : W1) (w2 : W2).

  (** when the first run returns, so does the second, with a related result;
      neither changes anything *)
  Definition runs {A B} (R : A -> B -> Prop) (m1 : M W1 A) (m2 : M W2 B) : Prop :=
    forall a w', m1 w1 = (Ok a, w') -> w' = w1 /\ exists a', m2 w2 = (Ok a', w2) /\ R a a'.

  Lemma runs_ret {A B} (R : A -> B -> Prop) a b : R a b -> runs R (ret a) (ret b).
  Proof. intros H x w' E. inversion E; subst. split; auto. exists b. auto. Qed.
  Lemma runs_throw {A B} (R : A -> B -> Prop) e m : runs R (throw e) m.
  Proof. intros x w' E. discriminate. Qed.
  Lemma runs_no_fuel {A B} (R : A -> B -> Prop) m : runs R no_fuel m.
  Proof. intros x w' E. discriminate. Qed.
  Lemma runs_bind {A B C D} (R : A -> B -> Prop) (S : C -> D -> Prop) m1 m2 f g :
    runs R m1 m2 -> (forall a b, R a b -> runs S (f a) (g b)) -> runs S (bind m1 f) (bind m2 g).
  Proof.
    intros Hm Hf x w' E. apply bind_ok in E as (a & w & E1 & E2). destruct (Hm _ _ E1) as (-> & b & E3 & HR).
    destruct (Hf a b HR _ _ E2) as (-> & y & E4 & HS). split; auto. exists y. split; auto. now rewrite (bind_ok_intro _ _ _ _ _ E3).
  Qed.
  Lemma runs_get {C D} (S : C -> D -> Prop) f g : runs S (f w1) (g w2) -> runs S (bind get f) (bind get g).
  Proof. intros H x w' E. exact (H x w' E). Qed.
  Lemma runs_or_throw {A} e (o : option A) : runs eq (or_throw e o) (or_throw e o).
  Proof. destruct o; [now apply runs_ret|apply runs_throw]. Qed.
  Lemma runs_weaken {A B} (R S : A -> B -> Prop) m1 m2 : (forall a b, R a b -> S a b) -> runs R m1 m2 -> runs S m1 m2.
  Proof. intros H Hm x w' E. destruct (Hm x w' E) as (-> & b & E2 & HR). split; auto. exists b. auto. Qed.
  Lemma runs_foldM {A A' B B'} (R : A -> A' -> Prop) (S : B -> B' -> Prop) f g l l' :
    Forall2 R l l' -> (forall acc acc' x x', In x l -> S acc acc' -> R x x' -> runs S (f acc x) (g acc' x')) ->
    forall acc acc', S acc acc' -> runs S (foldM f acc l) (foldM g acc' l').
  Proof.
    induction 1 as [|x x' l l' Hx Hl IH]; intros Hf acc acc' HS; cbn [foldM].
    - now apply runs_ret.
    - eapply runs_bind; [apply Hf; eauto; now left|]. intros a b Hab. apply IH; auto. intros. apply Hf; auto. now right.
  Qed.
  Lemma runs_item l i : runs eq (item l i) (item l i).
  Proof. unfold item. destruct (nth_error l i); [now apply runs_ret|apply runs_throw]. Qed.
  Lemma runs_eq_bind {A C D} (S : C -> D -> Prop) m1 m2 f g :
    runs (@eq A) m1 m2 -> (forall a, runs S (f a) (g a)) -> runs S (bind m1 f) (bind m2 g).
  Proof. intros Hm Hf. eapply runs_bind; [exact Hm|]. intros a b <-. apply Hf. Qed.
  Lemma runs_subscript v i : runs eq (subscript v i) (subscript v i).
  Proof.
    unfold subscript. destruct v; try apply runs_throw; try (destruct (nth_error l i); [now apply runs_ret|apply runs_throw]).
    destruct (String.get i s); [now apply runs_ret|apply runs_throw].
  Qed.

  (** results: the same ones, with the further bindings *)
  Definition carried (J : binding) (r r' : sres) : Prop :=
    exists l, r = SList l /\ r' = SList (map (app J) l) /\ Forall (fun x => apart J (keys x)) l.
  Lemma carried_len J r r' : carried J r r' -> sres_len r = sres_len r'.
  Proof. intros (l & -> & -> & _). cbn. now rewrite map_length. Qed.
  Definition carry (J x x' : binding) : Prop := x' = J ++ x /\ apart J (keys x).
  Lemma carried_items J r r' : carried J r r' -> runs (Forall2 (carry J)) (sres_items r) (sres_items r').
  Proof.
    intros (l & -> & -> & H). apply runs_ret. induction H; cbn [map]; constructor; auto. split; auto.
  Qed.
  Lemma carry_list J l l' : Forall2 (carry J) l l' -> l' = map (app J) l /\ Forall (fun x => apart J (keys x)) l.
  Proof.
    induction 1 as [|x x' l l' (-> & Hx) _ (-> & IH)]; cbn; auto.
  Qed.

  Lemma db_values_carry J b args : apart J (arg_vars args) -> db_values (J ++ b) args = db_values b args.
  Proof.
    intros H. apply map_ext_in. intros v Hv. destruct v; auto. cbn. rewrite bget_apart; auto. apply H, in_arg_vars. exact Hv.
  Qed.

  Lemma runs_match v J b args : apart J (arg_vars args) -> forall i r c, apart J (keys r) ->
    runs (fun x x' => fst x' = J ++ fst x /\ snd x' = snd x /\ apart J (keys (fst x)))
      (match_args v b i args r c) (match_args v (J ++ b) i args (J ++ r) c).
  Proof.
    induction args as [|a args IH]; intros Ha i r c Hr; cbn [match_args].
    - apply runs_ret. auto.
    - assert (Hargs : apart J (arg_vars args)).
      { intros x Hx. apply Ha. apply in_arg_vars. right. now apply in_arg_vars. }
      destruct a; try (eapply runs_eq_bind; [apply runs_subscript|intros u; now apply IH]).
      assert (Hx : bget name J = None) by (apply Ha, in_arg_vars; now left).
      rewrite bget_apart by exact Hx. destruct (bget name b).
      + now apply IH.
      + eapply runs_eq_bind; [apply runs_subscript|]. intros u. rewrite bget_apart, bset_apart by exact Hx.
        apply IH; auto. now apply apart_bset.
  Qed.
  Lemma runs_create J b rows args : apart J (arg_vars args) -> apart J (keys b) ->
    runs (Forall2 (carry J)) (create_results rows b args) (create_results rows (J ++ b) args).
  Proof.
    intros Ha Hb. unfold create_results. apply (runs_foldM eq).
    - clear. induction rows; constructor; auto.
    - intros acc acc' x x' _ HS <-. eapply runs_bind; [now apply runs_match|].
      intros [r c] [r' c'] (E1 & E2 & E3). cbn in *. subst. destruct c; apply runs_ret; auto.
      apply Forall2_app; auto. constructor; [split; auto|constructor].
    - constructor.
  Qed.
  Lemma runs_finish J b args o : (forall s k, o <> QIter s k) -> apart J (arg_vars args) -> apart J (keys b) ->
    runs (carried J) (finish args b o) (finish args (J ++ b) o).
  Proof.
    intros Ho Ha Hb. destruct o as [rows|s k|]; [|now destruct (Ho s k)|apply runs_throw]. unfold finish.
    eapply runs_eq_bind.
    - unfold check_first_row. destruct (fold_left add_row rows []) as [|[] ?]; try apply runs_throw; try now apply runs_ret.
      destruct (Nat.eqb _ _); [now apply runs_ret|apply runs_throw].
    - intros _. eapply runs_bind; [now apply runs_create|]. intros l l' H. apply runs_ret.
      apply carry_list in H as (-> & H). exists l. auto.
  Qed.

  Context (mods1 : list (modul W1)) (mods2 : list (modul W2)) (L1 : lens W1 rulebase) (L2 : lens W2 rulebase)
    (tables1 : W1 -> string -> option (list (list value))) (tables2 : W2 -> string -> option (list (list value)))
    (rules : list folrule) (tab : string -> option (list (list value))) (P : string -> Prop).
  Hypothesis H1 : serves mods1 L1 tables1 rules tab P w1.
  Hypothesis H2 : serves mods2 L2 tables2 rules tab P w2.
  (** the predicates in [P] only depend on each other *)
  Hypothesis Hclosed : forall fr, In fr rules -> P (fa_pred (rl_head fr)) -> forall p, In p (preds (rl_body fr)) -> P p.
  Hypothesis Huser : forall p, P p -> user_pred p.

  Definition same_answers (sv1 : solver_if W1) (sv2 : solver_if W2) : Prop := forall q J b,
    (forall p, In p (preds q) -> P p) -> apart J (vars q) -> apart J (keys b) ->
    runs (carried J) (sv_solve sv1 (VList (map fol_value q)) b) (sv_solve sv2 (VList (map fol_value q)) (J ++ b)).

  Section Step.
    Variables (sv1 : solver_if W1) (sv2 : solver_if W2).
    Hypothesis Hsv : same_answers sv1 sv2.

    (** *** rules *)
    Definition hidden (fr : folrule) (J : binding) : binding :=
      filter (fun kv => negb (existsb (String.eqb (fst kv)) (stored_vars fr))) J.
    Lemma filter_app_b {A} (f : A -> bool) l m : filter f (l ++ m) = filter f l ++ filter f m.
    Proof. apply filter_app. Qed.
    Lemma hidden_get fr J x : In x (stored_vars fr) -> bget x (hidden fr J) = None.
    Proof.
      intros H. unfold hidden. rewrite (bget_filter (fun k => negb (existsb (String.eqb k) (stored_vars fr)))).
      assert (E : existsb (String.eqb x) (stored_vars fr) = true) by (apply existsb_exists; exists x; split; auto; apply String.eqb_refl).
      now rewrite E.
    Qed.
    Lemma hidden_keys fr b x : In x (keys (hidden fr b)) -> In x (keys b).
    Proof.
      unfold hidden, keys. rewrite !in_map_iff. intros (kv & <- & H). apply filter_In in H as (H & _). eauto.
    Qed.
    Lemma hidden_none fr J x : bget x J = None -> bget x (hidden fr J) = None.
    Proof.
      intros H. unfold hidden. rewrite (bget_filter (fun k => negb (existsb (String.eqb k) (stored_vars fr)))).
      now destruct (existsb _ _).
    Qed.

    Lemma bind_head_carry J K b hargs : (forall x, In (VVar x) hargs -> bget x K = None) ->
      forall args rb, apart J (arg_vars args) ->
      bind_head (J ++ b) hargs args (K ++ rb) = option_map (app K) (bind_head b hargs args rb) /\
      (apart K (keys rb) -> forall rb', bind_head b hargs args rb = Some rb' -> apart K (keys rb')).
    Proof.
      induction hargs as [|ra hargs IH]; intros HK args rb Ha; cbn [bind_head].
      - split; auto. intros H rb' [= <-]. auto.
      - destruct args as [|v args]; cbn [bind_head].
        + split; auto. intros H rb' [= <-]. auto.
        + assert (Hargs : apart J (arg_vars args)).
          { intros x Hx. apply Ha. apply in_arg_vars. right. now apply in_arg_vars. }
          assert (E : bound_value (J ++ b) v = bound_value b v).
          { destruct v; auto. cbn. rewrite bget_apart; auto. apply Ha, in_arg_vars. now left. }
          rewrite E.
          assert (Keep : forall rb0, bind_head (J ++ b) hargs args (K ++ rb0) = option_map (app K) (bind_head b hargs args rb0) /\
            (apart K (keys rb0) -> forall rb', bind_head b hargs args rb0 = Some rb' -> apart K (keys rb'))).
          { intros rb0. apply IH; auto. intros x Hx. apply HK. now right. }
          destruct ra as [| | | | |x| | | |]; destruct (bound_value b v) as [| | | | | | | | |];
            try (destruct (py_eq _ _)); try apply Keep; try (split; [reflexivity|discriminate]);
               match goal with |- context [bget ?x (K ++ rb)] =>
                 assert (Hx : bget x K = None) by (apply HK; now left);
                 rewrite (bget_apart K x rb Hx), ?(bset_apart K x _ rb Hx);
                 destruct (bget x rb) eqn:Ex; try (destruct (py_eq _ _)); try (split; [reflexivity|discriminate]);
                 match goal with |- context [bset x ?u rb] => destruct (Keep (bset x u rb)) as (Ke & Ka) end;
                 (split; [exact Ke|intros Hb rb' E'; exact (Ka (apart_bset _ _ _ _ Hx Hb) _ E')])
               end.
    Qed.
    Lemma head_row_carry K s hargs : (forall x, In (VVar x) hargs -> bget x K = None) ->
      forall args, head_row (K ++ s) hargs args = head_row s hargs args.
    Proof.
      induction hargs as [|ra hargs IH]; intros HK args; cbn [head_row]; auto. destruct args as [|v args]; auto.
      rewrite IH by (intros x Hx; apply HK; now right).
      destruct v; auto. destruct ra; auto. rewrite bget_apart; auto. apply HK. now left.
    Qed.
    Lemma head_rows_carry K hargs args : (forall x, In (VVar x) hargs -> bget x K = None) ->
      forall l, head_rows (map (app K) l) hargs args = head_rows l hargs args.
    Proof. intros HK l. induction l as [|s l IH]; cbn; auto. now rewrite IH, head_row_carry. Qed.

    Lemma runs_rule fr J b args : In fr rules -> P (fa_pred (rl_head fr)) ->
      apart J (arg_vars args) -> apart J (keys b) ->
      runs eq (solve_rule sv1 (stored_rule fr) args b) (solve_rule sv2 (stored_rule fr) args (J ++ b)).
    Proof.
      intros Hfr Hp Ha Hb x w' E. rewrite fol_rule_unfold in E. rewrite fol_rule_unfold. revert x w' E.
      unfold fol_outer. fold (hidden fr b). rewrite filter_app_b. fold (hidden fr J) (hidden fr b).
      set (K := hidden fr J).
      assert (Hh : forall x, In (VVar x) (fa_args (rl_head fr)) -> bget x K = None).
      { intros x Hx. apply hidden_get. apply in_or_app. left. apply atoms_variables_In. exists (VVar x). cbn. auto. }
      destruct (bind_head_carry J K b _ Hh args (hidden fr b) Ha) as (Eh & Ek).
      rewrite Eh. destruct (bind_head b _ args (hidden fr b)) as [rb|]; cbn [option_map].
      2:{ intros x w' [= <- <-]. split; auto. eexists. split; reflexivity. }
      assert (Hrb : apart K (keys rb)).
      { apply (Ek); auto. intros x Hx. apply hidden_keys in Hx. now apply hidden_none, Hb. }
      match goal with |- forall x w', ?m1 w1 = _ -> _ /\ exists a', ?m2 w2 = _ /\ _ => change (runs eq m1 m2) end.
      eapply runs_bind with (R := Forall2 (carry K)).
      - destruct (rl_body fr) as [|f q] eqn:Eb.
        + apply runs_ret. constructor; [split; auto|constructor].
        + rewrite <- Eb. eapply runs_bind; [apply Hsv|intros r r'; apply carried_items]; auto.
          * now apply Hclosed.
          * intros x Hx. apply hidden_get. apply in_or_app. right. now apply vars_values.
      - intros l l' Hl. apply carry_list in Hl as (-> & _). rewrite head_rows_carry by exact Hh.
        destruct (head_rows l _ args); now apply runs_ret.
    Qed.

    Lemma runs_handle p J b args vals cols : P p -> apart J (arg_vars args) -> apart J (keys b) ->
      runs eq (handle_rule L1 sv1 vals (mkCtx p cols args b)) (handle_rule L2 sv2 vals (mkCtx p cols args (J ++ b))).
    Proof.
      intros Hp Ha Hb. unfold handle_rule. apply runs_get. cbn [c_pred c_args c_binding].
      rewrite (sv_rules _ _ _ _ _ _ _ H1 p Hp), (sv_rules _ _ _ _ _ _ _ H2 p Hp).
      destruct (rules_get p (stored_rules rules)) as [rs|] eqn:Er; [|apply runs_throw].
      eapply runs_eq_bind; [|intros l; now apply runs_ret].
      apply (runs_foldM eq); auto; [clear; induction rs; constructor; auto|].
      intros acc acc' x x' Hx <- <-. eapply runs_eq_bind; [|intros l; now apply runs_ret].
      apply (stored_rules_get _ _ _ Er) in Hx as (fr & Hfr & Ep & ->). apply runs_rule; auto. now rewrite Ep.
    Qed.
    Lemma runs_table p vals c c' : P p ->
      runs eq (table_query tables1 p sv1 vals c) (table_query tables2 p sv2 vals c').
    Proof.
      intros Hp. unfold table_query. apply runs_get.
      rewrite (sv_tables _ _ _ _ _ _ _ H1 p Hp), (sv_tables _ _ _ _ _ _ _ H2 p Hp).
      destruct (tab p); [now apply runs_ret|apply runs_throw].
    Qed.

    Lemma runs_atom a J b : P (fa_pred a) -> apart J (arg_vars (fa_args a)) -> apart J (keys b) ->
      runs (carried J) (solve_single mods1 sv1 (atom_value a) b) (solve_single mods2 sv2 (atom_value a) (J ++ b)).
    Proof.
      intros Hp Ha Hb. destruct a as [p args]. cbn [fa_pred fa_args] in *. unfold solve_single, atom_value. cbn [fa_pred fa_args atom_parts].
      destruct (Huser p Hp) as (_ & Hd & _). apply String.eqb_neq in Hd.
      eapply runs_bind with (R := fun x y => x = (VStr p, args) /\ y = (VStr p, args)); [now apply runs_ret|].
      intros ? ? (-> & ->).
      rewrite Hd. unfold solve_relation.
      assert (D : runs eq (find_relation_values mods1 sv1 p args b) (find_relation_values mods2 sv2 p args (J ++ b)) /\
                  forall s k w', find_relation_values mods1 sv1 p args b w1 <> (Ok (QIter s k), w')).
      { unfold find_relation_values.
        assert (G : forall (rels1 : list (relation W1)) (rels2 : list (relation W2)) many,
          Forall2 (fun r1 r2 => forall vals, runs (fun o o' => o = o' /\ forall s k, o <> QIter s k)
            (r_query r1 sv1 vals (mkCtx (r_pred r1) (r_cols r1) args b)) (r_query r2 sv2 vals (mkCtx (r_pred r2) (r_cols r2) args (J ++ b)))) rels1 rels2 ->
          forall vals rows, runs (fun o o' => o = o' /\ forall s k, o <> QIter s k)
            (collect_rows sv1 many rels1 vals args b rows) (collect_rows sv2 many rels2 vals args (J ++ b) rows)).
        { intros rels1 rels2 many. induction 1 as [|r1 r2 rels1 rels2 Hr Hrels IH]; intros vals rows; cbn [collect_rows].
          - apply runs_ret. split; auto. discriminate.
          - eapply runs_bind; [apply Hr|]. intros o o' (<- & No). destruct o as [out|s k|]; [apply IH|now destruct (No s k)|apply runs_throw]. }
        assert (Q : runs (fun o o' => o = o' /\ forall s k, o <> QIter s k)
          (bind get (fun w => match find_relations mods1 w p with
             | [] => throw (no_relation p)
             | _ => collect_rows sv1 (Nat.ltb 1 (length (find_relations mods1 w p))) (find_relations mods1 w p) (db_values b args) args b [] end))
          (bind get (fun w => match find_relations mods2 w p with
             | [] => throw (no_relation p)
             | _ => collect_rows sv2 (Nat.ltb 1 (length (find_relations mods2 w p))) (find_relations mods2 w p) (db_values (J ++ b) args) args (J ++ b) [] end))).
        { apply runs_get. rewrite db_values_carry by exact Ha.
          rewrite (sv_find _ _ _ _ _ _ _ H1 p Hp), (sv_find _ _ _ _ _ _ _ H2 p Hp).
          assert (Rh : forall vals, runs (fun o o' => o = o' /\ forall s k, o <> QIter s k)
            (handle_rule L1 sv1 vals (mkCtx p [] args b)) (handle_rule L2 sv2 vals (mkCtx p [] args (J ++ b)))).
          { intros vals o w' E. destruct (runs_handle p J b args vals [] Hp Ha Hb o w' E) as (-> & o' & E' & <-). split; auto.
            exists o. split; auto. split; auto. intros s k ->. unfold handle_rule in E. apply bind_ok in E as (? & ? & _ & E).
            destruct (rules_get _ _); [|discriminate]. apply bind_ok in E as (? & ? & _ & E). discriminate. }
          assert (Rt : forall vals, runs (fun o o' => o = o' /\ forall s k, o <> QIter s k)
            (table_query tables1 p sv1 vals (mkCtx p [] args b)) (table_query tables2 p sv2 vals (mkCtx p [] args (J ++ b)))).
          { intros vals o w' E. destruct (runs_table p vals _ (mkCtx p [] args (J ++ b)) Hp o w' E) as (-> & o' & E' & <-). split; auto.
            exists o. split; auto. split; auto. intros s k ->. unfold table_query in E. apply bind_ok in E as (? & ? & _ & E).
            destruct (tables1 _ _); discriminate. }
          destruct (rules_get p (stored_rules rules)), (tab p); cbn [app]; try apply runs_throw; apply G;
            repeat (constructor; auto). }
        split.
        - eapply runs_weaken; [|exact Q]. cbn. tauto.
        - intros s k w' E. destruct (Q _ _ E) as (_ & o & _ & _ & No). now destruct (No s k). }
      destruct D as (D & No). intros r w' E. apply bind_ok in E as (o & w0 & E & E').
      destruct (D _ _ E) as (-> & o' & E2 & <-). rewrite (bind_ok_intro _ _ _ _ _ E2). revert r w' E'.
      destruct o as [rows|s k|]; [|now destruct (No s k w1)|intros ? ? ?; discriminate].
      match goal with |- forall x w', ?m1 w1 = _ -> _ /\ exists a', ?m2 w2 = _ /\ _ => change (runs (carried J) m1 m2) end.
      eapply runs_eq_bind.
      - unfold check_first_row. destruct rows as [|[] ?]; try apply runs_throw; try now apply runs_ret.
        destruct (Nat.eqb _ _); [now apply runs_ret|apply runs_throw].
      - intros _. eapply runs_bind; [now apply runs_create|]. intros l l' H. apply runs_ret.
        apply carry_list in H as (-> & H). exists l. auto.
    Qed.

    (** *** the predicates of the core module *)
    Lemma single_core {W} (mods : list (modul W)) (sv : solver_if W) p q args b (w : W) :
      only_core mods w p -> table_get p core_table = Some q -> p <> DISJUNCTION ->
      solve_single mods sv (VTuple (VStr p :: args)) b w =
      bind (q sv (db_values b args) (mkCtx p [] args b)) (finish args b) w.
    Proof.
      intros (ms & -> & Hms) Ht Hp. unfold solve_single, atom_parts. unfold bind at 1. cbn [ret].
      apply String.eqb_neq in Hp. rewrite Hp. unfold solve_relation, find_relation_values, get.
      assert (Hf : find_relations (core_module :: ms) w p = [mkRel p [] q None]).
      { unfold find_relations. simpl. unfold core_module at 1. rewrite Ht. f_equal.
        clear -Hms. induction ms as [|m ms IH]; simpl; auto.
        rewrite (Hms m (or_introl eq_refl)). apply IH. intros; apply Hms; now right. }
      unfold bind at 1 2. rewrite Hf. cbn [collect_rows length Nat.ltb Nat.leb r_query r_pred r_cols].
      unfold bind.
      destruct (q sv (db_values b args) _ w) as [[[rows|s k|]|e|] w0]; reflexivity.
    Qed.

    Definition plain_rows (o o' : qres) : Prop := o = o' /\ forall s k, o <> QIter s k.
    Lemma runs_rows l : runs plain_rows (rows l) (rows l).
    Proof. apply runs_ret. split; auto. discriminate. Qed.

    Lemma runs_core p q1 q2 args J b : In p fol_core ->
      table_get p core_table = Some q1 -> table_get p core_table = Some q2 ->
      apart J (arg_vars args) -> apart J (keys b) ->
      runs plain_rows (q1 sv1 (db_values b args) (mkCtx p [] args b)) (q2 sv2 (db_values b args) (mkCtx p [] args (J ++ b))) ->
      runs (carried J) (solve_single mods1 sv1 (VTuple (VStr p :: args)) b) (solve_single mods2 sv2 (VTuple (VStr p :: args)) (J ++ b)).
    Proof.
      intros Hp Hq1 Hq2 Ha Hb Hq r w' E.
      assert (Hd : p <> DISJUNCTION) by (intros ->; revert Hp; clear; cbn; intuition discriminate).
      rewrite (single_core _ _ _ q1) in E by (auto; now apply (sv_core _ _ _ _ _ _ _ H1)).
      rewrite (single_core _ _ _ q2) by (auto; now apply (sv_core _ _ _ _ _ _ _ H2)).
      rewrite db_values_carry by exact Ha. revert r w' E.
      match goal with |- forall x w', ?m1 w1 = _ -> _ /\ exists a', ?m2 w2 = _ /\ _ => change (runs (carried J) m1 m2) end.
      eapply runs_bind; [exact Hq|]. intros o o' (<- & No). now apply runs_finish.
    Qed.

    Lemma runs_body {C D} (S : C -> D -> Prop) q J b f g :
      (forall p, In p (preds q) -> P p) -> apart J (vars q) -> apart J (keys b) ->
      (forall r r', carried J r r' -> runs S (f r) (g r')) ->
      runs S (bind (sv_solve sv1 (VList (map fol_value q)) b) f) (bind (sv_solve sv2 (VList (map fol_value q)) (J ++ b)) g).
    Proof. intros Hp Hv Hb Hf. eapply runs_bind; [now apply Hsv|exact Hf]. Qed.

    Lemma runs_value v : runs eq (ret v : M W1 value) (ret v).
    Proof. now apply runs_ret. Qed.

    Lemma runs_fol f J b : (forall p, In p (fol_preds f) -> P p) -> apart J (fol_vars f) -> apart J (keys b) ->
      runs (carried J) (solve_single mods1 sv1 (fol_value f) b) (solve_single mods2 sv2 (fol_value f) (J ++ b)).
    Proof.
      intros Hp Hv Hb. destruct f as [a|t u|less t u|none q|q|alts|x range body|x q|c k q]; cbn [fol_preds fol_vars fol_value] in *.
      - apply runs_atom; auto. apply Hp. now left.
      - eapply runs_core; auto; try reflexivity; [cbn; tauto|].
        unfold q_equals. eapply runs_eq_bind; [apply runs_item|intros e1]. eapply runs_eq_bind; [apply runs_item|intros e2].
        destruct (is_none e1), (is_none e2); try destruct (py_eq e1 e2); try apply runs_throw; apply runs_rows.
      - destruct less.
        + eapply runs_core; auto; try reflexivity; [cbn; tauto|].
          unfold q_less_than. eapply runs_eq_bind; [apply runs_item|intros e1]. eapply runs_eq_bind; [apply runs_item|intros e2].
          destruct (is_none e1), (is_none e2); try apply runs_throw.
          eapply runs_eq_bind; [apply runs_or_throw|intros []]; apply runs_rows.
        + eapply runs_core; auto; try reflexivity; [cbn; tauto|].
          unfold q_greater_than. eapply runs_eq_bind; [apply runs_item|intros e1]. eapply runs_eq_bind; [apply runs_item|intros e2].
          destruct (is_none e1), (is_none e2); try apply runs_throw.
          eapply runs_eq_bind; [apply runs_or_throw|intros []]; apply runs_rows.
      - assert (Ha : apart J (arg_vars [VList (map fol_value q)])) by (intros ? []).
        destruct none; (eapply runs_core; auto; try reflexivity; [cbn; tauto|]);
          (apply runs_body; auto; intros r r' Hr; rewrite (carried_len _ _ _ Hr); destruct (sres_len r'); apply runs_rows).
      - assert (Ha : apart J (arg_vars [VList (map fol_value q)])) by (intros ? []).
        eapply runs_core; auto; try reflexivity; [cbn; tauto|].
        apply runs_body; auto; intros r r' Hr; rewrite (carried_len _ _ _ Hr); destruct (sres_len r'); apply runs_rows.
      - unfold solve_single, atom_parts.
        eapply runs_bind with (R := fun x y => x = y /\ x = (VStr DISJUNCTION, [VList (map (fun q => VList (map fol_value q)) alts)]));
          [now apply runs_ret|]. intros ? ? (<- & ->). cbn [String.eqb Ascii.eqb Bool.eqb DISJUNCTION solve_disjunction].
        induction alts as [|q alts IH]; cbn [map solve_disjuncts flat_map] in *.
        + apply runs_ret. exists []. auto.
        + apply apart_app in Hv as (Hv1 & Hv2).
          apply runs_body; auto; [intros p Hq; apply Hp, in_or_app; auto|].
          intros r r' Hr. rewrite <- (carried_len _ _ _ Hr). destruct (sres_len r); [|now apply runs_ret].
          apply IH; auto. intros p Hq. apply Hp, in_or_app. auto.
      - change (apart J ([x] ++ flat_map fol_vars range ++ flat_map fol_vars body)) in Hv.
        apply apart_app in Hv as (Hx & Hv). apply apart_app in Hv as (Hv1 & Hv2).
        assert (Hx' : bget x J = None) by (apply Hx; now left).
        eapply runs_core; auto; try reflexivity; [cbn; tauto|]. unfold q_all. cbn [c_args c_binding].
        eapply runs_bind with (R := fun a c => a = VVar x /\ c = VVar x); [now apply runs_ret|]. intros ? ? (-> & ->).
        eapply runs_bind with (R := fun a c => a = VList (map fol_value range) /\ c = VList (map fol_value range)); [now apply runs_ret|].
        intros ? ? (-> & ->).
        eapply runs_bind with (R := fun a c => a = VList (map fol_value body) /\ c = VList (map fol_value body)); [now apply runs_ret|].
        intros ? ? (-> & ->).
        apply runs_body; auto; [intros p Hq; apply Hp, in_or_app; auto|]. intros r r' Hr.
        eapply runs_bind; [apply (carried_items _ _ _ Hr)|]. intros l l' Hl.
        eapply runs_eq_bind.
        { apply (runs_foldM (carry J) eq); auto. intros acc acc' y y' _ <- (-> & Hy). unfold entity_of.
          eapply runs_bind with (R := fun a c => a = x /\ c = x); [now apply runs_ret|]. intros ? ? (-> & ->).
          unfold lookup. rewrite bget_apart by exact Hx'.
          destruct (bget x y) as [u|]; [|intros ? ? ?; discriminate]. eapply runs_eq_bind; [now apply runs_ret|]. intros v. now apply runs_ret. }
        intros es. eapply runs_eq_bind.
        { apply (runs_foldM eq eq); auto; [clear; induction es; constructor; auto|].
          intros acc acc' y y' _ <- <-. unfold oset_add. destruct (hashable y); [now apply runs_ret|apply runs_throw]. }
        intros ents. eapply runs_eq_bind.
        { apply (runs_foldM eq eq); auto; [clear; induction ents; constructor; auto|].
          intros acc acc' y y' _ <- <-. unfold all_step.
          eapply runs_bind with (R := fun a c => a = x /\ c = x); [now apply runs_ret|]. intros ? ? (-> & ->).
          rewrite bset_apart by exact Hx'. apply runs_body; auto; [intros p Hq; apply Hp, in_or_app; auto|now apply apart_bset|].
          intros r0 r0' Hr0. rewrite (carried_len _ _ _ Hr0). destruct (sres_len r0'); [now apply runs_ret|].
          unfold oset_add. destruct (hashable y); [now apply runs_ret|apply runs_throw]. }
        intros res. destruct (Nat.eqb _ _); apply runs_rows.
      - change (apart J ([x] ++ flat_map fol_vars q)) in Hv. apply apart_app in Hv as (Hx & Hv).
        eapply runs_core; auto; try reflexivity; [cbn; tauto|].
        unfold q_count. cbn [c_args c_binding].
        eapply runs_bind with (R := fun a c => a = VList (map fol_value q) /\ c = VList (map fol_value q)); [now apply runs_ret|].
        intros ? ? (-> & ->). apply runs_body; auto. intros r r' Hr. rewrite (carried_len _ _ _ Hr). apply runs_rows.
      - assert (Ha : apart J (arg_vars [VList (map fol_value q); VInt k])) by (intros ? []).
        destruct c; (eapply runs_core; auto; try reflexivity; [cbn; tauto|]);
          unfold q_det_equals, q_det_less_than, q_det_greater_than, q_det;
          (eapply runs_bind with (R := fun a c => a = c /\ a = (VList (map fol_value q), VInt k)); [now apply runs_ret|]);
          intros ? ? (<- & ->); (apply runs_body; auto; intros r r' Hr; rewrite (carried_len _ _ _ Hr));
          (eapply runs_eq_bind; [apply runs_or_throw|intros []]; apply runs_rows).
    Qed.

    Lemma runs_atoms q : forall J b, (forall p, In p (preds q) -> P p) -> apart J (vars q) -> apart J (keys b) ->
      runs (carried J) (solve_atoms mods1 sv1 (map fol_value q) b) (solve_atoms mods2 sv2 (map fol_value q) (J ++ b)).
    Proof.
      induction q as [|f q IH]; intros J b Hp Hv Hb; cbn [map solve_atoms].
      - apply runs_ret. exists [b]. auto.
      - cbn [preds vars flat_map] in *. apply apart_app in Hv as (Hv1 & Hv2).
        assert (Hf : forall p, In p (fol_preds f) -> P p) by (intros p Hq; apply Hp, in_or_app; auto).
        destruct q as [|f' q]; cbn [map]; [now apply runs_fol|].
        eapply runs_bind; [now apply runs_fol|]. intros r r' Hr.
        eapply runs_bind; [apply (carried_items _ _ _ Hr)|]. intros l l' Hl.
        eapply runs_bind with (R := Forall2 (carry J)).
        + apply (runs_foldM (carry J) (Forall2 (carry J))); auto. intros acc acc' y y' _ Hacc (-> & Hy).
          eapply runs_bind; [apply (IH J); auto; intros p Hq; apply Hp, in_or_app; auto|]. intros r0 r0' Hr0.
          eapply runs_bind; [apply (carried_items _ _ _ Hr0)|]. intros l0 l0' Hl0. apply runs_ret.
          apply carry_list in Hl0 as (-> & Hl0). apply carry_list in Hacc as (-> & Hacc).
          destruct (add_carry J l0 Hl0 acc Hacc) as (-> & Hall). revert Hall. clear.
          generalize (fold_left add_binding l0 acc). induction 1; cbn [map]; constructor; auto. split; auto.
        + intros l0 l0' Hl0. apply runs_ret. apply carry_list in Hl0 as (-> & Hl0). exists l0. auto.
    Qed.
  End Step.

  Theorem solver_same_answers n : same_answers (solver_at mods1 n) (solver_at mods2 n).
  Proof.
    induction n as [|n IH]; intros q J b Hp Hv Hb; cbn [solver_at sv_solve]; [apply runs_no_fuel|].
    unfold solve_F. now apply runs_atoms.
  Qed.
End Runs.
