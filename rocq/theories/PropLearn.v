(** * Property C45: rules that are learned hold from then on *)

From Coq Require Import ZArith String List Bool Lia Arith.
From Verif Require Import Py PyFacts ReprProofs Effects EffectsFacts Atoms AtomsFacts Solver SolverSpec
  SolverProofs SolverProofs2 MatchProofs CoreModule CoreSpec CoreProofs3 InferenceModule TableModule
  DatalogSpec DatalogProofs DatalogProofs2 FolSpec FolProofs FolProofs2 FolProofs3 FolProofs4 FolProofs5
  ExampleWorld PropDatalog PropFol LearnProofs.
Import ListNotations.
Local Open Scope nat_scope.
Local Open Scope string_scope.
Local Open Scope list_scope.

(** [learn_rule] is provided by the inference module, and by no other *)
Definition learns {W} (L : lens W rulebase) (mods : list (modul W)) (w : W) : Prop :=
  find_relations mods w "learn_rule" = [mkRel "learn_rule" [] (learn_rule L) None].

Definition learn_atom (head body : value) : value := VTuple [VStr "learn_rule"; head; body].

Lemma learn_rule_run W (L : lens W rulebase) sv (w : W) p args body c : valid_predicate p = true ->
  learn_rule L sv [VTuple (VStr p :: args); body] c w =
    (Ok (QRows [VList [VNone; VNone]]),
     lset L (rules_add p (mkRule (VStr p :: map (fun a => bind_variables a (c_binding c)) args)
       (bind_variables body (c_binding c))) (lget L w)) w).
Proof.
  intros Hp. unfold learn_rule, unpack2, Effects.bind, ret, insert_rule. cbn [map bind_variables ru_head].
  rewrite Hp. reflexivity.
Qed.

(** learning a rule: one answer, which binds nothing; the rule is put behind
    the other rules for the predicate, with the values that are known filled
    in in its head and its body; nothing else changes *)
Theorem C45_learning_adds_the_rule :
  forall (W : Type) (L : lens W rulebase) mods (w : W) n p args body args' body' b,
    learns L mods w -> valid_predicate p = true ->
    Forall2 (substituted b) args args' -> Forall2 (substituted b) body body' ->
    solve mods (S n) (VList [learn_atom (VTuple (VStr p :: args)) (VList body)]) b w =
      (Ok (SList [b]), lset L (rules_add p (mkRule (VStr p :: args') (VList body')) (lget L w)) w).
Proof.
  intros W L mods w n p args body args' body' b Hl Hp Ha Hb.
  apply substituted_bind_list in Ha. apply substituted_bind_list in Hb.
  unfold solve, learn_atom. cbn [solver_at sv_solve solve_F solve_atoms].
  unfold solve_single. cbn. unfold solve_relation, find_relation_values, Effects.bind, get.
  rewrite Hl. cbn -[learn_rule]. unfold Effects.bind. rewrite learn_rule_run by exact Hp.
  cbn [c_binding bind_variables]. rewrite Ha, Hb. reflexivity.
Qed.
Print Assumptions C45_learning_adds_the_rule.

Definition is_ok {A} (o : outcome A) : bool := match o with Ok _ => true | _ => false end.

Lemma create_nones W (b : binding) a1 a2 (w : W) :
  exists rs, create_results [VList [VNone; VNone]] b [a1; a2] w = (Ok rs, w).
Proof.
  assert (M : forall i args r c (w' : W), i + length args <= 2 ->
    exists x, match_args (VList [VNone; VNone]) b i args r c w' = (Ok x, w')).
  { intros i args r c w'. revert i r c. induction args as [|a args IH]; intros i r c Hi.
    - exists (r, c). reflexivity.
    - cbn [length] in Hi.
      assert (Hs : subscript (W := W) (VList [VNone; VNone]) i = ret VNone).
      { destruct i as [|[|i]]; [reflexivity|reflexivity|lia]. }
      destruct a; cbn [match_args]; rewrite ?Hs; unfold Effects.bind, ret;
        try (match goal with |- context [bget ?x b] => destruct (bget x b) end); apply IH; lia. }
  destruct (M 0 [a1; a2] b false w) as ([r c] & E); auto.
  unfold create_results. cbn [foldM]. unfold Effects.bind. rewrite E. destruct c; eexists; reflexivity.
Qed.

(** when learning fails, for whatever arguments, nothing has changed *)
Theorem C45_refused_rules_change_nothing :
  forall (W : Type) (L : lens W rulebase) mods (w : W) n args b,
    learns L mods w ->
    let out := solve mods (S n) (VList [VTuple (VStr "learn_rule" :: args)]) b w in
    is_ok (fst out) = false -> snd out = w.
Proof.
  intros W L mods w n args b Hl. cbv zeta.
  unfold solve. cbn [solver_at sv_solve solve_F solve_atoms].
  unfold solve_single. cbn. unfold solve_relation, find_relation_values, Effects.bind, get.
  rewrite Hl. cbn.
  destruct args as [|a1 [|a2 [|a3 args]]]; try (intros _; reflexivity). 
  unfold learn_rule, unpack2, Effects.bind, ret. cbn [c_binding db_values map].
  destruct (db_value b a1) as [| | | | | | |h| |]; try (intros _; reflexivity).
  unfold insert_rule. cbn [ru_head]. destruct h as [|p h]; [intros _; reflexivity|]. cbn [map].
  destruct (bind_variables p b); try (intros _; reflexivity). destruct (valid_predicate s); [|intros _; reflexivity].
  cbn -[create_results]. destruct (create_nones W b a1 a2 (lset L
    (rules_add s (mkRule (VStr s :: map (fun a0 => bind_variables a0 b) h)
       (bind_variables (db_value b a2) b)) (lget L w)) w)) as (rs & E).
  rewrite E. discriminate.
Qed.
Print Assumptions C45_refused_rules_change_nothing.

(** ** what is true after a rule has been learned *)

(** the rule as it was given, in a situation where the variables of [b] have
    a value: [completed] with one rule more, whose body is only asked to be
    true for assignments that agree with [b] *)
Definition completed_with (db : string -> list (list value)) (rules : list folrule) (b : binding) (r : folrule)
    (ext : string -> list value -> Prop) : Prop :=
  forall p t, ext p t <->
    In t (db p) \/
    (exists r' s, In r' rules /\ const_assignment s /\ all_hold ext [] (rl_body r') s /\
      fa_pred (rl_head r') = p /\ t = map (inst s) (fa_args (rl_head r'))) \/
    (exists s, const_assignment s /\ agrees s b /\ all_hold ext (keys b) (rl_body r) s /\
      fa_pred (rl_head r) = p /\ t = map (inst s) (fa_args (rl_head r))).

(** the body gives a value to the variables of the head that have none *)
Definition learnable (arity : string -> nat) (b : binding) (r : folrule) : Prop :=
  valid_predicate (fa_pred (rl_head r)) = true /\ flat_atom arity (rl_head r) /\
  wfs (flat_atom arity) (arg_vars (fa_args (rl_head r))) (keys b) (rl_body r) /\
  incl (arg_vars (fa_args (rl_head r))) (keys b ++ binds (rl_body r)).

(** the atom that teaches the rule *)
Definition teach (r : folrule) : value := VList [learn_atom (atom_value (rl_head r)) (query_of (rl_body r))].

Definition filled (b : binding) (r : folrule) : folrule :=
  mkFolRule (fill_atom b (rl_head r)) (map (fill b) (rl_body r)).

Lemma fill_flat_atom arity b a : const_binding b -> flat_atom arity a -> flat_atom arity (fill_atom b a).
Proof.
  intros Hb (H1 & H2 & H3). split; auto. split; [simpl; now rewrite map_length|].
  intros v Hv. apply in_map_iff in Hv as (u & <- & Hu). apply fill_flat; auto.
Qed.
Lemma flat_atom_arg arity a v : flat_atom arity a -> In v (fa_args a) -> flat_arg v.
Proof. intros (_ & _ & H). apply H. Qed.
Lemma beside_nil b : beside b (keys b) [].
Proof. intros x. simpl. tauto. Qed.

Lemma filled_good arity b r : const_binding b -> learnable arity b r -> good_rule (flat_atom arity) (filled b r).
Proof.
  intros Hb (_ & Hh & Hw & Hi). split; [now apply fill_flat_atom|]. cbn [filled rl_head rl_body fill_atom fa_args].
  rewrite fill_arg_vars by exact Hb. split.
  - eapply fill_wfs; [exact Hb| |apply beside_nil|exact Hw]. intros a. now apply fill_flat_atom.
  - rewrite (fill_bindss b Hb (flat_atom arity) _ (rl_body r) (keys b) [] (beside_nil b) Hw).
    intros x Hx. apply filter_In in Hx as [Hx Hf]. apply filter_In. split; auto.
    apply Hi, in_app_iff in Hx as [Hx|Hx]; auto. apply free_keys in Hf. contradiction.
Qed.

Lemma given_same b s : agrees s b -> forall x, given b s x = s x.
Proof. intros H x. unfold given. destruct (bget x b) eqn:E; auto. symmetry. now apply H. Qed.

Lemma filled_completed arity db rules b r ext : const_binding b -> learnable arity b r ->
  completed_with db rules b r ext <-> completed db (rules ++ [filled b r]) ext.
Proof.
  intros Hb (_ & Hh & Hw & _).
  assert (HGA : forall a, flat_atom arity a -> flat_atom arity (fill_atom b a)) by (intros a; now apply fill_flat_atom).
  assert (G : forall p t,
    (exists s, const_assignment s /\ agrees s b /\ all_hold ext (keys b) (rl_body r) s /\
      fa_pred (rl_head r) = p /\ t = map (inst s) (fa_args (rl_head r))) <->
    (exists s, const_assignment s /\ all_hold ext [] (rl_body (filled b r)) s /\
      fa_pred (rl_head (filled b r)) = p /\ t = map (inst s) (fa_args (rl_head (filled b r))))).
  { intros p t. cbn [filled rl_head rl_body fill_atom fa_pred fa_args].
    split.
    - intros (s & Hs & Ha & Hbd & Hp & ->). exists s. split; auto.
      pose proof (given_same b s Ha) as E. split; [|split; auto].
      + eapply fills_mean; [exact Hb|apply beside_nil|exact Hw|exact Hs|].
        eapply all_hold_pointwise; [exact Hw|exact Hs|now apply given_const| |exact Hbd]. intros x. auto.
      + rewrite fill_insts by exact Hb. apply map_ext. intros v. destruct v; auto. simpl. auto.
    - intros (s & Hs & Hbd & Hp & ->). exists (given b s). split; [now apply given_const|].
      split; [apply given_agrees|]. split; [|split; auto].
      + eapply fills_mean in Hbd; [exact Hbd|exact Hb|apply beside_nil|exact Hw|exact Hs].
      + now apply fill_insts. }
  assert (E : forall p t,
    (exists r' s, In r' (rules ++ [filled b r]) /\ const_assignment s /\ all_hold ext [] (rl_body r') s /\
      fa_pred (rl_head r') = p /\ t = map (inst s) (fa_args (rl_head r'))) <->
    (exists r' s, In r' rules /\ const_assignment s /\ all_hold ext [] (rl_body r') s /\
      fa_pred (rl_head r') = p /\ t = map (inst s) (fa_args (rl_head r'))) \/
    (exists s, const_assignment s /\ agrees s b /\ all_hold ext (keys b) (rl_body r) s /\
      fa_pred (rl_head r) = p /\ t = map (inst s) (fa_args (rl_head r)))).
  { intros p t. rewrite G. split.
    - intros (r' & s & Hr & Hx). apply in_app_iff in Hr as [Hr|[<-|[]]]; [left; eauto|right; eauto].
    - intros [(r' & s & Hr & Hx)|(s & Hx)].
      + exists r', s. split; [apply in_app_iff; auto|exact Hx].
      + exists (filled b r), s. split; [apply in_app_iff; simpl; auto|exact Hx]. }
  unfold completed_with, completed. split; intros H p t; rewrite (H p t), E; tauto.
Qed.

Lemma stored_rules_snoc rules r :
  stored_rules (rules ++ [r]) = rules_add (fa_pred (rl_head r)) (stored_rule r) (stored_rules rules).
Proof. unfold stored_rules. now rewrite fold_left_app. Qed.

(** what the system stores is the rule with the values filled in *)
Lemma teach_run W (L : lens W rulebase) tables arity rules (w : W) n b r :
  good_program L tables arity rules w -> const_binding b -> learnable arity b r ->
  solve (model L tables) (S n) (teach r) b w =
    (Ok (SList [b]), lset L (stored_rules (rules ++ [filled b r])) w).
Proof.
  intros (Ht & Hn & Hr & Hg) Hb (Hp & Hh & Hw & Hi).
  assert (HL : learns L (model L tables) w).
  { unfold learns, find_relations, model. cbn [find_relations_in].
    assert (C : core_module w "learn_rule" = None) by reflexivity. rewrite C.
    unfold inference_module. rewrite Hr, stored_rules_none.
    - cbn. unfold table_module. destruct (tables w "learn_rule") eqn:E; auto.
      destruct (Hn "learn_rule") as (_ & _ & F); congruence.
    - intros fr Hfr. destruct (Hg fr Hfr) as ((( _ & _ & F) & _) & _). exact F. }
  unfold teach, atom_value, query_of.
  erewrite (C45_learning_adds_the_rule W L (model L tables) w n (fa_pred (rl_head r)) (fa_args (rl_head r))
    (map fol_value (rl_body r)) (map (fun a => bind_variables a b) (fa_args (rl_head r)))
    (map (fun a => bind_variables a b) (map fol_value (rl_body r))) b HL Hp).
  - f_equal. f_equal. rewrite Hr, stored_rules_snoc. unfold stored_rule. cbn [filled rl_head rl_body fill_atom fa_pred fa_args].
    rewrite (bind_args b (fa_args (rl_head r))) by (intros v; now apply (flat_atom_arg arity)).
    rewrite (bind_fills b Hb (flat_atom arity) (arg_vars (fa_args (rl_head r))) (flat_atom_arg arity)
      (rl_body r) (keys b) [] (beside_nil b) Hw). reflexivity.
  - clear. induction (fa_args (rl_head r)); constructor; auto using bind_substituted.
  - clear. induction (map fol_value (rl_body r)); constructor; auto using bind_substituted.
Qed.

Lemma taught_good W (L : lens W rulebase) tables arity rules (w : W) b r :
  lens_ok L -> (forall rb p, tables (lset L rb w) p = tables w p) ->
  good_program L tables arity rules w -> const_binding b -> learnable arity b r ->
  good_program L tables arity (rules ++ [filled b r]) (lset L (stored_rules (rules ++ [filled b r])) w).
Proof.
  intros HL Hf (Ht & Hn & Hr & Hg) Hb Hl. split; [|split; [|split]].
  - intros p rows H. rewrite Hf in H. eapply Ht; eauto.
  - intros p H. rewrite Hf in H. auto.
  - apply lens_get_set. exact HL.
  - intros r' Hr'. apply in_app_iff in Hr' as [Hr'|[<-|[]]]; auto. now apply filled_good.
Qed.
Lemma completed_same db db' rules ext : (forall p, db p = db' p) -> completed db rules ext -> completed db' rules ext.
Proof. intros E H p t. rewrite (H p t), E. tauto. Qed.

(** a predicate must be a word: why a rule is refused *)
Theorem C45_predicates_are_words :
  forall (W : Type) (L : lens W rulebase) mods (w : W) n p args args' body body' b,
    learns L mods w -> valid_predicate p = false ->
    Forall2 (substituted b) args args' -> Forall2 (substituted b) body body' ->
    solve mods (S n) (VList [learn_atom (VTuple (VStr p :: args)) (VList body)]) b w = (Exn (Raise "Predicate is not a word"), w).
Proof.
  intros W L mods w n p args args' body body' b Hl Hp Ha Hb.
  unfold solve, learn_atom. cbn [solver_at sv_solve solve_F solve_atoms].
  unfold solve_single. cbn. unfold solve_relation, find_relation_values, Effects.bind, get.
  rewrite Hl. cbn -[learn_rule]. unfold Effects.bind. unfold learn_rule. cbn -[insert_rule valid_predicate].
  unfold insert_rule. cbn -[valid_predicate]. rewrite Hp. reflexivity.
Qed.
Print Assumptions C45_predicates_are_words.

(** a learned rule holds from then on: every later query is answered as the
    tables, the old rules and the new rule say, the latter read with the
    values that its variables had when it was learned *)
Theorem C45_learned_rules_hold :
  forall (W : Type) (L : lens W rulebase) tables arity rules (w : W) n b r,
    lens_ok L -> (forall rb p, tables (lset L rb w) p = tables w p) ->
    good_program L tables arity rules w -> const_binding b -> learnable arity b r ->
    exists w', solve (model L tables) (S n) (teach r) b w = (Ok (SList [b]), w') /\
      (forall p, tables w' p = tables w p) /\
      forall ext, completed_with (db_of tables w) rules b r ext ->
        forall m q c res w'', wfs (flat_atom arity) [] (keys c) q -> const_binding c ->
          solve (model L tables) m (query_of q) c w' = (Ok res, w'') ->
          w'' = w' /\ exists l, res = SList l /\ right_answers ext q c l.
Proof.
  intros W L tables arity rules w n b r HL Hf Hg Hb Hl.
  eexists. split; [eapply teach_run; eauto|]. split; [intros p; apply Hf|].
  intros ext He m q c res w'' Hq Hc Hs.
  eapply (C44_first_order_queries_exact W L tables arity (rules ++ [filled b r])); eauto using taught_good.
  apply (filled_completed arity) in He; auto. eapply completed_same; [|exact He].
  intros p. unfold db_of. now rewrite Hf.
Qed.
Print Assumptions C45_learned_rules_hold.

(** without recursion, and when the sorts of the columns fit, there is one
    such interpretation, and every later query is answered *)
Theorem C45_queries_after_learning_are_answered :
  forall (W : Type) (L : lens W rulebase) tables arity rules (w : W) n b r rank sig env env' q c,
    lens_ok L -> (forall rb p, tables (lset L rb w) p = tables w p) ->
    good_program L tables arity rules w -> const_binding b -> learnable arity b r ->
    hierarchical rank (rules ++ [r]) -> all_known tables (rules ++ [r]) w q ->
    (forall p t, In t (db_of tables w p) -> Forall2 of_sort (sig p) t) ->
    (forall r', In r' rules -> sorted_rule sig r') ->
    sorted sig env (FAtom (rl_head r)) -> all_sorted sig env (rl_body r) ->
    (forall x v, bget x b = Some v -> of_sort (env x) v) ->
    wfs (flat_atom arity) [] (keys c) q -> const_binding c ->
    all_sorted sig env' q -> (forall x v, bget x c = Some v -> of_sort (env' x) v) ->
    exists w' ext, solve (model L tables) (S n) (teach r) b w = (Ok (SList [b]), w') /\
      completed_with (db_of tables w) rules b r ext /\
      (forall ext', completed_with (db_of tables w) rules b r ext' -> forall p t, ext' p t <-> ext p t) /\
      exists n0, forall m, n0 <= m -> exists l,
        solve (model L tables) m (query_of q) c w' = (Ok (SList l), w') /\ right_answers ext q c l.
Proof.
  intros W L tables arity rules w n b r rank sig env env' q c HL Hf Hg Hb Hl Hrank Hk Hdb Hsr Hsh Hsb Hse Hq Hc Hsq Hsc.
  set (w' := lset L (stored_rules (rules ++ [filled b r])) w).
  assert (Hpr : preds (rl_body (filled b r)) = preds (rl_body r)).
  { unfold filled, preds. simpl. clear. induction (rl_body r) as [|f l IH]; auto. simpl. now rewrite fill_preds, IH. }
  assert (Edb : forall p, db_of tables w' p = db_of tables w p).
  { intros p. unfold db_of, w'. now rewrite Hf. }
  assert (HR : forall p, has_relation tables (rules ++ [r]) w p -> has_relation tables (rules ++ [filled b r]) w' p).
  { intros p [Hp|(fr & Hfr & <-)]; [left; unfold w'; now rewrite Hf|]. right.
    apply in_app_iff in Hfr as [Hfr|[<-|[]]].
    - exists fr. split; auto. apply in_app_iff. auto.
    - exists (filled b r). split; [apply in_app_iff; simpl; auto|reflexivity]. }
  destruct (C44_sorted_programs_are_answered W L tables arity (rules ++ [filled b r]) w' rank sig env' q c)
    as (ext & E1 & E2 & E3); auto.
  - now apply taught_good.
  - intros r' Hr' p Hp. apply in_app_iff in Hr' as [Hr'|[<-|[]]].
    + apply (Hrank r'); auto. apply in_app_iff. auto.
    + rewrite Hpr in Hp. apply (Hrank r); auto. apply in_app_iff. simpl. auto.
  - destruct Hk as [K1 K2]. split; [auto|]. intros r' p Hr' Hp. apply HR.
    apply in_app_iff in Hr' as [Hr'|[<-|[]]].
    + apply (K2 r'); auto. apply in_app_iff. auto.
    + rewrite Hpr in Hp. apply (K2 r); auto. apply in_app_iff. simpl. auto.
  - intros p t Ht. rewrite Edb in Ht. auto.
  - intros r' Hr'. apply in_app_iff in Hr' as [Hr'|[<-|[]]]; auto. exists env. split.
    + apply (fill_sorted b Hb sig env Hse (FAtom (rl_head r)) Hsh).
    + now apply fill_all_sorted.
  - exists w', ext. split; [eapply teach_run; eauto|].
    assert (Ec : forall e, completed (db_of tables w') (rules ++ [filled b r]) e <->
      completed_with (db_of tables w) rules b r e).
    { intros e. rewrite (filled_completed arity); auto.
      split; apply completed_same; intros p; [|symmetry]; apply Edb. }
    split; [now apply Ec|]. split; auto. intros e He. apply E2. now apply Ec.
Qed.
Print Assumptions C45_queries_after_learning_are_answered.

(** *** examples *)

(** Ann's heirs are her children who have no children: learned while X is
    bound to Ann, so that it says nothing about others *)
Definition heir_rule : folrule :=
  mkFolRule (mkAtom "heir" [V "X"; V "Y"])
    [ FAtom (mkAtom "parent" [V "X"; V "Y"]); FNot true [FAtom (mkAtom "parent" [V "Y"; V "Z"])] ].
Definition ann : binding := [("X", S_ "ann")].

Definition heir_rank (p : string) : nat := if String.eqb p "heir" then 1 else clan_rank p.
Definition heir_sig (p : string) : list sort := if String.eqb p "heir" then [Text; Text] else clan_sig p.
Definition heir_env (x : string) : sort := Text.
Definition heir_query : list fol := [FAtom (mkAtom "heir" [V "P"; V "Q"])].

Lemma ex_lens_ok : lens_ok ex_lens.
Proof. split; [reflexivity|intros [a c]; reflexivity|reflexivity]. Qed.

Example C45_hypotheses :
  lens_ok ex_lens /\ (forall rb p, ex_tables (lset ex_lens rb clan) p = ex_tables clan p) /\
  good_program ex_lens ex_tables ex_arity clan_rules clan /\ const_binding ann /\
  learnable ex_arity ann heir_rule /\
  hierarchical heir_rank (clan_rules ++ [heir_rule]) /\
  all_known ex_tables (clan_rules ++ [heir_rule]) clan heir_query /\
  (forall p t, In t (db_of ex_tables clan p) -> Forall2 of_sort (heir_sig p) t) /\
  (forall r', In r' clan_rules -> sorted_rule heir_sig r') /\
  sorted heir_sig heir_env (FAtom (rl_head heir_rule)) /\ all_sorted heir_sig heir_env (rl_body heir_rule) /\
  (forall x v, bget x ann = Some v -> of_sort (heir_env x) v) /\
  wfs (flat_atom ex_arity) [] [] heir_query /\ all_sorted heir_sig heir_env heir_query.
Proof.
  split; [exact ex_lens_ok|]. split; [reflexivity|]. split; [exact clan_good|].
  split.
  { intros x v H. unfold ann in H. simpl in H. destruct (String.eqb x "X"); [injection H as <-|discriminate]. reflexivity. }
  split; [split; [reflexivity|split; [form|split; [simpl; form|form]]]|]. split.
  { intros r Hr p Hp. simpl in Hr.
    repeat (destruct Hr as [<-|Hr]; [simpl in Hp; repeat (destruct Hp as [<-|Hp]; [vm_compute; lia|]); destruct Hp|]). destruct Hr. }
  split.
  { split.
    - intros p Hp. simpl in Hp. destruct Hp as [<-|[]]. right. exists heir_rule. split; [simpl; auto 6|reflexivity].
    - intros r p Hr Hp. simpl in Hr.
      repeat (destruct Hr as [<-|Hr];
        [simpl in Hp; repeat (destruct Hp as [<-|Hp];
          [first [left; discriminate
                 | right; exists (nth 0 clan_rules heir_rule); split; [simpl; tauto|reflexivity]
                 | right; exists (nth 1 clan_rules heir_rule); split; [simpl; tauto|reflexivity]
                 | right; exists (nth 2 clan_rules heir_rule); split; [simpl; tauto|reflexivity]]|]); destruct Hp|]).
      destruct Hr. }
  split.
  { intros p t Ht. unfold db_of, ex_tables, clan in Ht. simpl in Ht. unfold heir_sig, clan_sig.
    destruct (String.eqb p "parent") eqn:E; [apply String.eqb_eq in E; subst p; simpl in Ht;
      repeat (destruct Ht as [<-|Ht]; [repeat constructor|]); destruct Ht|].
    destruct (String.eqb p "age") eqn:E2; [|destruct Ht]. apply String.eqb_eq in E2; subst p. simpl in Ht.
    repeat (destruct Ht as [<-|Ht]; [repeat constructor|]). destruct Ht. }
  split; [intros r [<-|[<-|[<-|[]]]]; exists clan_env; sorts|].
  split; [sorts|]. split; [sorts|]. split.
  { intros x v H. unfold ann in H. simpl in H. destruct (String.eqb x "X"); [injection H as <-|discriminate]. exact I. }
  split; [simpl; form|sorts].
Qed.

Example C45_example :
  let out := solve (model ex_lens ex_tables) 1 (teach heir_rule) ann clan in
  answers out = Some [ann] /\
  answers (solve (model ex_lens ex_tables) 12 (query_of heir_query) [] (snd out))
    = Some [[("P", S_ "ann"); ("Q", S_ "dot")]] /\
  (* the same rule learned without a value for X *)
  answers (solve (model ex_lens ex_tables) 12 (query_of heir_query) []
             (snd (solve (model ex_lens ex_tables) 1 (teach heir_rule) [] clan)))
    = Some [[("P", S_ "bob"); ("Q", S_ "cid")]; [("P", S_ "ann"); ("Q", S_ "dot")]] /\
  solve (model ex_lens ex_tables) 1 (VList [learn_atom (A "two words" []) (VList [])]) [] clan
    = (Exn (Raise "Predicate is not a word"), clan).
Proof. vm_compute. auto. Qed.

(** a rule for [learn_rule] itself takes the place of the built-in predicate:
    after it, learning seems to succeed but nothing is learned any more *)
Definition spoiler : value := VList [learn_atom (A "learn_rule" [V "A"; V "B"]) (VList [])].

Theorem C45_learning_can_be_replaced_refuted :
  forall (W : Type) (L : lens W rulebase) tables arity rules (w : W),
    lens_ok L -> (forall rb p, tables (lset L rb w) p = tables w p) -> good_program L tables arity rules w ->
    exists w', solve (model L tables) 1 spoiler [] w = (Ok (SList [[]]), w') /\
      forall head body n, (forall x, head <> VVar x) -> (forall x, body <> VVar x) ->
        solve (model L tables) (S n) (VList [learn_atom head body]) [] w' = (Ok (SList [[]]), w').
Proof.
  intros W L tables arity rules w HL Hf (Ht & Hn & Hr & Hg).
  assert (Htl : tables w "learn_rule" = None).
  { destruct (tables w "learn_rule") eqn:E; auto. destruct (Hn "learn_rule") as (_ & _ & F); congruence. }
  assert (HLe : learns L (model L tables) w).
  { unfold learns, find_relations, model. cbn [find_relations_in].
    assert (C : core_module w "learn_rule" = None) by reflexivity. rewrite C.
    unfold inference_module. rewrite Hr, stored_rules_none.
    - cbn. unfold table_module. now rewrite Htl.
    - intros fr Hfr. destruct (Hg fr Hfr) as ((( _ & _ & F) & _) & _). exact F. }
  eexists. split.
  { apply (C45_learning_adds_the_rule W L (model L tables) w 0 "learn_rule" [V "A"; V "B"] [] [V "A"; V "B"] [] []); auto;
      repeat (constructor; [now apply sub_unbound|]); constructor. }
  intros head body n Hh Hbd. set (r := mkRule _ _).
  set (w' := lset L _ w).
  assert (Hrl : rules_get "learn_rule" (lget L w') = Some [r]).
  { unfold w'. rewrite lens_get_set by exact HL. rewrite rules_add_get. cbn [String.eqb Ascii.eqb Bool.eqb].
    rewrite Hr, stored_rules_none; [reflexivity|].
    intros fr Hfr. destruct (Hg fr Hfr) as ((( _ & _ & F) & _) & _). exact F. }
  unfold solve, learn_atom. cbn [solver_at sv_solve solve_F solve_atoms].
  unfold solve_single. cbn. unfold solve_relation, find_relation_values, Effects.bind, get.
  assert (Hfr : find_relations (model L tables) w' "learn_rule" = [mkRel "learn_rule" [] (handle_rule L) None]).
  { unfold find_relations, model. cbn [find_relations_in].
    assert (C : core_module w' "learn_rule" = None) by reflexivity. rewrite C.
    unfold inference_module. rewrite Hrl. unfold table_module, w'. now rewrite Hf, Htl. }
  rewrite Hfr. cbn [length Nat.ltb Nat.leb collect_rows r_query r_pred r_cols].
  unfold handle_rule, Effects.bind, get. cbn [c_pred c_args c_binding]. rewrite Hrl.
  assert (Hb1 : bind_head [] [V "A"; V "B"] [head; body] [] = Some [("A", head); ("B", body)]).
  { destruct head; try (exfalso; now eapply Hh); (destruct body; try (exfalso; now eapply Hbd)); reflexivity. }
  assert (Hr1 : head_row [("A", head); ("B", body)] [V "A"; V "B"] [head; body] = Some [head; body]).
  { destruct head; try (exfalso; now eapply Hh); (destruct body; try (exfalso; now eapply Hbd)); reflexivity. }
  assert (Hs1 : solve_rule (solver_at (model L tables) n) r [head; body] [] w' = (Ok [[head; body]], w')).
  { unfold solve_rule, Effects.bind, ret. cbn [ru_head r tl filter]. rewrite Hb1.
    cbn [ru_body or_throw elements head_rows]. cbn -[head_row]. rewrite Hr1. reflexivity. }
  cbn [foldM]. unfold Effects.bind. rewrite Hs1. cbn -[create_results py_eq].
  assert (Hc : create_results [VList [head; body]] [] [head; body] w' = (Ok [[]], w')).
  { unfold create_results. cbn [foldM]. unfold Effects.bind.
    assert (Hm : match_args (VList [head; body]) [] 0 [head; body] [] false w' = (Ok ([], false), w')).
    { destruct head; try (exfalso; now eapply Hh); (destruct body; try (exfalso; now eapply Hbd));
        cbn -[py_eq]; unfold Effects.bind, ret; cbn -[py_eq]; rewrite ?py_eq_refl; cbn -[py_eq]; rewrite ?py_eq_refl; reflexivity. }
    rewrite Hm. reflexivity. }
  rewrite Hc. reflexivity.
Qed.
Print Assumptions C45_learning_can_be_replaced_refuted.
