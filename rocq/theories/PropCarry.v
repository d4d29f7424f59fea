(** * Property C38: answers do not depend on what the query does not mention *)

From Coq Require Import ZArith String List Bool Lia Arith.
From Verif Require Import Py PyFacts ReprProofs Effects EffectsFacts Solver SolverSpec
  SolverProofs SolverProofs2 MatchProofs CoreModule CoreSpec InferenceModule TableModule
  DatalogSpec DatalogProofs DatalogProofs2 FolSpec FolProofs FolProofs2 FolProofs3 FolProofs4 FolProofs5
  ExampleWorld PropDatalog PropFol SimProofs.
Import ListNotations.
Local Open Scope nat_scope.
Local Open Scope string_scope.
Local Open Scope list_scope.

(** the predicates on which the answers to a query depend: those in the query
    and those in the bodies of rules for such predicates *)
Inductive needed (rules : list folrule) (q : list fol) : string -> Prop :=
| nd_query p : In p (preds q) -> needed rules q p
| nd_rule fr p : In fr rules -> needed rules q (fa_pred (rl_head fr)) -> In p (preds (rl_body fr)) -> needed rules q p.

(** the second model has the same rules and tables for the needed predicates;
    for others it may have any (also rules that are not first-order); its
    further modules do not know the needed predicates and those of the core
    module *)
Definition same_for (P : string -> Prop) {W1 W2} (L1 : lens W1 rulebase) (L2 : lens W2 rulebase)
    (tables1 : W1 -> string -> option (list (list value))) (tables2 : W2 -> string -> option (list (list value)))
    (more : list (modul W2)) (w1 : W1) (w2 : W2) : Prop :=
  (forall p, P p -> rules_get p (lget L2 w2) = rules_get p (lget L1 w1)) /\
  (forall p, P p -> tables2 w2 p = tables1 w1 p) /\
  (forall p, In p fol_core -> rules_get p (lget L2 w2) = None /\ tables2 w2 p = None) /\
  (forall m p, In m more -> P p \/ In p fol_core -> m w2 p = None).

Lemma fol_core_not_user p : In p fol_core -> ~ user_pred p /\ p <> "learn_rule".
Proof.
  unfold fol_core. intros H. cbn [In] in H.
  repeat (destruct H as [<-|H]; [split; [intros (F & _); vm_compute in F; discriminate|discriminate]|]). destruct H.
Qed.

Lemma model_serves {W} (L : lens W rulebase) tables arity rules (w : W) (P : string -> Prop) :
  good_program L tables arity rules w -> (forall p, P p -> user_pred p) ->
  serves (model L tables) L tables rules (tables w) P w.
Proof.
  intros (Ht & Hn & Hr & Hg) Hu. split.
  - intros p Hp. destruct (fol_core_not_user p Hp) as (H1 & H2).
    exact (core_only L tables arity rules w Hn Hr Hg p H1 H2).
  - intros p _. now rewrite Hr.
  - reflexivity.
  - intros p Hp. exact (find_fol L tables rules w Hr p (Hu p Hp)).
Qed.

Lemma extended_serves {W1 W2} (L1 : lens W1 rulebase) (L2 : lens W2 rulebase) tables1 tables2 rules more (w1 : W1) (w2 : W2) (P : string -> Prop) :
  lget L1 w1 = stored_rules rules -> same_for P L1 L2 tables1 tables2 more w1 w2 -> (forall p, P p -> user_pred p) ->
  serves (core_module :: inference_module L2 :: table_module tables2 :: more) L2 tables2 rules (tables1 w1) P w2.
Proof.
  intros Hr (S1 & S2 & S3 & S4) Hu. split.
  - intros p Hp. destruct (fol_core_not_user p Hp) as (_ & Hl). destruct (S3 p Hp) as (E1 & E2).
    eexists. split; [reflexivity|]. intros m [<-|[<-|Hm]].
    + unfold inference_module. apply String.eqb_neq in Hl. now rewrite Hl, E1.
    + unfold table_module. now rewrite E2.
    + apply S4; auto.
  - intros p Hp. rewrite S1 by exact Hp. now rewrite Hr.
  - intros p Hp. now apply S2.
  - intros p Hp. destruct (Hu p Hp) as (Hc & _ & Hl). unfold find_relations. cbn [find_relations_in].
    unfold core_module. rewrite (table_get_unit p Hc).
    unfold inference_module, table_module. apply String.eqb_neq in Hl.
    rewrite Hl, (S1 p Hp), (S2 p Hp), Hr.
    assert (E : forall ms : list (modul W2), (forall m, In m ms -> m w2 p = None) -> find_relations_in ms w2 p = []).
    { induction ms as [|m ms IH]; intros H; cbn; auto. rewrite (H m (or_introl eq_refl)). apply IH. intros; apply H; now right. }
    rewrite (E more) by (intros m Hm; apply S4; auto).
    destruct (rules_get p (stored_rules rules)), (tables1 w1 p); reflexivity.
Qed.

(** the answers in the second model, from a binding with further variables
    [J], are those in the first, with [J].  The variables in [J] may well occur
    in rules: rules have their own variables. *)
Theorem C38_answers_depend_on_what_is_mentioned :
  forall (W1 W2 : Type) (L1 : lens W1 rulebase) (L2 : lens W2 rulebase) tables1 tables2 arity rules more (w1 : W1) (w2 : W2)
         n q J b r w',
    good_program L1 tables1 arity rules w1 ->
    same_for (needed rules q) L1 L2 tables1 tables2 more w1 w2 ->
    (forall p, needed rules q p -> user_pred p) ->
    (forall x, In x (vars q) \/ In x (keys b) -> bget x J = None) ->
    solve (model L1 tables1) n (query_of q) b w1 = (Ok r, w') ->
    exists l, r = SList l /\
      solve (core_module :: inference_module L2 :: table_module tables2 :: more) n (query_of q) (J ++ b) w2
      = (Ok (SList (map (app J) l)), w2).
Proof.
  intros W1 W2 L1 L2 tables1 tables2 arity rules more w1 w2 n q J b r w' Hg Hs Hu HJ E.
  pose proof Hg as (_ & _ & Hr & _).
  assert (G : same_answers w1 w2 (needed rules q) (solver_at (model L1 tables1) n)
               (solver_at (core_module :: inference_module L2 :: table_module tables2 :: more) n)).
  { eapply (solver_same_answers w1 w2 _ _ L1 L2 tables1 tables2 rules (tables1 w1)).
    - now apply (model_serves L1 tables1 arity).
    - now apply (extended_serves L1 L2 tables1 tables2 rules more w1).
    - intros fr Hfr Hp p Hin. exact (nd_rule rules q fr p Hfr Hp Hin).
    - exact Hu. }
  destruct (G q J b) with (a := r) (w' := w') as (_ & r' & E' & l & -> & -> & _); auto.
  - intros p Hp. now apply nd_query.
  - intros x Hx. apply HJ. auto.
  - intros x Hx. apply HJ. auto.
  - exists l. auto.
Qed.
Print Assumptions C38_answers_depend_on_what_is_mentioned.

(** so in a larger model, and whatever else has a value, a well-sorted query
    is answered with exactly the assignments for which it is true *)
Theorem C38_queries_in_larger_models :
  forall (W1 W2 : Type) (L1 : lens W1 rulebase) (L2 : lens W2 rulebase) tables1 tables2 arity rules more (w1 : W1) (w2 : W2)
         rank sig env q J b,
    good_program L1 tables1 arity rules w1 -> hierarchical rank rules -> all_known tables1 rules w1 q ->
    (forall p t, In t (db_of tables1 w1 p) -> Forall2 of_sort (sig p) t) ->
    (forall r, In r rules -> sorted_rule sig r) ->
    wfs (flat_atom arity) [] (keys b) q -> const_binding b ->
    all_sorted sig env q -> (forall x v, bget x b = Some v -> of_sort (env x) v) ->
    same_for (needed rules q) L1 L2 tables1 tables2 more w1 w2 ->
    (forall x, In x (vars q) \/ In x (keys b) -> bget x J = None) ->
    exists ext, completed (db_of tables1 w1) rules ext /\
      (forall ext', completed (db_of tables1 w1) rules ext' -> forall p t, ext' p t <-> ext p t) /\
      exists n0, forall n, n0 <= n -> exists l,
        solve (core_module :: inference_module L2 :: table_module tables2 :: more) n (query_of q) (J ++ b) w2
        = (Ok (SList (map (app J) l)), w2) /\ right_answers ext q b l.
Proof.
  intros W1 W2 L1 L2 tables1 tables2 arity rules more w1 w2 rank sig env q J b Hg Hh Hk Hdb Hsr Hw Hb Hsq Hsb Hs HJ.
  destruct (C44_sorted_programs_are_answered W1 L1 tables1 arity rules w1 rank sig env q b) as (ext & He & Hun & n0 & Hn); auto.
  exists ext. split; auto. split; auto. exists n0. intros n Hle. destruct (Hn n Hle) as (l & E & Hr).
  exists l. split; auto.
  destruct (C38_answers_depend_on_what_is_mentioned W1 W2 L1 L2 tables1 tables2 arity rules more w1 w2 n q J b (SList l) w1)
    as (l' & [= <-] & E'); auto.
  pose proof Hg as (_ & Hn1 & _ & Hgr). destruct Hk as (Hk1 & Hk2).
  assert (Hu : forall p, has_relation tables1 rules w1 p -> user_pred p).
  { intros p [H|(fr & Hfr & <-)]; [now apply Hn1|]. now destruct (Hgr fr Hfr) as [(? & _) _]. }
  intros p Hp. apply Hu. destruct Hp as [p Hp|fr p Hfr _ Hp]; [now apply Hk1|now apply (Hk2 fr)].
Qed.
Print Assumptions C38_queries_in_larger_models.

(** *** an example: the model of C44, in a model with further rules (of which
    one is no first-order rule), tables and modules; the bound variables [A],
    [K] and [C] have the names of variables in the rules *)
Definition clan_more : ex_world :=
  (rules_add "hobby" (mkRule [VStr "hobby"; V "X"; V "H"] (VList [VTuple [VStr "no_such_predicate"; V "X"; V "H"]])) (fst clan),
   ("hobby", [[S_ "cid"; S_ "chess"]]) :: snd clan ++ [("weather", [[S_ "rain"]])]).

Lemma clan_core_free p : In p fol_core ->
  rules_get p (lget ex_lens clan_more) = None /\ ex_tables clan_more p = None.
Proof.
  unfold fol_core. cbn [In]. intros H.
  repeat (destruct H as [<-|H]; [split; reflexivity|]). destruct H.
Qed.
Lemma clan_needed p : needed clan_rules clan_query p -> In p ["free"; "eldest"; "parent"; "children"; "age"].
Proof.
  induction 1 as [p Hp|fr p Hfr Hn IH Hp].
  - cbn in Hp. cbn. tauto.
  - destruct Hfr as [<-|[<-|[<-|[]]]]; cbn in Hp; cbn; tauto.
Qed.
Lemma clan_same : same_for (needed clan_rules clan_query) ex_lens ex_lens ex_tables ex_tables
  [fixed_module "today" [VList [S_ "monday"]]] clan clan_more.
Proof.
  split; [|split; [|split]].
  - intros p Hp. apply clan_needed in Hp. cbn [In] in Hp. repeat (destruct Hp as [<-|Hp]; [reflexivity|]). destruct Hp.
  - intros p Hp. apply clan_needed in Hp. cbn [In] in Hp. repeat (destruct Hp as [<-|Hp]; [reflexivity|]). destruct Hp.
  - apply clan_core_free.
  - intros m p [<-|[]] [Hp|Hp]; [apply clan_needed in Hp|unfold fol_core in Hp]; cbn [In] in Hp;
      repeat (destruct Hp as [<-|Hp]; [reflexivity|]); destruct Hp.
Qed.

Example C38_example :
  same_for (needed clan_rules clan_query) ex_lens ex_lens ex_tables ex_tables
    [fixed_module "today" [VList [S_ "monday"]]] clan clan_more /\
  (let J := [("A", S_ "noise"); ("K", VInt 7); ("C", VList [])] in
   (forall x, In x (vars clan_query) \/ In x (keys []) -> bget x J = None) /\
   answers (solve (core_module :: inference_module ex_lens :: table_module ex_tables :: [fixed_module "today" [VList [S_ "monday"]]])
              12 (query_of clan_query) (J ++ []) clan_more)
   = Some [J ++ [("X", S_ "cid"); ("N", VInt 0)]; J ++ [("X", S_ "dot"); ("N", VInt 0)]]).
Proof.
  split; [exact clan_same|]. cbv zeta. split.
  - intros x [H|[]]. cbn in H. repeat (destruct H as [<-|H]; [reflexivity|]). destruct H.
  - vm_compute. reflexivity.
Qed.

(** the condition on the predicates of the core module is needed: a table or
    rule with such a name is not rejected but adds answers, in all queries *)
Theorem C38_core_predicates_are_not_protected_refuted :
  let q := query_of [FCmp true (VInt 1) (VInt 0)] in
  forall n, 1 <= n ->
    solve ex_mods n q [] ([], []) = (Ok (SList []), ([], [])) /\
    solve ex_mods n q [] ([], [("less_than", [[VInt 1; VInt 0]])]) = (Ok (SList [[]]), ([], [("less_than", [[VInt 1; VInt 0]])])).
Proof. intros q n Hn. destruct n as [|n]; [lia|]. split; reflexivity. Qed.
Print Assumptions C38_core_predicates_are_not_protected_refuted.
