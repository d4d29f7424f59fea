(** * Properties C10, C11, C13-C15, C29: tables and rules *)

From Coq Require Import ZArith String List Bool Lia Arith Permutation.
From Verif Require Import Py PyFacts ReprProofs Effects EffectsFacts Solver SolverSpec
  SolverProofs SolverProofs2 MatchProofs CoreModule InferenceModule TableModule
  DatalogSpec DatalogProofs DatalogProofs2 DatalogThms ExampleWorld.
Import ListNotations.
Local Open Scope string_scope.
Local Open Scope list_scope.

(** the core predicates, an inference module and a module with tables *)
Definition model {W} (L : lens W rulebase) (tables : W -> string -> option (list (list value)))
  : list (modul W) := [core_module; inference_module L; table_module tables].

(** the list of atoms that is handed to the solver *)
Definition atoms_of (q : list fatom) : value := VList (map atom_value q).

(** [r] holds exactly the values of [s] for the variables of [b] and of the
    query *)
Definition is_answer db rules (q : list fatom) (b r : binding) : Prop :=
  exists s, const_assignment s /\ agrees s b /\ satisfies db rules s q /\ answer_of s b q r.

(** ** C10 *)

(** has a table *)
Definition has_table {W} (tables : W -> string -> option (list (list value))) w (a : fatom) : Prop :=
  tables w (fa_pred a) <> None.

Theorem C10_table_queries_exact :
  forall (W : Type) (L : lens W rulebase) tables arity (w : W) n q b,
    good_tables tables arity w -> lget L w = [] ->
    flat_atoms arity q -> (forall a, In a q -> has_table tables w a) -> const_binding b ->
    exists l, solve (model L tables) (S n) (atoms_of q) b w = (Ok (SList l), w) /\
      no_duplicates l /\
      (forall r, In r l -> is_answer (db_of tables w) [] q b r) /\
      (forall s, const_assignment s -> agrees s b -> satisfies (db_of tables w) [] s q ->
         exists r, In r l /\ answer_of s b q r).
Proof.
  intros W L tables arity w n q b Ht Hr Hf Hk Hb.
  assert (Hfr : forall r : frule, In r [] -> flat_rule arity r) by (intros r []).
  destruct (datalog_terminates L tables arity [] w Ht Hr Hfr (fun _ => 0) n q b) as (l & Hl); auto.
  { intros r []. }
  { intros a Ha. split; [lia|]. left. now apply Hk. }
  exists l. split; [exact Hl|].
  destruct (datalog_sound L tables arity [] w Ht Hr Hfr _ _ _ _ _ Hf Hb Hl) as (_ & l' & [= <-] & Hn & Hs).
  split; auto. split.
  - intros r Hin. destruct (Hs r Hin) as (s & ? & ? & ? & ?). exists s. auto.
  - eapply (datalog_complete L tables arity [] w Ht Hr Hfr); eauto. intros r [].
Qed.
Print Assumptions C10_table_queries_exact.

Definition facts_only : ex_world := ([], snd family).

Definition ex_arity (p : string) : nat := 2.
Lemma ex_good_tables : good_tables ex_tables ex_arity family.
Proof.
  intros p rows H t Ht. unfold ex_tables, family in H. simpl in H.
  destruct (String.eqb p "parent"); [injection H as <-|destruct (String.eqb p "age"); [injection H as <-|discriminate]];
  simpl in Ht; repeat (destruct Ht as [<-|Ht]; [split; reflexivity|]); destruct Ht.
Qed.

Ltac flat_args := let v := fresh "v" in let H := fresh "H" in intros v H; simpl in H;
  repeat (destruct H as [<-|H]; [first [left; eexists; reflexivity | right; reflexivity]|]); destruct H.
Ltac flat := split; [split; [reflexivity|split; discriminate]|split; [reflexivity|flat_args]].

Definition q_ages : list fatom := [mkAtom "parent" [V "X"; V "Y"]; mkAtom "age" [V "X"; V "N"]].
Example C10_example :
  good_tables ex_tables ex_arity facts_only /\ lget ex_lens facts_only = [] /\
  flat_atoms ex_arity q_ages /\ (forall a, In a q_ages -> has_table ex_tables facts_only a) /\
  const_binding [("Y", S_ "cid")] /\
  answers (solve (model ex_lens ex_tables) 1 (atoms_of q_ages) [("Y", S_ "cid")] facts_only)
    = Some [[("Y", S_ "cid"); ("X", S_ "bob"); ("N", VInt 45)]].
Proof.
  split; [exact ex_good_tables|]. split; [reflexivity|].
  split; [intros a [<-|[<-|[]]]; flat|].
  split; [intros a [<-|[<-|[]]]; discriminate|]. split.
  - intros x v H. simpl in H. destruct (String.eqb x "Y"); [injection H as <-; reflexivity|discriminate].
  - vm_compute. reflexivity.
Qed.

(** ** C11 *)

Theorem C11_atom_order_does_not_matter :
  forall (W : Type) (L : lens W rulebase) tables arity (w : W) n m q q' b,
    good_tables tables arity w -> lget L w = [] ->
    flat_atoms arity q -> (forall a, In a q -> has_table tables w a) -> const_binding b ->
    Permutation q q' ->
    exists l l', solve (model L tables) (S n) (atoms_of q) b w = (Ok (SList l), w) /\
      solve (model L tables) (S m) (atoms_of q') b w = (Ok (SList l'), w) /\
      (forall r, In r l -> exists r', In r' l' /\ forall x, bget x r' = bget x r) /\
      (forall r, In r l' -> exists r', In r' l /\ forall x, bget x r' = bget x r).
Proof.
  intros W L tables arity w n m q q' b Ht Hr Hf Hk Hb Hp.
  assert (Hin : forall a, In a q <-> In a q')
    by (intros a; split; apply Permutation_in; [|symmetry]; auto).
  assert (Hv : forall x, fvars x q <-> fvars x q').
  { intros x; split; intros (a & Ha & Hx); exists a; (split; [apply Hin|]); auto. }
  assert (Hf' : flat_atoms arity q') by (intros a Ha; apply Hf, Hin; auto).
  assert (Hk' : forall a, In a q' -> has_table tables w a) by (intros a Ha; apply Hk, Hin; auto).
  destruct (C10_table_queries_exact W L tables arity w n q b) as (l & Hl & _ & S1 & C1); auto.
  destruct (C10_table_queries_exact W L tables arity w m q' b) as (l' & Hl' & _ & S2 & C2); auto.
  exists l, l'. split; auto. split; auto.
  assert (Ha : forall (s : assignment) r r', answer_of s b q r -> answer_of s b q' r' -> forall x, bget x r' = bget x r).
  { intros s r r' H H' x. destruct (H x) as [H1 H2], (H' x) as [H3 H4].
    destruct (bget x b) eqn:E.
    - rewrite H1, H3; auto; left; discriminate.
    - destruct (in_var_dec x (flat_map fa_args q)) as [Hx|Hx].
      + assert (fvars x q) by (apply in_flat_map in Hx as (a & ? & ?); exists a; auto).
        rewrite H1, H3; auto. right. now apply Hv.
      + assert (~ fvars x q) by (intros (a & ? & ?); apply Hx; apply in_flat_map; eauto).
        rewrite H2, H4; auto. now rewrite <- Hv. }
  split.
  - intros r Hrl. destruct (S1 r Hrl) as (s & A1 & A2 & A3 & A4).
    destruct (C2 s A1 A2) as (r' & Hr' & A5); [intros a Hia; apply A3, Hin; auto|]. eauto.
  - intros r Hrl. destruct (S2 r Hrl) as (s & A1 & A2 & A3 & A4).
    destruct (C1 s A1 A2) as (r' & Hr' & A5); [intros a Hia; apply A3, Hin; auto|].
    exists r'. split; auto. intros x. symmetry. eapply Ha; eauto.
Qed.
Print Assumptions C11_atom_order_does_not_matter.

Example C11_example :
  Permutation q_ages (rev q_ages) /\
  answers (solve (model ex_lens ex_tables) 1 (atoms_of (rev q_ages)) [("Y", S_ "cid")] facts_only)
    = Some [[("Y", S_ "cid"); ("X", S_ "bob"); ("N", VInt 45)]].
Proof. split; [apply Permutation_rev|vm_compute; reflexivity]. Qed.

(** ** C13 *)

Theorem C13_inference_is_sound :
  forall (W : Type) (L : lens W rulebase) tables arity rules (w : W) n q b res w',
    good_tables tables arity w -> lget L w = rulebase_of rules ->
    (forall r, In r rules -> flat_rule arity r) ->
    flat_atoms arity q -> const_binding b ->
    solve (model L tables) n (atoms_of q) b w = (Ok res, w') ->
    w' = w /\ exists l, res = SList l /\ no_duplicates l /\
      forall r, In r l -> is_answer (db_of tables w) rules q b r.
Proof.
  intros W L tables arity rules w n q b res w' Ht Hr Hfr Hf Hb H.
  destruct (datalog_sound L tables arity rules w Ht Hr Hfr n q b res w' Hf Hb H) as (-> & l & -> & Hn & Hs).
  split; auto. exists l. split; auto. split; auto.
  intros r Hin. destruct (Hs r Hin) as (s & ? & ? & ? & ?). exists s. auto.
Qed.
Print Assumptions C13_inference_is_sound.

(** ** C14 *)

Theorem C14_inference_is_complete :
  forall (W : Type) (L : lens W rulebase) tables arity rules (w : W) n q b l w',
    good_tables tables arity w -> lget L w = rulebase_of rules ->
    (forall r, In r rules -> flat_rule arity r /\ range_restricted r) ->
    flat_atoms arity q -> const_binding b ->
    solve (model L tables) n (atoms_of q) b w = (Ok (SList l), w') ->
    forall s, const_assignment s -> agrees s b -> satisfies (db_of tables w) rules s q ->
      exists r, In r l /\ answer_of s b q r.
Proof.
  intros W L tables arity rules w n q b l w' Ht Hr Hfr Hf Hb H.
  eapply (datalog_complete L tables arity rules w Ht Hr); eauto; intros r Hin; now apply Hfr.
Qed.
Print Assumptions C14_inference_is_complete.

Definition ancestor_rules : list frule :=
  [ mkFRule (mkAtom "ancestor" [V "X"; V "Y"]) [mkAtom "parent" [V "X"; V "Y"]];
    mkFRule (mkAtom "ancestor" [V "X"; V "Z"])
            [mkAtom "parent" [V "X"; V "Y"]; mkAtom "ancestor" [V "Y"; V "Z"]] ].

Lemma ancestor_rules_good : forall r, In r ancestor_rules -> flat_rule ex_arity r /\ range_restricted r.
Proof.
  intros r [<-|[<-|[]]].
  - split; [split; [flat|]|].
    + intros a [<-|[]]; flat.
    + intros x Hx. eexists. split; [now left|]. exact Hx.
  - split; [split; [flat|]|].
    + intros a [<-|[<-|[]]]; flat.
    + intros x [[= <-]|[[= <-]|[]]].
      * eexists. split; [now left|]. now left.
      * eexists. split; [right; now left|]. right. now left.
Qed.

Definition q_ancestor : list fatom := [mkAtom "ancestor" [V "A"; V "B"]].
Example C13_C14_example :
  good_tables ex_tables ex_arity family /\ lget ex_lens family = rulebase_of ancestor_rules /\
  (forall r, In r ancestor_rules -> flat_rule ex_arity r /\ range_restricted r) /\
  flat_atoms ex_arity q_ancestor /\
  answers (solve (model ex_lens ex_tables) 9 (atoms_of q_ancestor) [] family)
  = Some [[("A", S_ "ann"); ("B", S_ "bob")]; [("A", S_ "bob"); ("B", S_ "cid")];
          [("A", S_ "ann"); ("B", S_ "dot")]; [("A", S_ "ann"); ("B", S_ "cid")]].
Proof.
  split; [exact ex_good_tables|]. split; [reflexivity|]. split; [exact ancestor_rules_good|].
  split; [intros a [<-|[]]; flat|]. vm_compute. reflexivity.
Qed.

(** ** C15 *)

Theorem C15_unbound_head_variable_no_solution :
  forall (W : Type) (L : lens W rulebase) tables arity fr (w : W) n args b res w' x,
    good_tables tables arity w -> lget L w = rulebase_of [fr] -> flat_rule arity fr ->
    db_of tables w (fa_pred (fr_head fr)) = [] -> const_binding b ->
    (forall v, In v args -> flat_arg v) -> length args = arity (fa_pred (fr_head fr)) ->
    stays_unbound fr args b x ->
    solve (model L tables) n (atoms_of [mkAtom (fa_pred (fr_head fr)) args]) b w = (Ok res, w') ->
    res = SList [].
Proof.
  intros W L tables arity fr w n args b res w' x Ht Hr Hf Hdb Hb Ha Hl Hx H.
  eapply (unbound_head_no_solution L tables arity [fr] w Ht Hr); eauto.
  intros r [<-|[]]. exact Hf.
Qed.
Print Assumptions C15_unbound_head_variable_no_solution.

(** [r(X, X).] is a fact whose instances are all in the least model, but
    the query r(A, B) has no solution *)
Definition same_rule : frule := mkFRule (mkAtom "r" [V "X"; V "X"]) [].
Definition same_world : ex_world := (rulebase_of [same_rule], []).

Theorem C15_completeness_refuted :
  (exists s, const_assignment s /\ satisfies (db_of ex_tables same_world) [same_rule] s [mkAtom "r" [V "A"; V "B"]]) /\
  answers (solve (model ex_lens ex_tables) 2 (atoms_of [mkAtom "r" [V "A"; V "B"]]) [] same_world) = Some [].
Proof.
  split; [|vm_compute; reflexivity].
  exists (fun _ => VInt 1). split; [intros x; reflexivity|]. intros a [<-|[]].
  apply (d_rule (db_of ex_tables same_world) [same_rule] same_rule (fun _ => VInt 1)).
  - now left.
  - intros x; reflexivity.
  - intros a [].
Qed.
Print Assumptions C15_completeness_refuted.

Example C15_example : stays_unbound same_rule [V "A"; V "B"] [] "X".
Proof.
  split; [now left|]. split; [intros (a & [] & _)|].
  intros [|[|i]] H; simpl in H; try discriminate; [exists "A"|exists "B"|destruct i; discriminate]; auto.
Qed.

(** in a body with a disjunction one solution can leave a head variable
    unbound while another binds it; the other one is dropped as well *)
Definition drop_world : ex_world :=
  ([("r", [mkRule [VStr "r"; V "X"; V "Y"]
             (VList [A "p" [V "X"];
                     A "$disjunction" [VList [VList [A "q" [V "X"; V "Y"]]; VList [A "p" [V "X"]]]]])])],
   [("p", [[VInt 1]; [VInt 2]]); ("q", [[VInt 1; VInt 10]])]).

Theorem C15_one_unbound_solution_drops_all_refuted :
  (** the rule's own query with X = 1 has the answer Y = 10 *)
  answers (solve (model ex_lens ex_tables) 9 (VList [A "r" [VInt 1; V "B"]]) [] drop_world) = Some [[("B", VInt 10)]] /\
  (** but asking for all X gives nothing *)
  answers (solve (model ex_lens ex_tables) 9 (VList [A "r" [V "A"; V "B"]]) [] drop_world) = Some [].
Proof. split; vm_compute; reflexivity. Qed.
Print Assumptions C15_one_unbound_solution_drops_all_refuted.

(** ... and so for any rule and any modules: when one of the solutions of the
    body has no value for a variable of the head, a query that asks for all
    of the head's places has no results *)
Theorem C15_one_unbound_solution_drops_all :
  forall (W : Type) (L : lens W rulebase) before after (w : W) n p hargs a body args sols w1 s x i,
    let mods := before ++ inference_module L :: after in
    (forall m, In m (before ++ after) -> m w p = None) -> p <> "$disjunction" ->
    rules_get p (lget L w) = Some [mkRule (VStr p :: hargs) (VList (a :: body))] ->
    (forall v, In v args -> exists y, v = VVar y) -> i < length args ->
    solve mods n (VList (a :: body)) [] w = (Ok (SList sols), w1) ->
    In s sols -> nth_error hargs i = Some (VVar x) -> bget x s = None ->
    solve mods (S n) (VList [A p args]) [] w = (Ok (SList []), w1).
Proof.
  intros W L before after w n p hargs a body args sols w1 s x i mods Hm Hp Hg Ha Hi Hs Hin Hx Hb.
  apply (unbound_solution_drops_all L mods w n p hargs a body args sols w1 s x i); auto.
  apply find_one; auto. unfold inference_module. now rewrite Hg.
Qed.
Print Assumptions C15_one_unbound_solution_drops_all.

Example C15_drops_all_example :
  solve (model ex_lens ex_tables) 9 (VList [A "r" [V "A"; V "B"]]) [] drop_world = (Ok (SList []), drop_world).
Proof.
  refine (C15_one_unbound_solution_drops_all _ ex_lens [core_module] [table_module ex_tables] drop_world 8 "r" [V "X"; V "Y"] _ _
    [V "A"; V "B"] [[("X", VInt 1); ("Y", VInt 10)]; [("X", VInt 2)]] drop_world [("X", VInt 2)] "Y" 1 _ _ eq_refl _ _ _ _ eq_refl eq_refl).
  - intros m [<- | [<- | []]]; reflexivity.
  - discriminate.
  - intros v [<- | [<- | []]]; eauto.
  - cbn; lia.
  - vm_compute. reflexivity.
  - now right; left.
Qed.

(** ** C29 *)

Theorem C29_hierarchical_rules_terminate_exactly :
  forall (W : Type) (L : lens W rulebase) tables arity rules rank (w : W) n q b,
    good_tables tables arity w -> lget L w = rulebase_of rules ->
    (forall r, In r rules -> flat_rule arity r /\ range_restricted r) ->
    hierarchical tables rules w rank ->
    flat_atoms arity q -> const_binding b ->
    (forall a, In a q -> rank (fa_pred a) <= n /\ known tables rules w (fa_pred a)) ->
    exists l, solve (model L tables) (S n) (atoms_of q) b w = (Ok (SList l), w) /\
      no_duplicates l /\
      (forall r, In r l -> is_answer (db_of tables w) rules q b r) /\
      (forall s, const_assignment s -> agrees s b -> satisfies (db_of tables w) rules s q ->
         exists r, In r l /\ answer_of s b q r).
Proof.
  intros W L tables arity rules rank w n q b Ht Hr Hfr Hh Hf Hb Hk.
  assert (Hfl : forall r, In r rules -> flat_rule arity r) by (intros r Hin; now apply Hfr).
  destruct (datalog_terminates L tables arity rules w Ht Hr Hfl rank n q b Hh Hf Hb Hk) as (l & Hl).
  exists l. split; [exact Hl|].
  destruct (C13_inference_is_sound W L tables arity rules w _ q b _ _ Ht Hr Hfl Hf Hb Hl) as (_ & l' & [= <-] & Hn & Hs).
  split; auto. split; auto.
  eapply (C14_inference_is_complete W L tables arity rules w); eauto.
Qed.
Print Assumptions C29_hierarchical_rules_terminate_exactly.

(** grandparent is defined from parent *)
Definition grand_rules : list frule :=
  [ mkFRule (mkAtom "grandparent" [V "X"; V "Z"])
            [mkAtom "parent" [V "X"; V "Y"]; mkAtom "parent" [V "Y"; V "Z"]] ].
Definition grand_world : ex_world := (rulebase_of grand_rules, snd family).
Example C29_example :
  hierarchical ex_tables grand_rules grand_world (fun p => if String.eqb p "grandparent" then 1 else 0) /\
  answers (solve (model ex_lens ex_tables) 2 (atoms_of [mkAtom "grandparent" [V "A"; V "B"]]) [] grand_world)
  = Some [[("A", S_ "ann"); ("B", S_ "cid")]].
Proof.
  split; [|vm_compute; reflexivity]. intros r [<-|[]] a [<-|[<-|[]]]; simpl; (split; [lia|left; discriminate]).
Qed.

(** a rule whose first body atom asks for its own head again never answers,
    whatever the stack size *)
Theorem C29_left_recursive_rule_never_answers :
  forall (W : Type) (L : lens W rulebase) tables arity rules (w : W) fr a1 rest,
    good_tables tables arity w -> lget L w = rulebase_of rules ->
    (forall r, In r rules -> flat_rule arity r) ->
    In fr rules -> fr_body fr = a1 :: rest -> fa_pred a1 = fa_pred (fr_head fr) ->
    (forall v, In v (fa_args a1) -> exists x, v = VVar x) ->
    forall n args b res w', length args = arity (fa_pred (fr_head fr)) ->
      const_binding b -> all_unbound b args ->
      solve (model L tables) n (atoms_of [mkAtom (fa_pred (fr_head fr)) args]) b w <> (Ok res, w').
Proof.
  intros W L tables arity rules w fr a1 rest Ht Hr Hf.
  exact (left_recursion_diverges L tables arity rules w Ht Hr Hf fr a1 rest).
Qed.
Print Assumptions C29_left_recursive_rule_never_answers.

(** ancestor(X, Z) :- ancestor(X, Y), parent(Y, Z) *)
Definition left_rule : frule :=
  mkFRule (mkAtom "ancestor" [V "X"; V "Z"])
          [mkAtom "ancestor" [V "X"; V "Y"]; mkAtom "parent" [V "Y"; V "Z"]].
Example C29_left_example :
  flat_rule ex_arity left_rule /\
  fst (solve (model ex_lens ex_tables) 30 (atoms_of [mkAtom "ancestor" [V "A"; V "B"]]) []
         (rulebase_of [left_rule], snd family)) = OutOfFuel.
Proof.
  split; [|vm_compute; reflexivity]. split; [flat|]. intros a [<-|[<-|[]]]; flat.
Qed.
