(** * Property C100: recursive rules *)

From Coq Require Import ZArith String List Bool Lia Arith.
From Verif Require Import Py PyFacts Effects Solver SolverSpec CoreModule InferenceModule TableModule
  DatalogSpec RecursionSpec DatalogProofs DatalogProofs2 DatalogThms DatalogProofs3 DatalogProofs4
  ExampleWorld PropDatalog.
Import ListNotations.
Local Open Scope string_scope.
Local Open Scope list_scope.

(** whatever the rules are: if each call that is made leads to calls of a lower
    level, then the query is answered, and with the answers of the least model *)
Theorem C100_descending_calls_are_answered :
  forall (W : Type) (L : lens W rulebase) tables arity rules (w : W) (made : string -> call -> Prop) level n q b,
    good_tables tables arity w -> lget L w = rulebase_of rules ->
    (forall r, In r rules -> flat_rule arity r /\ range_restricted r) ->
    (forall r a, In r rules -> In a (fr_body r) -> known tables rules w (fa_pred a)) ->
    (forall p c p' c', made p c -> leads_to (db_of tables w) rules p c p' c' ->
       made p' c' /\ level p' c' < level p c) ->
    flat_atoms arity q -> const_binding b ->
    (forall a, In a q -> known tables rules w (fa_pred a)) ->
    (forall p c, begins (db_of tables w) rules q b p c -> made p c /\ level p c <= n) ->
    exists l, solve (model L tables) (S n) (atoms_of q) b w = (Ok (SList l), w) /\
      no_duplicates l /\
      (forall r, In r l -> is_answer (db_of tables w) rules q b r) /\
      (forall s, const_assignment s -> agrees s b -> satisfies (db_of tables w) rules s q ->
         exists r, In r l /\ answer_of s b q r).
Proof.
  intros W L tables arity rules w made level n q b Ht Hr Hfr Hk Hlev Hf Hb Hkq Hq.
  assert (Hfl : forall r, In r rules -> flat_rule arity r) by (intros r Hin; now apply Hfr).
  destruct (descending_ends L tables arity rules w Ht Hr Hfl made level Hlev Hk n q b Hf Hb Hq Hkq) as (l & Hl).
  exists l. split; [exact Hl|].
  destruct (C13_inference_is_sound W L tables arity rules w _ q b _ _ Ht Hr Hfl Hf Hb Hl) as (_ & l' & [= <-] & Hn & Hs).
  split; auto. split; auto. eapply (C14_inference_is_complete W L tables arity rules w); eauto.
Qed.
Print Assumptions C100_descending_calls_are_answered.

(** and a query that makes a call that leads to another one without end is never
    answered, however large the stack is *)
Theorem C100_endless_calls_never_answer :
  forall (W : Type) (L : lens W rulebase) tables arity rules (w : W) (endless : string -> call -> Prop) q b p c,
    good_tables tables arity w -> lget L w = rulebase_of rules ->
    (forall r, In r rules -> flat_rule arity r /\ range_restricted r) ->
    (forall p c, endless p c -> exists p' c', leads_to (db_of tables w) rules p c p' c' /\ endless p' c') ->
    flat_atoms arity q -> const_binding b ->
    begins (db_of tables w) rules q b p c -> endless p c ->
    forall n res w', solve (model L tables) n (atoms_of q) b w <> (Ok res, w').
Proof.
  intros W L tables arity rules w endless q b p c Ht Hr Hfr He Hf Hb Hq Hp.
  exact (endless_never_ends L tables arity rules w Ht Hr (fun r H => proj1 (Hfr r H)) (fun r H => proj2 (Hfr r H)) endless He q b p c Hf Hb Hq Hp).
Qed.
Print Assumptions C100_endless_calls_never_answer.

(** the two rules of a transitive relation over a table of pairs *)
Record transitive_model {W} (L : lens W rulebase) tables (arity : string -> nat) (w : W)
    (edge path X Y Z : string) (rows : list (list value)) : Prop := {
  tm_vars : X <> Y /\ X <> Z /\ Y <> Z;
  tm_names : edge <> path /\ user_pred edge /\ user_pred path;
  tm_arity : arity edge = 2 /\ arity path = 2;
  tm_tables : good_tables tables arity w;
  tm_rules : lget L w = rulebase_of (transitive edge path X Y Z);
  tm_edge : tables w edge = Some rows;
  tm_path : tables w path = None
}.

(** if no circle can be reached from where the question begins, the answers are
    just the pairs that a chain of rows connects; whatever arguments are known *)
Theorem C100_transitive_rules_answer_the_chains :
  forall (W : Type) (L : lens W rulebase) tables arity (w : W) edge path X Y Z rows,
    transitive_model L tables arity w edge path X Y Z rows ->
    forall t1 t2 b n, flat_arg t1 -> flat_arg t2 -> const_binding b ->
    ~ starts_circular rows (start b t1) ->
    let q := [mkAtom path [t1; t2]] in
    exists l, solve (model L tables) (n + (4 + length rows)) (atoms_of q) b w = (Ok (SList l), w) /\
      no_duplicates l /\
      (forall r, In r l -> exists s, const_assignment s /\ agrees s b /\ chain rows (inst s t1) (inst s t2) /\ answer_of s b q r) /\
      (forall s, const_assignment s -> agrees s b -> chain rows (inst s t1) (inst s t2) -> exists r, In r l /\ answer_of s b q r).
Proof.
  intros W L tables arity w edge path X Y Z rows [(V1 & V2 & V3) (N1 & N2 & N3) (A1 & A2) Ht Hr He Hp] t1 t2 b n H1 H2 Hb Hno q.
  pose proof (flat_transitive edge path X Y Z arity N2 N3 A1 A2) as Hfr.
  assert (Hfl : forall r, In r (transitive edge path X Y Z) -> flat_rule arity r) by (intros r Hin; now apply Hfr).
  assert (Hf : flat_atoms arity q).
  { intros a [<-|[]]. split; [exact N3|]. split; [cbn; now rewrite A2|]. intros v [<-|[<-|[]]]; assumption. }
  destruct (transitive_ends edge path X Y Z L tables arity w rows) with (t1 := t1) (t2 := t2) (b := b) (n := n) as (l & Hl); auto.
  exists l. split; [exact Hl|].
  destruct (C13_inference_is_sound W L tables arity _ w _ q b _ _ Ht Hr Hfl Hf Hb Hl) as (_ & l' & [= <-] & Hn & Hs).
  split; [exact Hn|]. split.
  - intros r Hin. destruct (Hs r Hin) as (s & S1 & S2 & S3 & S4). exists s. split; [exact S1|]. split; [exact S2|]. split; [|exact S4].
    apply (path_chains edge path X Y Z tables arity w rows V1 V2 V3 Ht He Hp). exact (S3 _ (or_introl eq_refl)).
  - intros s S1 S2 S3. eapply (C14_inference_is_complete W L tables arity _ w _ q b l w Ht Hr Hfr Hf Hb Hl s S1 S2).
    intros a [<-|[]]. apply (path_chains edge path X Y Z tables arity w rows V1 V2 V3 Ht He Hp). exact S3.
Qed.
Print Assumptions C100_transitive_rules_answer_the_chains.

(** if a circle can be reached, there is no answer at all, even if one row would do *)
Theorem C100_circles_never_answer :
  forall (W : Type) (L : lens W rulebase) tables arity (w : W) edge path X Y Z rows,
    transitive_model L tables arity w edge path X Y Z rows ->
    forall t1 t2 b, flat_arg t1 -> flat_arg t2 -> const_binding b ->
    starts_circular rows (start b t1) ->
    forall n res w', solve (model L tables) n (atoms_of [mkAtom path [t1; t2]]) b w <> (Ok res, w').
Proof.
  intros W L tables arity w edge path X Y Z rows [(V1 & V2 & V3) (N1 & N2 & N3) (A1 & A2) Ht Hr He Hp] t1 t2 b H1 H2 Hb Hst.
  eapply (transitive_endless edge path X Y Z L tables arity w rows); eauto.
Qed.
Print Assumptions C100_circles_never_answer.

(** a table with a circle: x -> y -> x, and a -> b -> c beside it *)
Definition road_world : ex_world :=
  (rulebase_of (transitive "road" "route" "X" "Y" "Z"),
   [("road", [[S_ "a"; S_ "b"]; [S_ "b"; S_ "c"]; [S_ "x"; S_ "y"]; [S_ "y"; S_ "x"]; [S_ "w"; S_ "x"]])]).
Definition road_rows := [[S_ "a"; S_ "b"]; [S_ "b"; S_ "c"]; [S_ "x"; S_ "y"]; [S_ "y"; S_ "x"]; [S_ "w"; S_ "x"]].

Lemma road_model : transitive_model ex_lens ex_tables ex_arity road_world "road" "route" "X" "Y" "Z" road_rows.
Proof.
  constructor.
  - repeat split; discriminate.
  - split; [discriminate|]. split; (split; [reflexivity|split; discriminate]).
  - split; reflexivity.
  - intros p rows H t Ht. unfold ex_tables, road_world in H. simpl in H.
    destruct (String.eqb p "road"); [injection H as <-|discriminate]; simpl in Ht;
      repeat (destruct Ht as [<-|Ht]; [split; reflexivity|]); destruct Ht.
  - reflexivity.
  - reflexivity.
  - reflexivity.
Qed.

Lemma road_row x y : In [x; y] road_rows -> In (x, y) [(S_ "a", S_ "b"); (S_ "b", S_ "c"); (S_ "x", S_ "y"); (S_ "y", S_ "x"); (S_ "w", S_ "x")].
Proof. intros H. simpl in H. repeat (destruct H as [[= <- <-]|H]; [simpl; tauto|]). destruct H. Qed.

Example C100_example :
  ~ starts_circular road_rows (Some (S_ "a")) /\
  answers (solve (model ex_lens ex_tables) 9 (atoms_of [mkAtom "route" [S_ "a"; V "T"]]) [] road_world)
    = Some [[("T", S_ "b")]; [("T", S_ "c")]] /\
  starts_circular road_rows (Some (S_ "w")) /\ In [S_ "w"; S_ "x"] road_rows /\
  fst (solve (model ex_lens ex_tables) 40 (atoms_of [mkAtom "route" [S_ "w"; S_ "x"]]) [] road_world) = OutOfFuel.
Proof.
  assert (Hcl : forall x y, chain road_rows x y ->
    (x = S_ "a" -> y = S_ "b" \/ y = S_ "c") /\ (x = S_ "b" -> y = S_ "c") /\ (x = S_ "c" -> False)).
  { intros x y H. induction H as [x y H|x z y H _ IH]; apply road_row in H; simpl in H.
    - repeat (destruct H as [[= <- <-]|H]; [repeat split; intros E; try discriminate E; auto|]). destruct H.
    - repeat (destruct H as [[= <- <-]|H]; [repeat split; intros E; try discriminate E; destruct IH as (I1 & I2 & I3); auto|]).
      + destruct (I3 eq_refl).
      + destruct H. }
  split; [|split; [vm_compute; reflexivity|split; [|split; [simpl; tauto|vm_compute; reflexivity]]]].
  - intros (z & Hz & Hc). assert (H : z = S_ "a" \/ z = S_ "b" \/ z = S_ "c").
    { destruct Hz as [<-|Hz]; [now left|]. apply Hcl in Hz as (Hz & _). right. now apply Hz. }
    destruct (Hcl z z Hc) as (H1 & H2 & H3). destruct H as [-> | [-> | ->]].
    + destruct (H1 eq_refl); discriminate.
    + specialize (H2 eq_refl). discriminate.
    + destruct (H3 eq_refl).
  - exists (S_ "x"). split.
    + right. apply one_row. simpl. tauto.
    + apply more_rows with (S_ "y"); [simpl; tauto|]. apply one_row. simpl. tauto.
Qed.
