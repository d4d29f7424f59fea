(** * Pipelines: related processors make related pipelines *)

From Coq Require Import ZArith String Ascii List Bool Arith Lia.
From Verif Require Import Py Effects Grammar Earley Composer Solver ResultIterator Pipeline QuestionSystem Logger.
Import ListNotations.
Local Open Scope string_scope.
Local Open Scope list_scope.

Inductive same_outcome {A B} (R : A -> B -> Prop) : outcome A -> outcome B -> Prop :=
| so_ok a b : R a b -> same_outcome R (Ok a) (Ok b)
| so_exn e : same_outcome R (Exn e) (Exn e)
| so_fuel : same_outcome R OutOfFuel OutOfFuel.

Section Related.
  Context {W1 W2 P1 P2 : Type}.
  Variable RW : W1 -> W2 -> Prop.
  Variable RP : P1 -> P2 -> Prop.

  Definition related_request (r1 : request P1) (r2 : request P2) : Prop :=
    rq_text r1 = rq_text r2 /\
    Forall2 (fun a b => fst a = fst b /\ RP (snd a) (snd b)) (rq_current r1) (rq_current r2) /\
    Forall2 (fun a b => fst a = fst b /\ Forall2 RP (snd a) (snd b)) (rq_alternatives r1) (rq_alternatives r2).
  Definition related_result (r1 : presult P1) (r2 : presult P2) : Prop :=
    Forall2 RP (pr_products r1) (pr_products r2) /\ pr_error r1 = pr_error r2 /\ pr_args r1 = pr_args r2.
  Definition related_run {S1 S2 A B} (RS : S1 -> S2 -> Prop) (R : A -> B -> Prop) (m1 : M S1 A) (m2 : M S2 B) : Prop :=
    forall s1 s2, RS s1 s2 -> same_outcome R (fst (m1 s1)) (fst (m2 s2)) /\ RS (snd (m1 s1)) (snd (m2 s2)).
  Definition related_proc (p1 : @processor W1 P1) (p2 : @processor W2 P2) : Prop :=
    p_id p1 = p_id p2 /\
    forall r1 r2, related_request r1 r2 -> related_run RW related_result (p_process p1 r1) (p_process p2 r2).
  Definition related_block (b1 : @block W1 P1) (b2 : @block W2 P2) : Prop :=
    b_kind b1 = b_kind b2 /\ related_proc (b_proc b1) (b_proc b2).
  Definition RS (s1 : W1 * request P1) (s2 : W2 * request P2) : Prop :=
    RW (fst s1) (fst s2) /\ related_request (snd s1) (snd s2).

  Lemma dput_related {A B} (R : A -> B -> Prop) k a b : R a b -> forall d1 d2,
    Forall2 (fun a b => fst a = fst b /\ R (snd a) (snd b)) d1 d2 ->
    Forall2 (fun a b => fst a = fst b /\ R (snd a) (snd b)) (dput k a d1) (dput k b d2).
  Proof.
    intros Hab d1 d2 F. induction F as [|[k1 x1] [k2 x2] d1 d2 (E & Hx) F IH]; cbn in *; [repeat constructor; auto|].
    subst k2. destruct (Nat.eqb k k1); constructor; auto.
  Qed.
  Lemma dget_related {A B} (R : A -> B -> Prop) k : forall d1 d2,
    Forall2 (fun a b => fst a = fst b /\ R (snd a) (snd b)) d1 d2 ->
    match dget k d1, dget k d2 with Some a, Some b => R a b | None, None => True | _, _ => False end.
  Proof.
    intros d1 d2 F. induction F as [|[k1 x1] [k2 x2] d1 d2 (E & Hx) F IH]; cbn in *; [exact Logic.I|].
    subst k2. destruct (Nat.eqb k k1); auto.
  Qed.

  Lemma bind_related {S1 S2 A B A' B'} (Rs : S1 -> S2 -> Prop) (R : A -> B -> Prop) (R' : A' -> B' -> Prop) m1 m2 f1 f2 :
    related_run Rs R m1 m2 -> (forall a b, R a b -> related_run Rs R' (f1 a) (f2 b)) ->
    related_run Rs R' (bind m1 f1) (bind m2 f2).
  Proof.
    intros Hm Hf s1 s2 Hs. unfold bind. destruct (Hm s1 s2 Hs) as (Ho & Hs').
    destruct (m1 s1) as [o1 t1], (m2 s2) as [o2 t2]. cbn in *. destruct Ho as [a b Hab|e|].
    - now apply Hf.
    - split; [constructor|exact Hs'].
    - split; [constructor|exact Hs'].
  Qed.
  Lemma ret_related {S1 S2 A B} (Rs : S1 -> S2 -> Prop) (R : A -> B -> Prop) a b : R a b -> related_run Rs R (ret a) (ret b).
  Proof. intros H s1 s2 Hs. split; [now constructor|exact Hs]. Qed.
  Lemma modify_related f1 f2 : (forall r1 r2, related_request r1 r2 -> related_request (f1 r1) (f2 r2)) ->
    related_run RS eq (modify P1 f1) (modify P2 f2).
  Proof. intros H s1 s2 (Hw & Hr). split; [now constructor|]. split; cbn; auto. Qed.

  Lemma set_current_related k p1 p2 : RP p1 p2 -> forall r1 r2, related_request r1 r2 -> related_request (set_current k p1 r1) (set_current k p2 r2).
  Proof. intros Hp r1 r2 (Ht & Hc & Ha). split; [exact Ht|]. split; [now apply dput_related|exact Ha]. Qed.
  Lemma set_alternatives_related k l1 l2 : Forall2 RP l1 l2 -> forall r1 r2, related_request r1 r2 ->
    related_request (set_alternatives k l1 r1) (set_alternatives k l2 r2).
  Proof. intros Hp r1 r2 (Ht & Hc & Ha). split; [exact Ht|]. split; [exact Hc|]. now apply (dput_related (Forall2 RP)). Qed.
  Lemma get_alternatives_related k r1 r2 : related_request r1 r2 -> Forall2 RP (get_alternatives k r1) (get_alternatives k r2).
  Proof.
    intros (_ & _ & Ha). pose proof (dget_related (Forall2 RP) k _ _ Ha) as H. unfold get_alternatives.
    destruct (dget k (rq_alternatives r1)), (dget k (rq_alternatives r2)); try contradiction; auto.
  Qed.

  Section Loops.
    Variable next1 : M (W1 * request P1) bresult.
    Variable next2 : M (W2 * request P2) bresult.
    Hypothesis Hnext : related_run RS eq next1 next2.

    Lemma find_one_related k : forall l1 l2, Forall2 RP l1 l2 -> forall err, related_run RS eq (find_one P1 next1 k l1 err) (find_one P2 next2 k l2 err).
    Proof.
      intros l1 l2 F. induction F as [|x1 x2 l1 l2 Hx F IH]; intros err; cbn [find_one]; [now apply ret_related|].
      apply (bind_related RS eq); [apply modify_related; now apply set_current_related|]. intros _ _ _.
      apply (bind_related RS eq); [exact Hnext|]. intros r _ <-. destruct (is_success r); [now apply ret_related|apply IH].
    Qed.
    Lemma find_all_related k : forall l1 l2, Forall2 RP l1 l2 -> forall ok err, related_run RS eq (find_all P1 next1 k l1 ok err) (find_all P2 next2 k l2 ok err).
    Proof.
      intros l1 l2 F. induction F as [|x1 x2 l1 l2 Hx F IH]; intros ok err; cbn [find_all]; [now apply ret_related|].
      apply (bind_related RS eq); [apply modify_related; now apply set_current_related|]. intros _ _ _.
      apply (bind_related RS eq); [exact Hnext|]. intros r _ <-. apply IH.
    Qed.
    Lemma try_first_related k l1 l2 : Forall2 RP l1 l2 -> related_run RS eq (try_first P1 next1 k l1) (try_first P2 next2 k l2).
    Proof.
      intros F. destruct F as [|x1 x2 l1 l2 Hx F]; cbn [try_first]; [now apply ret_related|].
      apply (bind_related RS eq); [apply modify_related; now apply set_current_related|]. intros _ _ _.
      apply (bind_related RS eq); [exact Hnext|]. intros r _ <-. now apply ret_related.
    Qed.
    Lemma process_block_related b1 b2 : related_block b1 b2 -> related_run RS eq (process_block P1 next1 b1) (process_block P2 next2 b2).
    Proof.
      intros (Ek & Eid & Hp). unfold process_block. rewrite Eid, Ek.
      apply (bind_related RS related_result).
      - intros [w1 r1] [w2 r2] (Hw & Hr). cbn [fst snd] in *. unfold exec_process. cbn [fst snd].
        destruct (Hp r1 r2 Hr w1 w2 Hw) as (Ho & Hw'). destruct (p_process (b_proc b1) r1 w1), (p_process (b_proc b2) r2 w2). cbn in *. split; [exact Ho|].
        split; auto.
      - intros res1 res2 (Hl & He & Ha). rewrite He, Ha. destruct (String.eqb (pr_error res2) ""); [|now apply ret_related].
        destruct (b_kind b2); (apply (bind_related RS eq); [apply modify_related|intros _ _ _]).
        + now apply set_alternatives_related.
        + now apply find_one_related.
        + intros r1 r2 Hr. apply set_alternatives_related; auto. apply Forall2_app; auto. now apply get_alternatives_related.
        + now apply find_all_related.
        + now apply set_alternatives_related.
        + now apply try_first_related.
    Qed.
  End Loops.

  Lemma process_blocks_related bs1 bs2 : Forall2 related_block bs1 bs2 -> related_run RS eq (process_blocks P1 bs1) (process_blocks P2 bs2).
  Proof.
    intros F. induction F as [|b1 b2 bs1 bs2 Hb F IH]; cbn [process_blocks]; [now apply ret_related|]. now apply process_block_related.
  Qed.

  Context {O1 O2 : Type}.
  Variable RO : O1 -> O2 -> Prop.
  Variable out1 : P1 -> O1.
  Variable out2 : P2 -> O2.
  Hypothesis Hout : forall p1 p2, RP p1 p2 -> RO (out1 p1) (out2 p2).
  Variable store1 : list value -> M W1 unit.
  Variable store2 : list value -> M W2 unit.
  Hypothesis Hstore : forall l, related_run RW eq (store1 l) (store2 l).
  Definition related_output (o1 : option O1) (o2 : option O2) : Prop :=
    match o1, o2 with Some a, Some b => RO a b | None, None => True | _, _ => False end.

  Lemma last_id_related bs1 bs2 : Forall2 related_block bs1 bs2 -> last_id P1 bs1 = last_id P2 bs2.
  Proof.
    intros F. unfold last_id.
    assert (G : Forall2 related_block (rev bs1) (rev bs2)).
    { induction F as [|b1 b2 bs1 bs2 Hb F IH]; cbn; [constructor|]. apply Forall2_app; auto. }
    destruct G as [|b1 b2 ? ? (_ & E & _) _]; [reflexivity|]. now rewrite E.
  Qed.

  Lemma enter_related bs1 bs2 : Forall2 related_block bs1 bs2 ->
    related_run RS related_output (enter P1 O1 out1 store1 bs1) (enter P2 O2 out2 store2 bs2).
  Proof.
    intros F. unfold enter. rewrite (last_id_related _ _ F). destruct (last_id P2 bs2) as [k|].
    2:{ intros s1 s2 Hs. split; [constructor|exact Hs]. }
    apply (bind_related RS eq); [now apply process_blocks_related|]. intros r _ <-. destruct (is_success r).
    - intros [w1 r1] [w2 r2] (Hw & Hr). unfold bind, Effects.get. cbn [fst snd] in *. unfold get_current.
      pose proof (dget_related RP k _ _ (proj1 (proj2 Hr))) as Hd.
      destruct (dget k (rq_current r1)), (dget k (rq_current r2)); try contradiction; (split; [constructor; cbn; auto|split; auto]).
    - apply (bind_related RS eq).
      + intros [w1 r1] [w2 r2] (Hw & Hr). cbn [fst snd] in *. destruct (Hstore (error_atoms r) w1 w2 Hw) as (Ho & Hw').
        destruct (store1 _ w1), (store2 _ w2). cbn in *. split; [exact Ho|]. split; auto.
      + intros _ _ _. now apply ret_related.
  Qed.
End Related.

(** ** a pipeline with a logger *)
Section Logged.
  Context {W P L1 L2 : Type}.
  Variable on1 : nat -> presult P -> L1 -> presult P * L1.
  Variable on2 : nat -> presult P -> L2 -> presult P * L2.
  Variable RL : L1 -> L2 -> Prop.
  Definition RWL (s1 : W * L1) (s2 : W * L2) : Prop := fst s1 = fst s2 /\ RL (snd s1) (snd s2).

  (** two ways of logging *)
  Lemma logged_related p :
    (forall k res l1 l2, RL l1 l2 -> fst (on1 k res l1) = fst (on2 k res l2) /\ RL (snd (on1 k res l1)) (snd (on2 k res l2))) ->
    related_proc RWL eq (logged on1 p) (logged on2 p).
  Proof.
    intros H. split; [reflexivity|]. intros r1 r2 Hr [w1 l1] [w2 l2] (Ew & Hl). cbn [fst snd] in *. subst w2.
    assert (r1 = r2) as ->.
    { destruct r1, r2. destruct Hr as (E1 & E2 & E3). cbn in *. f_equal; auto.
      - induction E2 as [|[] [] ? ? (? & ?) ? IH]; cbn in *; [reflexivity|]. now subst.
      - induction E3 as [|[] [] ? ? (? & F) ? IH]; cbn in *; [reflexivity|]. subst. f_equal. f_equal. clear -F. induction F; [reflexivity|now subst]. }
    cbn. destruct (p_process p r2 w1) as [[res|e|] w]; cbn [fst snd].
    - destruct (H (p_id p) res l1 l2 Hl) as (E & Hl'). destruct (on1 (p_id p) res l1) as [res1 l1'], (on2 (p_id p) res l2) as [res2 l2']. cbn in *. subst.
      split; [|split; auto]. constructor. split; [|auto]. clear. induction (pr_products res2); constructor; auto.
    - split; [constructor|split; auto].
    - split; [constructor|split; auto].
  Qed.
End Logged.
